(* C68: a concrete history, and what is false of setting types. *)
From Verif Require Import Base Bits Big_model Big_spec Big_inv Big_set Big_lookup Big_create Big_hist Big_props Big_field Map_state Map_ex Insert_model Insert_proof Heap_model Heap_spec Heap_proof Heap_calls Heap_props Heap_refute Retype_model Retype_spec Retype_proof Retype_props.

Module TyEx.
Definition site1 : Z := 93824992235520.
Definition site2 : Z := 93824992235600.
Definition u1 : Z := 140737351975936.
Definition u2 : Z := 140737351976064.
Definition u3 : Z := 140737351976192.
Definition TT : sites := mkSites (fun c => if c =? site1 then u1 else if c =? site2 then u2 else 0) (fun _ => 12).
Definition SL (n : nat) : slot := if Nat.eqb n 13 then Aborting else NoSetter.
Definition OT (n : nat) (x : Z) : Z := u3.
Notation rreach d := (rreach NB BIG d al (-1) (-1) A TT SL OT).
Notation rq d := (r_query NB d A TT).
Notation rset d := (r_set NB d A TT SL OT).
Notation radd d := (add_type NB d A TT SL OT).

Definition R0 d : rst := mkR (H0 d) (fun _ => 170) [].
Definition ral d s c site := r_alloc NB BIG d A s (c_base c) (c_req c) (c_usable c) site.
Definition nxt (s : rst) (r : res rst) : rst := got s r.
Lemma r0' d Y : rreach d (R0 d) [] [] Y.
Proof. apply rr_start; [apply h0|intro x; lia]. Qed.
Lemma r_al d s C D Y c site : rreach d s C D Y -> chk_alloc (h_fo (r_h s)) C D c 2 = true -> 0 <= site < 2 ^ 47 -> good (ral d s c site) = true ->
  rreach d (nxt s (ral d s c site)) (c :: C) D (now Y c (type_of TT site)).
Proof.
  intros HR K Hs G. eapply rr_alloc; [exact HR| |exact Hs|exact (got_ok s _ G)].
  apply (chk_alloc_ok d _ C D c 2); [|exact K]. exact (hreach_R d _ C D (ri_h _ _ _ _ _ _ _ _ _ _ _ _ (rreach_inv _ _ _ _ _ _ _ Anz Bsm _ _ _ _ _ _ _ HR))).
Qed.
(* k1 from site1, k2 from site2, k3 (large) from site1 *)
Definition R1 d := nxt (R0 d) (ral d (R0 d) k1 site1).
Definition R2 d := nxt (R1 d) (ral d (R1 d) k2 site2).
Definition R3 d := nxt (R2 d) (ral d (R2 d) k3 site1).
Definition Y0 : types := fun _ => 0.
Definition Y2 := now (now Y0 k1 u1) k2 u2.
Definition Y3 := now Y2 k3 u1.
Lemma r1 d : rreach d (R1 d) [k1] [] (now Y0 k1 u1).
Proof. apply (r_al d (R0 d) [] [] Y0 k1 site1); [apply r0'|destruct d; vm_compute; reflexivity|unfold site1; lia|destruct d; vm_compute; reflexivity]. Qed.
Lemma r2 d : rreach d (R2 d) [k2; k1] [] Y2.
Proof. apply (r_al d (R1 d) [k1] [] _ k2 site2); [apply r1|destruct d; vm_compute; reflexivity|unfold site2; lia|destruct d; vm_compute; reflexivity]. Qed.
Lemma r3 d : rreach d (R3 d) [k3; k2; k1] [] Y3.
Proof. apply (r_al d (R2 d) [k2; k1] [] _ k3 site1); [apply r2|destruct d; vm_compute; reflexivity|unfold site1; lia|destruct d; vm_compute; reflexivity]. Qed.
Lemma boot d : booted (R3 d). Proof. destruct d; vm_compute; discriminate. Qed.
Lemma sok : sizes_ok [k3; k2; k1] sizes.
Proof. intros c [<-|[<-|[<-|[]]]]; reflexivity. Qed.
Lemma prop u : u = u1 \/ u = u2 \/ u = u3 -> proper u.
Proof. intros [-> | [-> | ->]]; (split; [unfold u1, u2, u3; lia|reflexivity]). Qed.

Definition tq d s x := match rq d s sizes x with Ok (_, Found _ _ r) => Some (a_err r, a_type r) | _ => None end.
(* the theorems' hypotheses are met, and their conclusions are as expected *)
Example retype_ex : forall d, rreach d (R3 d) [k3; k2; k1] [] Y3 /\ sizes_ok [k3; k2; k1] sizes /\ booted (R3 d) /\
  inside k1 4194330 /\ inside k2 4194400 /\ proper (Y3 k1) /\ proper (Y3 k2) /\ proper u3 /\
  tq d (R3 d) 4194330 = Some (false, u1) /\ tq d (R3 d) 4194400 = Some (false, u2) /\
  (let s := nxt (R3 d) (rset d (R3 d) sizes 4194330 u3) in
   tq d s 4194320 = Some (false, u3) /\ tq d s 4194343 = Some (false, u3) /\ tq d s 4194400 = Some (false, u2)).
Proof.
  intro d. split; [apply r3|]. split; [apply sok|]. split; [apply boot|]. split; [unfold inside; cbn; lia|]. split; [unfold inside; cbn; lia|].
  split; [apply prop; left; reflexivity|]. split; [apply prop; right; left; reflexivity|]. split; [apply prop; auto|]. destruct d; vm_compute; auto.
Qed.
Example retype_fresh_ex : forall d, may_alloc A NB BIG (h_fo (r_h (R1 d))) [k1] [] k2 /\ proper (type_of TT site2) /\ inside k2 4194400.
Proof.
  intro d. split; [|split; [apply prop; right; left; reflexivity|unfold inside; cbn; lia]].
  apply (chk_alloc_ok d _ _ _ _ 2); [|destruct d; vm_compute; reflexivity].
  exact (hreach_R d _ [k1] [] (ri_h _ _ _ _ _ _ _ _ _ _ _ _ (rreach_inv _ _ _ _ _ _ _ Anz Bsm _ _ _ _ _ _ _ (r1 d)))).
Qed.
Definition WW : tys := mkT (fun u _ _ => u) (fun t => if t =? u2 then 8 else 0) (fun _ n => u2 + 8 * n) (fun x y => u3 + (y - u2)).
Example retype_add_ex : forall d, proper (union WW (precise WW (Y3 k1) 4194330 24) (array WW u2 (24 / maxoff WW u2))) /\
  (exists s, radd d WW (R3 d) sizes 4194330 u2 = Ok (s, 0) /\ tq d s 4194320 = Some (false, u3 + 24)).
Proof.
  intro d. split; [split; [vm_compute; split; [discriminate|reflexivity]|reflexivity]|].
  destruct (radd d WW (R3 d) sizes 4194330 u2) as [[s k]| | |] eqn:E;
    try (exfalso; assert (X : good (radd d WW (R3 d) sizes 4194330 u2) = true) by (destruct d; vm_compute; reflexivity); rewrite E in X; discriminate).
  exists s. assert (X : match radd d WW (R3 d) sizes 4194330 u2 with Ok (s, k) => (k, tq d s 4194320) | _ => (7, None) end = (0, Some (false, u3 + 24))) by (destruct d; vm_compute; reflexivity).
  rewrite E in X. injection X as -> ->. auto.
Qed.

(* Setting a large object's type: the metadata word is sought in one place by the setter and in
   another by the getter.  A debug build aborts; in a release build the change has no effect. *)
Definition outcome {X} (r : res X) : nat := match r with Ok _ => 0 | Abort => 1 | UB => 2 | Fuel => 3 end%nat.
Theorem retype_large_refuted :
  (exists s C D Y c u, rreach true s C D Y /\ sizes_ok C sizes /\ booted s /\ In c C /\ large c = true /\ proper (Y c) /\ proper u /\
     rset true s sizes (c_base c) u = Abort) /\
  (exists s C D Y c u, rreach false s C D Y /\ sizes_ok C sizes /\ booted s /\ In c C /\ large c = true /\ proper (Y c) /\ proper u /\
     good (rset false s sizes (c_base c) u) = true /\ tq false (nxt s (rset false s sizes (c_base c) u)) (c_base c) <> Some (false, u)).
Proof.
  split.
  - exists (R3 true), [k3; k2; k1], [], Y3, k3, u3. split; [apply r3|]. split; [apply sok|]. split; [apply boot|]. split; [left; reflexivity|]. split; [reflexivity|].
    split; [apply prop; left; reflexivity|]. split; [apply prop; auto|].
    destruct (rset true (R3 true) sizes (c_base k3) u3) as [s| | |] eqn:E; try reflexivity;
      (exfalso; assert (X : outcome (rset true (R3 true) sizes (c_base k3) u3) = 1%nat) by (vm_compute; reflexivity); rewrite E in X; discriminate).
  - exists (R3 false), [k3; k2; k1], [], Y3, k3, u3. split; [apply r3|]. split; [apply sok|]. split; [apply boot|]. split; [left; reflexivity|]. split; [reflexivity|].
    split; [apply prop; left; reflexivity|]. split; [apply prop; auto|]. split; [vm_compute; reflexivity|vm_compute; discriminate].
Qed.

(* In a release build, merely asking for the type of a large object can overwrite bytes of the
   next object that belong to the program. *)
Definition k5 := mkChunk 4198416 200008 200016.
Definition k6' := mkChunk 4398432 24 40.
Definition R4 := nxt (R2 false) (ral false (R2 false) k5 site1).
Definition R5 := nxt R4 (ral false R4 k6' site2).
Lemma r4 : rreach false R4 [k5; k2; k1] [] (now Y2 k5 u1).
Proof. apply (r_al false (R2 false) [k2; k1] [] _ k5 site1); [apply r2|vm_compute; reflexivity|unfold site1; lia|vm_compute; reflexivity]. Qed.
Lemma r5 : rreach false R5 [k6'; k5; k2; k1] [] (now (now Y2 k5 u1) k6' u2).
Proof. apply (r_al false R4 [k5; k2; k1] [] _ k6' site2); [apply r4|vm_compute; reflexivity|unfold site2; lia|vm_compute; reflexivity]. Qed.
(* the program clears its new object *)
Definition m6 (x : Z) : Z := if (4398432 <=? x) && (x <? 4398456) then 0 else r_m R5 x.
Definition R6 := mkR (r_h R5) m6 (r_un R5).
Lemma r6 : rreach false R6 [k6'; k5; k2; k1] [] (now (now Y2 k5 u1) k6' u2).
Proof.
  apply rr_write; [apply r5| |].
  - intro x. unfold m6. destruct (_ && _); [lia|]. apply (ri_m _ _ _ _ _ _ _ _ _ _ _ _ (rreach_inv _ _ _ _ _ _ _ Anz Bsm _ _ _ _ _ _ _ r5)).
  - intros c x Ic Sm Hx. unfold m6. destruct (Z.leb_spec 4398432 x); [|reflexivity]. destruct (Z.ltb_spec x 4398456); [|reflexivity].
    destruct Ic as [<-|[<-|[<-|[<-|[]]]]]; unfold c_end in Hx; cbn in Hx; try discriminate Sm; lia.
Qed.
Definition sizes5 (x : Z) : Z := if x =? 4198416 then 200016 else if x =? 4398432 then 40 else sizes x.
Theorem retype_large_query_refuted : exists s C D Y c d x, rreach false s C D Y /\ sizes_ok C sizes5 /\ In c C /\ In d C /\ c <> d /\ inside d x /\
  match rq false s sizes5 (c_base c) with Ok (s', _) => r_m s' x <> r_m s x | _ => False end.
Proof.
  exists R6, [k6'; k5; k2; k1], [], (now (now Y2 k5 u1) k6' u2), k5, k6', 4398432. split; [apply r6|].
  split; [intros c [<-|[<-|[<-|[<-|[]]]]]; reflexivity|]. split; [cbn; auto|]. split; [cbn; auto|]. split; [discriminate|]. split; [unfold inside; cbn; lia|].
  vm_compute. discriminate.
Qed.

(* a descriptor in a position-dependent executable (below 2^35) cannot be set *)
Theorem retype_low_refuted : exists u, 0 < u < 2 ^ 47 /\ u mod 8 = 0 /\
  (exists s C D Y c, rreach true s C D Y /\ sizes_ok C sizes /\ booted s /\ In c C /\ large c = false /\ rset true s sizes (c_base c) u = Abort) /\
  (exists s C D Y c, rreach false s C D Y /\ sizes_ok C sizes /\ booted s /\ In c C /\ large c = false /\
     good (rset false s sizes (c_base c) u) = true /\ tq false (nxt s (rset false s sizes (c_base c) u)) (c_base c) <> Some (false, u)).
Proof.
  exists 6291456. split; [lia|]. split; [reflexivity|]. split.
  - exists (R3 true), [k3; k2; k1], [], Y3, k1. split; [apply r3|]. split; [apply sok|]. split; [apply boot|]. split; [cbn; auto|]. split; [reflexivity|].
    destruct (rset true (R3 true) sizes (c_base k1) 6291456) as [s| | |] eqn:E; try reflexivity;
      (exfalso; assert (X : outcome (rset true (R3 true) sizes (c_base k1) 6291456) = 1%nat) by (vm_compute; reflexivity); rewrite E in X; discriminate).
  - exists (R3 false), [k3; k2; k1], [], Y3, k1. split; [apply r3|]. split; [apply sok|]. split; [apply boot|]. split; [cbn; auto|]. split; [reflexivity|].
    split; [vm_compute; reflexivity|vm_compute; discriminate].
Qed.

(* Adding a type of size zero divides by zero; adding a type to a block whose allocator cannot
   set types calls a null pointer, where setting its type is quietly ignored. *)
Theorem retype_add_refuted : forall d, exists s C D Y, rreach d s C D Y /\ sizes_ok C sizes /\ booted s /\
  (exists c t, In c C /\ large c = false /\ proper (Y c) /\ radd d WW s sizes (c_base c) t = UB) /\
  (exists x, outcome (rset d s sizes x u3) = 0%nat /\ radd d WW s sizes x u2 = UB).
Proof.
  intro d. exists (R3 d), [k3; k2; k1], [], Y3. split; [apply r3|]. split; [apply sok|]. split; [apply boot|]. split.
  - exists k1, u1. split; [cbn; auto|]. split; [reflexivity|]. split; [apply prop; left; reflexivity|].
    destruct (radd d WW (R3 d) sizes (c_base k1) u1) as [s| | |] eqn:E; try reflexivity;
      (exfalso; assert (X : outcome (radd d WW (R3 d) sizes (c_base k1) u1) = 2%nat) by (destruct d; vm_compute; reflexivity); rewrite E in X; discriminate).
  - exists 1048577. split; [destruct d; vm_compute; reflexivity|].
    destruct (radd d WW (R3 d) sizes 1048577 u2) as [s| | |] eqn:E; try reflexivity;
      (exfalso; assert (X : outcome (radd d WW (R3 d) sizes 1048577 u2) = 2%nat) by (destruct d; vm_compute; reflexivity); rewrite E in X; discriminate).
Qed.
End TyEx.

Print Assumptions retype_query_partial.
Print Assumptions retype_set_partial.
Print Assumptions retype_fresh_partial.
Print Assumptions retype_add_partial.
Print Assumptions TyEx.retype_ex.
Print Assumptions TyEx.retype_large_refuted.
Print Assumptions TyEx.retype_large_query_refuted.
Print Assumptions TyEx.retype_low_refuted.
Print Assumptions TyEx.retype_add_refuted.
