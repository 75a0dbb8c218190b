(* C38: lifetime policies. *)
From Verif Require Import Base Life_model Life_spec Life_proof.

Section P.
Variables (LP : Z) (dbg : bool) (U : Type) (addref : U -> Z -> nat -> nat -> U) (delref : U -> Z -> nat -> nat -> U * bool).
Hypothesis HLP : 1 <= LP <= 4.
Notation lreach := (lreach LP dbg U addref delref).
Notation lstep := (lstep LP dbg U addref delref).
Notation legal := (legal LP).

(* After any history, an object has been released, and then once, exactly if no policy is
   attached to it.  Whatever the policies do in their callbacks, short of library calls other
   than detaching themselves from the object concerned. *)
Theorem life_released_iff_unattached : forall w o, lreach w -> allocated (g_log (snd w)) o ->
  (releases (g_log (snd w)) o = 0%nat /\ exists i, att (g_log (snd w)) o i = true) \/
  (releases (g_log (snd w)) o = 1%nat /\ forall i, att (g_log (snd w)) o i = false).
Proof.
  intros w o H A. destruct (reach_J LP dbg U addref delref HLP w H) as [I _]. destruct (o_live (g_obj (snd w) o)) eqn:L.
  - left. destruct (j_live _ _ _ I o L) as (_ & B & R & D & P). split; [exact R|].
    assert (NZ : o_pol (g_obj (snd w) o) <> 0) by (rewrite D; intros []). exists (Z.log2 (o_pol (g_obj (snd w) o))). rewrite <- B. apply Z.bit_log2. lia.
  - right. destruct (j_dead _ _ _ I o L) as (_ & B & C & _). auto.
Qed.

(* No release, even one nested within another, happens while a policy is attached, or twice. *)
Theorem life_never_early_never_twice : forall w, lreach w -> no_early (g_log (snd w)).
Proof. intros w H. destruct (reach_J LP dbg U addref delref HLP w H) as [I _]. apply I. Qed.

(* Every call comes back: nesting of releases is bounded. *)
Theorem life_calls_return : forall w op, lreach w -> legal (snd w) op ->
  exists f0, forall f, (f0 <= f)%nat -> exists w', lstep f w op = Ok w' /\ lreach w'.
Proof.
  intros w op H Lg. destruct (reach_J LP dbg U addref delref HLP w H) as [I [N B]].
  set (M := match op with New o _ _ => Nat.max N (S o) | _ => N end).
  assert (B' : below M (snd w)) by (intros o L; specialize (B o L); unfold M; destruct op; lia).
  assert (Mb : mk_below M op) by (unfold M; destruct op; cbn; auto; lia).
  exists (S M). intros f Hf. assert (X := step_ok LP dbg U addref delref HLP M f w op I Lg B' Mb).
  destruct (lstep f w op) as [w'| | |] eqn:E; cbn in X; [|contradiction..|].
  - exists w'. split; [reflexivity|]. exact (lr_step _ _ _ _ _ f w op w' H Lg E).
  - exfalso. unfold nd in X. assert (Y : (length (filter (fun o => o_live (g_obj (snd w) o) && negb (o_pol (g_obj (snd w) o) =? 0)%Z) (seq 0 M)) <= length (seq 0 M))%nat).
    { clear. induction (seq 0 M) as [|x l IH]; [auto|]. cbn. destruct (_ && _); cbn; lia. }
    rewrite seq_length in Y. lia.
Qed.

(* Full statement: each of the first LP registrations yields a new policy number, and any
   further one is refused.  Missing: the one that should be refused first writes past the
   table (life_register_refuted). *)
Theorem life_register_partial : forall w, lreach w -> g_next (snd w) < LP ->
  exists g' id, register LP (snd w) = Ok (g', id) /\ lreach (fst w, g') /\ 1 <= id < LP /\ g_next g' = id + 1 /\ forall o, att (g_log (snd w)) o id = false.
Proof.
  intros w H Lt. destruct (reach_J LP dbg U addref delref HLP w H) as [I _]. assert (X := j_next _ _ _ I).
  assert (E : register LP (snd w) = Ok (mkG ((g_next (snd w) + 1) mod 2 ^ 32) (g_obj (snd w)) (g_mem (snd w)) (g_log (snd w)), g_next (snd w))).
  { unfold register, as_int. destruct (Z.ltb_spec (g_next (snd w)) (2 ^ 31)); [|lia]. destruct (Z.gtb_spec (g_next (snd w)) LP); [lia|].
    destruct (Z.leb_spec 0 (g_next (snd w))); [|lia]. destruct (Z.ltb_spec (g_next (snd w)) LP); [|lia]. reflexivity. }
  rewrite E. eexists _, _. split; [reflexivity|]. split.
  - apply (lr_step _ _ _ _ _ 0 w Register _ H Lt). cbn. rewrite E. reflexivity.
  - split; [lia|]. cbn [g_next]. rewrite Z.mod_small by lia. split; [reflexivity|]. intro o. destruct (att (g_log (snd w)) o (g_next (snd w))) eqn:T; [|reflexivity].
    destruct (j_reg _ _ _ I o _ T). lia.
Qed.
End P.

(* ---- concrete histories: reference counting, LP = 4 ---- *)
Definition add1 (u : Z -> nat -> nat) (i : Z) (o s : nat) : Z -> nat -> nat := fun j p => if (j =? i) && Nat.eqb p o then S (u j p) else u j p.
Definition del1 (u : Z -> nat -> nat) (i : Z) (o s : nat) : (Z -> nat -> nat) * bool :=
  (fun j p => if (j =? i) && Nat.eqb p o then pred (u j p) else u j p, Nat.eqb (pred (u i o)) 0).
Definition W0 : (Z -> nat -> nat) * gst := (fun _ _ => 0%nat, start (fun _ => None)).
Notation go d := (fun w op => match w with Ok w => lstep 4 d _ add1 del1 10 w op | _ => w end).
Definition run d ops := fold_left (go d) ops (Ok W0).
Definition legal_b (g : gst) (op : lop) : bool :=
  match op with
  | Register => g_next g <? 4
  | New o slots stale => negb (existsb (fun e => match e with ENew p => Nat.eqb p o | _ => false end) (g_log g)) && (stale =? 0)
  | Attach i o => (0 <=? i) && (i <? 4) && ((i =? 0) || (i <? g_next g))
  | Detach i o => (0 <=? i) && (i <? 31)
  | Free o => existsb (fun e => match e with ENew p => Nat.eqb p o | _ => false end) (g_log g) && Nat.eqb (releases (g_log g) o) 0
  | Write s v => true
  end.
Lemma legal_b_ok g op : legal_b g op = true -> legal 4 g op.
Proof.
  assert (X : forall o, existsb (fun e => match e with ENew p => Nat.eqb p o | _ => false end) (g_log g) = true <-> allocated (g_log g) o).
  { intro o. rewrite existsb_exists. split.
    - intros (e & Ie & Ee). destruct e; try discriminate. apply Nat.eqb_eq in Ee. subst. exact Ie.
    - intro Ie. exists (ENew o). split; [exact Ie|apply Nat.eqb_refl]. }
  destruct op; cbn [legal_b legal]; intro H; try exact I; try lia.
  - apply andb_prop in H. destruct H as [H1 H2]. split; [|lia]. rewrite <- X. destruct (existsb _ _); [discriminate|discriminate].
  - apply andb_prop in H. destruct H as [H1 H2]. split; [apply X, H1|]. apply Nat.eqb_eq, H2.
Qed.
Fixpoint all_legal d (w : res ((Z -> nat -> nat) * gst)) (ops : list lop) : bool :=
  match ops with [] => true | op :: r => match w with Ok w' => legal_b (snd w') op && all_legal d (go d w op) r | _ => false end end.
Lemma run_reach d : forall ops w w', lreach 4 d _ add1 del1 w -> all_legal d (Ok w) ops = true -> fold_left (go d) ops (Ok w) = Ok w' -> lreach 4 d _ add1 del1 w'.
Proof.
  intro ops. induction ops as [|op r IH]; intros w w' H A E; cbn [fold_left] in E; [injection E as <-; exact H|].
  cbn [all_legal] in A. apply andb_prop in A. destruct A as [A1 A2]. destruct (lstep 4 d _ add1 del1 10 w op) as [w1| | |] eqn:S1.
  - apply (IH w1 w'); [|exact A2|exact E]. exact (lr_step _ _ _ _ _ 10%nat w op w1 H (legal_b_ok _ _ A1) S1).
  - exfalso. revert E. clear. induction r; cbn; [discriminate|exact IHr].
  - exfalso. revert E. clear. induction r; cbn; [discriminate|exact IHr].
  - exfalso. revert E. clear. induction r; cbn; [discriminate|exact IHr].
Qed.

(* Objects 1 (with slot 10) and 2 under policies 1 and 2; slot 0 is a variable.  0 -> 1 -> 2;
   the program frees both, then clears the variable: both go, 2 within the release of 1. *)
Definition demo : list lop := [Register; Register; New 1 [10%nat] 0; New 2 [] 0; Attach 1 1; Attach 2 1; Attach 1 2; Write 0 (Some 1%nat); Write 10 (Some 2%nat); Free 1; Free 2].
Definition good {T} (r : res T) : bool := match r with Ok _ => true | _ => false end.
Definition got (r : res ((Z -> nat -> nat) * gst)) : (Z -> nat -> nat) * gst := match r with Ok w => w | _ => W0 end.
Lemma got_ok r : good r = true -> r = Ok (got r).
Proof. destruct r; intro H; [reflexivity|discriminate..]. Qed.
Lemma runs d ops : good (run d ops) = true -> all_legal d (Ok W0) ops = true -> run d ops = Ok (got (run d ops)) /\ lreach 4 d _ add1 del1 (got (run d ops)).
Proof. intros G A. assert (E := got_ok _ G). split; [exact E|]. apply (run_reach d ops W0); [apply lr_start|exact A|exact E]. Qed.

Example life_ex : forall d, (exists w, run d demo = Ok w /\ lreach 4 d _ add1 del1 w /\ releases (g_log (snd w)) 1 = 0%nat /\ att (g_log (snd w)) 1 2 = true) /\
  (exists w, run d (demo ++ [Write 0 None]) = Ok w /\ lreach 4 d _ add1 del1 w /\ releases (g_log (snd w)) 1 = 1%nat /\ releases (g_log (snd w)) 2 = 1%nat /\
    firstn 2 (g_log (snd w)) = [ERelease 1; ERelease 2]).
Proof.
  intro d. split; eexists; (split; [|split]).
  - apply runs; destruct d; vm_compute; reflexivity.
  - apply runs; destruct d; vm_compute; reflexivity.
  - destruct d; vm_compute; auto.
  - apply runs; destruct d; vm_compute; reflexivity.
  - apply runs; destruct d; vm_compute; reflexivity.
  - destruct d; vm_compute; auto.
Qed.

(* ---- refutations ---- *)
(* The first registration that should be refused writes one past the table. *)
Theorem life_register_refuted : forall d, exists w, lreach 4 d _ add1 del1 w /\ register 4 (snd w) = UB.
Proof.
  intro d. exists (got (run d [Register; Register; Register])). split; [apply runs; destruct d; vm_compute; reflexivity|destruct d; vm_compute; reflexivity].
Qed.
(* A chunk whose metadata word still holds old policy bits is not released by free(). *)
Theorem life_stale_refuted : forall d, exists ops w, ops = [New 1 [] 8; Free 1] /\ run d ops = Ok w /\
  (forall i, att (g_log (snd w)) 1 i = false) /\ releases (g_log (snd w)) 1 = 0%nat.
Proof.
  intro d. exists [New 1 [] 8; Free 1], (got (run d [New 1 [] 8; Free 1])). split; [reflexivity|]. split; [apply got_ok; destruct d; vm_compute; reflexivity|].
  split; [intro i; destruct d; vm_compute; destruct i; reflexivity|destruct d; vm_compute; reflexivity].
Qed.
(* A callback that detaches any policy from the object being released releases it a second
   time.  The callbacks run in the state given here (see do_free): the last policy has gone but
   the object is still indexed.  The release under way then finds the object gone. *)
Theorem life_detach_dying_refuted : forall d, exists w i w1, lreach 4 d _ add1 del1 w /\ att (g_log (snd w)) 1 0 = true /\ att (g_log (snd w)) 1 i = false /\
  let g := log_ (set_pol (snd w) 1 (Z.ldiff (o_pol (g_obj (snd w) 1)) 1)) (EFree 1) in
  o_live (g_obj g 1) = true /\ detach 4 d _ del1 9 (fst w, g) i 1 = Ok w1 /\ releases (g_log (snd w1)) 1 = 1%nat /\ o_live (g_obj (snd w1) 1) = false.
Proof.
  intro d. exists (got (run d [New 1 [] 0])), 1, (let w := got (run d [New 1 [] 0]) in
    got (detach 4 d _ del1 9 (fst w, log_ (set_pol (snd w) 1 (Z.ldiff (o_pol (g_obj (snd w) 1)) 1)) (EFree 1)) 1 1)).
  split; [apply runs; destruct d; vm_compute; reflexivity|]. split; [destruct d; vm_compute; reflexivity|]. split; [destruct d; vm_compute; reflexivity|]. cbv zeta.
  split; [destruct d; vm_compute; reflexivity|]. split; [apply got_ok; destruct d; vm_compute; reflexivity|]. destruct d; vm_compute; auto.
Qed.

(* Advancing along a list, p = p->next, releases the element advanced to: the old reference
   is dropped, with all it holds, before the new one is counted.  Likewise p = p. *)
Theorem life_list_advance_refuted : forall d, exists w, run d (demo ++ [Write 0 (Some 2%nat)]) = Ok w /\ lreach 4 d _ add1 del1 w /\
  g_mem (snd w) 0 = Some 2%nat /\ releases (g_log (snd w)) 2 = 1%nat.
Proof.
  intro d. eexists. split; [apply runs; destruct d; vm_compute; reflexivity|]. split; [apply runs; destruct d; vm_compute; reflexivity|]. destruct d; vm_compute; auto.
Qed.
Theorem life_self_assign_refuted : forall d, exists w, run d (demo ++ [Write 0 (Some 1%nat)]) = Ok w /\ lreach 4 d _ add1 del1 w /\
  g_mem (snd w) 0 = Some 1%nat /\ releases (g_log (snd w)) 1 = 1%nat.
Proof.
  intro d. eexists. split; [apply runs; destruct d; vm_compute; reflexivity|]. split; [apply runs; destruct d; vm_compute; reflexivity|]. destruct d; vm_compute; auto.
Qed.

Print Assumptions life_released_iff_unattached.
Print Assumptions life_never_early_never_twice.
Print Assumptions life_calls_return.
Print Assumptions life_register_partial.
Print Assumptions life_register_refuted.
Print Assumptions life_stale_refuted.
Print Assumptions life_detach_dying_refuted.
Print Assumptions life_list_advance_refuted.
Print Assumptions life_self_assign_refuted.
