(* C14: concrete histories of the heap index, and what is false of it. *)
From Verif Require Import Base Big_model Big_spec Big_inv Big_set Big_lookup Big_create Big_hist Big_props Big_field Map_state Map_ex Insert_model Heap_model Heap_spec Heap_proof Heap_calls Heap_props.
Definition NB : nat := 10.
Definition BIG : Z := 2 ^ 20.
Definition al (a : nat) : Z := match a with 1%nat => 4096 | _ => 1 end.
Definition s0 : st := init_st 1048576 1114112 1 90.

Definition A : nat := 4.
Lemma Anz : A <> 0%nat. Proof. discriminate. Qed.
Lemma Bsm : BIG <= 2 ^ 32. Proof. unfold BIG. lia. Qed.
Notation R d := (reach NB BIG d al (-1) (-1)).
Notation hreach d := (hreach NB BIG d al (-1) (-1) A).

(* deciding the hypotheses on a concrete state *)
Lemma every_live d s p : R d s -> all_live NB s p = true -> forall n v, view s n = Some v -> p n = true /\ v = attrs_of (bigs s n).
Proof.
  intros HR H n v V. apply view_inv in V. destruct V as [L ->]. split; [|reflexivity]. destruct (reach_good _ _ _ _ _ _ _ HR) as [(K & rk & HI) _].
  assert (B := I_bnd _ _ _ _ HI n L). apply forallb_forall with (x := n) in H; [|apply in_seq; lia].
  destruct L as [N U]. rewrite U in H. destruct (Nat.eqb_spec n 0); [contradiction|exact H].
Qed.
Definition chk_chunk (c : chunk) : bool := (c_base c mod 16 =? 0) && (0 <? c_req c) && (c_req c + 8 <=? c_usable c) && (c_end c <? 2 ^ 64).
Definition chk_apart (c d : chunk) : bool := (c_end c <=? c_base d) || (c_end d <=? c_base c).
Definition chk_kids (s : st) (n : nat) (lo hi : Z) : bool :=
  all_live NB s (fun k => negb (Nat.eqb (b_parent (bigs s k)) n) || (b_end (bigs s k) <=? lo) || (hi <=? b_begin (bigs s k))).
Definition chk_alloc (s : st) (C : list chunk) (D : list Z) (c : chunk) (n : nat) : bool :=
  let b := bigs s n in
  chk_chunk c && forallb (chk_apart c) C && (large c || forallb (fun d => (d <=? c_base c) || (c_end c <=? d)) D)
  && negb (Nat.eqb n 0) && in_use b && (b_begin b <=? c_base c) && (c_end c <=? b_end b) && chk_kids s n (c_base c) (c_end c)
  && (131072 <=? b_begin b) && negb (Nat.eqb (b_alloc b) A)
  && (Nat.eqb (b_sub b) A || (Nat.eqb (b_sub b) 0 && Nat.eqb (b_subpriv b) 0 &&
        all_live NB s (fun m => negb (Nat.eqb (b_sub (bigs s m)) A) || (b_end (bigs s m) <=? b_begin b) || (b_end b <=? b_begin (bigs s m)))))
  && (negb (large c) || (some_free NB s && (c_req c <=? BIG))).
Lemma chk_kids_ok d s n lo hi : R d s -> chk_kids s n lo hi = true -> kids_clear s n lo hi.
Proof.
  intros HR H k w Vk Pk. destruct (every_live d s _ HR H k w Vk) as [X ->]. cbn in Pk |- *. rewrite Pk, Nat.eqb_refl in X. cbn [negb orb] in X.
  apply Bool.orb_true_iff in X. destruct X as [X|X]; apply Z.leb_le in X; auto.
Qed.
Lemma chk_alloc_ok d s C D c n : R d s -> chk_alloc s C D c n = true -> may_alloc A NB BIG s C D c.
Proof.
  unfold chk_alloc. cbv zeta. intros HR H. do 11 (apply andb_prop in H; let X := fresh "X" in destruct H as [H X]).
  assert (Ln : live s n) by (split; [destruct (Nat.eqb_spec n 0); [discriminate|assumption]|assumption]).
  constructor.
  - unfold chk_chunk in H. do 3 (apply andb_prop in H; let Y := fresh "Y" in destruct H as [H Y]). constructor; [apply Z.eqb_eq, H|apply Z.ltb_lt, Y1|apply Z.leb_le, Y0|apply Z.ltb_lt, Y].
  - intros x I. apply forallb_forall with (x := x) in X9; [|exact I]. unfold chk_apart in X9. apply Bool.orb_true_iff in X9.
    destruct X9 as [X9|X9]; apply Z.leb_le in X9; [left|right]; exact X9.
  - intros Sm x I. rewrite Sm in X8. cbn in X8. apply forallb_forall with (x := x) in X8; [|exact I]. apply Bool.orb_true_iff in X8.
    destruct X8 as [X8|X8]; apply Z.leb_le in X8; auto.
  - exists n, (attrs_of (bigs s n)). split; [apply live_as, Ln|]. split; [split; [apply Z.leb_le, X5|apply Z.leb_le, X4]|].
    split; [exact (chk_kids_ok d s n _ _ HR X3)|]. split; [apply Z.leb_le, X2|]. split; [apply Nat.eqb_neq; cbn; destruct (Nat.eqb _ A); [discriminate|reflexivity]|].
    apply Bool.orb_true_iff in X0. destruct X0 as [X0|X0]; [left; apply Nat.eqb_eq, X0|right]. do 2 (apply andb_prop in X0; let Y := fresh "Y" in destruct X0 as [X0 Y]).
    split; [apply Nat.eqb_eq, X0|]. split; [apply Nat.eqb_eq, Y0|]. intros m w [V S0]. destruct (every_live d s _ HR Y m w V) as [Z0 ->]. cbn in S0 |- *. rewrite S0, Nat.eqb_refl in Z0. cbn [negb orb] in Z0.
    apply Bool.orb_true_iff in Z0. destruct Z0 as [Z0|Z0]; apply Z.leb_le in Z0; auto.
  - intro Lg. rewrite Lg in X. cbn in X. apply andb_prop in X. destruct X as [X Y]. split; [exact (some_free_ok NB al s X)|apply Z.leb_le, Y].
Qed.
Lemma hreach_R d H C D : hreach d H C D -> R d (h_fo H).
Proof. intro HH. exact (hi_R _ _ _ _ _ _ _ _ _ _ (hreach_inv _ _ _ _ _ _ _ Anz Bsm _ _ _ HH)). Qed.

(* a mapping [0x400000,0x500000), record 2, which becomes the arena *)
Definition got {T} (d : T) (r : res T) : T := match r with Ok x => x | _ => d end.
Definition good {T} (r : res T) : bool := match r with Ok _ => true | _ => false end.
Lemma got_ok {T} (d : T) r : good r = true -> r = Ok (got d r).
Proof. destruct r; intro H; [reflexivity|discriminate..]. Qed.
Definition f0 (d : bool) : st := got s0 (step NB BIG d al (-1) (-1) s0 (New 4194304 1048576 0 0 1)).
Definition H0 d : hst := mkH (f0 d) (fun _ => info0) 1.
Lemma r0 d : R d (f0 d).
Proof.
  apply (reach_step _ _ _ _ _ _ s0 (New 4194304 1048576 0 0 1)).
  - apply reach_init; [unfold NB; lia|lia|unfold BIG; lia|reflexivity|reflexivity].
  - split; [exists 2%nat; split; [unfold NB; lia|reflexivity]|]. split; [unfold BIG; lia|]. exists 0%nat. split; [split; [lia|split; [split; reflexivity|]]|].
    + intros c [N U] _. destruct c as [|[|c]]; [congruence| |cbn in U; discriminate]. left. cbn. lia.
    + split; intros c [N U] X; destruct c as [|[|c]]; [congruence| |cbn in U; discriminate|congruence| |cbn in U; discriminate]; unfold covers in X; cbn in X; lia.
  - apply got_ok. destruct d; vm_compute; reflexivity.
Qed.
Lemma h0 d : hreach d (H0 d) [] [].
Proof.
  apply hr_start; [apply r0|]. intros n v V.
  destruct (every_live d (f0 d) (fun n => negb (Nat.eqb (b_sub (bigs (f0 d) n)) A) && negb (Nat.eqb (b_alloc (bigs (f0 d) n)) A)) (r0 d) ltac:(destruct d; vm_compute; reflexivity) n v V) as [X ->].
  apply andb_prop in X. destruct X as [X Y]. split; apply Nat.eqb_neq; cbn; [destruct (Nat.eqb _ A)|destruct (Nat.eqb (b_alloc _) A)]; first [discriminate|reflexivity].
Qed.

Definition alloc d H c := do_alloc NB BIG d A H (c_base c) (c_req c) (c_usable c).
Definition st_alloc d H c := fst (got (H, 0) (alloc d H c)).
Lemma h_alloc d H C D c : hreach d H C D -> chk_alloc (h_fo H) C D c 2 = true -> good (alloc d H c) = true -> hreach d (st_alloc d H c) (c :: C) D.
Proof.
  intros HH K G. apply (hr_alloc _ _ _ _ _ _ _ H C D c _ (snd (got (H, 0) (alloc d H c))) HH (chk_alloc_ok d _ C D c 2 (hreach_R d H C D HH) K)).
  change (do_alloc NB BIG d A H (c_base c) (c_req c) (c_usable c)) with (alloc d H c). rewrite (got_ok (H, 0) _ G) at 1. unfold st_alloc. f_equal. apply surjective_pairing.
Qed.
Definition st_free d H c := got H (do_free NB BIG d A H (c_base c)).
Lemma h_free d H C D c : hreach d H C D -> In c C -> good (do_free NB BIG d A H (c_base c)) = true ->
  hreach d (st_free d H c) (without c C) (if large c then c_base c :: D else D).
Proof. intros HH I G. apply (hr_free _ _ _ _ _ _ _ H C D c _ HH I). exact (got_ok H _ G). Qed.

Definition k1 := mkChunk 4194320 24 40.       (* 0x400010: malloc(24), asked of the C library as 32 *)
Definition k2 := mkChunk 4194368 100 120.     (* 0x400040 *)
Definition k3 := mkChunk 4198416 200000 200008.  (* 0x401010: large *)
Definition k4 := mkChunk 4198400 100 120.     (* 0x401000: over the start of k3 *)
Definition H1 d := st_alloc d (H0 d) k1.
Definition H2 d := st_alloc d (H1 d) k2.
Definition H3 d := st_alloc d (H2 d) k3.
Definition H4 d := st_free d (H3 d) k3.
Definition H5 d := st_alloc d (H4 d) k4.
Lemma h1 d : hreach d (H1 d) [k1] []. Proof. apply h_alloc; [apply h0| |]; destruct d; vm_compute; reflexivity. Qed.
Lemma h2 d : hreach d (H2 d) [k2; k1] []. Proof. apply h_alloc; [apply h1| |]; destruct d; vm_compute; reflexivity. Qed.
Lemma h3 d : hreach d (H3 d) [k3; k2; k1] []. Proof. apply h_alloc; [apply h2| |]; destruct d; vm_compute; reflexivity. Qed.
Lemma h4 d : hreach d (H4 d) [k2; k1] [4198416].
Proof. change [k2; k1] with (without k3 [k3; k2; k1]). change [4198416] with (if large k3 then c_base k3 :: [] else []). apply h_free; [apply h3|left; reflexivity|destruct d; vm_compute; reflexivity]. Qed.

Definition sizes (x : Z) : Z :=
  if x =? 4194320 then 40 else if x =? 4194368 then 120 else if x =? 4198416 then 200008 else if x =? 4198400 then 120 else 0.
Definition qans d H x := match query NB d A H sizes x with Ok (_, r) => Some r | _ => None end.

(* ---- the theorems' hypotheses are met ---- *)
Example heap_alloc_ex : forall d, hreach d (H0 d) [] [] /\ may_alloc A NB BIG (h_fo (H0 d)) [] [] k1 /\
  may_alloc A NB BIG (h_fo (H2 d)) [k2; k1] [] k3 /\ large k3 = true.
Proof.
  intro d. split; [apply h0|]. split; [apply (chk_alloc_ok d _ _ _ _ 2 (r0 d)); destruct d; vm_compute; reflexivity|].
  split; [apply (chk_alloc_ok d _ _ _ _ 2 (hreach_R _ _ _ _ (h2 d))); destruct d; vm_compute; reflexivity|reflexivity].
Qed.
Example heap_free_ex : forall d, hreach d (H3 d) [k3; k2; k1] [] /\ In k3 [k3; k2; k1] /\ In k1 [k3; k2; k1].
Proof. intro d. split; [apply h3|]. cbn. auto. Qed.
(* k2 grown in place, and moved; k3 grown in place *)
Example heap_realloc_ex : forall d, hreach d (H3 d) [k3; k2; k1] [] /\
  good (pre_realloc NB BIG d A (H3 d) (c_base k2)) = true /\
  (let G := got (H3 d) (pre_realloc NB BIG d A (H3 d) (c_base k2)) in
   chk_alloc (h_fo G) [k3; k1] [] (mkChunk 4194368 140 152) 2 = true /\ chk_alloc (h_fo G) [k3; k1] [] (mkChunk 4195000 3000 3008) 2 = false /\
   chk_alloc (h_fo G) [k3; k1] [] (mkChunk 4195008 3000 3016) 2 = true) /\
  (let G := got (H3 d) (pre_realloc NB BIG d A (H3 d) (c_base k3)) in chk_alloc (h_fo G) [k2; k1] [4198416] (mkChunk 4198416 300000 300008) 2 = true).
Proof. intro d. split; [apply h3|]. destruct d; vm_compute; auto. Qed.
Example heap_lookup_ex : forall d, hreach d (H3 d) [k3; k2; k1] [] /\
  qans d (H3 d) 4194330 = Some (Chunk 4194320 24 4194352) /\ qans d (H3 d) 4194467 = Some (Chunk 4194368 104 4194480) /\
  qans d (H3 d) 4300000 = Some (Chunk 4198416 200000 4398424) /\ qans d (H3 d) 4194310 = Some Unindexed /\ qans d (H3 d) 1048577 = Some (Other 1) /\
  qans d (H3 d) 9000000 = Some Unknown.
Proof. intro d. split; [apply h3|]. destruct d; vm_compute; auto 10. Qed.
Example heap_unindexed_ex : forall d, exists v, arena A (h_fo (H3 d)) 2 v /\ kids_clear (h_fo (H3 d)) 2 4194310 4194311 /\ holds v k1 /\ a_begin v <= 4194310 < c_base k1 /\
  forall c, In c [k3; k2; k1] -> 4194310 < c_base c.
Proof.
  intro d. exists (attrs_of (bigs (h_fo (H3 d)) 2)). split; [split; destruct d; vm_compute; reflexivity|].
  split; [apply (chk_kids_ok d); [exact (hreach_R _ _ _ _ (h3 d))|destruct d; vm_compute; reflexivity]|].
  split; [split; apply Z.leb_le; destruct d; vm_compute; reflexivity|]. split; [split; [apply Z.leb_le|apply Z.ltb_lt]; destruct d; vm_compute; reflexivity|].
  intros c [<-|[<-|[<-|[]]]]; vm_compute; reflexivity.
Qed.

(* ---- refutations ---- *)
(* the size reported is eight less than the caller may use, and less than was asked for *)
Definition k5 := mkChunk 4194496 24 32.     (* 0x4000c0: malloc(24) served with exactly 32 *)
Theorem heap_size_refuted : forall d, exists H C D c x b size m, hreach d H C D /\ In c C /\ large c = false /\
  c_base c <= x < c_base c + c_req c /\ query NB d A H (fun _ => c_usable c) x = Ok (H, Chunk b size m) /\ size <> c_usable c - 8 /\ size < c_req c.
Proof.
  intro d. exists (st_alloc d (H2 d) k5), [k5; k2; k1], [], k5, 4194500, 4194496, 16, 4194520.
  assert (HH : hreach d (st_alloc d (H2 d) k5) [k5; k2; k1] []) by (apply h_alloc; [apply h2| |]; destruct d; vm_compute; reflexivity).
  split; [exact HH|]. split; [left; reflexivity|]. split; [reflexivity|]. split; [cbn; lia|]. split; [|cbn; lia].
  exact (heap_lookup_small_partial NB BIG d al (-1) (-1) A Anz Bsm _ _ _ k5 4194500 (fun _ => 32) HH (or_introl eq_refl) eq_refl eq_refl ltac:(cbn; lia)).
Qed.

(* the metadata word consulted for a large chunk is not the one written when it was allocated *)
Theorem heap_large_metadata_refuted : forall d, exists H C D c H' z b size m, hreach d H C D /\ may_alloc A NB BIG (h_fo H) C D c /\
  do_alloc NB BIG d A H (c_base c) (c_req c) (c_usable c) = Ok (H', z) /\
  (exists G, query NB d A H' sizes (c_base c) = Ok (G, Chunk b size m)) /\ m <> z /\ c_end c <= m.
Proof.
  intro d. exists (H2 d), [k2; k1], [], k3, (H3 d), 4398416, 4198416, 200000, 4398424.
  split; [apply h2|]. split; [apply (chk_alloc_ok d _ _ _ _ 2 (hreach_R _ _ _ _ (h2 d))); destruct d; vm_compute; reflexivity|].
  assert (G : good (alloc d (H2 d) k3) = true) by (destruct d; vm_compute; reflexivity).
  split. { change (do_alloc NB BIG d A (H2 d) (c_base k3) (c_req k3) (c_usable k3)) with (alloc d (H2 d) k3). rewrite (got_ok (H2 d, 0) _ G). f_equal.
    unfold H3, st_alloc. rewrite (surjective_pairing (got (H2 d, 0) (alloc d (H2 d) k3))) at 1. f_equal. destruct d; vm_compute; reflexivity. }
  split; [|cbn; split; [discriminate|lia]].
  destruct (query NB d A (H3 d) sizes (c_base k3)) as [[G2 r]| | |] eqn:E; try (exfalso; assert (X : qans d (H3 d) 4198416 <> None) by (destruct d; vm_compute; discriminate); apply X; unfold qans; change 4198416 with (c_base k3); rewrite E; reflexivity).
  exists G2. f_equal. f_equal. assert (X : qans d (H3 d) 4198416 = Some (Chunk 4198416 200000 4398424)) by (destruct d; vm_compute; reflexivity).
  unfold qans in X. change 4198416 with (c_base k3) in X at 1. rewrite E in X. injection X as ->. reflexivity.
Qed.

Lemma ask d H x r : qans d H x = Some r -> exists G, query NB d A H sizes x = Ok (G, r).
Proof. unfold qans. destruct (query NB d A H sizes x) as [[G q]| | |]; intro E; try discriminate. injection E as ->. exists G. reflexivity. Qed.

(* freeing a large chunk leaves its start marked, so a small chunk put over it is answered with
   the wrong start *)
Theorem heap_stale_start_refuted : forall d, exists H C D c H' z, hreach d H C D /\ chunk_ok c /\ (forall e, In e C -> apart c e) /\
  do_alloc NB BIG d A H (c_base c) (c_req c) (c_usable c) = Ok (H', z) /\
  exists x G b size m, c_base c <= x < c_base c + c_req c /\ query NB d A H' sizes x = Ok (G, Chunk b size m) /\ b <> c_base c.
Proof.
  intro d. exists (H4 d), [k2; k1], [4198416], k4, (H5 d), 4198512. split; [apply h4|]. split; [constructor; vm_compute; reflexivity || (vm_compute; discriminate)|].
  split; [intros e [<-|[<-|[]]]; right; vm_compute; discriminate|].
  assert (G : good (alloc d (H4 d) k4) = true) by (destruct d; vm_compute; reflexivity).
  split. { change (do_alloc NB BIG d A (H4 d) (c_base k4) (c_req k4) (c_usable k4)) with (alloc d (H4 d) k4). rewrite (got_ok (H4 d, 0) _ G). f_equal.
    unfold H5, st_alloc. rewrite (surjective_pairing (got (H4 d, 0) (alloc d (H4 d) k4))) at 1. f_equal. destruct d; vm_compute; reflexivity. }
  destruct (ask d (H5 d) 4198432 (Chunk 4198416 199992 4398416)) as (G2 & E); [destruct d; vm_compute; reflexivity|].
  exists 4198432, G2, 4198416, 199992, 4398416. split; [cbn; lia|]. split; [exact E|discriminate].
Qed.

(* an address in free space is answered with the chunk before it *)
Theorem heap_free_space_refuted : forall d, exists H C D x G b size m, hreach d H C D /\ (forall c, In c C -> ~ (c_base c <= x < c_end c)) /\
  query NB d A H sizes x = Ok (G, Chunk b size m) /\ b + size <= x.
Proof.
  intro d. destruct (ask d (H3 d) 4194495 (Chunk 4194368 104 4194480)) as (G & E); [destruct d; vm_compute; reflexivity|].
  exists (H3 d), [k3; k2; k1], [], 4194495, G, 4194368, 104, 4194480. split; [apply h3|].
  split; [intros c [<-|[<-|[<-|[]]]]; vm_compute; intros [X Y]; first [now apply X|discriminate Y]|]. split; [exact E|lia].
Qed.

(* an empty allocation at the frontier of the bitmap marks a bit outside it *)
Theorem heap_empty_refuted : forall d, exists H C D base usable, hreach d H C D /\ base mod 16 = 0 /\ 8 <= usable /\
  (forall c, In c C -> c_end c <= base) /\ arena A (h_fo H) 2 (attrs_of (bigs (h_fo H) 2)) /\ base + usable <= b_end (bigs (h_fo H) 2) /\
  do_alloc NB BIG d A H base 0 usable = UB.
Proof.
  intro d. exists (H2 d), [k2; k1], [], 4195328, 24. split; [apply h2|]. split; [reflexivity|]. split; [lia|].
  split; [intros c [<-|[<-|[]]]; vm_compute; discriminate|]. split; [split; destruct d; vm_compute; reflexivity|].
  split; [apply Z.leb_le; destruct d; vm_compute; reflexivity|]. destruct d; vm_compute; reflexivity.
Qed.

(* a query for the padding of a live chunk may search from outside the bitmap *)
Definition k6 := mkChunk 4195280 40 72.     (* 0x4003d0..0x400418, asked for up to 0x4003f8 *)
Theorem heap_padding_refuted : forall d, exists H C D c x, hreach d H C D /\ In c C /\ c_base c <= x < c_end c - 8 /\
  query NB d A H sizes x = UB.
Proof.
  intro d. exists (st_alloc d (H2 d) k6), [k6; k2; k1], [], k6, 4195328. split; [apply h_alloc; [apply h2| |]; destruct d; vm_compute; reflexivity|].
  split; [left; reflexivity|]. split; [vm_compute; split; [discriminate|reflexivity]|]. destruct d; vm_compute; reflexivity.
Qed.

(* a failed reallocation of an intact small chunk to a huge size does not come back *)
Theorem heap_failed_realloc_refuted : exists H C D c H1 big, hreach true H C D /\ In c C /\ large c = false /\
  pre_realloc NB BIG true A H (c_base c) = Ok H1 /\
  post_realloc NB BIG true A H1 (c_base c) (big + 8) (c_usable c) big 0 (c_usable c) = Abort.
Proof.
  exists (H2 true), [k2; k1], [], k2, (got (H2 true) (pre_realloc NB BIG true A (H2 true) (c_base k2))), (2 ^ 40).
  split; [apply h2|]. split; [left; reflexivity|]. split; [reflexivity|]. split; [apply got_ok; vm_compute; reflexivity|]. vm_compute. reflexivity.
Qed.

(* a large chunk shrunk in place ends up with a record longer than what was asked for *)
Theorem heap_shrink_refuted : forall d, exists H C D c H1 H2 z req usable, hreach d H C D /\ In c C /\
  pre_realloc NB BIG d A H (c_base c) = Ok H1 /\ usable < c_usable c /\ req + 8 <= usable /\ 131072 < usable /\
  post_realloc NB BIG d A H1 (c_base c) (req + 8) (c_usable c) req (c_base c) usable = Ok (H2, z) /\
  exists p, live (h_fo H2) p /\ b_alloc (bigs (h_fo H2) p) = A /\ b_begin (bigs (h_fo H2) p) = c_base c /\ c_base c + req < b_end (bigs (h_fo H2) p).
Proof.
  intro d. pose (G1 := got (H3 d) (pre_realloc NB BIG d A (H3 d) (c_base k3))).
  pose (pr := post_realloc NB BIG d A G1 (c_base k3) (150000 + 8) (c_usable k3) 150000 (c_base k3) 150008).
  exists (H3 d), [k3; k2; k1], [], k3, G1, (fst (got (G1, 0) pr)), (snd (got (G1, 0) pr)), 150000, 150008.
  split; [apply h3|]. split; [left; reflexivity|]. split; [apply got_ok; destruct d; vm_compute; reflexivity|]. split; [cbn; lia|]. split; [lia|]. split; [lia|].
  split; [rewrite <- surjective_pairing; apply got_ok; unfold pr, G1; destruct d; vm_compute; reflexivity|].
  exists 3%nat. split; [split; [discriminate|unfold pr, G1; destruct d; vm_compute; reflexivity]|]. split; [unfold pr, G1; destruct d; vm_compute; reflexivity|].
  split; [unfold pr, G1; destruct d; vm_compute; reflexivity|]. apply Z.ltb_lt. unfold pr, G1; destruct d; vm_compute; reflexivity.
Qed.

Print Assumptions heap_alloc_partial.
Print Assumptions heap_free_exact.
Print Assumptions heap_realloc_partial.
Print Assumptions heap_lookup_small_partial.
Print Assumptions heap_lookup_large_partial.
Print Assumptions heap_lookup_unindexed_partial.
Print Assumptions heap_query_pure.
Print Assumptions heap_size_refuted.
Print Assumptions heap_large_metadata_refuted.
Print Assumptions heap_stale_start_refuted.
Print Assumptions heap_free_space_refuted.
Print Assumptions heap_empty_refuted.
Print Assumptions heap_padding_refuted.
Print Assumptions heap_failed_realloc_refuted.
Print Assumptions heap_shrink_refuted.
