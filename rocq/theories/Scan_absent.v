(* The start-up scan: recording one gathered sequence. *)
From Verif Require Import Base Big_model Big_spec Big_inv Big_lookup Big_links Big_create Big_hist Big_props Big_field
  Map_model Map_spec Map_seq Map_state Map_unmap Map_loop Map_map Scan_model Scan_spec Scan_seq Scan_new.

Definition stq (q : mseq) : bool := match q_file q with Some f => is_stack f | None => false end.

Section A.
Variables (nb : nat) (biggest : Z) (dbg : bool) (al : nat -> Z) (cur_ max_ : Z) (argcp asc dseg top : Z).
Notation R := (reach nb biggest dbg al cur_ max_).
Notation MInv := (MInv nb biggest dbg al cur_ max_).

(* the state after recording q *)
Record flushed (S : mst) (our : nat) (q : mseq) (S' : mst) (our' : nat) : Prop := {
  fl_inv : MInv S';
  fl_rec : forall a t, recorded S' a t <-> says q a t \/ recorded S a t;
  fl_keep : forall m v, view (fo S) m = Some v -> a_end v <= q_begin q \/ q_end q <= a_begin v -> view (fo S') m = Some v;
  fl_seq : forall m v, view (fo S) m = Some v -> a_alloc v = MMAP -> a_end v <= q_begin q \/ q_end q <= a_begin v -> seqs S' (a_priv v) = seqs S (a_priv v);
  fl_new : forall m v, view (fo S') m = Some v -> view (fo S) m = Some v \/ (q_begin q <= a_begin v /\ a_end v <= q_end q);
  fl_free : exists D, length D = (if stq q then 3 else 1)%nat /\ forall m, ~ In m D -> view (fo S) m = None -> view (fo S') m = None;
  fl_oth : forall m w, other S m w -> other S' m w;
  fl_stk : if stq q then exists k, our' <> 0%nat /\ stack_at (fo S') (q_begin q) top argcp our' k /\ (forall m w, other S' m w -> other S m w \/ m = our' \/ m = k)
           else our' = our /\ forall m w, other S' m w -> other S m w }.

(* a record of the library's that is exactly the line l *)
Definition kn (S : mst) (l : line) (n : nat) : Prop :=
  name_of (l_rest l) = None /\ live (fo S) n /\ b_alloc (bigs (fo S) n) = MMAP /\ b_begin (bigs (fo S) n) = l_first l /\ b_end (bigs (fo S) n) = l_second l /\
  used (seqs S (priv_of S n)) = [E l].
Lemma kn_known S l : known S l (l_first l) (l_second l) <-> exists n, kn S l n.
Proof.
  unfold known, kn. split.
  - intros (N & n & A & B & C & D & F). exists n. repeat (split; [assumption|]). rewrite F. unfold E. rewrite flags_sum, N. reflexivity.
  - intros (n & N & A & B & C & D & F). split; [exact N|]. exists n. repeat (split; [assumption|]). rewrite F. unfold E. rewrite flags_sum, N. reflexivity.
Qed.

Lemma kn_facts S l n : MInv S -> kn S l n ->
  let v := attrs_of (bigs (fo S) n) in view (fo S) n = Some v /\ a_alloc v = MMAP /\ a_parent v = 0%nat /\ a_begin v = l_first l /\ a_end v = l_second l /\
  let x := seqs S (priv_of S n) in seq_inv x /\ q_begin x = l_first l /\ q_end x = l_second l /\ q_nused x = 1%nat /\ slot (q_maps x) 0 = E l /\
  (forall a t, says x a t <-> l_first l <= a < l_second l /\ t = line_attr l) /\ n <> 0%nat.
Proof.
  intros MI (Nm & L & A & B & C & U) v. assert (V := live_as _ _ L). fold v in V. split; [exact V|]. split; [exact A|].
  destruct (mi_seq _ _ _ _ _ _ _ MI n v V A) as (P & SI & Eb & Ee & _). split; [exact P|]. split; [exact B|]. split; [exact C|].
  intro x. change (seqs S (a_priv v)) with x in SI, Eb, Ee. split; [exact SI|]. rewrite Eb, Ee. split; [exact B|]. split; [exact C|].
  assert (LU := used_len _ (proj1 SI)). assert (UX : used x = [E l]) by exact U. rewrite UX in LU. cbn [length] in LU. symmetry in LU. split; [exact LU|]. split.
  - assert (N := nth_firstn ent0 (q_maps x) (q_nused x) 0 ltac:(lia)). fold (used x) in N. rewrite UX in N. cbn [nth] in N. symmetry. exact N.
  - split; [|apply L]. intros a t. unfold says. rewrite UX. split.
    + intros (e & [<-|[]] & Ha & ->). split; [exact Ha|]. apply attr_E. left. exact Nm.
    + intros (Ha & ->). exists (E l). split; [left; reflexivity|]. split; [exact Ha|]. symmetry. apply attr_E. left. exact Nm.
Qed.

Lemma entry_eqb_refl e : entry_eqb e e = true.
Proof. unfold entry_eqb. rewrite !Z.eqb_refl, Bool.eqb_reflx. reflexivity. Qed.

(* lookups *)
Lemma top_none S lo hi a : MInv S -> unknown S lo hi -> lo <= a < hi -> lookup_top_level nb (fo S) a = Ok 0%nat.
Proof.
  intros MI U H. destruct (big_top_level_lookup _ _ _ _ _ _ (fo S) a (mi_R _ _ _ _ _ _ _ MI)) as (r & Er & [(-> & _)|(L & _ & C)]); [exact Er|].
  exfalso. apply (U r L). exists a. auto.
Qed.
Lemma top_kn S l n a : MInv S -> kn S l n -> l_first l <= a < l_second l -> lookup_top_level nb (fo S) a = Ok n.
Proof.
  intros MI K H. destruct (kn_facts S l n MI K) as (V & A & P & B & C & _).
  destruct (big_top_level_lookup _ _ _ _ _ _ (fo S) a (mi_R _ _ _ _ _ _ _ MI)) as (r & Er & [(-> & X)|(L & Pr & Cr)]).
  - exfalso. apply (X n); [apply K|]. unfold covers. cbn in B, C. lia.
  - rewrite Er. f_equal. destruct (Nat.eq_dec r n) as [|N]; [assumption|]. exfalso.
    destruct (vf_top _ _ _ _ _ _ (fo S) (mi_R _ _ _ _ _ _ _ MI) r n _ _ (live_as _ _ L) V Pr P N) as [Y|Y]; unfold covers in Cr; cbn in Y, B, C, Cr; lia.
Qed.

Definition stack_fits (q : mseq) (our : nat) : Prop := stq q = true -> our = 0%nat /\ q_begin q < argcp <= top /\ top <= q_end q.
Definition fits_in (S : mst) (q : mseq) : Prop :=
  aligned (q_begin q) /\ aligned (q_end q) /\ q_end q - q_begin q <= biggest /\ q_end q - q_begin q < W64 /\ frees nb (fo S) (if stq q then 3 else 1).

Lemma go_ahead_ok S our q : MInv S -> seq_inv q -> unknown S (q_begin q) (q_end q) -> fits_in S q -> stack_fits q our ->
  exists S' our', go_ahead nb biggest dbg argcp asc S our q = Ok (S', our') /\ flushed S our q S' our'.
Proof.
  intros MI SI UN (A1 & A2 & SZ & SW & FR) SF. unfold go_ahead. cbn [alloc_seq fo].
  assert (HF1 : has_free nb (fo S)) by (destruct (stq q); eapply frees_some; exact FR).
  destruct (go_new nb biggest dbg al cur_ max_ S q MI SI A1 A2 UN HF1 SZ) as (s2 & n & E1 & MI2 & RC & SQ & N0 & Vn & V2n & V2o).
  rewrite E1. cbn [bind]. cbn [alloc_seq fst] in *. set (S2 := set_fo _ _) in *. fold (stq q).
  assert (OT2 : forall m w, other S2 m w <-> other S m w).
  { intros m w. unfold other. destruct (Nat.eq_dec m n) as [->|N].
    - rewrite V2n, Vn. split; intros (z & Hz & Az & _); [injection Hz as <-; cbn in Az; congruence|discriminate].
    - rewrite (V2o m N). tauto. }
  assert (KP2 : forall m v, view (fo S) m = Some v -> view (fo S2) m = Some v).
  { intros m v H. rewrite V2o; [exact H|]. intros ->. congruence. }
  assert (SQ2 : forall m v, view (fo S) m = Some v -> a_alloc v = MMAP -> seqs S2 (a_priv v) = seqs S (a_priv v)).
  { intros m v H A. apply SQ. destruct (mi_seq _ _ _ _ _ _ _ MI m v H A) as (_ & _ & _ & _ & X). lia. }
  assert (LT := seq_ok_lt _ (proj1 SI)).
  destruct (stq q) eqn:SQQ.
  - destruct (SF SQQ) as (-> & AR).
    assert (ALL : forall m, live (fo S2) m -> meets (fo S2) m (q_begin q) (q_end q) -> m = n).
    { intros m Lm Mm. destruct (Nat.eq_dec m n) as [|N]; [assumption|]. exfalso. assert (V := live_as _ _ Lm). rewrite (V2o m N) in V.
      destruct (view_inv _ _ _ V) as [Lm' EQm]. apply (UN m Lm'). destruct Mm as (a & Ha & Ca). exists a. split; [exact Ha|]. assert (X1 := f_equal a_begin EQm). assert (X2 := f_equal a_end EQm). cbn [attrs_of a_begin a_end] in X1, X2. unfold covers in *. lia. }
    assert (FR2 : frees nb (fo S2) 2).
    { apply (frees_less nb (fo S) (fo S2) [n] 2); [|exact FR]. intros m Hm. rewrite (V2o m); [auto|]. intros ->. apply Hm. left. reflexivity. }
    destruct (stack_ok nb biggest dbg al cur_ max_ argcp asc (fo S2) n (q_begin q) (q_end q) (fresh S) (mi_R _ _ _ _ _ _ _ MI2) V2n ALL ltac:(lia) SZ SW FR2)
      as (s3 & au & k & E3 & HR3 & Na & Nk & Va & Vk & VW).
    rewrite E3. cbn [bind]. exists (set_fo S2 s3), au. split; [reflexivity|].
    assert (nk : n <> au /\ n <> k) by (split; congruence). destruct nk as [na nk].
    assert (V3o : forall m, m <> au -> m <> k -> view s3 m = view (fo S2) m).
    { intros m M1 M2. rewrite VW. destruct (Nat.eqb_spec m au); [congruence|]. destruct (Nat.eqb_spec m k); [congruence|reflexivity]. }
    assert (V3a := VW au). rewrite Nat.eqb_refl in V3a. assert (V3k := VW k). rewrite Nat.eqb_refl in V3k. destruct (Nat.eqb_spec k au); [congruence|].
    assert (MS : maps_same (fo S2) s3 0).
    { intros m w _ Aw. rewrite VW. destruct (Nat.eqb_spec m au) as [->|].
      - rewrite Va. split; [intro H; injection H as <-; discriminate Aw|discriminate].
      - destruct (Nat.eqb_spec m k) as [->|]; [|tauto]. rewrite Vk. split; [intro H; injection H as <-; discriminate Aw|discriminate]. }
    destruct (del_MInv nb biggest dbg al cur_ max_ S2 s3 0 MI2 HR3 MS) as [MI3 RC3]; [intros v H; discriminate H|].
    constructor; cbn [set_fo fo seqs].
    + exact MI3.
    + intros a t. rewrite RC3. rewrite <- (rec_new nb biggest dbg al cur_ max_ S2 0 a t MI2) by (intros v H; discriminate H). apply RC.
    + intros m v H _. assert (H2 := KP2 m v H). rewrite V3o; [exact H2| |]; intros ->; congruence.
    + intros m v H A _. apply (SQ2 m v H A).
    + intros m v H. rewrite VW in H. destruct (Nat.eqb_spec m au) as [->|M1]; [injection H as <-; right; cbn; lia|].
      destruct (Nat.eqb_spec m k) as [->|M2]; [injection H as <-; right; cbn; lia|].
      destruct (Nat.eq_dec m n) as [->|M3]; [rewrite V2n in H; injection H as <-; right; cbn; lia|left; rewrite <- (V2o m M3); exact H].
    + rewrite SQQ. exists [n; au; k]. split; [reflexivity|]. intros m Hm Hv. rewrite V3o; [rewrite V2o; [exact Hv|]| |]; intros ->; apply Hm; cbn; auto.
    + intros m w H. apply OT2 in H. destruct H as (v & Hv & A & F). exists v. split; [|auto]. cbn [set_fo fo]. rewrite V3o; [exact Hv| |]; intros ->; congruence.
    + rewrite SQQ. exists k. split; [exact Na|]. split.
      * exists n, (q_end q). assert (V3n : view s3 n = view (fo S2) n) by (apply V3o; assumption). rewrite V2n in V3n. destruct (view_inv _ _ _ V3n) as [Ln EQn].
        inversion EQn. split; [apply AR|]. split; [exact Ln|]. split; [congruence|]. split; [congruence|]. split; [congruence|]. split; [rewrite V3a; congruence|rewrite V3k; congruence].
      * intros m w (v & Hv & A & F). cbn [set_fo fo] in Hv. destruct (Nat.eq_dec m au); [auto|]. destruct (Nat.eq_dec m k); [auto|]. left. apply OT2. exists v.
        rewrite V3o in Hv by assumption. auto.
  - exists S2, our. split; [reflexivity|]. constructor; try rewrite SQQ.
    + exact MI2.
    + exact RC.
    + intros m v H _. apply KP2, H.
    + intros m v H A _. apply (SQ2 m v H A).
    + intros m v H. destruct (Nat.eq_dec m n) as [->|N]; [rewrite V2n in H; injection H as <-; right; cbn; lia|left; rewrite <- (V2o m N); exact H].
    + exists [n]. split; [reflexivity|]. intros m Hm Hv. rewrite V2o; [exact Hv|]. intros ->. apply Hm. left. reflexivity.
    + intros m w H. apply OT2, H.
    + split; [reflexivity|]. intros m w H. apply OT2, H.
Qed.

Lemma unknown_sub S lo hi lo' hi' : unknown S lo hi -> lo <= lo' -> hi' <= hi -> unknown S lo' hi'.
Proof. intros U A B n L (a & Ha & C). apply (U n L). exists a. split; [lia|exact C]. Qed.

(* all of it is unknown *)
Lemma unknown_all S q G : gathered q G -> (forall l, In l G -> unknown S (l_first l) (l_second l)) -> unknown S (q_begin q) (q_end q).
Proof.
  intros GA U n L (a & Ha & C). destruct (chain_cover _ _ _ a (ga_chain _ _ GA) Ha) as (e & He & Hc). apply in_map_iff in He. destruct He as (l & <- & Hl).
  apply (U l Hl n L). exists a. auto.
Qed.

Notation if_absent := (if_absent nb biggest dbg argcp asc dseg).

Lemma absent_new S our q G : MInv S -> gathered q G -> (forall l, In l G -> unknown S (l_first l) (l_second l)) -> fits_in S q -> stack_fits q our ->
  exists S' our', if_absent S our q = Ok (S', our') /\ flushed S our q S' our'.
Proof.
  intros MI GA U FI SF. assert (UA := unknown_all S q G GA U). assert (SI := ga_seq _ _ GA).
  assert (LT := seq_ok_lt _ (proj1 SI)). assert (PO := ga_pos _ _ GA).
  unfold Scan_model.if_absent. replace (q_end q =? 0) with false by lia.
  rewrite (top_none S _ _ (q_begin q) MI UA) by lia. cbn [bind]. rewrite (top_none S _ _ (q_end q - 1) MI UA) by lia. cbn [bind Nat.eqb negb andb].
  apply go_ahead_ok; assumption.
Qed.

Lemma absent_same S our q k n : MInv S -> gathered q [k] -> kn S k n ->
  if_absent S our q = Ok (S, our) /\ flushed S our q S our.
Proof.
  intros MI GA K. destruct (kn_facts S k n MI K) as (V & A & P & B & C & SI & Qb & Qe & QN & QS & SY & N0).
  set (x := seqs S (priv_of S n)) in *. assert (SIq := ga_seq _ _ GA). assert (LT := seq_ok_lt _ (proj1 SIq)). assert (PO := ga_pos _ _ GA).
  assert (CH := ga_chain _ _ GA). cbn in CH. destruct CH as (C1 & C2 & C3). split.
  - unfold Scan_model.if_absent. replace (q_end q =? 0) with false by lia.
    rewrite (top_kn S k n (q_begin q) MI K) by lia. cbn [bind]. rewrite (top_kn S k n (q_end q - 1) MI K) by lia. cbn [bind].
    destruct (Nat.eqb_spec n 0); [congruence|]. rewrite Nat.eqb_refl. cbn [negb andb]. cbn in A. rewrite A. cbn [Nat.eqb MMAP AUXV].
    unfold existing. rewrite A. cbn [Nat.eqb MMAP bind]. fold x.
    assert (S1 : seq_suffix x q = true).
    { unfold seq_suffix. rewrite QN, (ga_nused _ _ GA). cbn [length Nat.leb Nat.sub andb entries_equal seq forallb Nat.add].
      unfold entries_equal. cbn [seq forallb Nat.add]. rewrite QS, (ga_slot _ _ GA 0 k eq_refl), entry_eqb_refl. reflexivity. }
    assert (S2 : seq_suffix q x = true).
    { unfold seq_suffix. rewrite QN, (ga_nused _ _ GA). cbn [length Nat.leb Nat.sub andb].
      unfold entries_equal. cbn [seq forallb Nat.add]. rewrite QS, (ga_slot _ _ GA 0 k eq_refl), entry_eqb_refl. reflexivity. }
    rewrite S1, S2. reflexivity.
  - assert (SQQ : stq q = false) by (unfold stq; rewrite (ga_file _ _ GA); cbn [head_name]; rewrite (proj1 K); reflexivity).
    constructor; try rewrite SQQ; try auto.
    + intros a t. split; [auto|]. intros [H|H]; [|exact H]. apply (says_gathered _ _ GA) in H. destruct H as (l & [<-|[]] & Ha & ->).
      exists n. split; [apply K|]. split; [exact A|]. split; [unfold covers; cbn in B, C; lia|]. apply SY. auto.
    + exists [0%nat]. auto.
Qed.

Lemma absent_last S our q G k n : MInv S -> gathered q (G ++ [k]) -> G <> [] -> (forall l, In l G -> unknown S (l_first l) (l_second l)) -> kn S k n ->
  aligned (l_first k) -> fits_in S q -> (stq q = true -> our = 0%nat /\ q_begin q < argcp <= top /\ top <= l_first k) ->
  exists S' our', if_absent S our q = Ok (S', our') /\ flushed S our q S' our'.
Proof.
  intros MI GA NE U K AK (A1 & A2 & SZ & SW & FR) SF. destruct (kn_facts S k n MI K) as (V & A & P & B & C & SI & Qb & Qe & QN & QS & SY & N0).
  set (x := seqs S (priv_of S n)) in *. assert (SIq := ga_seq _ _ GA). assert (LT := seq_ok_lt _ (proj1 SIq)). assert (PO := ga_pos _ _ GA).
  destruct (ga_trim q G k GA NE) as (GT & TB & TE). set (q' := trim q 1 (l_first k)) in *.
  assert (SIt := ga_seq _ _ GT). assert (LTt := seq_ok_lt _ (proj1 SIt)). rewrite TB, TE in LTt.
  assert (CH := ga_chain _ _ GA). rewrite map_app in CH. apply chain_app in CH. destruct CH as (m & C1 & C2). cbn in C2. destruct C2 as (C2 & C3 & C4).
  assert (UA := unknown_all S q' G GT U). rewrite TB, TE in UA.
  assert (ST : stq q' = stq q) by reflexivity.
  assert (FI' : fits_in S q'). { unfold fits_in. rewrite TB, TE, ST. split; [exact A1|]. split; [exact AK|]. split; [lia|]. split; [lia|exact FR]. }
  assert (SF' : stack_fits q' our). { unfold stack_fits. rewrite TB, TE, ST. exact SF. }
  destruct (go_ahead_ok S our q' MI SIt ltac:(rewrite TB, TE; exact UA) FI' SF') as (S' & our' & EG & FL).
  exists S', our'. split.
  - unfold Scan_model.if_absent. replace (q_end q =? 0) with false by lia.
    rewrite (top_none S _ _ (q_begin q) MI UA) by lia. cbn [bind]. rewrite (top_kn S k n (q_end q - 1) MI K) by lia. cbn [bind].
    destruct (Nat.eqb_spec n 0); [congruence|]. cbn [Nat.eqb negb andb]. cbn in A.
    unfold existing. rewrite A. cbn [Nat.eqb MMAP bind]. fold x.
    assert (RS : range_suffix x q = true). { unfold range_suffix. rewrite Qb, Qe. clear A1 A2 AK. lia. }
    assert (SS : seq_suffix x q = true).
    { unfold seq_suffix. rewrite QN, (ga_nused _ _ GA), app_length. cbn [length]. replace (length G + 1 - 1)%nat with (length G) by lia.
      replace (Nat.leb 1 (length G + 1)) with true by lia. cbn [andb]. unfold entries_equal. cbn [seq forallb Nat.add].
      rewrite QS, Nat.add_0_r, (ga_slot _ _ GA (length G) k), entry_eqb_refl; [reflexivity|]. rewrite nth_error_app2, Nat.sub_diag by lia. reflexivity. }
    rewrite RS, SS, QN, Qb. cbn [negb]. fold q'. rewrite (asrt_true _ _ (seq_ok_sane _ (proj1 SIt))), (asrt_true _ _ (seq_ok_sane _ (proj1 SI))). cbn [bind]. exact EG.
  - destruct FL as [F1 F2 F3 F4 F5 F6 F7 F8]. rewrite TB, TE in *. constructor; try assumption.
    + intros a t. rewrite F2, (says_gathered _ _ GA), (says_gathered _ _ GT). split.
      * intros [(l & Hl & H)|H]; [left; exists l; split; [apply in_app_iff; auto|exact H]|auto].
      * intros [(l & Hl & H)|H]; [|auto]. apply in_app_iff in Hl. destruct Hl as [Hl|[<-|[]]]; [left; exists l; auto|]. right.
        exists n. split; [apply K|]. split; [exact A|]. split; [unfold covers; cbn in B, C; lia|]. apply SY, H.
    + intros z v H D. apply (F3 z v H). lia.
    + intros z v H Az D. apply (F4 z v H Az). lia.
    + intros z v H. destruct (F5 z v H) as [X|X]; [auto|right; lia].
Qed.

Lemma absent_first S our q G k n : MInv S -> gathered q (k :: G) -> G <> [] -> (forall l, In l G -> unknown S (l_first l) (l_second l)) -> kn S k n ->
  aligned (l_second k) -> fits_in S q ->
  exists S' our', if_absent S our q = Ok (S', our') /\ flushed S our q S' our'.
Proof.
  intros MI GA NE U K AK (A1 & A2 & SZ & SW & FR). destruct (kn_facts S k n MI K) as (V & A & P & B & C & SI & Qb & Qe & QN & QS & SY & N0).
  set (x := seqs S (priv_of S n)) in *. assert (SIq := ga_seq _ _ GA). assert (LT := seq_ok_lt _ (proj1 SIq)). assert (PO := ga_pos _ _ GA).
  assert (CH := ga_chain _ _ GA). cbn [map chain] in CH. destruct CH as (C1 & C2 & C3). cbn [E e_begin e_end] in C1, C2, C3.
  assert (UA : unknown S (l_second k) (q_end q)).
  { intros z Lz (a & Ha & Ca). destruct (chain_cover _ _ _ a C3 Ha) as (e & He & Hc). apply in_map_iff in He. destruct He as (l & <- & Hl).
    apply (U l Hl z Lz). exists a. auto. }
  assert (LK : l_second k < q_end q).
  { destruct G as [|g G]; [congruence|]. assert (X := ga_in _ _ GA g ltac:(right; left; reflexivity)). cbn in C3. destruct C3 as (C3 & _). lia. }
  assert (HR := mi_R _ _ _ _ _ _ _ MI). set (v := attrs_of (bigs (fo S) n)) in *.
  assert (Fb : b_begin (bigs (fo S) n) = l_first k) by exact B. assert (Fe : b_end (bigs (fo S) n) = l_second k) by exact C.
  assert (Fpa : b_parent (bigs (fo S) n) = 0%nat) by exact P. assert (Ln : live (fo S) n) by apply K.
  destruct (big_extend_exact nb biggest dbg al cur_ max_ (fo S) n (q_end q) HR) as (s1 & EX & HR1 & (VW & St & _)).
  { split; [exact Ln|]. split; [lia|]. split; [|split; [lia|left; rewrite Fb, Fe, (rdown_id nb al _ AK); lia]].
    constructor; try lia.
    - intros c Lc Pc. assert (KI := kid_in nb biggest dbg al cur_ max_ S n v c _ MI V (proj1 Ln) (live_as _ _ Lc) Pc). cbn in KI. lia.
    - intros m Lm Nm Pm. rewrite Fb. destruct (Z.le_gt_cases (b_end (bigs (fo S) m)) (l_first k)); [auto|].
      destruct (Z.le_gt_cases (q_end q) (b_begin (bigs (fo S) m))); [auto|]. exfalso.
      assert (RM := vf_range _ _ _ _ _ _ (fo S) HR m _ (live_as _ _ Lm)). cbn in RM.
      destruct (vf_top _ _ _ _ _ _ (fo S) HR m n _ _ (live_as _ _ Lm) V ltac:(cbn; congruence) P Nm) as [Y|Y]; cbn in Y; [lia|].
      apply (UA m Lm). exists (Z.max (l_second k) (b_begin (bigs (fo S) m))). clear A1 A2 AK. unfold covers. lia.
    - intros _. split; [rewrite Fb, C1; exact A1|exact A2]. }
  assert (SQQ : stq q = false) by (unfold stq; rewrite (ga_file _ _ GA); cbn [head_name]; rewrite (proj1 K); reflexivity).
  exists (set_seq (set_fo S s1) (priv_of S n) q), our. split.
  - unfold Scan_model.if_absent. replace (q_end q =? 0) with false by lia.
    rewrite (top_kn S k n (q_begin q) MI K) by lia. cbn [bind]. rewrite (top_none S _ _ (q_end q - 1) MI UA) by lia. cbn [bind].
    destruct (Nat.eqb_spec n 0); [congruence|]. cbn [Nat.eqb negb andb]. unfold existing.
    assert (A' : b_alloc (bigs (fo S) n) = MMAP) by exact A. rewrite A'. cbn [Nat.eqb MMAP bind]. fold x.
    assert (SP : seq_prefix x q = true).
    { unfold seq_prefix. rewrite QN, (ga_nused _ _ GA). cbn [length]. cbn [Nat.leb]. cbn [andb]. unfold entries_equal. cbn [seq forallb Nat.add].
      rewrite QS, (ga_slot _ _ GA 0 k eq_refl), entry_eqb_refl. reflexivity. }
    rewrite SP, EX. cbn [bind]. reflexivity.
  - assert (V1n := VW n). rewrite Nat.eqb_refl in V1n.
    assert (V1o : forall m, m <> n -> view s1 m = view (fo S) m) by (intros m N; rewrite VW; destruct (Nat.eqb_spec m n); [congruence|reflexivity]).
    destruct (put_MInv nb biggest dbg al cur_ max_ S s1 (fun i => if Nat.eqb i (priv_of S n) then q else seqs S i) (fresh S) n
       (mkAttrs (b_begin (bigs (fo S) n)) (q_end q) (b_parent (bigs (fo S) n)) (b_alloc (bigs (fo S) n)) (b_sub (bigs (fo S) n)) (b_priv (bigs (fo S) n)) (b_subpriv (bigs (fo S) n)))
       q MI HR1) as [MI' RC]; cbn [a_priv a_begin a_end a_alloc a_parent]; try assumption; try lia.
    { intros m w N Aw. rewrite (V1o m N). tauto. }
    { destruct (mi_seq _ _ _ _ _ _ _ MI n v V A) as (_ & _ & _ & _ & X). exact X. }
    { intros i N. fold (priv_of S n) in N. destruct (Nat.eqb_spec i (priv_of S n)); [congruence|reflexivity]. }
    { fold (priv_of S n). rewrite Nat.eqb_refl. reflexivity. }
    { left. exists v. auto. }
    unfold set_seq, set_fo. cbn [fo seqs fresh]. constructor; cbn [fo seqs]; try rewrite SQQ.
    + exact MI'.
    + intros a t. rewrite RC. rewrite (rec_split nb biggest dbg al cur_ max_ S n v a t MI V A). rewrite (says_gathered _ _ GA). split; [tauto|].
      intros [H|[H|H]]; [auto| |auto]. left. change (says x a t) in H. apply SY in H. exists k. split; [left; reflexivity|exact H].
    + intros m w H D. destruct (Nat.eq_dec m n) as [->|N]; [|rewrite (V1o m N); exact H]. exfalso. rewrite V in H. injection H as <-. cbn in D. lia.
    + intros m w H Aw D. destruct (Nat.eqb_spec (a_priv w) (priv_of S n)) as [EQ|]; [|reflexivity]. exfalso.
      assert (m = n) by (apply (mi_own _ _ _ _ _ _ _ MI m n w v); auto). subst m. rewrite V in H. injection H as <-. cbn in D. lia.
    + intros m w H. destruct (Nat.eq_dec m n) as [->|N]; [|left; rewrite <- (V1o m N); exact H]. right. rewrite V1n in H. injection H as <-. cbn. lia.
    + exists [n]. split; [reflexivity|]. intros m Hm Hv. rewrite V1o; [exact Hv|]. intros ->. apply Hm. left. reflexivity.
    + intros m w (z & Hz & Az & F). exists z. cbn [fo]. split; [|auto]. rewrite V1o; [exact Hz|]. intros ->. rewrite V in Hz. injection Hz as <-. exact (Az A).
    + split; [reflexivity|]. intros m w (z & Hz & Az & F). exists z. cbn [fo] in Hz. split; [|auto]. rewrite V1o in Hz; [exact Hz|]. intros ->.
      rewrite V1n in Hz. injection Hz as <-. exact (Az A).
Qed.
End A.
