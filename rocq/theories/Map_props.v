(* C09-C12: the memory-mapping records. *)
From Verif Require Import Base Big_model Big_spec Big_inv Big_create Big_hist Big_props Map_model Map_spec Big_field Map_seq Map_aug Map_state Map_unmap Map_loop Map_map Map_brk Scan_model Scan_spec Scan_done Map_hist.

Section P.
Variables (nb : nat) (biggest : Z) (dbg : bool) (al : nat -> Z) (cur_ max_ : Z) (obj_of : Z -> Z).
Notation mreach := (mreach nb biggest dbg al cur_ max_ obj_of).
Notation MInv := (MInv nb biggest dbg al cur_ max_).

Lemma keep_MInv S s' : MInv S -> reach nb biggest dbg al cur_ max_ s' -> keeps (fo S) s' ->
  MInv (set_fo S s') /\ forall a t, recorded (set_fo S s') a t <-> recorded S a t.
Proof.
  intros MI HR K.
  assert (MI' : MInv (set_fo S s')).
  { constructor; cbn [fo set_fo seqs fresh]; [exact HR| |].
    - intros n v H A. apply (K n v A) in H. exact (mi_seq _ _ _ _ _ _ _ MI n v H A).
    - intros m n v w H1 H2 A1 A2. apply (K m v A1) in H1. apply (K n w A2) in H2. exact (mi_own _ _ _ _ _ _ _ MI m n v w H1 H2 A1 A2). }
  split; [exact MI'|]. intros a t. rewrite (rec_iff _ _ _ _ _ _ _ a t MI'), (rec_iff _ _ _ _ _ _ _ a t MI).
  unfold rec'. cbn [fo set_fo seqs]. split; intros (n & v & H & A & Sy); exists n, v; (split; [apply (K n v A), H|auto]).
Qed.

Lemma init_MInv lo hi prot flags off file caller q : (2 <= nb)%nat -> 0 < lo < hi -> hi - lo <= biggest -> lo mod PAGE = 0 -> hi mod PAGE = 0 ->
  augment dbg obj_of seq0 lo hi prot flags off file caller = Ok (q, true) ->
  MInv (init_m lo hi q) /\ forall a t, recorded (init_m lo hi q) a t <-> lo <= a < hi /\ t = mkAttr prot flags file caller.
Proof.
  intros N H B A1 A2 E. destruct (augment_new obj_of dbg lo hi prot flags off file caller ltac:(lia) ltac:(lia)) as (q' & E' & SI & Qb & Qe & SY).
  assert (q' = q) by congruence. subst q'.
  assert (V : forall n v, view (init_st lo hi MMAP 1) n = Some v -> n = 1%nat /\ v = mkAttrs lo hi 0 MMAP 0 1 0).
  { intros n v X. apply view_inv in X. destruct X as [[L1 L2] ->]. unfold init_st in *; cbn [bigs] in *. destruct (Nat.eqb_spec n 1); [auto|discriminate]. }
  assert (V1 : view (init_st lo hi MMAP 1) 1 = Some (mkAttrs lo hi 0 MMAP 0 1 0)).
  { clear A1 A2. apply (live_view (init_st lo hi MMAP 1) 1). split; [discriminate|]. cbn. unfold in_use. cbn. lia. }
  assert (MI : MInv (init_m lo hi q)).
  { constructor; cbn [fo init_m seqs fresh].
    - apply reach_init; assumption.
    - intros n v X _. apply V in X. destruct X as [-> ->]. cbn. split; [reflexivity|]. split; [exact SI|]. split; [exact Qb|]. split; [exact Qe|lia].
    - intros m n v w X Y _ _ _. apply V in X. apply V in Y. lia. }
  split; [exact MI|]. intros a t. rewrite (rec_iff _ _ _ _ _ _ _ a t MI), <- SY. unfold rec'. cbn [fo init_m seqs]. split.
  - intros (n & v & X & _ & Sy). apply V in X. destruct X as [-> ->]. exact Sy.
  - intro Sy. exists 1%nat, (mkAttrs lo hi 0 MMAP 0 1 0). auto.
Qed.

Lemma mreach_inv S M : mreach S M -> MInv S /\ mirrors S M.
Proof.
  induction 1 as [lo hi prot flags off file caller q N HL HB A1 A2 E|S M addr len prot flags file off caller S' HM [IH1 IH2] MM E|S M addr len S' HM [IH1 IH2] HL MU E|S M n new S' HM [IH1 IH2] MB E|S M L argcp asc dseg xend S' our HM [IH1 IH2] SC E|S M o s' HM [IH1 IH2] L E K].
  - destruct (init_MInv lo hi prot flags off file caller q N HL HB A1 A2 E) as [X Y]. split; [exact X|]. intros a t. rewrite Y. unfold map_over. clear A1 A2.
    destruct (Z.leb_spec lo a), (Z.ltb_spec a hi); cbn [andb]; split; intro Z0; try discriminate; try lia; [injection Z0 as <-; split; [lia|reflexivity]|].
    destruct Z0 as [_ ->]. reflexivity.
  - destruct (mmap_ok nb biggest dbg al cur_ max_ obj_of S addr len prot flags file off caller IH1 MM) as (S2 & E2 & X & Y).
    assert (S2 = S') by congruence. subst S2. split; [exact X|]. intros a t. rewrite (ma_rec _ _ _ _ _ Y), <- (IH2 a t). unfold map_over. clear MM.
    destruct (Z.leb_spec addr a), (Z.ltb_spec a (addr + RUP len)); cbn [andb].
    + split; [intro Z0; injection Z0 as <-; left; split; [lia|reflexivity]|]. intros [[_ ->]|[Z0 _]]; [reflexivity|lia].
    + split; [right; split; [lia|assumption]|]. intros [[Z0 _]|[_ Z0]]; [lia|exact Z0].
    + split; [right; split; [lia|assumption]|]. intros [[Z0 _]|[_ Z0]]; [lia|exact Z0].
    + split; [right; split; [lia|assumption]|]. intros [[Z0 _]|[_ Z0]]; [lia|exact Z0].
  - destruct (munmap_ok nb biggest dbg al cur_ max_ S addr len IH1 HL MU) as (S2 & E2 & X & Y).
    assert (S2 = S') by congruence. subst S2. split; [exact X|]. intros a t. rewrite (un_rec _ _ _ _ Y), <- (IH2 a t). unfold unmap. clear MU.
    destruct (Z.leb_spec addr a), (Z.ltb_spec a (addr + RUP len)); cbn [andb]; (split; [intro Z0; first [discriminate|split; [exact Z0|lia]]|intros [Z0 Z1]; first [exact Z0|lia]]).
  - destruct (brk_ok nb biggest dbg al cur_ max_ S M n new IH1 IH2 MB) as (S2 & E2 & X & Y & _).
    assert (S2 = S') by congruence. subst S2. split; [exact X|exact Y].
  - destruct (scan_ok nb biggest dbg al cur_ max_ obj_of argcp asc dseg xend S L IH1 SC) as (S2 & our2 & E2 & X & Y).
    assert (EE : Ok (S2, our2) = Ok (S', our)) by congruence. injection EE as -> ->. split; [exact X|]. exact (scan_mirrors _ _ _ _ _ _ obj_of argcp xend S M L S' our IH2 X Y).
  - destruct (keep_MInv S s' IH1 (reach_step _ _ _ _ _ _ _ _ _ (mi_R _ _ _ _ _ _ _ IH1) L E) K) as [X Y].
    split; [exact X|]. intros a t. rewrite Y. apply IH2.
Qed.

(* ---------------------------------------------------------------- C09 *)
(* Whatever mappings and unmappings happen, in whatever order, and whatever other allocators
   do on top of them, the records say about every address exactly what was last done there. *)
Theorem map_mirrors_partial : forall S M, mreach S M -> mirrors S M.
Proof. intros S M H. exact (proj2 (mreach_inv S M H)). Qed.

(* No notification within the caller's duties fails or loops. *)
Theorem map_mmap_exact_partial : forall S M addr len prot flags file off caller, mreach S M ->
  may_map nb biggest S addr (addr + RUP len) flags file ->
  exists S', do_mmap nb biggest dbg obj_of S addr len prot flags file off caller = Ok S' /\
    mreach S' (map_over M addr (addr + RUP len) (mkAttr prot flags file caller)) /\
    mapped S S' addr (addr + RUP len) (mkAttr prot flags file caller).
Proof.
  intros S M addr len prot flags file off caller H MM. destruct (mreach_inv S M H) as [MI _].
  destruct (mmap_ok nb biggest dbg al cur_ max_ obj_of S addr len prot flags file off caller MI MM) as (S' & E & X & Y).
  exists S'. split; [exact E|]. split; [|exact Y]. exact (m_map _ _ _ _ _ _ _ S M addr len prot flags file off caller S' H MM E).
Qed.

(* ---------------------------------------------------------------- C10 *)
Theorem map_munmap_exact_partial : forall S M addr len, mreach S M -> 0 < len ->
  may_unmap nb S addr (addr + RUP len) ->
  exists S', do_munmap nb biggest dbg S addr len = Ok S' /\ mreach S' (unmap M addr (addr + RUP len)) /\
    unmapped S S' addr (addr + RUP len).
Proof.
  intros S M addr len H HL MU. destruct (mreach_inv S M H) as [MI _].
  destruct (munmap_ok nb biggest dbg al cur_ max_ S addr len MI HL MU) as (S' & E & X & Y).
  exists S'. split; [exact E|]. split; [|exact Y]. exact (m_unmap _ _ _ _ _ _ _ S M addr len S' H HL MU E).
Qed.

(* Moving the end of the mapping that holds the program break. *)
Theorem map_brk_exact_partial : forall S M n new, mreach S M -> may_brk biggest S n new ->
  exists S', mmap_notify_brk biggest dbg S n new = Ok S' /\
    mreach S' (brk_moved M (b_end (bigs (fo S) n)) (RUP new)) /\
    (forall m w, other S' m w <-> other S m w).
Proof.
  intros S M n new H MB. destruct (mreach_inv S M H) as [MI MR].
  destruct (brk_ok nb biggest dbg al cur_ max_ S M n new MI MR MB) as (S' & E & X & _ & O & _).
  exists S'. split; [exact E|]. split; [|exact O]. exact (m_brk _ _ _ _ _ _ _ S M n new S' H MB E).
Qed.

(* ---------------------------------------------------------------- C11 *)
Theorem map_sequences_tidy_partial : forall S M, mreach S M -> tidy S.
Proof.
  intros S M H. destruct (mreach_inv S M H) as [MI _]. constructor.
  - intros n L A. destruct (mi_seq _ _ _ _ _ _ _ MI n _ (live_as _ _ L) A) as (P & SI & Eb & Ee & _).
    split; [exact P|]. split; [exact (proj1 SI)|]. split; [exact Eb|exact Ee].
  - intros m n Lm Ln Am An E. exact (mi_own _ _ _ _ _ _ _ MI m n _ _ (live_as _ _ Lm) (live_as _ _ Ln) Am An E).
Qed.

(* Consecutive entries of a well-formed sequence abut, and the sequence runs from the first
   to the last. *)
Theorem seq_ok_contiguous q : seq_ok q ->
  (forall i, (S i < length (used q))%nat -> e_end (nth i (used q) ent0) = e_begin (nth (S i) (used q) ent0)) /\
  (forall i, (i < length (used q))%nat -> e_begin (nth i (used q) ent0) < e_end (nth i (used q) ent0)) /\
  (1 <= length (used q) <= 8)%nat /\
  e_begin (nth 0 (used q) ent0) = q_begin q /\ e_end (nth (length (used q) - 1) (used q) ent0) = q_end q.
Proof.
  intro OK. assert (C := so_chain _ OK). assert (L := used_len _ OK). assert (U := so_used _ OK). unfold MAXLEN in U.
  revert L C. generalize (q_begin q) as lo, (q_end q) as hi, (used q) as l. intros lo hi l L C.
  assert (G : forall l lo hi, chain lo l hi ->
     (forall i, (S i < length l)%nat -> e_end (nth i l ent0) = e_begin (nth (S i) l ent0)) /\
     (forall i, (i < length l)%nat -> e_begin (nth i l ent0) < e_end (nth i l ent0)) /\
     ((1 <= length l)%nat -> e_begin (nth 0 l ent0) = lo /\ e_end (nth (length l - 1) l ent0) = hi)).
  { clear. induction l as [|e l IH]; intros lo hi C.
    - split; [intros i H; cbn in H; lia|]. split; [intros i H; cbn in H; lia|]. intro H. cbn in H. lia.
    - cbn [chain] in C. destruct C as (C1 & C2 & C3). destruct (IH _ _ C3) as (I1 & I2 & I3). split; [|split].
      + intros [|i] H; cbn [length nth] in *.
        * destruct l as [|e2 l]; [cbn in H; lia|]. cbn [chain] in C3. cbn. symmetry. apply C3.
        * apply (I1 i). lia.
      + intros [|i] H; cbn [length nth] in *; [lia|]. apply I2. lia.
      + intros _. cbn [nth]. split; [exact C1|]. destruct l as [|e2 l]; [cbn in *; exact C3|].
        replace (length (e :: e2 :: l) - 1)%nat with (S (length (e2 :: l) - 1)) by (cbn [length]; lia). cbn [nth]. apply I3. cbn [length]. lia. }
  destruct (G _ _ _ C) as (G1 & G2 & G3). destruct (G3 ltac:(lia)) as [G4 G5]. split; [exact G1|]. split; [exact G2|]. split; [lia|]. split; [exact G4|exact G5].
Qed.

(* ---------------------------------------------------------------- C12 *)
(* Looking an address up answers with the one entry that covers it, or says that there is
   none exactly when the address is not mapped. *)
Theorem map_query_exact_partial : forall S M a, mreach S M ->
  exists r, query nb S a = Ok r /\
  match r with
  | None => M a = None
  | Some (q, e) => M a = Some (attr_of q e) /\ e_begin e <= a < e_end e /\
      forall n e', live (fo S) n -> b_alloc (bigs (fo S) n) = MMAP -> In e' (used (seqs S (priv_of S n))) ->
        e_begin e' <= a < e_end e' -> e' = e
  end.
Proof.
  intros S M a H. destruct (mreach_inv S M H) as [MI MR]. unfold query.
  destruct (find_map nb biggest dbg al cur_ max_ S a MI) as (n & E & [(-> & NR)|(N & v & Hn & A & C)]); rewrite E; cbn [bind].
  - cbn [Nat.eqb]. exists None. split; [reflexivity|]. destruct (M a) as [t|] eqn:Ma; [|reflexivity]. exfalso. exact (NR t (proj1 (MR a t) Ma)).
  - destruct (Nat.eqb_spec n 0) as [|_]; [contradiction|].
    destruct (mi_seq _ _ _ _ _ _ _ MI n v Hn A) as (P & SI & Eb & Ee & _).
    assert (Hn' := Hn). apply view_inv in Hn'. destruct Hn' as [Ln Ev].
    assert (FP : priv_of S n = a_priv v) by (rewrite Ev; reflexivity). rewrite FP.
    assert (X := find_entry_spec (seqs S (a_priv v)) a (proj1 SI)). destruct (find_entry (seqs S (a_priv v)) a) as [e|] eqn:FE.
    + destruct X as (X1 & X2 & _ & X3). exists (Some (seqs S (a_priv v), e)). split; [reflexivity|]. split; [|split; [exact X2|]].
      * apply MR. apply (rec_iff nb biggest dbg al cur_ max_ S _ _ MI). exists n, v. split; [exact Hn|]. split; [exact A|]. exists e. auto.
      * intros m e' Lm Am In' Ce. destruct (mi_seq _ _ _ _ _ _ _ MI m _ (live_as _ _ Lm) Am) as (Pm & SIm & Ebm & Eem & _).
        change (a_priv (attrs_of (bigs (fo S) m))) with (priv_of S m) in *. assert (R1 := chain_in _ _ _ _ (so_chain _ (proj1 SIm)) In').
        assert (m = n).
        { destruct (Nat.eq_dec m n) as [|Nm]; [auto|]. exfalso.
          destruct (vf_top _ _ _ _ _ _ (fo S) (mi_R _ _ _ _ _ _ _ MI) m n _ v (live_as _ _ Lm) Hn Pm P Nm); lia. }
        subst m. rewrite FP in In'. apply X3; assumption.
    + exfalso. destruct (proj2 (says_range _ a (proj1 SI)) ltac:(lia)) as (t & St). apply (says_find _ a t (proj1 SI)) in St.
      destruct St as (e & F1 & _). congruence.
Qed.

End P.
