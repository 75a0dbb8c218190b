(* C44: mremap notification. *)
From Verif Require Import Base Big_model Big_spec Big_inv Big_create Big_hist Big_props Map_model Map_spec Big_field Map_seq Map_aug Map_state Map_unmap Map_loop Map_map Map_hist Map_props Remap_model.

(* The part of one mapping the caller may resize or move: [lo,hi) lies within one record,
   and its attributes are t.  A page that the record calls anonymous must not belong to a
   sequence that has a file. *)
Record may_remap (S : mst) (M : space) (n : nat) (lo hi : Z) (t : attr) : Prop := {
  mr_live : live (fo S) n /\ b_alloc (bigs (fo S) n) = MMAP;
  mr_in : b_begin (bigs (fo S) n) <= lo < b_end (bigs (fo S) n) /\ hi <= b_end (bigs (fo S) n);
  mr_attr : M lo = Some t;
  mr_file : at_file t = q_file (seqs S (priv_of S n)) }.

Section P.
Variables (nb : nat) (biggest : Z) (dbg : bool) (al : nat -> Z) (cur_ max_ : Z) (obj_of : Z -> Z).
Notation mreach := (mreach nb biggest dbg al cur_ max_ obj_of).
Notation MInv := (MInv nb biggest dbg al cur_ max_).
Notation notify_mremap := (notify_mremap nb biggest dbg obj_of).

(* what the code reads of the old mapping *)
Lemma old_entry S M n lo hi t : mreach S M -> may_remap S M n lo hi t ->
  find_from_root nb (fo S) lo MMAP false = Ok n /\ n <> 0%nat /\ hi <= q_end (seqs S (priv_of S n)) /\
  seq_ok (seqs S (priv_of S n)) /\
  exists e, find_entry (seqs S (priv_of S n)) lo = Some e /\ e_prot e = at_prot t /\ e_flags e = at_flags t.
Proof.
  intros H [[L A] [C HI] At Fi]. destruct (mreach_inv _ _ _ _ _ _ _ S M H) as [MI MR].
  assert (V := live_as _ _ L).
  destruct (mi_seq _ _ _ _ _ _ _ MI n _ V A) as (P & SI & Eb & Ee & _). change (a_priv (attrs_of (bigs (fo S) n))) with (priv_of S n) in *.
  destruct (find_map nb biggest dbg al cur_ max_ S lo MI) as (m & E & Cm).
  apply MR in At. destruct Cm as [(-> & NR)|(N & v & Hm & Am & Cv)]; [exfalso; exact (NR t At)|].
  destruct (mi_seq _ _ _ _ _ _ _ MI m v Hm Am) as (Pm & _).
  assert (m = n).
  { destruct (Nat.eq_dec m n) as [|Nm]; [auto|]. exfalso.
    destruct (vf_top _ _ _ _ _ _ (fo S) (mi_R _ _ _ _ _ _ _ MI) m n v _ Hm V Pm P Nm) as [D|D]; cbn [attrs_of a_begin a_end] in D; lia. }
  subst m. split; [exact E|]. split; [exact N|]. cbn [attrs_of a_end] in Ee. split; [lia|]. split; [exact (proj1 SI)|].
  apply (rec_iff _ _ _ _ _ _ _ _ _ MI) in At. destruct At as (m & w & Hm' & Aw & Sy).
  destruct (mi_seq _ _ _ _ _ _ _ MI m w Hm' Aw) as (Pw & SIw & Ebw & Eew & _).
  assert (X := says_in _ _ _ (proj1 SIw) Sy).
  assert (m = n).
  { destruct (Nat.eq_dec m n) as [|Nm]; [auto|]. exfalso.
    destruct (vf_top _ _ _ _ _ _ (fo S) (mi_R _ _ _ _ _ _ _ MI) m n w _ Hm' V Pw P Nm) as [D|D]; cbn [attrs_of a_begin a_end] in D; lia. }
  subst m. assert (w = attrs_of (bigs (fo S) n)) by congruence. subst w. change (a_priv (attrs_of (bigs (fo S) n))) with (priv_of S n) in Sy.
  apply (says_find _ _ _ (proj1 SI)) in Sy. destruct Sy as (e & Fe & ->). exists e. auto.
Qed.

(* Unchanged address and size: nothing happens. *)
Theorem remap_same_partial : forall S M n old osz t keep caller, mreach S M ->
  may_remap S M n old (old + RUP osz) t ->
  notify_mremap S old old osz (RUP osz) keep caller = Ok S.
Proof.
  intros S M n old osz t keep caller H MR. destruct (old_entry S M n _ _ t H MR) as (F & N & E & _).
  unfold Remap_model.notify_mremap. rewrite F. cbn [bind]. apply Nat.eqb_neq in N. rewrite N. cbn [bind].
  replace (q_end (seqs S (priv_of S n)) <? old + RUP osz) with false by lia. rewrite !Z.eqb_refl. reflexivity.
Qed.

(* Shrinking in place to a whole number of pages unmaps exactly the tail. *)
Theorem remap_shrink_partial : forall S M n old osz new t keep caller, mreach S M ->
  may_remap S M n old (old + RUP osz) t -> 0 < new < RUP osz -> RUP (RUP osz - new) = RUP osz - new ->
  may_unmap nb S (old + new) (old + RUP osz) ->
  exists S', notify_mremap S old old osz new keep caller = Ok S' /\
    mreach S' (unmap M (old + new) (old + RUP osz)) /\ unmapped S S' (old + new) (old + RUP osz).
Proof.
  intros S M n old osz new t keep caller H MR HN HA MU. destruct (old_entry S M n _ _ t H MR) as (F & N & E & _ & e & Fe & _).
  replace (old + RUP osz) with ((old + new) + RUP (RUP osz - new)) in MU by lia.
  destruct (map_munmap_exact_partial nb biggest dbg al cur_ max_ obj_of S M (old + new) (RUP osz - new) H ltac:(clear MU; lia) MU) as (S' & E1 & E2 & E3).
  replace ((old + new) + RUP (RUP osz - new)) with (old + RUP osz) in E2, E3 by (clear MU; lia). clear MU.
  exists S'. split; [|auto]. unfold Remap_model.notify_mremap. rewrite F. cbn [bind]. apply Nat.eqb_neq in N. rewrite N. cbn [bind].
  replace (q_end (seqs S (priv_of S n)) <? old + RUP osz) with false by lia. rewrite Z.eqb_refl.
  replace (new =? RUP osz) with false by lia. cbn [andb]. replace (new =? 0) with false by lia. cbn [negb]. rewrite asrt_true by reflexivity. cbn [bind].
  replace (new <? RUP osz) with true by lia. rewrite Fe. exact E1.
Qed.

(* Growing in place maps exactly the part added, with the old part's attributes. *)
Theorem remap_grow_partial : forall S M n old osz new t keep caller, mreach S M ->
  may_remap S M n old (old + RUP osz) t -> 0 < RUP osz < new ->
  may_map nb biggest S (old + RUP osz) (old + RUP osz + RUP (new - RUP osz)) (at_flags t) (at_file t) ->
  exists S', notify_mremap S old old osz new keep caller = Ok S' /\
    mreach S' (map_over M (old + RUP osz) (old + RUP osz + RUP (new - RUP osz)) (mkAttr (at_prot t) (at_flags t) (at_file t) caller)) /\
    mapped S S' (old + RUP osz) (old + RUP osz + RUP (new - RUP osz)) (mkAttr (at_prot t) (at_flags t) (at_file t) caller).
Proof.
  intros S M n old osz new t keep caller H MR HN MM. destruct (old_entry S M n _ _ t H MR) as (F & N & E & _ & e & Fe & Ep & Ef).
  destruct (map_mmap_exact_partial nb biggest dbg al cur_ max_ obj_of S M (old + RUP osz) (new - RUP osz) (at_prot t) (at_flags t) (at_file t)
     (e_off e + (old - e_begin e) + RUP osz) caller H MM) as (S' & E1 & E2 & E3). clear MM.
  exists S'. split; [|auto]. unfold Remap_model.notify_mremap. rewrite F. cbn [bind]. apply Nat.eqb_neq in N. rewrite N. cbn [bind].
  replace (q_end (seqs S (priv_of S n)) <? old + RUP osz) with false by lia. rewrite Z.eqb_refl.
  replace (new =? RUP osz) with false by lia. cbn [andb]. replace (new =? 0) with false by lia. cbn [negb]. rewrite asrt_true by reflexivity. cbn [bind].
  replace (new <? RUP osz) with false by lia. replace (0 <? RUP osz) with true by lia. replace (RUP osz <? new) with true by lia. cbn [andb].
  rewrite Fe, Ep, Ef, <- (mr_file _ _ _ _ _ _ MR). exact E1.
Qed.

(* An old size of zero maps the old page's contents a second time, elsewhere. *)
Theorem remap_second_view_partial : forall S M n mapped_at old new t keep caller, mreach S M ->
  may_remap S M n old old t -> mapped_at <> old -> 0 < new ->
  may_map nb biggest S mapped_at (mapped_at + RUP new) (at_flags t) (at_file t) ->
  exists S', notify_mremap S mapped_at old 0 new keep caller = Ok S' /\
    mreach S' (map_over M mapped_at (mapped_at + RUP new) (mkAttr (at_prot t) (at_flags t) (at_file t) caller)) /\
    mapped S S' mapped_at (mapped_at + RUP new) (mkAttr (at_prot t) (at_flags t) (at_file t) caller).
Proof.
  intros S M n at_ old new t keep caller H MR ND HN MM. destruct (old_entry S M n _ _ t H MR) as (F & N & E & _ & e & Fe & Ep & Ef).
  destruct (map_mmap_exact_partial nb biggest dbg al cur_ max_ obj_of S M at_ new (at_prot t) (at_flags t) (at_file t)
     (e_off e + (old - e_begin e)) caller H MM) as (S' & E1 & E2 & E3). clear MM.
  exists S'. split; [|auto]. unfold Remap_model.notify_mremap. change (RUP 0) with 0. rewrite Z.add_0_r. rewrite F. cbn [bind]. apply Nat.eqb_neq in N. rewrite N. cbn [bind].
  replace (q_end (seqs S (priv_of S n)) <? old) with false by lia. apply Z.eqb_neq in ND. rewrite ND. cbn [andb negb].
  replace (new =? 0) with false by lia. cbn [negb]. rewrite asrt_true by reflexivity. cbn [bind]. cbn [Z.eqb].
  rewrite Fe, Ep, Ef, <- (mr_file _ _ _ _ _ _ MR). cbn. exact E1.
Qed.

(* ---- moving ---- *)
Definition off_part (e : entry) (old size : Z) : Prop := e_end e <= old \/ old + size <= e_begin e.

Lemma loop_skip mapped_at old size caller k : forall f T p i,
  (q_nused (seqs T p) <= MAXLEN)%nat -> (i + k = q_nused (seqs T p))%nat -> (k <= f)%nat ->
  (forall j, (i <= j < q_nused (seqs T p))%nat -> off_part (slot (q_maps (seqs T p)) j) old size) ->
  move_loop nb biggest dbg obj_of f T p i mapped_at old size caller = Ok (T, q_nused (seqs T p)).
Proof.
  induction k as [|k IH]; intros f T p i HM HK HF HO.
  - destruct f; cbn [move_loop]; replace (Nat.eqb i (q_nused (seqs T p))) with true by lia; f_equal; f_equal; lia.
  - destruct f as [|f]; [lia|]. cbn [move_loop]. replace (Nat.eqb i (q_nused (seqs T p))) with false by lia.
    replace (Nat.leb MAXLEN i) with false by lia. specialize (HO i ltac:(lia)) as H0. unfold off_part in H0.
    replace (Z.max (e_begin (slot (q_maps (seqs T p)) i)) old <? Z.min (e_end (slot (q_maps (seqs T p)) i)) (old + size)) with false by lia.
    cbn [bind]. apply IH; [exact HM|lia|lia|]. intros j Hj. apply HO. lia.
Qed.

Lemma loop_to mapped_at old size caller k : forall f T p i,
  (q_nused (seqs T p) <= MAXLEN)%nat -> (i + k < q_nused (seqs T p))%nat ->
  (forall j, (i <= j < i + k)%nat -> off_part (slot (q_maps (seqs T p)) j) old size) ->
  move_loop nb biggest dbg obj_of (k + f) T p i mapped_at old size caller = move_loop nb biggest dbg obj_of f T p (i + k) mapped_at old size caller.
Proof.
  induction k as [|k IH]; intros f T p i HM HK HO; [rewrite Nat.add_0_r; reflexivity|].
  cbn [Nat.add move_loop]. replace (Nat.eqb i (q_nused (seqs T p))) with false by lia.
  replace (Nat.leb MAXLEN i) with false by lia. specialize (HO i ltac:(lia)) as H0. unfold off_part in H0.
  replace (Z.max (e_begin (slot (q_maps (seqs T p)) i)) old <? Z.min (e_end (slot (q_maps (seqs T p)) i)) (old + size)) with false by lia.
  cbn [bind]. rewrite IH; [f_equal; lia|exact HM|lia|]. intros j Hj. apply HO. lia.
Qed.

Lemma chain_nth l : forall lo hi i j, chain lo l hi -> (i < j < length l)%nat -> e_end (nth i l ent0) <= e_begin (nth j l ent0).
Proof.
  induction l as [|e l IH]; intros lo hi i j C HL; [cbn in HL; lia|]. cbn [chain] in C. destruct C as (C1 & C2 & C3). cbn [length] in HL.
  destruct j as [|j]; [lia|]. destruct i as [|i]; cbn [nth].
  - assert (HI : In (nth j l ent0) l) by (apply nth_In; lia). assert (X := chain_in _ _ _ _ C3 HI). lia.
  - apply (IH _ _ i j C3). lia.
Qed.

Lemma used_slot q i : (i < q_nused q)%nat -> nth i (used q) ent0 = slot (q_maps q) i.
Proof.
  unfold used, slot. generalize (q_maps q) as l. revert i. induction (q_nused q) as [|k IH]; intros i l H; [lia|].
  destruct l as [|e l]; [destruct i; reflexivity|]. destruct i as [|i]; [reflexivity|]. cbn [firstn nth]. apply IH. lia.
Qed.

(* the whole loop, when the range lies within one entry *)
Lemma loop_one S q p e mapped_at old size caller S1 : seqs S p = q -> seqs S1 p = q -> seq_ok q -> In e (used q) ->
  0 < size -> e_begin e <= old -> old + size <= e_end e ->
  do_mmap nb biggest dbg obj_of S mapped_at size (e_prot e) (e_flags e) (q_file q) (e_off e + (old - e_begin e)) caller = Ok S1 ->
  move_loop nb biggest dbg obj_of (2 * MAXLEN) S p 0 mapped_at old size caller = Ok (S1, q_nused q).
Proof.
  intros E0 E1 OK HI HS B1 B2 DO. assert (L := used_len _ OK). assert (U := so_used _ OK). unfold MAXLEN in *.
  destruct (In_nth _ _ ent0 HI) as (k & Hk & Ek). rewrite L in Hk.
  assert (OFF : forall j, (j < q_nused q)%nat -> j <> k -> off_part (slot (q_maps q) j) old size).
  { intros j Hj Nj. rewrite <- used_slot by exact Hj. unfold off_part. destruct (Nat.lt_ge_cases j k).
    - assert (X := chain_nth _ _ _ j k (so_chain _ OK) ltac:(lia)). rewrite Ek in X. lia.
    - assert (X := chain_nth _ _ _ k j (so_chain _ OK) ltac:(lia)). rewrite Ek in X. lia. }
  replace (2 * 8)%nat with (k + Datatypes.S (15 - k))%nat by lia.
  rewrite loop_to; [|rewrite E0; unfold MAXLEN; lia|rewrite E0; lia|intros j Hj; rewrite E0; apply OFF; lia].
  cbn [Nat.add move_loop]. rewrite E0. replace (Nat.eqb k (q_nused q)) with false by lia.
  replace (Nat.leb MAXLEN k) with false by (unfold MAXLEN; lia). rewrite <- used_slot by lia. rewrite Ek.
  rewrite (Z.max_r (e_begin e) old) by lia. rewrite (Z.min_r (e_end e) (old + size)) by lia.
  replace (old <? old + size) with true by lia. replace (old + (mapped_at - old)) with mapped_at by lia. replace (old + size - old) with size by lia.
  rewrite DO. cbn [bind]. rewrite <- E1.
  apply (loop_skip mapped_at old size caller (q_nused q - Datatypes.S k)); rewrite ?E1; unfold MAXLEN; [lia|lia|lia|]. intros j Hj. apply OFF; lia.
Qed.

Lemma RUP_idem x : RUP (RUP x) = RUP x.
Proof. unfold RUP, PAGE. lia. Qed.
Lemma RUP_aligned x : RUP x mod PAGE = 0.
Proof. unfold RUP, PAGE. lia. Qed.

(* Moving a range that lies within one entry, keeping its size in pages, to a place where nothing
   is and not right after another mapping: the mapping appears there with its attributes, and is gone (unless told
   to stay) from the old place.  Two free records are at hand. *)
Theorem remap_move_partial : forall S M n e mapped_at old osz new t keep caller, mreach S M ->
  may_remap S M n old (old + RUP osz) t -> mapped_at <> old -> 0 < new -> RUP new = RUP osz ->
  In e (used (seqs S (priv_of S n))) -> e_begin e <= old -> old + RUP osz <= e_end e ->
  0 < RUP osz -> 0 < mapped_at -> mapped_at mod PAGE = 0 ->
  may_map_free nb biggest S mapped_at (mapped_at + RUP osz) -> M (mapped_at - 1) = None ->
  may_unmap nb S old (old + RUP osz) ->
  (exists i j, i <> j /\ (0 < i < nb)%nat /\ (0 < j < nb)%nat /\ in_use (bigs (fo S) i) = false /\ in_use (bigs (fo S) j) = false) ->
  exists S', notify_mremap S mapped_at old osz new keep caller = Ok S' /\
    mreach S' (let M1 := map_over M mapped_at (mapped_at + RUP osz) (mkAttr (at_prot t) (at_flags t) (at_file t) caller) in
               if keep then M1 else unmap M1 old (old + RUP osz)).
Proof.
  intros S M n e at_ old osz new t keep caller H MR ND HN HR HIn B1 B2 HS HA AA MF MB MU (i1 & i2 & NI & I1 & I2 & U1 & U2).
  destruct (old_entry S M n _ _ t H MR) as (F & N & E & OK & e' & Fe & Ep & Ef).
  destruct (mreach_inv _ _ _ _ _ _ _ S M H) as [MI MRR].
  assert (e' = e).
  { assert (X := find_entry_spec _ old OK). rewrite Fe in X. destruct X as (_ & _ & _ & X). symmetry. apply X; [exact HIn|lia]. }
  subst e'. set (size := RUP osz) in *. assert (AS : aligned (at_ + RUP size)).
  { unfold aligned, size, RUP, PAGE in *. lia. }
  assert (ID : RUP size = size) by apply RUP_idem.
  destruct (mmap_new nb biggest dbg al cur_ max_ obj_of S at_ size (e_prot e) (e_flags e) (q_file (seqs S (priv_of S n))) (e_off e + (old - e_begin e)) caller)
    as (S1 & D1 & MI1 & MP & SQ & ST & nw & V0 & V1 & VO); try assumption.
  { rewrite ID. clear AA AS. lia. }
  { rewrite ID. exact MF. }
  { intros u Hu. apply MRR in Hu. congruence. }
  rewrite ID in AS, MP, V1. change (aligned at_) in AA.
  assert (Mf : q_file (seqs S (priv_of S n)) = at_file t) by (symmetry; exact (mr_file _ _ _ _ _ _ MR)).
  assert (MM : may_map nb biggest S at_ (at_ + RUP size) (e_flags e) (q_file (seqs S (priv_of S n)))).
  { rewrite ID. unfold may_map. split; [clear AA AS MU; lia|]. split; [exact AA|]. split; [exact AS|]. left. exact MF. }
  assert (R1 := m_map _ _ _ _ _ _ _ S M at_ size (e_prot e) (e_flags e) _ _ caller S1 H MM D1).
  rewrite ID, Ep, Ef, Mf in R1.
  destruct (mr_live _ _ _ _ _ _ MR) as [Ln An]. destruct (mr_in _ _ _ _ _ _ MR) as [C1 C2].
  destruct (mi_seq _ _ _ _ _ _ _ MI n _ (live_as _ _ Ln) An) as (Pn & SIn & Ebn & Een & FRn).
  change (a_priv (attrs_of (bigs (fo S) n))) with (priv_of S n) in *.
  assert (SP : seqs S1 (priv_of S n) = seqs S (priv_of S n)).
  { apply SQ. clear AA AS MU. lia. }
  assert (DIS : at_ + size <= old \/ old + size <= at_).
  { destruct (Z_le_gt_dec (at_ + size) old); [auto|]. destruct (Z_le_gt_dec (old + size) at_); [auto|]. exfalso. apply (mf_clear _ _ _ _ _ MF n Ln).
    exists (Z.max at_ old). unfold covers. clear AA AS MU. lia. }
  assert (LP := loop_one S _ (priv_of S n) e at_ old size caller S1 eq_refl SP OK HIn HS B1 B2 D1).
  assert (MU1 : may_unmap nb S1 old (old + size)).
  { assert (LV : forall m, live (fo S1) m -> m <> nw -> live (fo S) m /\ attrs_of (bigs (fo S1) m) = attrs_of (bigs (fo S) m)).
    { intros m L N0. assert (X := VO m N0). rewrite (live_as _ _ L) in X. symmetry in X. apply view_inv in X. exact X. }
    assert (NW : attrs_of (bigs (fo S1) nw) = mkAttrs at_ (at_ + size) 0 MMAP 0 (fresh S) 0).
    { apply view_inv in V1. symmetry. apply V1. }
    assert (NWm : ~ meets (fo S1) nw old (old + size)).
    { intros (a & A1 & A2). unfold covers in A2. assert (Y1 := f_equal a_begin NW). assert (Y2 := f_equal a_end NW). cbn [attrs_of a_begin a_end] in Y1, Y2. clear AA AS MU. lia. }
    assert (FLD : forall m, live (fo S1) m -> m <> nw -> b_begin (bigs (fo S1) m) = b_begin (bigs (fo S) m) /\ b_end (bigs (fo S1) m) = b_end (bigs (fo S) m)
       /\ b_parent (bigs (fo S1) m) = b_parent (bigs (fo S) m) /\ b_alloc (bigs (fo S1) m) = b_alloc (bigs (fo S) m)).
    { intros m L N0. destruct (LV m L N0) as [_ X]. assert (Y1 := f_equal a_begin X). assert (Y2 := f_equal a_end X). assert (Y3 := f_equal a_parent X). assert (Y4 := f_equal a_alloc X). cbn [attrs_of a_begin a_end a_parent a_alloc] in *. auto. }
    constructor.
    - exact (mu_range _ _ _ _ MU).
    - rewrite ST. intros (a & A1 & A2). apply (mu_start _ _ _ _ MU). exists a. split; [exact A1|].
      destruct (reach_good _ _ _ _ _ _ _ (mi_R _ _ _ _ _ _ _ MI)) as [(K & rk & HI) _].
      assert (LS : live (fo S) (start (fo S))) by (apply (proj1 (I_kid _ _ _ _ HI 0%nat (start (fo S)))), (I_start _ _ _ _ HI)).
      assert (N0 : start (fo S) <> nw). { intro X. rewrite <- X in V0. rewrite (live_as _ _ LS) in V0. discriminate. }
      assert (X := VO _ N0). rewrite (live_as _ _ LS) in X. apply view_inv in X. destruct X as [_ X].
      assert (Y1 := f_equal a_begin X). assert (Y2 := f_equal a_end X). cbn [attrs_of a_begin a_end] in Y1, Y2. unfold covers in *. rewrite Y1, Y2. exact A2.
    - intros m c Lm Am Me Pa Lc Pc.
      destruct (Nat.eq_dec m nw) as [->|Nm]; [exfalso; exact (NWm Me)|].
      destruct (Nat.eq_dec c nw) as [->|Nc].
      { exfalso. assert (X := f_equal a_parent NW). cbn [attrs_of a_parent] in X. rewrite X in Pc. destruct Lm as [Lm _]. congruence. }
      destruct (FLD m Lm Nm) as (F1 & F2 & F3 & F4). destruct (FLD c Lc Nc) as (G1 & G2 & G3 & G4).
      rewrite G1, G2. apply (mu_kids _ _ _ _ MU m c).
      + apply (LV m Lm Nm).
      + congruence.
      + destruct Me as (a & A1 & A2). exists a. split; [exact A1|]. unfold covers in *. rewrite <- F1, <- F2. exact A2.
      + rewrite <- F1, <- F2. exact Pa.
      + apply (LV c Lc Nc).
      + congruence.
    - intros _ _ _ _ _.
      assert (FR : forall i, i <> nw -> (0 < i < nb)%nat -> in_use (bigs (fo S) i) = false -> has_free nb (fo S1)).
      { intros i Ni Hi Ui. exists i. split; [lia|]. destruct (in_use (bigs (fo S1) i)) eqn:Q; [|reflexivity]. exfalso.
        assert (Li : live (fo S1) i) by (split; [lia|exact Q]). destruct (LV i Li Ni) as [[_ X] _]. congruence. }
      destruct (Nat.eq_dec i1 nw) as [->|Q1]; [apply (FR i2); auto|apply (FR i1); auto]. }
  assert (FIN : exists S', (if keep then Ok S1 else do_munmap nb biggest dbg S1 old size) = Ok S' /\
     mreach S' (let M1 := map_over M at_ (at_ + size) (mkAttr (at_prot t) (at_flags t) (at_file t) caller) in if keep then M1 else unmap M1 old (old + size))).
  { destruct keep; [exists S1; split; [reflexivity|exact R1]|].
    rewrite <- ID in MU1 at 1.
    destruct (map_munmap_exact_partial nb biggest dbg al cur_ max_ obj_of S1 _ old size R1 HS MU1) as (S' & E1 & E2 & _). rewrite ID in E2. exists S'. auto. }
  destruct FIN as (S' & E1 & E2). exists S'. split; [|exact E2].
  unfold Remap_model.notify_mremap. fold size. rewrite F. cbn [bind]. apply Nat.eqb_neq in N. rewrite N. cbn [bind].
  clear AA AS MU MU1 MM. replace (q_end (seqs S (priv_of S n)) <? old + size) with false by lia. apply Z.eqb_neq in ND. rewrite ND. cbn [andb negb].
  replace (new =? 0) with false by lia. cbn [negb]. rewrite asrt_true by reflexivity. cbn [bind].
  replace (size =? 0) with false by lia. cbn [negb]. assert (size <? new = false) as -> by (unfold size in *; rewrite <- HR; unfold RUP, rup, PAGE; lia).
  rewrite LP. cbn [bind]. exact E1.
Qed.
End P.
