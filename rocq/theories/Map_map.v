(* Mapping: each branch, and the whole. *)
From Verif Require Import Base Big_model Big_spec Big_inv Big_lookup Big_links Big_create Big_hist Big_props Map_model Map_spec Big_field Map_seq Map_aug Map_state Map_unmap Map_loop.

Section Mp.
Variables (nb : nat) (biggest : Z) (dbg : bool) (al : nat -> Z) (cur_ max_ : Z) (obj_of : Z -> Z).
Notation R := (reach nb biggest dbg al cur_ max_).
Notation MInv := (MInv nb biggest dbg al cur_ max_).

Lemma free_index S lo hi : MInv S -> aligned lo -> 0 < lo < hi -> (forall n, live (fo S) n -> ~ meets (fo S) n lo hi) ->
  existsb (fun i => negb (Nat.eqb (pidx (fo S) i) 0)) (zrange (PAGENUM lo) ((hi - lo) / PAGE)) = false.
Proof.
  intros MI A H N. apply Bool.not_true_iff_false. intro E. apply existsb_exists in E. destruct E as (i & Hi & Pi).
  destruct (reach_good _ _ _ _ _ _ _ (mi_R _ _ _ _ _ _ _ MI)) as [(K & rk & HI) _].
  destruct (I_pix _ _ _ _ HI i) as (Nd & Sp & _). destruct (Nat.eqb_spec (pidx (fo S) i) 0) as [|NZ]; [discriminate|].
  destruct Nd as [|Nd]; [congruence|]. destruct Sp as [|[S1 S2]]; [congruence|].
  unfold zrange in Hi. apply in_map_iff in Hi. destruct Hi as (k & <- & Hk). apply in_seq in Hk.
  apply (N _ Nd). exists (PAGE * (PAGENUM lo + Z.of_nat k)). unfold covers. unfold aligned, PAGENUM, PAGE in *. lia.
Qed.

(* a fresh top-level mapping *)
Lemma finish_new S sqx lo hi prot flags off file caller : MInv S -> (forall i, sqx i = seqs S i) ->
  0 < lo < hi -> aligned lo -> aligned hi -> (forall n, live (fo S) n -> ~ meets (fo S) n lo hi) -> has_free nb (fo S) -> hi - lo <= biggest ->
  exists S', (do '(q, ok) <- augment dbg obj_of seq0 lo hi prot flags off file caller ;
    if negb ok then Abort else
    let '(S2, p) := alloc_seq (mkS (fo S) sqx (fresh S)) q in
    do '(s3, n) <- new_bigalloc nb biggest dbg (fo S2) (q_begin q) (q_end q - q_begin q) 0 0 MMAP ;
    Ok (set_fo S2 (set_priv s3 n p))) = Ok S' /\ MInv S' /\ mapped S S' lo hi (mkAttr prot flags file caller) /\
    (forall i, i <> fresh S -> seqs S' i = seqs S i) /\ start (fo S') = start (fo S) /\
    exists nw, view (fo S) nw = None /\ view (fo S') nw = Some (mkAttrs lo hi 0 MMAP 0 (fresh S) 0) /\
      forall m, m <> nw -> view (fo S') m = view (fo S) m.
Proof.
  intros MI SQ HL A1 A2 CL HFr HB. assert (HR := mi_R _ _ _ _ _ _ _ MI).
  destruct (augment_new obj_of dbg lo hi prot flags off file caller ltac:(lia) ltac:(lia)) as (q & E & SI & Qb & Qe & SY).
  rewrite E. cbn [bind negb alloc_seq fo seqs fresh]. rewrite Qb, Qe.
  destruct (big_create_exact nb biggest dbg al cur_ max_ (fo S) lo (hi - lo) 0 0 MMAP 0 HR HFr HB) as (s3 & n & E3 & HR3 & Nn & Vn & VW & St & _).
  { replace (lo + (hi - lo)) with hi by lia. split; [lia|]. cbn [Nat.eqb]. split; [auto|]. intros c Lc Pc.
    assert (Q := vf_range _ _ _ _ _ _ (fo S) HR c _ (live_as _ _ Lc)). cbn in Q.
    destruct (Z.le_gt_cases (b_end (bigs (fo S) c)) lo); [auto|]. destruct (Z.le_gt_cases hi (b_begin (bigs (fo S) c))); [auto|].
    exfalso. clear A1 A2. apply (CL c Lc). exists (Z.max lo (b_begin (bigs (fo S) c))). unfold covers. lia. }
  { unfold parent_choice. cbn [Nat.eqb]. replace (lo + (hi - lo)) with hi by lia. unfold lookup_answer. cbn [Nat.eqb]. split; intros m Lm Cm; apply (CL m Lm); eexists; (split; [|exact Cm]); lia. }
  replace (lo + (hi - lo)) with hi in VW by lia. rewrite E3. cbn [bind].
  assert (V3n := VW n). rewrite Nat.eqb_refl in V3n. assert (L3 := some_live _ _ _ V3n).
  destruct (reach_good _ _ _ _ _ _ _ HR3) as [(K3 & rk3 & HI3) _].
  destruct (set_priv_ok nb al s3 K3 rk3 n (fresh S) HI3 L3) as [_ VW3].
  assert (HR4 : R (set_priv s3 n (fresh S))) by (apply (reach_step _ _ _ _ _ _ s3 (SetPriv n (fresh S))); [exact HR3|exact L3|reflexivity]).
  assert (V4n : view (set_priv s3 n (fresh S)) n = Some (mkAttrs lo hi 0 MMAP 0 (fresh S) 0)).
  { rewrite VW3, Nat.eqb_refl. apply view_inv in V3n. destruct V3n as [_ X]. inversion X. reflexivity. }
  assert (V4o : forall m, m <> n -> view (set_priv s3 n (fresh S)) m = view (fo S) m).
  { intros m N. rewrite VW3. destruct (Nat.eqb_spec m n); [congruence|]. rewrite VW. destruct (Nat.eqb_spec m n); [congruence|reflexivity]. }
  destruct (put_MInv nb biggest dbg al cur_ max_ S (set_priv s3 n (fresh S)) (fun i => if Nat.eqb i (fresh S) then q else sqx i) (1 + fresh S) n
     (mkAttrs lo hi 0 MMAP 0 (fresh S) 0) q) as [MI' RC]; try assumption; try reflexivity; cbn [a_priv a_begin a_end]; try lia.
  { intros m w N Aw. rewrite (V4o m N). tauto. }
  { intros i N. destruct (Nat.eqb_spec i (fresh S)); [congruence|]. apply SQ. }
  { rewrite Nat.eqb_refl. reflexivity. }
  eexists. split; [reflexivity|]. unfold set_fo. cbn [seqs fresh]. split; [exact MI'|]. split.
  2:{ split; [intros i N; cbn [seqs]; destruct (Nat.eqb_spec i (fresh S)); [congruence|apply SQ]|]. split; [exact St|].
      exists n. auto. }
  constructor.
  - intros a t. rewrite RC, SY. rewrite (rec_new nb biggest dbg al cur_ max_ S n a t MI) by (intros v Hv; congruence). split.
    + intros [H|H]; [auto|]. right. split; [|exact H]. intro C. destruct H as (m & w & N & Hm & Am & Sm).
      destruct (mi_seq _ _ _ _ _ _ _ MI m w Hm Am) as (Pk & SIm & Eb & Ee & _). assert (X := says_in _ _ _ (proj1 SIm) Sm).
      apply view_inv in Hm. destruct Hm as [Lm ->]. apply (CL m Lm). exists a. split; [exact C|]. unfold covers. cbn in *. lia.
    + intros [H|[_ H]]; auto.
  - intros m w. unfold other. cbn [fo]. destruct (Nat.eq_dec m n) as [->|N].
    + rewrite V4n, Vn. split; intros (z & Hz & Az & _); [injection Hz as <-; cbn in Az; congruence|discriminate].
    + rewrite (V4o m N). tauto.
Qed.

(* the sequence of mapping n, and its range, are replaced *)
Lemma finish_put S n v s' q' lo hi e t0 : MInv S -> view (fo S) n = Some v -> a_alloc v = MMAP -> R s' ->
  (forall m, view s' m = if Nat.eqb m n then Some (mkAttrs (a_begin v) e (a_parent v) (a_alloc v) (a_sub v) (a_priv v) (a_subpriv v)) else view (fo S) m) ->
  seq_inv q' -> q_begin q' = a_begin v -> q_end q' = e ->
  (forall a t, says q' a t <-> (lo <= a < hi /\ t = t0) \/ (~ (lo <= a < hi) /\ says (seqs S (a_priv v)) a t)) ->
  (forall a t, recO S n a t -> ~ (lo <= a < hi)) ->
  MInv (set_fo (set_seq S (a_priv v) q') s') /\ mapped S (set_fo (set_seq S (a_priv v) q') s') lo hi t0.
Proof.
  intros MI Hn A HR' VW SI Qb Qe SY OFF. destruct (mi_seq _ _ _ _ _ _ _ MI n v Hn A) as (Pn & SIn & Eb & Ee & FR).
  assert (V'n := VW n). rewrite Nat.eqb_refl in V'n.
  assert (V'o : forall m, m <> n -> view s' m = view (fo S) m) by (intros m N; rewrite VW; destruct (Nat.eqb_spec m n); [congruence|reflexivity]).
  destruct (put_MInv nb biggest dbg al cur_ max_ S s' (fun i => if Nat.eqb i (a_priv v) then q' else seqs S i) (fresh S) n
     (mkAttrs (a_begin v) e (a_parent v) (a_alloc v) (a_sub v) (a_priv v) (a_subpriv v)) q') as [MI' RC]; try assumption; cbn [a_priv a_begin a_end]; try lia.
  { intros m w N Aw. rewrite (V'o m N). tauto. }
  { intros i N. destruct (Nat.eqb_spec i (a_priv v)); [congruence|reflexivity]. }
  { rewrite Nat.eqb_refl. reflexivity. }
  { left. exists v. auto. }
  unfold set_fo, set_seq. cbn [fo seqs fresh]. split; [exact MI'|]. constructor.
  - intros a t. rewrite RC, SY. rewrite (rec_split nb biggest dbg al cur_ max_ S n v a t MI Hn A). split.
    + intros [[H|[N H]]|H]; auto. right. split; [exact (OFF a t H)|auto].
    + intros [H|(N & [H|H])]; auto.
  - intros m w. unfold other. cbn [fo]. destruct (Nat.eq_dec m n) as [->|N].
    + rewrite V'n, Hn. split; intros (z & Hz & Az & _); injection Hz as <-; cbn in Az; congruence.
    + rewrite (V'o m N). tauto.
Qed.

Lemma mlen_of lo hi : aligned lo -> aligned hi -> RUP (hi - lo) = hi - lo.
Proof. unfold aligned, RUP, rup, PAGE. lia. Qed.

Lemma mmap_free S addr len prot flags file off caller : MInv S -> 0 < addr < addr + RUP len -> aligned addr -> aligned (addr + RUP len) ->
  may_map_free nb biggest S addr (addr + RUP len) ->
  exists S', do_mmap nb biggest dbg obj_of S addr len prot flags file off caller = Ok S' /\ MInv S' /\
    mapped S S' addr (addr + RUP len) (mkAttr prot flags file caller).
Proof.
  intros MI HL A1 A2 [CL HFr HB HX]. set (hi := addr + RUP len) in *. assert (HR := mi_R _ _ _ _ _ _ _ MI).
  unfold do_mmap. replace (addr =? 0) with false by lia.
  assert (FI := free_index S addr hi MI A1 HL CL). replace (hi - addr) with (RUP len) in FI by (unfold hi; lia). rewrite FI. cbn [andb].
  fold hi. destruct (find_map nb biggest dbg al cur_ max_ S (addr - 1) MI) as (n & E & Cn). rewrite E. cbn [bind].
  assert (NEW := finish_new S (seqs S) addr hi prot flags off file caller MI (fun i => eq_refl) HL A1 A2 CL HFr ltac:(lia)).
  destruct Cn as [(-> & _)|(N & v & Hn & A & C)].
  - cbn [Nat.eqb negb].
    destruct (find_map nb biggest dbg al cur_ max_ S addr MI) as (ob & E1 & [(-> & _)|(N1 & v1 & Hn1 & Av1 & C1)]).
    2:{ exfalso. apply view_inv in Hn1. destruct Hn1 as [L1 ->]. apply (CL ob L1). exists addr. split; [lia|exact C1]. }
    rewrite E1. cbn [bind].
    destruct (find_map nb biggest dbg al cur_ max_ S (hi - 1) MI) as (oe & E2 & _). rewrite E2. cbn [bind Nat.eqb negb andb].
    destruct NEW as (S' & N1 & N2 & N3 & _). exists S'. destruct S as [s sq fr]. split; [exact N1|]. split; [exact N2|exact N3].
  - destruct (Nat.eqb_spec n 0) as [|_]; [contradiction|]. cbn [negb bind]. destruct (Nat.eqb_spec n 0) as [|_]; [contradiction|].
    destruct (mi_seq _ _ _ _ _ _ _ MI n v Hn A) as (Pn & SIn & Eb & Ee & FR).
    destruct (vf_align _ _ _ _ _ _ (fo S) HR n v Hn Pn) as [Al1 Al2].
    change (aligned (a_begin v)) in Al1. change (aligned (a_end v)) in Al2.
    assert (RV := vf_range _ _ _ _ _ _ (fo S) HR n v Hn).
    destruct (view_inv _ _ _ Hn) as [Ln Ev].
    assert (Fe : b_end (bigs (fo S) n) = a_end v) by (rewrite Ev; reflexivity).
    assert (Fb : b_begin (bigs (fo S) n) = a_begin v) by (rewrite Ev; reflexivity).
    assert (Fp : priv_of S n = a_priv v) by (rewrite Ev; reflexivity).
    assert (Fpa : b_parent (bigs (fo S) n) = 0%nat) by (rewrite Ev in Pn; exact Pn).
    assert (EA : a_end v = addr).
    { destruct (Z.eq_dec (a_end v) addr); [auto|]. exfalso. apply (CL n Ln). exists addr. split; [lia|]. unfold covers. lia. }
    rewrite Fe, Fp.
    destruct (augment_spec obj_of dbg (seqs S (a_priv v)) addr hi prot flags off file caller SIn ltac:(lia) ltac:(lia)) as (q' & ok & EQ & SP & _).
    { left. lia. } { right. right. lia. }
    rewrite EQ. cbn [bind]. destruct ok.
    + destruct SP as (SI' & Qb & Qe & SY). cbn [andb]. replace (a_end v <? hi) with true by lia.
      destruct (big_extend_exact nb biggest dbg al cur_ max_ (fo S) n hi HR) as (s1 & EX & HR1 & (VW & St & _)).
      { split; [exact Ln|]. split; [lia|]. split; [|split; [|left; rewrite Fb, Fe; rewrite (rdown_id nb al _ Al2); lia]].
        2:{ apply (HX n Ln); [|lia]. rewrite Ev in A. exact A. }
        constructor; try lia.
        - intros c Lc Pc. assert (KI := kid_in nb biggest dbg al cur_ max_ S n v c _ MI Hn (proj1 Ln) (live_as _ _ Lc) Pc). cbn in KI. lia.
        - intros m Lm Nm Pm. rewrite Fb. destruct (Z.le_gt_cases (b_end (bigs (fo S) m)) (a_begin v)); [auto|].
          destruct (Z.le_gt_cases hi (b_begin (bigs (fo S) m))); [auto|]. exfalso.
          assert (RM := vf_range _ _ _ _ _ _ (fo S) HR m _ (live_as _ _ Lm)). cbn in RM.
          destruct (vf_top _ _ _ _ _ _ (fo S) HR m n _ _ (live_as _ _ Lm) Hn ltac:(cbn; congruence) Pn Nm) as [Y|Y]; cbn in Y; [lia|].
          apply (CL m Lm). exists (Z.max addr (b_begin (bigs (fo S) m))). clear A1 A2 Al1 Al2. unfold covers. lia.
        - intros _. split; [rewrite Fb; exact Al1|exact A2]. }
      cbn [fo set_seq]. rewrite EX. cbn [bind].
      assert (V1n := VW n). rewrite Nat.eqb_refl in V1n. apply view_inv in V1n. destruct V1n as [_ V1n].
      assert (G1 := f_equal a_begin V1n). assert (G2 := f_equal a_end V1n). cbn in G1, G2.
      rewrite (asrt_true dbg ((q_begin q' =? b_begin (bigs s1 n)) && (q_end q' =? b_end (bigs s1 n)))) by (clear A1 A2 Al1 Al2; lia).
      cbn [bind]. eexists. split; [reflexivity|].
      apply (finish_put S n v s1 q' addr hi hi (mkAttr prot flags file caller)); try assumption; try lia.
      * intro m. rewrite VW. rewrite Ev. reflexivity.
      * intros a t (m & w & Nm & Hm & Am & Sm) Ca.
        destruct (mi_seq _ _ _ _ _ _ _ MI m w Hm Am) as (Pk & SIm & Ebm & Eem & _). assert (X := says_in _ _ _ (proj1 SIm) Sm).
        apply view_inv in Hm. destruct Hm as [Lm ->]. apply (CL m Lm). exists a. split; [exact Ca|]. unfold covers. cbn in *. lia.
    + cbn [andb bind]. subst q'.
      destruct (finish_new S (fun i => if Nat.eqb i (a_priv v) then seqs S (a_priv v) else seqs S i) addr hi prot flags off file caller MI) as (S' & ES & X1 & X2 & _); try assumption; try lia.
      { intro i. destruct (Nat.eqb_spec i (a_priv v)) as [->|]; reflexivity. }
      exists S'. split; [exact ES|]. split; [exact X1|exact X2].
Qed.

(* with nothing mapped right before, one new record appears and nothing else changes *)
Lemma mmap_new S addr len prot flags file off caller : MInv S -> 0 < addr < addr + RUP len -> aligned addr -> aligned (addr + RUP len) ->
  may_map_free nb biggest S addr (addr + RUP len) -> (forall t, ~ recorded S (addr - 1) t) ->
  exists S', do_mmap nb biggest dbg obj_of S addr len prot flags file off caller = Ok S' /\ MInv S' /\
    mapped S S' addr (addr + RUP len) (mkAttr prot flags file caller) /\
    (forall i, i <> fresh S -> seqs S' i = seqs S i) /\ start (fo S') = start (fo S) /\
    exists nw, view (fo S) nw = None /\ view (fo S') nw = Some (mkAttrs addr (addr + RUP len) 0 MMAP 0 (fresh S) 0) /\
      forall m, m <> nw -> view (fo S') m = view (fo S) m.
Proof.
  intros MI HL A1 A2 [CL HFr HB HX] NB. set (hi := addr + RUP len) in *. assert (HR := mi_R _ _ _ _ _ _ _ MI).
  unfold do_mmap. replace (addr =? 0) with false by lia.
  assert (FI := free_index S addr hi MI A1 HL CL). replace (hi - addr) with (RUP len) in FI by (unfold hi; lia). rewrite FI. cbn [andb].
  fold hi. destruct (find_map nb biggest dbg al cur_ max_ S (addr - 1) MI) as (n & E & Cn). rewrite E. cbn [bind].
  assert (NEW := finish_new S (seqs S) addr hi prot flags off file caller MI (fun i => eq_refl) HL A1 A2 CL HFr ltac:(lia)).
  destruct Cn as [(-> & _)|(N & v & Hn & A & C)].
  - cbn [Nat.eqb negb].
    destruct (find_map nb biggest dbg al cur_ max_ S addr MI) as (ob & E1 & [(-> & _)|(N1 & v1 & Hn1 & Av1 & C1)]).
    2:{ exfalso. apply view_inv in Hn1. destruct Hn1 as [L1 ->]. apply (CL ob L1). exists addr. split; [lia|exact C1]. }
    rewrite E1. cbn [bind].
    destruct (find_map nb biggest dbg al cur_ max_ S (hi - 1) MI) as (oe & E2 & _). rewrite E2. cbn [bind Nat.eqb negb andb].
    destruct S as [s sq fr]. exact NEW.
  - exfalso. destruct (in_rec nb biggest dbg al cur_ max_ S n v (addr - 1) MI Hn A C) as (t & Ht). exact (NB t Ht).
Qed.

Lemma mmap_over S n addr len prot flags off caller : MInv S -> 0 < addr < addr + RUP len -> aligned addr -> aligned (addr + RUP len) ->
  Z.land flags MAP_FIXED <> 0 -> may_map_over S n addr (addr + RUP len) ->
  exists S', do_mmap nb biggest dbg obj_of S addr len prot flags None off caller = Ok S' /\ MInv S' /\
    mapped S S' addr (addr + RUP len) (mkAttr prot flags None caller).
Proof.
  intros MI HL A1 A2 FX [(Ln & An) HIn HFt HAn HRm]. set (hi := addr + RUP len) in *. assert (HR := mi_R _ _ _ _ _ _ _ MI).
  assert (Hn := live_as _ _ Ln). set (v := attrs_of (bigs (fo S) n)) in *.
  destruct (mi_seq _ _ _ _ _ _ _ MI n v Hn An) as (Pn & SIn & Eb & Ee & FR).
  assert (RV := vf_range _ _ _ _ _ _ (fo S) HR n v Hn).
  change (b_begin (bigs (fo S) n)) with (a_begin v) in *. change (b_end (bigs (fo S) n)) with (a_end v) in *.
  change (priv_of S n) with (a_priv v) in *.
  unfold do_mmap. fold hi. replace (addr =? 0) with false by lia. replace (Z.land flags MAP_FIXED =? 0) with false by lia. rewrite andb_false_r.
  (* the sequence chosen is n's *)
  assert (UNI : forall m w a, view (fo S) m = Some w -> a_alloc w = MMAP -> a_begin w <= a < a_end w -> a_begin v <= a < a_end v -> m = n).
  { intros m w a Hm Am C1 C2. destruct (Nat.eq_dec m n); [auto|]. exfalso. destruct (mi_seq _ _ _ _ _ _ _ MI m w Hm Am) as (Pm & _).
    destruct (vf_top _ _ _ _ _ _ (fo S) HR m n w v Hm Hn Pm Pn n0); lia. }
  assert (FND : forall a, a_begin v <= a < a_end v -> find_from_root nb (fo S) a MMAP false = Ok n).
  { intros a Ha. destruct (find_map nb biggest dbg al cur_ max_ S a MI) as (m & E & [(-> & NR)|(N & w & Hm & Am & C)]).
    - exfalso. destruct (in_rec nb biggest dbg al cur_ max_ S n v a MI Hn An Ha) as (t & Ht). exact (NR t Ht).
    - rewrite E. f_equal. exact (UNI m w a Hm Am C Ha). }
  assert (BB : (do bb0 <- find_from_root nb (fo S) (addr - 1) MMAP false ;
     (if negb (Nat.eqb bb0 0) then Ok bb0
     else do ob <- find_from_root nb (fo S) addr MMAP false ;
       do oe <- find_from_root nb (fo S) (hi - 1) MMAP false ;
       Ok (if negb (Nat.eqb ob 0) && (Nat.eqb oe 0 || Nat.eqb ob oe) then ob else 0%nat))) = Ok n).
  { destruct HFt as [HFt|HFt].
    - rewrite (FND (addr - 1) ltac:(lia)). cbn [bind]. destruct (Nat.eqb_spec n 0) as [Z0|_]; [exfalso; apply (proj1 Ln), Z0|reflexivity].
    - destruct (find_map nb biggest dbg al cur_ max_ S (addr - 1) MI) as (m & E & [(-> & NR)|(N & w & Hm & Am & C)]).
      + rewrite E. cbn [bind Nat.eqb negb]. rewrite (FND addr ltac:(lia)), (FND (hi - 1) ltac:(lia)). cbn [bind].
        rewrite Nat.eqb_refl, orb_true_r. destruct (Nat.eqb_spec n 0) as [Z0|_]; [exfalso; apply (proj1 Ln), Z0|reflexivity].
      + exfalso. destruct (in_rec nb biggest dbg al cur_ max_ S m w (addr - 1) MI Hm Am C) as (t & Ht). exact (HFt t Ht). }
  destruct (find_from_root nb (fo S) (addr - 1) MMAP false) as [bb0| | |]; cbn [bind] in *; try discriminate.
  rewrite BB. cbn [bind]. destruct (Nat.eqb_spec n 0) as [Z0|_]; [exfalso; apply (proj1 Ln), Z0|].
  change (priv_of S n) with (a_priv v).
  destruct (augment_spec obj_of dbg (seqs S (a_priv v)) addr hi prot flags off None caller SIn ltac:(lia) ltac:(lia)) as (q' & ok & EQ & SP & OKT).
  { right. lia. } { left. reflexivity. }
  assert (ok = true).
  { apply OKT; [reflexivity|exact HAn|]. rewrite <- (used_len _ (proj1 SIn)). exact HRm. }
  subst ok. destruct SP as (SI' & Qb & Qe & SY). rewrite EQ. cbn [bind andb].
  change (b_end (bigs (fo S) n)) with (a_end v). replace (a_end v <? hi) with false by lia. cbn [bind].
  eexists. split; [reflexivity|].
  apply (finish_put S n v (fo S) q' addr hi (a_end v) (mkAttr prot flags None caller)); try assumption; try lia.
  - intro m. destruct (Nat.eqb_spec m n) as [->|]; [|reflexivity]. rewrite Hn. reflexivity.
  - intros a t H C. apply (recO_off nb biggest dbg al cur_ max_ S n v a t MI Hn Pn H). lia.
Qed.

Theorem mmap_ok S addr len prot flags file off caller : MInv S -> may_map nb biggest S addr (addr + RUP len) flags file ->
  exists S', do_mmap nb biggest dbg obj_of S addr len prot flags file off caller = Ok S' /\ MInv S' /\
    mapped S S' addr (addr + RUP len) (mkAttr prot flags file caller).
Proof.
  intros MI (HL & A1 & A2 & [H|(FX & -> & n & H)]).
  - apply mmap_free; assumption.
  - apply (mmap_over S n); assumption.
Qed.
End Mp.
