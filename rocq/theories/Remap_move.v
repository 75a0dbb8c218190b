(* C44: moving a range that spans several entries of a mapping. *)
From Verif Require Import Base Big_model Big_spec Big_inv Big_lookup Big_links Big_create Big_hist Big_props Map_model Map_spec Big_field Map_seq Map_aug Map_state Map_unmap Map_loop Map_map Map_hist Map_props Remap_model Remap_props.

Section Fr.
Variables (nb : nat) (biggest : Z) (dbg : bool) (al : nat -> Z) (cur_ max_ : Z) (obj_of : Z -> Z).
Notation R := (reach nb biggest dbg al cur_ max_).
Notation MInv := (MInv nb biggest dbg al cur_ max_).

(* which record a mapping goes into, and that the others stay as they are *)
Lemma mmap_frame S addr len prot flags file off caller : MInv S -> 0 < addr < addr + RUP len -> aligned addr -> aligned (addr + RUP len) ->
  may_map_free nb biggest S addr (addr + RUP len) ->
  exists S', do_mmap nb biggest dbg obj_of S addr len prot flags file off caller = Ok S' /\ MInv S' /\
    mapped S S' addr (addr + RUP len) (mkAttr prot flags file caller) /\ start (fo S') = start (fo S) /\
    exists k vk, view (fo S') k = Some vk /\ a_end vk = addr + RUP len /\ a_parent vk = 0%nat /\ a_alloc vk = MMAP /\
      ((view (fo S) k = None /\ a_begin vk = addr) \/
       (exists v, view (fo S) k = Some v /\ a_alloc v = MMAP /\ a_end v = addr /\ a_begin vk = a_begin v)) /\
      (forall m, m <> k -> view (fo S') m = view (fo S) m) /\
      (forall m v, m <> k -> view (fo S) m = Some v -> a_alloc v = MMAP -> seqs S' (a_priv v) = seqs S (a_priv v)).
Proof.
  intros MI HL A1 A2 [CL HFr HB HX]. set (hi := addr + RUP len) in *. assert (HR := mi_R _ _ _ _ _ _ _ MI).
  unfold do_mmap. replace (addr =? 0) with false by lia.
  assert (FI := free_index nb biggest dbg al cur_ max_ obj_of S addr hi MI A1 HL CL). replace (hi - addr) with (RUP len) in FI by (unfold hi; lia). rewrite FI. cbn [andb].
  fold hi. destruct (find_map nb biggest dbg al cur_ max_ S (addr - 1) MI) as (n & E & Cn). rewrite E. cbn [bind].
  assert (GOOD : forall S', (MInv S' /\ mapped S S' addr hi (mkAttr prot flags file caller) /\
     (forall i, i <> fresh S -> seqs S' i = seqs S i) /\ start (fo S') = start (fo S) /\
     exists nw, view (fo S) nw = None /\ view (fo S') nw = Some (mkAttrs addr hi 0 MMAP 0 (fresh S) 0) /\
       forall m, m <> nw -> view (fo S') m = view (fo S) m) ->
     MInv S' /\ mapped S S' addr hi (mkAttr prot flags file caller) /\ start (fo S') = start (fo S) /\
     exists k vk, view (fo S') k = Some vk /\ a_end vk = hi /\ a_parent vk = 0%nat /\ a_alloc vk = MMAP /\
      ((view (fo S) k = None /\ a_begin vk = addr) \/
       (exists v, view (fo S) k = Some v /\ a_alloc v = MMAP /\ a_end v = addr /\ a_begin vk = a_begin v)) /\
      (forall m, m <> k -> view (fo S') m = view (fo S) m) /\
      (forall m v, m <> k -> view (fo S) m = Some v -> a_alloc v = MMAP -> seqs S' (a_priv v) = seqs S (a_priv v))).
  { intros S' (G1 & G2 & G3 & G4 & nw & G5 & G6 & G7). split; [exact G1|]. split; [exact G2|]. split; [exact G4|].
    exists nw, (mkAttrs addr hi 0 MMAP 0 (fresh S) 0). split; [exact G6|]. cbn [a_end a_parent a_alloc a_begin].
    split; [reflexivity|]. split; [reflexivity|]. split; [reflexivity|]. split; [left; auto|]. split; [exact G7|].
    intros m v N Hm Am. apply G3. destruct (mi_seq _ _ _ _ _ _ _ MI m v Hm Am) as (_ & _ & _ & _ & FR). lia. }
  destruct Cn as [(-> & _)|(N & v & Hn & A & C)].
  - cbn [Nat.eqb negb].
    destruct (find_map nb biggest dbg al cur_ max_ S addr MI) as (ob & E1 & [(-> & _)|(N1 & v1 & Hn1 & Av1 & C1)]).
    2:{ exfalso. apply view_inv in Hn1. destruct Hn1 as [L1 ->]. apply (CL ob L1). exists addr. split; [lia|exact C1]. }
    rewrite E1. cbn [bind].
    destruct (find_map nb biggest dbg al cur_ max_ S (hi - 1) MI) as (oe & E2 & _). rewrite E2. cbn [bind Nat.eqb negb andb].
    destruct (finish_new nb biggest dbg al cur_ max_ obj_of S (seqs S) addr hi prot flags off file caller MI (fun i => eq_refl) HL A1 A2 CL HFr ltac:(lia)) as (S' & N1 & N2).
    exists S'. split; [destruct S as [s sq fr]; exact N1|]. exact (GOOD S' N2).
  - destruct (Nat.eqb_spec n 0) as [|_]; [contradiction|]. cbn [negb bind]. destruct (Nat.eqb_spec n 0) as [|_]; [contradiction|].
    destruct (mi_seq _ _ _ _ _ _ _ MI n v Hn A) as (Pn & SIn & Eb & Ee & FR).
    destruct (vf_align _ _ _ _ _ _ (fo S) HR n v Hn Pn) as [Al1 Al2].
    change (aligned (a_begin v)) in Al1. change (aligned (a_end v)) in Al2.
    assert (RV := vf_range _ _ _ _ _ _ (fo S) HR n v Hn).
    destruct (view_inv _ _ _ Hn) as [Ln Ev].
    assert (Fe : b_end (bigs (fo S) n) = a_end v) by (rewrite Ev; reflexivity).
    assert (Fb : b_begin (bigs (fo S) n) = a_begin v) by (rewrite Ev; reflexivity).
    assert (Fp : priv_of S n = a_priv v) by (rewrite Ev; reflexivity).
    assert (Fpa : b_parent (bigs (fo S) n) = 0%nat) by (rewrite Ev in Pn; exact Pn).
    assert (EA : a_end v = addr).
    { destruct (Z.eq_dec (a_end v) addr); [auto|]. exfalso. apply (CL n Ln). exists addr. split; [lia|]. unfold covers. lia. }
    rewrite Fe, Fp.
    destruct (augment_spec obj_of dbg (seqs S (a_priv v)) addr hi prot flags off file caller SIn ltac:(lia) ltac:(lia)) as (q' & ok & EQ & SP & _).
    { left. lia. } { right. right. lia. }
    rewrite EQ. cbn [bind]. destruct ok.
    + destruct SP as (SI' & Qb & Qe & SY). cbn [andb]. replace (a_end v <? hi) with true by lia.
      destruct (big_extend_exact nb biggest dbg al cur_ max_ (fo S) n hi HR) as (s1 & EX & HR1 & (VW & St & _)).
      { split; [exact Ln|]. split; [lia|]. split; [|split; [|left; rewrite Fb, Fe; rewrite (rdown_id nb al _ Al2); lia]].
        2:{ apply (HX n Ln); [|lia]. rewrite Ev in A. exact A. }
        constructor; try lia.
        - intros c Lc Pc. assert (KI := kid_in nb biggest dbg al cur_ max_ S n v c _ MI Hn (proj1 Ln) (live_as _ _ Lc) Pc). cbn in KI. lia.
        - intros m Lm Nm Pm. rewrite Fb. destruct (Z.le_gt_cases (b_end (bigs (fo S) m)) (a_begin v)); [auto|].
          destruct (Z.le_gt_cases hi (b_begin (bigs (fo S) m))); [auto|]. exfalso.
          assert (RM := vf_range _ _ _ _ _ _ (fo S) HR m _ (live_as _ _ Lm)). cbn in RM.
          destruct (vf_top _ _ _ _ _ _ (fo S) HR m n _ _ (live_as _ _ Lm) Hn ltac:(cbn; congruence) Pn Nm) as [Y|Y]; cbn in Y; [lia|].
          apply (CL m Lm). exists (Z.max addr (b_begin (bigs (fo S) m))). clear A1 A2 Al1 Al2. unfold covers. lia.
        - intros _. split; [rewrite Fb; exact Al1|exact A2]. }
      cbn [fo set_seq]. rewrite EX. cbn [bind].
      assert (V1n := VW n). rewrite Nat.eqb_refl in V1n. assert (V1n' := V1n). apply view_inv in V1n. destruct V1n as [_ V1n].
      assert (G1 := f_equal a_begin V1n). assert (G2 := f_equal a_end V1n). cbn in G1, G2.
      rewrite (asrt_true dbg ((q_begin q' =? b_begin (bigs s1 n)) && (q_end q' =? b_end (bigs s1 n)))) by (clear A1 A2 Al1 Al2; lia).
      cbn [bind]. eexists. split; [reflexivity|].
      assert (FP : MInv (set_fo (set_seq S (a_priv v) q') s1) /\ mapped S (set_fo (set_seq S (a_priv v) q') s1) addr hi (mkAttr prot flags file caller)).
      { apply (finish_put nb biggest dbg al cur_ max_ obj_of S n v s1 q' addr hi hi (mkAttr prot flags file caller)); try assumption; try lia.
        * intro m. rewrite VW. rewrite Ev. reflexivity.
        * intros a t (m & w & Nm & Hm & Am & Sm) Ca.
          destruct (mi_seq _ _ _ _ _ _ _ MI m w Hm Am) as (Pk & SIm & Ebm & Eem & _). assert (X := says_in _ _ _ (proj1 SIm) Sm).
          apply view_inv in Hm. destruct Hm as [Lm ->]. apply (CL m Lm). exists a. split; [exact Ca|]. unfold covers. cbn in *. lia. }
      destruct FP as [FP1 FP2]. split; [exact FP1|]. split; [exact FP2|]. split; [exact St|].
      eexists n, _. split; [exact V1n'|]. cbn [a_end a_parent a_alloc a_begin].
      split; [reflexivity|]. split; [exact Fpa|]. split; [rewrite Ev in A; exact A|].
      split; [right; exists v; rewrite Fb; auto|]. split.
      * intros m Nm. rewrite VW. destruct (Nat.eqb_spec m n); [contradiction|reflexivity].
      * intros m w Nm Hm Am. cbn [seqs set_fo set_seq]. destruct (Nat.eqb_spec (a_priv w) (a_priv v)) as [Q|Q]; [|reflexivity].
        exfalso. exact (Nm (mi_own _ _ _ _ _ _ _ MI m n w v Hm Hn Am A Q)).
    + cbn [andb bind]. subst q'.
      destruct (finish_new nb biggest dbg al cur_ max_ obj_of S (fun i => if Nat.eqb i (a_priv v) then seqs S (a_priv v) else seqs S i) addr hi prot flags off file caller MI) as (S' & ES & X1); try assumption; try lia.
      { intro i. destruct (Nat.eqb_spec i (a_priv v)) as [->|]; reflexivity. }
      exists S'. split; [exact ES|]. exact (GOOD S' X1).
Qed.

(* ---- free records ---- *)
Definition frees (S : mst) (k : nat) : Prop := exists l, NoDup l /\ (k <= length l)%nat /\
  forall i, In i l -> (1 <= i < nb)%nat /\ view (fo S) i = None.
Lemma remove_len (x : nat) l : NoDup l -> (length l <= 1 + length (remove Nat.eq_dec x l))%nat.
Proof.
  induction 1 as [|y l Ny ND IH]; cbn [remove length]; [lia|].
  destruct (Nat.eq_dec x y) as [->|N]; [|cbn [length]; lia]. rewrite notin_remove by exact Ny. lia.
Qed.
Lemma remove_nodup (x : nat) l : NoDup l -> NoDup (remove Nat.eq_dec x l).
Proof.
  induction 1 as [|y l Ny ND IH]; cbn [remove]; [constructor|]. destruct (Nat.eq_dec x y); [exact IH|].
  constructor; [|exact IH]. intro H. apply in_remove in H. tauto.
Qed.
Lemma none_free S i : i <> 0%nat -> view (fo S) i = None -> in_use (bigs (fo S) i) = false.
Proof.
  intros N V. destruct (in_use (bigs (fo S) i)) eqn:U; [|reflexivity]. exfalso.
  rewrite (live_as (fo S) i (conj N U)) in V. discriminate.
Qed.
Lemma frees_has S k : frees S (1 + k) -> has_free nb (fo S).
Proof.
  intros (l & ND & L & H). destruct l as [|i l]; [cbn in L; lia|]. destruct (H i (or_introl eq_refl)) as [B V].
  exists i. split; [exact B|]. apply none_free; [lia|exact V].
Qed.
Lemma frees_less S S' k x : frees S (1 + k) -> (forall m, m <> x -> view (fo S') m = view (fo S) m) -> frees S' k.
Proof.
  intros (l & ND & L & H) V. exists (remove Nat.eq_dec x l). split; [apply remove_nodup, ND|].
  split; [assert (X := remove_len x l ND); lia|]. intros i Hi. apply in_remove in Hi. destruct Hi as [Hi N].
  rewrite (V i N). exact (H i Hi).
Qed.
Lemma frees_weak S k j : frees S k -> (j <= k)%nat -> frees S j.
Proof. intros (l & ND & L & H) J. exists l. split; [exact ND|]. split; [lia|exact H]. Qed.

(* ---- the loop ---- *)
Section Mv.
Variables (S : mst) (M : space) (n : nat) (at_ old size caller : Z).
Hypothesis HM : mreach nb biggest dbg al cur_ max_ obj_of S M.
Hypothesis Ln : live (fo S) n.
Hypothesis An : b_alloc (bigs (fo S) n) = MMAP.
Hypothesis Hin : b_begin (bigs (fo S) n) <= old /\ old + size <= b_end (bigs (fo S) n).
Hypothesis Hs : 0 < size.
Hypothesis Hat : 0 < at_.
Hypothesis Aat : aligned at_.
Hypothesis Aold : aligned old.
Hypothesis Asz : aligned size.
Let p := priv_of S n.
Let q := seqs S p.
Hypothesis Aent : forall e, In e (used q) -> aligned (e_begin e).
Hypothesis Hfile : forall a t, old <= a < old + size -> M a = Some t -> at_file t = q_file q.
Hypothesis Hmap : may_map_free nb biggest S at_ (at_ + size).
Hypothesis Hbef : M (at_ - 1) = None.

(* what is to be at the new place *)
Definition again (o : option attr) : option attr :=
  match o with Some t => Some (mkAttr (at_prot t) (at_flags t) (at_file t) caller) | None => None end.

Record mv (T : mst) (cur : Z) (k : nat) : Prop := {
  mv_cur : old <= cur <= old + size /\ aligned cur;
  mv_reach : exists N, mreach nb biggest dbg al cur_ max_ obj_of T N /\
    forall a, N a = if (at_ <=? a) && (a <? at_ + (cur - old)) then again (M (a - at_ + old)) else M a;
  mv_seq : seqs T p = q;
  mv_start : start (fo T) = start (fo S);
  mv_old : forall m v, view (fo S) m = Some v -> view (fo T) m = Some v;
  mv_new : forall m w, view (fo T) m = Some w -> view (fo S) m = Some w \/
    (view (fo S) m = None /\ a_parent w = 0%nat /\ a_alloc w = MMAP /\ at_ <= a_begin w /\ a_end w <= at_ + (cur - old));
  mv_free : frees T k }.

Let SI : MInv S := proj1 (mreach_inv _ _ _ _ _ _ _ S M HM).
Let SM : mirrors S M := proj2 (mreach_inv _ _ _ _ _ _ _ S M HM).

Lemma q_facts : seq_ok q /\ q_begin q = b_begin (bigs (fo S) n) /\ q_end q = b_end (bigs (fo S) n) /\ (p < fresh S)%nat.
Proof.
  destruct (mi_seq _ _ _ _ _ _ _ SI n _ (live_as _ _ Ln) An) as (_ & Q & B & E & F).
  exact (conj (proj1 Q) (conj B (conj E F))).
Qed.
(* nothing of S reaches into the new place *)
Lemma S_clear m v : view (fo S) m = Some v -> a_end v <= at_ \/ at_ + size <= a_begin v.
Proof.
  intro H. assert (RV := vf_range _ _ _ _ _ _ (fo S) (mi_R _ _ _ _ _ _ _ SI) m v H). apply view_inv in H. destruct H as [L ->]. cbn in *.
  destruct (Z.le_gt_cases (b_end (bigs (fo S) m)) at_); [auto|]. destruct (Z.le_gt_cases (at_ + size) (b_begin (bigs (fo S) m))); [auto|].
  exfalso. apply (mf_clear _ _ _ _ _ Hmap m L). exists (Z.max at_ (b_begin (bigs (fo S) m))). clear Aat Aold Asz. unfold covers. lia.
Qed.

Lemma piece T cur oe k e : mv T cur (1 + k) -> In e (used q) -> e_begin e <= cur -> oe <= e_end e -> cur < oe <= old + size -> aligned oe ->
  exists T', do_mmap nb biggest dbg obj_of T (cur + (at_ - old)) (oe - cur) (e_prot e) (e_flags e) (q_file q) (e_off e + (cur - e_begin e)) caller = Ok T' /\
    mv T' oe k.
Proof.
  intros V He B1 B2 B3 Ao. destruct V as [[Vc Va] (N & VN & VE) Vs Vst Vo Vn Vf].
  destruct (mreach_inv _ _ _ _ _ _ _ T N VN) as [TI TM].
  set (lo := cur + (at_ - old)). assert (LEN : RUP (oe - cur) = oe - cur) by (apply (mlen_of nb al obj_of); assumption).
  set (hi := lo + RUP (oe - cur)).
  assert (Ehi : hi = at_ + (oe - old)) by (unfold hi, lo; lia).
  assert (HL : 0 < lo < hi) by (clear Aat Aold Asz Va Ao; unfold hi, lo; lia).
  assert (A1 : aligned lo) by (unfold lo, aligned, PAGE in *; lia).
  assert (A2 : aligned hi) by (rewrite Ehi; unfold aligned, PAGE in *; lia).
  assert (BEF : forall m v, view (fo T) m = Some v -> a_alloc v = MMAP -> a_end v = lo -> view (fo S) m = None /\ at_ <= a_begin v).
  { intros m v Hm Am Em. destruct (Vn m v Hm) as [H|(H & _ & _ & H1 & _)]; [|auto]. exfalso.
    assert (RV := vf_range _ _ _ _ _ _ (fo S) (mi_R _ _ _ _ _ _ _ SI) m v H). assert (C := S_clear m v H).
    clear Aat Aold Asz Va Ao A1 A2. destruct (Z.eq_dec cur old) as [Ec|Nc]; [|unfold lo in *; lia].
    destruct (in_rec nb biggest dbg al cur_ max_ S m v (at_ - 1) SI H Am ltac:(unfold lo in *; lia)) as (t & Ht). apply SM in Ht. congruence. }
  assert (FM : may_map_free nb biggest T lo hi).
  { clear Aat Aold Asz Va Ao A1 A2. constructor.
    - intros m Lm (a & Ha & Hc). unfold covers in Hc. destruct (Vn m _ (live_as _ _ Lm)) as [H|(_ & _ & _ & _ & H)].
      + assert (C := S_clear m _ H). cbn in C. unfold lo in *. lia.
      + cbn in H. unfold lo in *. lia.
    - exact (frees_has T k Vf).
    - assert (X := mf_size _ _ _ _ _ Hmap). unfold lo in *. lia.
    - intros m Lm Am Em. destruct (BEF m _ (live_as _ _ Lm) Am Em) as [_ X]. cbn in X.
      assert (Y := mf_size _ _ _ _ _ Hmap). unfold lo in *. lia. }
  destruct (mmap_frame T lo (oe - cur) (e_prot e) (e_flags e) (q_file q) (e_off e + (cur - e_begin e)) caller TI HL A1 A2 FM)
    as (T' & ET & TI' & MP & ST & kk & vk & K1 & K2 & K3 & K4 & K5 & K6 & K7).
  fold hi in K2, MP. exists T'. split; [exact ET|].
  assert (KN : view (fo S) kk = None /\ at_ <= a_begin vk).
  { destruct K5 as [[K5 Kb]|(v & Hv & Av & Ev & Kb)].
    - split; [|clear Aat Aold Asz Va Ao A1 A2; unfold lo in *; lia]. destruct (view (fo S) kk) as [w|] eqn:W; [|reflexivity].
      apply Vo in W. congruence.
    - destruct (BEF kk v Hv Av Ev) as [X1 X2]. split; [exact X1|lia]. }
  destruct KN as [KN KB].
  assert (MM : may_map nb biggest T lo (lo + RUP (oe - cur)) (e_flags e) (q_file q)).
  { fold hi. split; [exact HL|]. split; [exact A1|]. split; [exact A2|]. left. exact FM. }
  constructor.
  - split; [clear Aat Aold Asz Va Ao A1 A2 MM; lia|exact Ao].
  - exists (map_over N lo (lo + RUP (oe - cur)) (mkAttr (e_prot e) (e_flags e) (q_file q) caller)).
    split; [exact (m_map _ _ _ _ _ _ _ T N lo (oe - cur) _ _ _ _ caller T' VN MM ET)|].
    intro a. fold hi. unfold map_over. rewrite VE. clear Aat Aold Asz Va Ao A1 A2 MM.
    destruct (Z.leb_spec lo a) as [L1|L1], (Z.ltb_spec a hi) as [L2|L2]; cbn [andb].
    + replace ((at_ <=? a) && (a <? at_ + (oe - old))) with true by (unfold lo in *; lia).
      assert (Ma : M (a - at_ + old) = Some (attr_of q e)).
      { apply SM. exists n. split; [exact Ln|]. split; [exact An|]. destruct q_facts as (OK & QB & QE & _).
        assert (CI := chain_in _ _ _ _ (so_chain _ OK) He).
        split; [unfold covers, lo in *; lia|]. fold p. fold q. exists e. split; [exact He|]. split; [unfold lo in *; lia|reflexivity]. }
      rewrite Ma. cbn [again attr_of at_prot at_flags at_file].
      assert (X := Hfile (a - at_ + old) _ ltac:(unfold lo in *; lia) Ma). cbn [attr_of at_file] in X. rewrite X. reflexivity.
    + replace ((at_ <=? a) && (a <? at_ + (cur - old))) with false by (unfold lo in *; lia).
      replace ((at_ <=? a) && (a <? at_ + (oe - old))) with false by (unfold lo in *; lia). reflexivity.
    + replace ((at_ <=? a) && (a <? at_ + (oe - old))) with ((at_ <=? a) && (a <? at_ + (cur - old))) by (unfold lo in *; lia). reflexivity.
    + lia.
  - rewrite <- Vs. assert (Nn : n <> kk) by (intro X; rewrite <- X, (live_as _ _ Ln) in KN; discriminate).
    exact (K7 n _ Nn (Vo _ _ (live_as _ _ Ln)) An).
  - rewrite ST. exact Vst.
  - intros m v Hm. assert (Nm : m <> kk) by congruence. rewrite (K6 m Nm). exact (Vo m v Hm).
  - intros m w Hm. destruct (Nat.eq_dec m kk) as [->|Nm].
    + right. rewrite K1 in Hm. inversion Hm; subst w. repeat split; [exact KN|exact K3|exact K4|exact KB|lia].
    + rewrite (K6 m Nm) in Hm. destruct (Vn m w Hm) as [H|(H1 & H2 & H3 & H4 & H5)]; [auto|right].
      repeat split; try assumption. clear Aat Aold Asz Va Ao A1 A2. lia.
  - exact (frees_less T T' k kk Vf K6).
Qed.

Definition bnd (i : nat) : Z := if Nat.ltb i (q_nused q) then e_begin (slot (q_maps q) i) else q_end q.
Definition clamp (x : Z) : Z := Z.max old (Z.min x (old + size)).

Lemma bnd_next i : (i < q_nused q)%nat -> In (slot (q_maps q) i) (used q) /\
  e_begin (slot (q_maps q) i) = bnd i /\ e_end (slot (q_maps q) i) = bnd (1 + i) /\ bnd i < bnd (1 + i).
Proof.
  intro Hi. destruct q_facts as (OK & _). destruct (seq_ok_contiguous nb al obj_of q OK) as (C1 & C2 & C3 & C4 & C5).
  assert (L := used_len _ OK). assert (Eq : slot (q_maps q) i = nth i (used q) ent0) by (symmetry; apply (Remap_props.used_slot al max_ obj_of); exact Hi).
  split; [rewrite Eq; apply nth_In; lia|].
  assert (X2 := C2 i ltac:(lia)).
  unfold bnd. replace (Nat.ltb i (q_nused q)) with true by lia. split; [reflexivity|].
  assert (Y : e_end (slot (q_maps q) i) = (if Nat.ltb (1 + i) (q_nused q) then e_begin (slot (q_maps q) (1 + i)) else q_end q)).
  { rewrite Eq. destruct (Nat.ltb_spec (1 + i) (q_nused q)) as [L1|L1].
    - rewrite (C1 i ltac:(lia)). exact (f_equal e_begin (Remap_props.used_slot al max_ obj_of q (1 + i)%nat L1)).
    - rewrite <- C5. f_equal. f_equal. lia. }
  split; [exact Y|]. rewrite <- Y, Eq. exact X2.
Qed.
Lemma bnd_al i : (i <= q_nused q)%nat -> aligned (bnd i).
Proof.
  intro Hi. unfold bnd. destruct (Nat.ltb_spec i (q_nused q)) as [L|L].
  - apply Aent. exact (proj1 (bnd_next i L)).
  - destruct q_facts as (_ & _ & E & _). rewrite E.
    assert (P0 := proj1 (mi_seq _ _ _ _ _ _ _ SI n _ (live_as _ _ Ln) An)).
    exact (proj2 (vf_align _ _ _ _ _ _ (fo S) (mi_R _ _ _ _ _ _ _ SI) n _ (live_as _ _ Ln) P0)).
Qed.

Lemma move_all k : forall f T i, (i + k = q_nused q)%nat -> (k <= f)%nat -> mv T (clamp (bnd i)) (1 + k) ->
  exists T', move_loop nb biggest dbg obj_of f T p i at_ old size caller = Ok (T', q_nused q) /\ mv T' (old + size) 1.
Proof.
  induction k as [|k IH]; intros f T i HI HF V.
  - assert (EN : i = q_nused q) by lia. exists T. split.
    + destruct f; cbn [move_loop]; rewrite (mv_seq _ _ _ V), EN, Nat.eqb_refl; reflexivity.
    + replace (old + size) with (clamp (bnd i)); [exact V|].
      unfold clamp, bnd. rewrite EN, Nat.ltb_irrefl. destruct q_facts as (_ & _ & E & _). clear Aat Aold Asz. lia.
  - destruct f as [|f]; [lia|]. assert (Hi : (i < q_nused q)%nat) by lia.
    destruct (bnd_next i Hi) as (He & Eb & Ee & Lt). set (e := slot (q_maps q) i) in *.
    assert (U := so_used _ (proj1 q_facts)).
    cbn [move_loop]. rewrite (mv_seq _ _ _ V). replace (Nat.eqb i (q_nused q)) with false by lia.
    replace (Nat.leb MAXLEN i) with false by lia. fold e. rewrite Eb, Ee.
    set (ob := Z.max (bnd i) old). set (oe := Z.min (bnd (1 + i)) (old + size)).
    destruct (Z.ltb_spec ob oe) as [L|L].
    + assert (C1 : clamp (bnd i) = ob) by (clear Aat Aold Asz; unfold clamp, ob, oe in *; lia).
      assert (C2 : clamp (bnd (1 + i)) = oe) by (clear Aat Aold Asz; unfold clamp, ob, oe in *; lia).
      assert (AO : aligned oe).
      { unfold oe. assert (X := bnd_al (1 + i) ltac:(lia)). unfold aligned, PAGE in *. clear - X Aold Asz. lia. }
      rewrite C1 in V.
      destruct (piece T ob oe (1 + k) e V He) as (T' & ET & V').
      { rewrite Eb. unfold ob. lia. } { rewrite Ee. unfold oe. lia. } { split; [exact L|unfold oe; lia]. } { exact AO. }
      rewrite Eb in ET. rewrite ET. cbn [bind].
      rewrite <- C2 in V'. exact (IH f T' (1 + i)%nat ltac:(lia) ltac:(lia) V').
    + cbn [bind]. apply (IH f T (1 + i)%nat); [lia|lia|].
      replace (clamp (bnd (1 + i))) with (clamp (bnd i)) by (clear Aat Aold Asz; unfold clamp, ob, oe in *; lia).
      destruct V as [V1 V2 V3 V4 V5 V6 V7]. constructor; try assumption. apply (frees_weak T (1 + Datatypes.S k)); [exact V7|lia].
Qed.
End Mv.

Notation mreach := (mreach nb biggest dbg al cur_ max_ obj_of).

(* Moving a range of one mapping, over as many entries as it spans, keeping its size in pages, to a place
   where nothing is and not right after another mapping: each byte's attributes appear at the new place, and
   are gone (unless told to stay) from the old one; nothing else changes.  The entries begin on page
   boundaries and have the sequence's file, and there is a free record for each entry and one more. *)
Theorem remap_move_whole_partial : forall S M n mapped_at old osz new keep caller, mreach S M ->
  live (fo S) n -> b_alloc (bigs (fo S) n) = MMAP ->
  b_begin (bigs (fo S) n) <= old -> old + RUP osz <= b_end (bigs (fo S) n) -> old mod PAGE = 0 ->
  (forall e, In e (used (seqs S (priv_of S n))) -> e_begin e mod PAGE = 0) ->
  (forall a t, old <= a < old + RUP osz -> M a = Some t -> at_file t = q_file (seqs S (priv_of S n))) ->
  mapped_at <> old -> 0 < new -> RUP new = RUP osz -> 0 < RUP osz -> 0 < mapped_at -> mapped_at mod PAGE = 0 ->
  may_map_free nb biggest S mapped_at (mapped_at + RUP osz) -> M (mapped_at - 1) = None ->
  may_unmap nb S old (old + RUP osz) ->
  frees S (1 + q_nused (seqs S (priv_of S n))) ->
  exists S' M', notify_mremap nb biggest dbg obj_of S mapped_at old osz new keep caller = Ok S' /\ mreach S' M' /\
    forall a, M' a =
      if (mapped_at <=? a) && (a <? mapped_at + RUP osz) then
        match M (a - mapped_at + old) with
        | Some t => Some (mkAttr (at_prot t) (at_flags t) (at_file t) caller)
        | None => None
        end
      else if negb keep && (old <=? a) && (a <? old + RUP osz) then None
      else M a.
Proof.
  intros S M n at_ old osz new keep caller H Ln An B1 B2 Ao Ae Hf ND HN HR HS HA AA MF MB MU FR.
  destruct (mreach_inv _ _ _ _ _ _ _ S M H) as [MI MRR]. set (size := RUP osz) in *.
  destruct (in_rec nb biggest dbg al cur_ max_ S n _ old MI (live_as _ _ Ln) An ltac:(cbn; clear Ao AA MU; lia)) as (t & Ht).
  apply MRR in Ht.
  assert (MR : may_remap S M n old (old + size) t).
  { constructor; [auto|clear Ao AA MU; lia|exact Ht|]. apply (Hf old); [clear Ao AA MU; lia|exact Ht]. }
  destruct (old_entry nb biggest dbg al cur_ max_ obj_of S M n _ _ t H MR) as (F & N & E & OK & _).
  assert (ID : RUP size = size) by apply (RUP_idem nb al obj_of).
  assert (AS : aligned size) by apply (RUP_aligned nb al obj_of).
  assert (V0 : mv S M n at_ old size caller S (clamp old size (bnd S n 0)) (1 + q_nused (seqs S (priv_of S n)))).
  { destruct (mi_seq _ _ _ _ _ _ _ MI n _ (live_as _ _ Ln) An) as (_ & _ & Qb & _ & _). cbn [attrs_of a_begin a_priv] in Qb.
    assert (Eb : bnd S n 0 = b_begin (bigs (fo S) n)).
    { unfold bnd. assert (U := so_used _ OK). replace (Nat.ltb 0 (q_nused (seqs S (priv_of S n)))) with true by lia.
      destruct (seq_ok_contiguous nb al obj_of _ OK) as (_ & _ & _ & C4 & _).
      rewrite (Remap_props.used_slot al max_ obj_of _ 0%nat (proj1 U)) in C4. rewrite C4. exact Qb. }
    assert (Ec : clamp old size (bnd S n 0) = old) by (rewrite Eb; unfold clamp; clear Ao AA MU AS; lia).
    rewrite Ec. constructor.
    - split; [clear Ao AA MU AS; lia|exact Ao].
    - exists M. split; [exact H|]. intro a. replace ((at_ <=? a) && (a <? at_ + (old - old))) with false by (clear Ao AA MU AS; lia). reflexivity.
    - reflexivity.
    - reflexivity.
    - auto.
    - auto.
    - exact FR. }
  assert (U := so_used _ OK).
  destruct (move_all S M n at_ old size caller H Ln An (conj B1 B2) HS HA AA Ao AS Ae Hf MF MB (q_nused (seqs S (priv_of S n))) (2 * MAXLEN) S 0
     ltac:(lia) ltac:(unfold MAXLEN in *; lia) V0) as (T & ET & [_ (N1 & R1 & VE) Vs Vst Vo Vn Vf]).
  assert (SZ : old + size - old = size) by (clear; lia). rewrite SZ in Vn. assert (VE2 : forall a, N1 a = if (at_ <=? a) && (a <? at_ + size) then again caller (M (a - at_ + old)) else M a) by (intro a; rewrite VE, SZ; reflexivity). clear VE. rename VE2 into VE.
  assert (DIS : at_ + size <= old \/ old + size <= at_).
  { destruct (Z_le_gt_dec (at_ + size) old); [auto|]. destruct (Z_le_gt_dec (old + size) at_); [auto|]. exfalso. apply (mf_clear _ _ _ _ _ MF n Ln).
    exists (Z.max at_ old). unfold covers. clear AA AS MU Ao. lia. }
  assert (MU1 : may_unmap nb T old (old + size)).
  { constructor.
    - exact (mu_range _ _ _ _ MU).
    - rewrite Vst. intros (a & A1 & A2). apply (mu_start _ _ _ _ MU). exists a. split; [exact A1|].
      destruct (reach_good _ _ _ _ _ _ _ (mi_R _ _ _ _ _ _ _ MI)) as [(K & rk & HI) _].
      assert (LS : live (fo S) (start (fo S))) by (apply (proj1 (I_kid _ _ _ _ HI 0%nat (start (fo S)))), (I_start _ _ _ _ HI)).
      assert (X := Vo _ _ (live_as _ _ LS)). apply view_inv in X. destruct X as [_ X].
      assert (Y1 := f_equal a_begin X). assert (Y2 := f_equal a_end X). cbn [attrs_of a_begin a_end] in Y1, Y2. unfold covers in *. rewrite Y1, Y2. exact A2.
    - intros m c Lm Am Me Pa Lc Pc.
      destruct (Vn m _ (live_as _ _ Lm)) as [Hm|(_ & _ & _ & X1 & X2)].
      2:{ exfalso. destruct Me as (a & A1 & A2). unfold covers in A2. cbn [attrs_of a_begin a_end] in X1, X2. clear AA AS MU Ao. lia. }
      destruct (Vn c _ (live_as _ _ Lc)) as [Hc|(_ & X1 & _)].
      2:{ exfalso. cbn [attrs_of a_parent] in X1. destruct Lm as [Lm _]. congruence. }
      apply view_inv in Hm. apply view_inv in Hc. destruct Hm as [Lm' Xm]. destruct Hc as [Lc' Xc].
      assert (F1 := f_equal a_begin Xm). assert (F2 := f_equal a_end Xm). assert (F4 := f_equal a_alloc Xm).
      assert (G1 := f_equal a_begin Xc). assert (G2 := f_equal a_end Xc). assert (G3 := f_equal a_parent Xc).
      cbn [attrs_of a_begin a_end a_parent a_alloc] in *.
      rewrite G1, G2. apply (mu_kids _ _ _ _ MU m c Lm').
      + congruence.
      + destruct Me as (a & A1 & A2). exists a. split; [exact A1|]. unfold covers in *. rewrite <- F1, <- F2. exact A2.
      + rewrite <- F1, <- F2. exact Pa.
      + exact Lc'.
      + congruence.
    - intros _ _ _ _ _. exact (frees_has T 0 Vf). }
  assert (FIN : exists S' M', (if keep then Ok T else do_munmap nb biggest dbg T old size) = Ok S' /\ mreach S' M' /\
     forall a, M' a = if negb keep && (old <=? a) && (a <? old + size) then None else N1 a).
  { destruct keep; [exists T, N1; auto|].
    rewrite <- ID in MU1 at 1.
    destruct (map_munmap_exact_partial nb biggest dbg al cur_ max_ obj_of T _ old size R1 HS MU1) as (S' & E1 & E2 & _). rewrite ID in E2.
    exists S', (unmap N1 old (old + size)). split; [exact E1|]. split; [exact E2|]. intro a. reflexivity. }
  destruct FIN as (S' & M' & E1 & E2 & E3). exists S', M'. split; [|split; [exact E2|]].
  - unfold Remap_model.notify_mremap. fold size. rewrite F. cbn [bind]. apply Nat.eqb_neq in N. rewrite N. cbn [bind].
    clear AA AS MU MU1 Ao. replace (q_end (seqs S (priv_of S n)) <? old + size) with false by lia. apply Z.eqb_neq in ND. rewrite ND. cbn [andb negb].
    replace (new =? 0) with false by lia. cbn [negb]. rewrite asrt_true by reflexivity. cbn [bind].
    replace (size =? 0) with false by lia. cbn [negb]. rewrite ET. cbn [bind].
    assert (size <? new = false) as -> by (unfold size in *; rewrite <- HR; unfold RUP, rup, PAGE; lia). cbn [bind]. exact E1.
  - intro a. rewrite E3, VE. unfold again. clear AA AS MU MU1 Ao E1 E2 ET.
    destruct (Z.leb_spec at_ a), (Z.ltb_spec a (at_ + size)); cbn [andb]; try reflexivity.
    replace (negb keep && (old <=? a) && (a <? old + size)) with false; [reflexivity|]. destruct keep; cbn [negb andb]; lia.
Qed.
End Fr.

(* ---- a mapping of three entries with different protections; the last five of its six pages are moved ---- *)
From Verif Require Import Map_ex Remap_refute.
Module MwEx.
  Import Ex.
  Definition A := 3145728.
  Definition d := true.
  Definition w1 := mm d (e0 d) A 8192 3 34 None.
  Definition w2 := mm d w1 (A + 8192) 8192 0 34 None.
  Definition w3 := mm d w2 (A + 16384) 8192 1 34 None.
  Definition N1 := map_over M0 A (A + RUP 8192) (mkAttr 3 34 None 0).
  Definition N2 := map_over N1 (A + 8192) (A + 8192 + RUP 8192) (mkAttr 0 34 None 0).
  Definition N3 := map_over N2 (A + 16384) (A + 16384 + RUP 8192) (mkAttr 1 34 None 0).
  Lemma k1 : mreach d w1 N1.
  Proof.
    apply (m_map _ _ _ _ _ _ _ (e0 d) M0 A 8192 3 34 None 0 0); [apply h0| |].
    - apply (chk_free_ok _ _ d al (-1) (-1)); [inv (h0 d)|vm_compute; reflexivity].
    - apply get_ok. vm_compute; reflexivity.
  Qed.
  Lemma k2 : mreach d w2 N2.
  Proof.
    apply (m_map _ _ _ _ _ _ _ w1 N1 (A + 8192) 8192 0 34 None 0 0); [apply k1| |].
    - apply (chk_free_ok _ _ d al (-1) (-1)); [inv k1|vm_compute; reflexivity].
    - apply get_ok. vm_compute; reflexivity.
  Qed.
  Lemma k3 : mreach d w3 N3.
  Proof.
    apply (m_map _ _ _ _ _ _ _ w2 N2 (A + 16384) 8192 1 34 None 0 0); [apply k2| |].
    - apply (chk_free_ok _ _ d al (-1) (-1)); [inv k2|vm_compute; reflexivity].
    - apply get_ok. vm_compute; reflexivity.
  Qed.
End MwEx.
Example remap_move_whole_ex : mreach Ex.NB Ex.BIG true Ex.al (-1) (-1) Ex.obj MwEx.w3 MwEx.N3 /\
  live (fo MwEx.w3) 2 /\ b_alloc (bigs (fo MwEx.w3) 2) = MMAP /\
  b_begin (bigs (fo MwEx.w3) 2) = MwEx.A /\ b_end (bigs (fo MwEx.w3) 2) = MwEx.A + 24576 /\
  length (used (seqs MwEx.w3 (priv_of MwEx.w3 2))) = 3%nat /\
  (forall e, In e (used (seqs MwEx.w3 (priv_of MwEx.w3 2))) -> e_begin e mod PAGE = 0) /\
  (forall a t, MwEx.A + 4096 <= a < MwEx.A + 4096 + RUP 20000 -> MwEx.N3 a = Some t -> at_file t = q_file (seqs MwEx.w3 (priv_of MwEx.w3 2))) /\
  may_map_free Ex.NB Ex.BIG MwEx.w3 4194304 (4194304 + RUP 20000) /\ MwEx.N3 (4194304 - 1) = None /\
  may_unmap Ex.NB MwEx.w3 (MwEx.A + 4096) (MwEx.A + 4096 + RUP 20000) /\
  frees Ex.NB MwEx.w3 (1 + q_nused (seqs MwEx.w3 (priv_of MwEx.w3 2))) /\
  map (seen_after true MwEx.w3 4194304 (MwEx.A + 4096) 20000 20000) [4194304; 4198400; 4206592; 4214783; MwEx.A; MwEx.A + 4096] =
    [Some (Some (mkAttr 3 34 None 0)); Some (Some (mkAttr 0 34 None 0)); Some (Some (mkAttr 1 34 None 0)); Some (Some (mkAttr 1 34 None 0));
     Some (Some (mkAttr 3 34 None 0)); Some None].
Proof.
  assert (MI := proj1 (mreach_inv _ _ _ _ _ _ _ _ _ MwEx.k3)).
  split; [apply MwEx.k3|]. split; [split; [discriminate|vm_compute; reflexivity]|]. split; [vm_compute; reflexivity|].
  split; [vm_compute; reflexivity|]. split; [vm_compute; reflexivity|]. split; [vm_compute; reflexivity|].
  split. { intros e H. vm_compute in H. destruct H as [<-|[<-|[<-|[]]]]; vm_compute; reflexivity. }
  split. { intros a t Ha H. replace (q_file (seqs MwEx.w3 (priv_of MwEx.w3 2))) with (@None Z) by (vm_compute; reflexivity).
    unfold MwEx.N3, MwEx.N2, MwEx.N1, Ex.M0, map_over in H.
    repeat match goal with H : (if ?b then _ else _) = Some _ |- _ => destruct b; [injection H as <-; reflexivity|] end. discriminate. }
  split.
  { destruct (chk_free_ok Ex.NB Ex.BIG true Ex.al (-1) (-1) MwEx.w3 4194304 (4194304 + RUP 20000) 0 None MI ltac:(vm_compute; reflexivity)) as (_ & _ & _ & [X|(X & _)]);
      [exact X|exfalso; apply X; reflexivity]. }
  split; [vm_compute; reflexivity|]. split; [apply (chk_unmap_ok _ Ex.BIG true Ex.al (-1) (-1)); [exact MI|vm_compute; reflexivity]|].
  split.
  { exists [3; 4; 5; 6]%nat. split; [repeat constructor; cbn [In]; intuition discriminate|]. split; [apply Nat.leb_le; vm_compute; reflexivity|].
    intros i [<-|[<-|[<-|[<-|[]]]]]; (split; [split; apply Nat.leb_le; reflexivity|vm_compute; reflexivity]). }
  vm_compute. reflexivity.
Qed.
Print Assumptions remap_move_whole_partial.
