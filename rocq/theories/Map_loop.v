(* The unmapping loop as a whole. *)
From Verif Require Import Base Big_model Big_spec Big_inv Big_lookup Big_links Big_create Big_hist Big_props Map_model Map_spec Big_field Map_seq Map_aug Map_state Map_unmap.

Lemma pages_below x hi : aligned x -> aligned hi -> x <= hi -> exists k, x = hi - PAGE * Z.of_nat k.
Proof. unfold aligned, PAGE. intros A B L. exists (Z.to_nat ((hi - x) / 4096)). rewrite Z2Nat.id; lia. Qed.
Lemma page_cut x a e : aligned x -> aligned e -> x <= a < x + PAGE -> a < e -> x < e.
Proof. unfold aligned, PAGE. lia. Qed.
Lemma page_cut' x a b : aligned x -> aligned b -> x <= a < x + PAGE -> b <= a -> b <= x.
Proof. unfold aligned, PAGE. lia. Qed.

Section Lo.
Variables (nb : nat) (biggest : Z) (dbg : bool) (al : nat -> Z) (cur_ max_ : Z).
Notation R := (reach nb biggest dbg al cur_ max_).
Notation MInv := (MInv nb biggest dbg al cur_ max_).

Lemma unmapped_none S x y : MInv S -> (forall a t, x <= a < y -> ~ recorded S a t) -> unmapped S S x y.
Proof.
  intros MI H. constructor.
  - intros a t. split; [|tauto]. intro Ra. split; [exact Ra|]. intro C. exact (H a t C Ra).
  - intros m w. split; [|tauto]. intro O1. split; [exact O1|]. intros [(a & Ha & Hw) (t & Rt)].
    assert (RT := Rt). apply (rec_iff nb biggest dbg al cur_ max_ S _ _ MI) in Rt. destruct Rt as (k & vk & Hk & Ak & Sk).
    destruct (mi_seq _ _ _ _ _ _ _ MI k vk Hk Ak) as (Pk & SI & Eb & Ee & _). assert (X := says_in _ _ _ (proj1 SI) Sk).
    assert (RV := mi_R _ _ _ _ _ _ _ MI).
    destruct O1 as (wm & Hm & Am & Ew). subst w. cbn in *.
    assert (AN := vf_root _ _ _ _ _ _ (fo S) RV k m vk wm Hk Hm Pk ltac:(lia)).
    assert (IN := vf_anc _ _ _ _ _ _ (fo S) RV k m vk wm Hk Hm AN).
    destruct (proj2 (says_range _ a (proj1 SI)) ltac:(lia)) as (t' & St).
    apply (H a t' Ha). apply (rec_iff nb biggest dbg al cur_ max_ S _ _ MI). exists k, vk. auto.
Qed.

(* what is covered by a mapping is recorded *)
Lemma in_rec S n v a : MInv S -> view (fo S) n = Some v -> a_alloc v = MMAP -> a_begin v <= a < a_end v -> exists t, recorded S a t.
Proof.
  intros MI Hn A H. destruct (mi_seq _ _ _ _ _ _ _ MI n v Hn A) as (Pk & SI & Eb & Ee & _).
  destruct (proj2 (says_range _ a (proj1 SI)) ltac:(lia)) as (t & St). exists t. apply (rec_iff nb biggest dbg al cur_ max_ S _ _ MI). exists n, v. auto.
Qed.

(* when cur lies in no mapping, neither does the rest of its page *)
Lemma page_none S x : MInv S -> aligned x -> (forall t, ~ recorded S x t) -> forall a t, x <= a < x + PAGE -> ~ recorded S a t.
Proof.
  intros MI A H a t Ha Ra. apply (rec_iff nb biggest dbg al cur_ max_ S _ _ MI) in Ra. destruct Ra as (k & vk & Hk & Ak & Sk).
  destruct (mi_seq _ _ _ _ _ _ _ MI k vk Hk Ak) as (Pk & SI & Eb & Ee & _). assert (X := says_in _ _ _ (proj1 SI) Sk).
  destruct (vf_align _ _ _ _ _ _ (fo S) (mi_R _ _ _ _ _ _ _ MI) k vk Hk Pk) as [A1 A2].
  assert (Y1 := page_cut x a (a_end vk) A A2 Ha ltac:(lia)). assert (Y2 := page_cut' x a (a_begin vk) A A1 Ha ltac:(lia)).
  destruct (in_rec S k vk x MI Hk Ak ltac:(lia)) as (t' & Ht). exact (H t' Ht).
Qed.

(* with nothing recorded ahead the loop only steps *)
Lemma loop_none k : forall fuel S lo hi cur, (k <= fuel)%nat -> MInv S -> cur = hi - PAGE * Z.of_nat k ->
  (forall a t, cur <= a < hi -> ~ recorded S a t) -> munmap_loop nb biggest dbg fuel S lo (hi - lo) cur (hi - cur) = Ok S.
Proof.
  induction k as [|k IH]; intros fuel S lo hi cur F MI Ec H.
  - destruct fuel; cbn [munmap_loop]; replace (cur <? lo + (hi - lo)) with false by lia; reflexivity.
  - destruct fuel as [|f]; [lia|]. cbn [munmap_loop]. replace (cur <? lo + (hi - lo)) with true by (unfold PAGE in *; lia).
    destruct (find_map nb biggest dbg al cur_ max_ S cur MI) as (n & E & [(-> & _)|(N & v & Hn & A & C)]).
    + rewrite E. cbn [bind Nat.eqb]. replace (hi - cur - PAGE) with (hi - (cur + PAGE)) by lia.
      apply (IH f); [lia|exact MI|unfold PAGE in *; lia|]. intros a t Ha. apply H. unfold PAGE in *. lia.
    + exfalso. destruct (in_rec S n v cur MI Hn A C) as (t & Ht). apply (H cur t); [unfold PAGE in *; lia|exact Ht].
Qed.

Record J (S : mst) (lo hi cur : Z) : Prop := {
  j_inv : MInv S;
  j_cur : lo <= cur;
  j_start : forall w, view (fo S) (start (fo S)) = Some w -> a_end w <= lo \/ hi <= a_begin w;
  j_kids : forall n v, view (fo S) n = Some v -> a_alloc v = MMAP -> a_begin v < hi -> lo < a_end v ->
      a_begin v < lo \/ hi < a_end v -> kids_off S n lo hi;
  j_none : forall a t, lo <= a < cur -> ~ recorded S a t;
  j_free : forall n v, cur = lo -> view (fo S) n = Some v -> a_alloc v = MMAP -> a_begin v < lo -> hi < a_end v -> has_free nb (fo S) }.

Lemma loop_ok fuel : forall k S lo hi cur, J S lo hi cur -> 0 < lo < hi -> aligned lo -> aligned hi -> cur = hi - PAGE * Z.of_nat k ->
  (k + (if (cur =? lo)%Z then 1 else 0) <= fuel)%nat ->
  exists S', munmap_loop nb biggest dbg fuel S lo (hi - lo) cur (hi - cur) = Ok S' /\ MInv S' /\ unmapped S S' cur hi.
Proof.
  induction fuel as [|f IH]; intros k S lo hi cur HJ HL A1 A2 Ec Fu.
  - assert (k = 0%nat) by lia. subst k. exists S. cbn [munmap_loop]. replace (cur <? lo + (hi - lo)) with false by lia.
    split; [reflexivity|]. split; [apply (j_inv _ _ _ _ HJ)|]. replace cur with hi by lia. exact (unmapped_nil nb al _ _).
  - assert (MI := j_inv _ _ _ _ HJ). assert (Hc := j_cur _ _ _ _ HJ).
    destruct k as [|k].
    { exists S. cbn [munmap_loop]. replace (cur <? lo + (hi - lo)) with false by lia. split; [reflexivity|].
      split; [apply (j_inv _ _ _ _ HJ)|]. replace cur with hi by lia. exact (unmapped_nil nb al _ _). }
    assert (HP : 0 < PAGE) by reflexivity.
    assert (Hch : cur + PAGE <= hi) by (unfold PAGE in *; lia).
    assert (Ac : aligned cur) by (unfold aligned in *; unfold PAGE in *; lia).
    cbn [munmap_loop]. replace (cur <? lo + (hi - lo)) with true by (unfold PAGE in *; lia).
    destruct (find_map nb biggest dbg al cur_ max_ S cur MI) as (n & E & [(-> & NR)|(N & v & Hn & A & C)]).
    { rewrite E. cbn [bind Nat.eqb]. replace (hi - cur - PAGE) with (hi - (cur + PAGE)) by lia.
      assert (PN := page_none S cur MI Ac NR).
      destruct (IH k S lo hi (cur + PAGE)) as (S' & E' & MI' & U); try assumption.
      - destruct HJ as [J1 J2 J3 J4 J5 J6]. constructor; try assumption.
        + unfold PAGE; lia.
        + intros a t Ha. destruct (Z.lt_ge_cases a cur); [apply J5; lia|apply PN; lia].
        + intros n v X. exfalso. unfold PAGE in X. lia.
      - unfold PAGE in *; lia.
      - replace (cur + PAGE =? lo) with false by (unfold PAGE in *; lia). destruct (cur =? lo); lia.
      - exists S'. split; [exact E'|]. split; [exact MI'|].
        apply (unmapped_trans nb al S S S' cur (cur + PAGE) hi); [unfold PAGE in *; lia| |exact U]. apply unmapped_none; assumption. }
    rewrite E. cbn [bind]. destruct (Nat.eqb_spec n 0) as [|_]; [contradiction|].
    destruct (view_inv _ _ _ Hn) as [Ln Ev].
    assert (Fb : b_begin (bigs (fo S) n) = a_begin v) by (rewrite Ev; reflexivity).
    assert (Fe : b_end (bigs (fo S) n) = a_end v) by (rewrite Ev; reflexivity).
    assert (Fp : b_priv (bigs (fo S) n) = a_priv v) by (rewrite Ev; reflexivity).
    rewrite Fb, Fe, Fp. rewrite (asrt_true dbg (a_begin v <=? cur)) by lia. cbn [bind].
    destruct (mi_seq _ _ _ _ _ _ _ MI n v Hn A) as (Pn & SI & Eb & Ee & FR).
    destruct (vf_align _ _ _ _ _ _ (fo S) (mi_R _ _ _ _ _ _ _ MI) n v Hn Pn) as [Al1 Al2].
    change (aligned (a_begin v)) in Al1. change (aligned (a_end v)) in Al2.
    destruct (Z.eqb_spec cur (a_begin v)) as [Eq|Neq].
    + destruct (Z.leb_spec (a_end v) (cur + (hi - cur))) as [L|L].
      * (* the whole mapping *)
        destruct (step_delete nb biggest dbg al cur_ max_ S n v MI Hn A) as (s' & E' & MI' & U' & St' & VW' & VS').
        { intros w Hw X. destruct (j_start _ _ _ _ HJ w Hw) as [Y|Y]; [|lia].
          assert (Q := vf_range _ _ _ _ _ _ (fo S) (mi_R _ _ _ _ _ _ _ MI) _ w Hw). lia. }
        rewrite E'. cbn [bind]. destruct (pages_below (a_end v) hi Al2 A2 ltac:(lia)) as (k' & Ek').
        replace (hi - cur - (a_end v - cur)) with (hi - a_end v) by lia.
        destruct (IH k' (set_fo S s') lo hi (a_end v)) as (S' & E2 & MI2 & U2); try assumption.
        { destruct HJ as [J1 J2 J3 J4 J5 J6]. constructor; try assumption.
          - lia.
          - cbn [fo set_fo]. rewrite St'. intros w Hw. apply VW' in Hw. exact (J3 w Hw).
          - cbn [fo set_fo]. intros m w Hm Am B1 B2 B3 c wc Hc' Pc. cbn [fo set_fo] in Hc'. exact (J4 m w (VW' _ _ Hm) Am B1 B2 B3 c wc (VW' _ _ Hc') Pc).
          - intros a t Ha Ra. apply (un_rec _ _ _ _ U') in Ra. destruct Ra as [Ra NRa]. apply (J5 a t); [lia|exact Ra].
          - intros m w X. exfalso. lia. }
        { replace (a_end v =? lo) with false by lia. unfold PAGE in *. destruct (cur =? lo); lia. }
        exists S'. split; [exact E2|]. split; [exact MI2|]. apply (unmapped_trans nb al S (set_fo S s') S' cur (a_end v) hi); [lia|rewrite Eq; exact U'|exact U2].
      * (* the front of a mapping *)
        destruct (step_front nb biggest dbg al cur_ max_ S n v hi MI Hn A ltac:(lia) A2) as (s' & q' & E1 & E2 & MI' & U').
        { intros c wc Hc' Pc. destruct (j_kids _ _ _ _ HJ n v Hn A ltac:(lia) ltac:(lia) ltac:(lia) c wc Hc' Pc); lia. }
        replace (cur + (hi - cur)) with hi by lia. rewrite E1. cbn [bind]. rewrite <- Eq in E2. rewrite E2. cbn [bind].
        eexists. split; [reflexivity|]. split; [exact MI'|]. rewrite Eq. exact U'.
    + assert (cur = lo).
      { destruct (Z.eq_dec cur lo); [auto|]. exfalso. destruct (in_rec S n v (Z.max lo (a_begin v)) MI Hn A ltac:(lia)) as (t & Ht).
        apply (j_none _ _ _ _ HJ (Z.max lo (a_begin v)) t); [lia|exact Ht]. }
      subst lo.
      assert (KO := j_kids _ _ _ _ HJ n v Hn A ltac:(lia) ltac:(lia) ltac:(lia)).
      destruct (Z.leb_spec (a_end v) (cur + (hi - cur))) as [L|L].
      * (* the back of a mapping *)
        destruct (step_back nb biggest dbg al cur_ max_ S n v cur MI Hn A ltac:(lia) Ac) as (s' & q' & E1 & E2 & MI' & U' & St' & VW' & Vn').
        { intros c wc Hc' Pc. assert (KI := kid_in nb biggest dbg al cur_ max_ S n v c wc MI Hn (proj1 Ln) Hc' Pc).
          assert (Q := vf_range _ _ _ _ _ _ (fo S) (mi_R _ _ _ _ _ _ _ MI) _ wc Hc'). destruct (KO c wc Hc' Pc); lia. }
        rewrite E1. cbn [bind]. rewrite E2. cbn [bind]. destruct (pages_below (a_end v) hi Al2 A2 ltac:(lia)) as (k' & Ek').
        replace (hi - cur - (a_end v - cur)) with (hi - a_end v) by lia. replace (cur + (a_end v - cur)) with (a_end v) by lia.
        destruct (IH k' (set_seq (set_fo S s') (a_priv v) q') cur hi (a_end v)) as (S' & E3 & MI2 & U2); try assumption.
        { destruct HJ as [J1 J2 J3 J4 J5 J6]. constructor; try assumption.
          - lia.
          - cbn [fo set_fo set_seq]. rewrite St'. intros w Hw. destruct (Nat.eq_dec (start (fo S)) n) as [En|Nn].
            + rewrite En in Hw. rewrite Vn' in Hw. injection Hw as <-. cbn. lia.
            + rewrite (VW' _ Nn) in Hw. exact (J3 w Hw).
          - cbn [fo set_fo set_seq]. intros m w Hm Am B1 B2 B3 c wc Hc' Pc. cbn [fo set_fo set_seq] in Hc'.
            destruct (Nat.eq_dec m n) as [->|Nm].
            + rewrite Vn' in Hm. injection Hm as <-. cbn in B2. lia.
            + rewrite (VW' _ Nm) in Hm. destruct (Nat.eq_dec c n) as [->|Nc].
              * rewrite Vn' in Hc'. injection Hc' as <-. cbn. lia.
              * rewrite (VW' _ Nc) in Hc'. exact (J4 m w Hm Am B1 B2 B3 c wc Hc' Pc).
          - intros a t Ha Ra. apply (un_rec _ _ _ _ U') in Ra. destruct Ra as [Ra NRa]. lia.
          - intros m w X. exfalso. lia. }
        { replace (a_end v =? cur) with false by lia. unfold PAGE in *. destruct (cur =? cur); lia. }
        exists S'. split; [exact E3|]. split; [exact MI2|].
        apply (unmapped_trans nb al S (set_seq (set_fo S s') (a_priv v) q') S' cur (a_end v) hi); [lia|exact U'|exact U2].
      * (* a hole *)
        replace (cur + (hi - cur)) with hi in * by lia.
        destruct (step_hole nb biggest dbg al cur_ max_ S n v cur hi MI Hn A ltac:(lia) ltac:(lia) L Ac A2 KO (j_free _ _ _ _ HJ n v eq_refl Hn A ltac:(lia) L))
          as (s1 & nw & s2 & q1 & q2 & E1 & E2 & E3 & E4 & X).
        rewrite E1. cbn [bind]. rewrite E2. cbn [bind]. rewrite E3. cbn [bind]. rewrite E4. cbn [bind].
        destruct (alloc_seq (set_seq (set_fo S s2) (a_priv v) q1) q2) as [S1 p2]. destruct X as [MI' U'].
        exists (set_fo S1 (set_priv s2 nw p2)). split; [|split; [exact MI'|exact U']].
        apply (loop_none (Datatypes.S k)); [|exact MI'|exact Ec|].
        { rewrite Z.eqb_refl in Fu. lia. }
        intros a t Ha Ra. apply (un_rec _ _ _ _ U') in Ra. tauto.
Qed.

Theorem munmap_ok S addr len : MInv S -> 0 < len -> may_unmap nb S addr (addr + RUP len) ->
  exists S', do_munmap nb biggest dbg S addr len = Ok S' /\ MInv S' /\ unmapped S S' addr (addr + RUP len).
Proof.
  intros MI HL [MR MS MK MF]. destruct MR as (H1 & A1 & A2). unfold do_munmap.
  assert (Y := loop_ok (2 + Z.to_nat (RUP len / PAGE)) (Z.to_nat (RUP len / PAGE)) S addr (addr + RUP len) addr).
  replace (addr + RUP len - addr) with (RUP len) in Y by lia.
  assert (HM : PAGE * Z.of_nat (Z.to_nat (RUP len / PAGE)) = RUP len).
  { rewrite Z2Nat.id by (unfold PAGE; lia). unfold PAGE in *. lia. }
  apply Y; [|lia|exact A1|exact A2|lia|destruct (addr =? addr); lia]. clear Y HM.
  constructor.
  - exact MI.
  - lia.
  - intros w Hw. destruct (view_inv _ _ _ Hw) as [Lw ->]. cbn.
    destruct (Z.le_gt_cases (b_end (bigs (fo S) (start (fo S)))) addr); [auto|].
    destruct (Z.le_gt_cases (addr + RUP len) (b_begin (bigs (fo S) (start (fo S))))); [auto|]. exfalso. apply MS.
    assert (Q := vf_range _ _ _ _ _ _ (fo S) (mi_R _ _ _ _ _ _ _ MI) _ _ Hw). cbn in Q. clear A1 A2.
    exists (Z.max addr (b_begin (bigs (fo S) (start (fo S))))). unfold covers. lia.
  - intros n v Hn A B1 B2 B3 c wc Hc Pc. destruct (view_inv _ _ _ Hn) as [Ln En]. destruct (view_inv _ _ _ Hc) as [Lc Ewc].
    assert (Q := vf_range _ _ _ _ _ _ (fo S) (mi_R _ _ _ _ _ _ _ MI) _ _ Hn).
    subst v wc. cbn in *. apply (MK n c Ln A); auto. clear A1 A2.
    exists (Z.max addr (b_begin (bigs (fo S) n))). unfold covers. lia.
  - intros a t Ha. lia.
  - intros n v _ Hn A B1 B2. destruct (view_inv _ _ _ Hn) as [Ln ->]. exact (MF n Ln A B1 B2).
Qed.
End Lo.
