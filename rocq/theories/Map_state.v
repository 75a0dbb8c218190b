(* The state invariant of the mapping records, and how single changes affect it. *)
From Verif Require Import Base Big_model Big_spec Big_inv Big_lookup Big_links Big_create Big_hist Big_props Map_model Map_spec Big_field Map_seq Map_aug.

(* page alignment, kept out of sight of the arithmetic solver *)
Definition aligned (x : Z) : Prop := x mod PAGE = 0.

Section St.
Variables (nb : nat) (biggest : Z) (dbg : bool) (al : nat -> Z) (cur max : Z).
Notation R := (reach nb biggest dbg al cur max).

Record MInv (S : mst) : Prop := {
  mi_R : R (fo S);
  mi_seq : forall n v, view (fo S) n = Some v -> a_alloc v = MMAP ->
     a_parent v = 0%nat /\ seq_inv (seqs S (a_priv v)) /\ q_begin (seqs S (a_priv v)) = a_begin v /\
     q_end (seqs S (a_priv v)) = a_end v /\ (a_priv v < fresh S)%nat;
  mi_own : forall m n v w, view (fo S) m = Some v -> view (fo S) n = Some w -> a_alloc v = MMAP -> a_alloc w = MMAP ->
     a_priv v = a_priv w -> m = n }.

(* ---- the forest, read through views ---- *)
Lemma view_inv s n v : view s n = Some v -> live s n /\ v = attrs_of (bigs s n).
Proof. intro H. assert (L := some_live s n v H). split; [auto|]. rewrite (live_view s n L) in H. congruence. Qed.
Lemma live_as s n : live s n -> view s n = Some (attrs_of (bigs s n)).
Proof. intro H. apply live_view. auto. Qed.

Section F.
  Variable s : st.
  Hypothesis HR : R s.
  Lemma HF : forest s. Proof. exact (proj1 (big_forest_always _ _ _ _ _ _ s HR)). Qed.
  Lemma vf_range n v : view s n = Some v -> 0 < a_begin v < a_end v.
  Proof. intro H. apply view_inv in H. destruct H as [L ->]. exact (fo_range _ HF n L). Qed.
  Lemma vf_align n v : view s n = Some v -> a_parent v = 0%nat -> a_begin v mod PAGE = 0 /\ a_end v mod PAGE = 0.
  Proof. intro H. apply view_inv in H. destruct H as [L ->]. exact (fo_aligned _ HF n L). Qed.
  Lemma vf_top m n v w : view s m = Some v -> view s n = Some w -> a_parent v = 0%nat -> a_parent w = 0%nat -> m <> n ->
    a_end v <= a_begin w \/ a_end w <= a_begin v.
  Proof.
    intros H1 H2 P1 P2 N. assert (R1 := vf_range _ _ H1). assert (R2 := vf_range _ _ H2).
    apply view_inv in H1. destruct H1 as [L1 ->]. apply view_inv in H2. destruct H2 as [L2 ->]. cbn in *.
    destruct (Z.le_gt_cases (b_end (bigs s m)) (b_begin (bigs s n))); [auto|].
    destruct (Z.le_gt_cases (b_end (bigs s n)) (b_begin (bigs s m))); [auto|].
    exfalso. apply (fo_sib _ HF m n L1 L2 N); [congruence|]. exists (Z.max (b_begin (bigs s m)) (b_begin (bigs s n))). unfold covers. lia.
  Qed.
  Lemma vf_in m v : view s m = Some v -> a_parent v <> 0%nat ->
    exists w, view s (a_parent v) = Some w /\ a_begin w <= a_begin v /\ a_end v <= a_end w.
  Proof.
    intros H P. apply view_inv in H. destruct H as [L ->]. cbn in *.
    destruct (fo_parent _ HF m L) as [E|Lp]; [congruence|]. exists (attrs_of (bigs s (b_parent (bigs s m)))).
    split; [apply live_as, Lp|]. exact (fo_inside _ HF m L P).
  Qed.
  Lemma vf_anc n m v w : view s n = Some v -> view s m = Some w -> anc s n m -> a_begin v <= a_begin w /\ a_end w <= a_end v.
  Proof.
    intros H1 H2 A. apply view_inv in H1. destruct H1 as [L1 ->]. apply view_inv in H2. destruct H2 as [L2 ->].
    destruct (reach_good _ _ _ _ _ _ _ HR) as [(K & rk & HI) _]. assert (X := anc_range _ _ _ _ HI n m A L2). cbn. lia.
  Qed.
  (* a top-level allocation encloses everything it covers the beginning of *)
  Lemma vf_root n m v w : view s n = Some v -> view s m = Some w -> a_parent v = 0%nat ->
    a_begin v <= a_begin w < a_end v -> anc s n m.
  Proof.
    intros H1 H2 P C. assert (RW := vf_range _ _ H2). apply view_inv in H1. destruct H1 as [L1 ->]. apply view_inv in H2. destruct H2 as [L2 ->].
    destruct (reach_good _ _ _ _ _ _ _ HR) as [(K & rk & HI) _]. cbn in *.
    apply (root_anc _ _ _ _ HI n (b_begin (bigs s m)) m L1 P); [exact C|exact L2|]. unfold covers. lia.
  Qed.
  Lemma anc_top n m v : view s m = Some v -> a_parent v = 0%nat -> anc s n m -> n = m.
  Proof.
    intros H P A. apply view_inv in H. destruct H as [L ->]. cbn in P. inversion A; [auto|]. congruence.
  Qed.
End F.

(* ---- recorded, through views ---- *)
Definition rec' (S : mst) (a : Z) (t : attr) : Prop :=
  exists n v, view (fo S) n = Some v /\ a_alloc v = MMAP /\ says (seqs S (a_priv v)) a t.
Definition recO (S : mst) (n : nat) (a : Z) (t : attr) : Prop :=
  exists m v, m <> n /\ view (fo S) m = Some v /\ a_alloc v = MMAP /\ says (seqs S (a_priv v)) a t.

Lemma says_in q a t : seq_ok q -> says q a t -> q_begin q <= a < q_end q.
Proof. intros OK H. apply says_range; eauto. Qed.
Lemma rec_iff S a t : MInv S -> (recorded S a t <-> rec' S a t).
Proof.
  intro MI. split.
  - intros (n & L & A & C & H). exists n, (attrs_of (bigs (fo S) n)). split; [apply live_as, L|]. auto.
  - intros (n & v & H & A & Sa). destruct (mi_seq _ MI n v H A) as (P & SI & Eb & Ee & _).
    assert (X := says_in _ _ _ (proj1 SI) Sa). apply view_inv in H. destruct H as [L ->]. cbn in *.
    exists n. split; [auto|]. split; [auto|]. split; [unfold covers; lia|auto].
Qed.
Lemma recO_off S n v a t : MInv S -> view (fo S) n = Some v -> a_parent v = 0%nat -> recO S n a t -> ~ (a_begin v <= a < a_end v).
Proof.
  intros MI H P (m & w & N & Hm & A & Sa) Ha. destruct (mi_seq _ MI m w Hm A) as (Pm & SI & Eb & Ee & _).
  assert (X := says_in _ _ _ (proj1 SI) Sa). destruct (vf_top _ (mi_R _ MI) m n w v Hm H Pm P N); lia.
Qed.
Lemma rec_split S n v a t : MInv S -> view (fo S) n = Some v -> a_alloc v = MMAP ->
  (recorded S a t <-> says (seqs S (a_priv v)) a t \/ recO S n a t).
Proof.
  intros MI H A. rewrite (rec_iff _ _ _ MI). split.
  - intros (m & w & Hm & Am & Sa). destruct (Nat.eq_dec m n) as [->|N]; [left; congruence|right; exists m, w; auto].
  - intros [Sa|(m & w & N & Hm & Am & Sa)]; [exists n, v; auto|exists m, w; auto].
Qed.
Lemma rec_new S n a t : MInv S -> (forall v, view (fo S) n = Some v -> a_alloc v <> MMAP) -> (recorded S a t <-> recO S n a t).
Proof.
  intros MI N. rewrite (rec_iff _ _ _ MI). split; intros (m & w & H); [|exists m, w; tauto].
  exists m, w. split; [|exact H]. intros ->. destruct H as (H & A & _). exact (N w H A).
Qed.

(* the mappings other than n are untouched *)
Definition maps_same (s s' : st) (n : nat) : Prop :=
  forall m w, m <> n -> a_alloc w = MMAP -> (view s' m = Some w <-> view s m = Some w).

(* the part of the invariant about sequences, on any table of views *)
Record SInv (V : nat -> option attrs) (sq : nat -> mseq) (fr : nat) : Prop := {
  si_seq : forall n v, V n = Some v -> a_alloc v = MMAP ->
     a_parent v = 0%nat /\ seq_inv (sq (a_priv v)) /\ q_begin (sq (a_priv v)) = a_begin v /\
     q_end (sq (a_priv v)) = a_end v /\ (a_priv v < fr)%nat;
  si_own : forall m n v w, V m = Some v -> V n = Some w -> a_alloc v = MMAP -> a_alloc w = MMAP ->
     a_priv v = a_priv w -> m = n }.
Definition recV (V : nat -> option attrs) (sq : nat -> mseq) (a : Z) (t : attr) : Prop :=
  exists n v, V n = Some v /\ a_alloc v = MMAP /\ says (sq (a_priv v)) a t.
Definition recOV (V : nat -> option attrs) (sq : nat -> mseq) (n : nat) (a : Z) (t : attr) : Prop :=
  exists m v, m <> n /\ V m = Some v /\ a_alloc v = MMAP /\ says (sq (a_priv v)) a t.

Lemma MInv_SInv S : MInv S <-> R (fo S) /\ SInv (view (fo S)) (seqs S) (fresh S).
Proof. split; [intros [A B C]; split; [exact A|constructor; assumption]|intros [A [B C]]; constructor; assumption]. Qed.

Lemma put_SInv V V' sq sq' fr fr' n v' q' : SInv V sq fr ->
  (forall m w, m <> n -> a_alloc w = MMAP -> (V' m = Some w <-> V m = Some w)) -> V' n = Some v' ->
  a_alloc v' = MMAP -> a_parent v' = 0%nat -> seq_inv q' -> q_begin q' = a_begin v' -> q_end q' = a_end v' ->
  (a_priv v' < fr')%nat -> (fr <= fr')%nat -> (forall i, i <> a_priv v' -> sq' i = sq i) -> sq' (a_priv v') = q' ->
  ((exists v, V n = Some v /\ a_alloc v = MMAP /\ a_priv v = a_priv v') \/ (fr <= a_priv v')%nat) ->
  SInv V' sq' fr' /\ forall a t, recV V' sq' a t <-> says q' a t \/ recOV V sq n a t.
Proof.
  intros MI MS Hn A P SI Eb Ee F1 F2 Sq Sp Own.
  assert (OwnO : forall m w, m <> n -> V m = Some w -> a_alloc w = MMAP -> a_priv w <> a_priv v').
  { intros m w N H Aw E. destruct Own as [(v & Hv & Av & Ev)|Own].
    - apply N. apply (si_own _ _ _ MI m n w v); auto. congruence.
    - destruct (si_seq _ _ _ MI m w H Aw) as (_ & _ & _ & _ & X). lia. }
  split.
  - constructor.
    + intros m w H Aw. destruct (Nat.eq_dec m n) as [->|N].
      * rewrite Hn in H. injection H as <-. rewrite Sp. auto.
      * apply (MS m w N Aw) in H. destruct (si_seq _ _ _ MI m w H Aw) as (X1 & X2 & X3 & X4 & X5).
        rewrite (Sq _ (OwnO m w N H Aw)). split; [auto|]. split; [auto|]. split; [auto|]. split; [auto|lia].
    + intros m k v w H1 H2 A1 A2 E. destruct (Nat.eq_dec m n) as [->|N1], (Nat.eq_dec k n) as [->|N2]; auto.
      * exfalso. rewrite Hn in H1. injection H1 as <-. apply (MS k w N2 A2) in H2. apply (OwnO k w N2 H2 A2). auto.
      * exfalso. rewrite Hn in H2. injection H2 as <-. apply (MS m v N1 A1) in H1. apply (OwnO m v N1 H1 A1). auto.
      * apply (MS m v N1 A1) in H1. apply (MS k w N2 A2) in H2. apply (si_own _ _ _ MI m k v w); auto.
  - intros a t. split.
    + intros (m & w & H & Aw & Sa). destruct (Nat.eq_dec m n) as [->|N].
      * left. rewrite Hn in H. injection H as <-. rewrite Sp in Sa. exact Sa.
      * right. exists m, w. split; [exact N|]. apply (MS m w N Aw) in H. split; [exact H|]. split; [exact Aw|].
        rewrite <- (Sq _ (OwnO m w N H Aw)). exact Sa.
    + intros [Sa|(m & w & N & H & Aw & Sa)].
      * exists n, v'. rewrite Sp. auto.
      * exists m, w. split; [apply (MS m w N Aw), H|]. split; [exact Aw|]. rewrite (Sq _ (OwnO m w N H Aw)). exact Sa.
Qed.

Lemma put_MInv S s' sq' fr' n v' q' : MInv S -> R s' -> maps_same (fo S) s' n -> view s' n = Some v' ->
  a_alloc v' = MMAP -> a_parent v' = 0%nat -> seq_inv q' -> q_begin q' = a_begin v' -> q_end q' = a_end v' ->
  (a_priv v' < fr')%nat -> (fresh S <= fr')%nat -> (forall i, i <> a_priv v' -> sq' i = seqs S i) -> sq' (a_priv v') = q' ->
  ((exists v, view (fo S) n = Some v /\ a_alloc v = MMAP /\ a_priv v = a_priv v') \/ (fresh S <= a_priv v')%nat) ->
  MInv (mkS s' sq' fr') /\ forall a t, recorded (mkS s' sq' fr') a t <-> says q' a t \/ recO S n a t.
Proof.
  intros MI HR MS Hn A P SI Eb Ee F1 F2 Sq Sp Own. apply MInv_SInv in MI.
  destruct (put_SInv (view (fo S)) (view s') (seqs S) sq' (fresh S) fr' n v' q' (proj2 MI) MS Hn A P SI Eb Ee F1 F2 Sq Sp Own) as [X Y].
  assert (MI' : MInv (mkS s' sq' fr')) by (apply MInv_SInv; split; [exact HR|exact X]).
  split; [exact MI'|]. intros a t. rewrite (rec_iff _ _ _ MI'). exact (Y a t).
Qed.

Lemma del_MInv S s' n : MInv S -> R s' -> maps_same (fo S) s' n -> (forall v, view s' n = Some v -> a_alloc v <> MMAP) ->
  MInv (set_fo S s') /\ forall a t, recorded (set_fo S s') a t <-> recO S n a t.
Proof.
  intros MI HR MS Hn.
  assert (MI' : MInv (set_fo S s')).
  { assert (NN : forall m v, view s' m = Some v -> a_alloc v = MMAP -> view (fo S) m = Some v).
    { intros m v H A. destruct (Nat.eq_dec m n) as [->|N]; [exfalso; exact (Hn v H A)|]. apply (MS m v N A), H. }
    constructor; cbn [set_fo fo seqs fresh].
    - exact HR.
    - intros m v H A. apply (mi_seq _ MI m v); auto.
    - intros m k v w H1 H2 A1 A2. apply (mi_own _ MI m k v w); auto. }
  split; [exact MI'|]. intros a t. rewrite (rec_new _ n a t MI' Hn).
  split; intros (m & w & N & H & Aw & Sa); exists m, w; cbn [set_fo fo seqs] in *; (split; [exact N|]); (split; [apply (MS m w N Aw), H|]); auto.
Qed.

(* ---- composing unmappings ---- *)
Lemma unmapped_nil S lo : unmapped S S lo lo.
Proof.
  constructor.
  - intros a t. split; [intro H; split; [exact H|lia]|intros [H _]; exact H].
  - intros m w. split; [intro H; split; [exact H|]|intros [H _]; exact H]. intros [(a & Ha & _) _]. lia.
Qed.
Lemma unmapped_trans S S1 S2 lo mid hi : lo <= mid <= hi -> unmapped S S1 lo mid -> unmapped S1 S2 mid hi -> unmapped S S2 lo hi.
Proof.
  intros L U1 U2. constructor.
  - intros a t. rewrite (un_rec _ _ _ _ U2), (un_rec _ _ _ _ U1). split; [intros ((H & N1) & N2); split; [exact H|lia]|].
    intros (H & N). split; [split; [exact H|lia]|lia].
  - intros m w. rewrite (un_oth _ _ _ _ U2), (un_oth _ _ _ _ U1). split.
    + intros ((H & N1) & N2). split; [exact H|]. intros [(a & Ha & Hw) (t & Ht)].
      destruct (Z.lt_ge_cases a mid) as [Hm|Hm].
      * apply N1. split; [exists a; split; [lia|exact Hw]|eauto].
      * destruct (Z.lt_ge_cases (f_begin w) mid) as [Hb|Hb]; [destruct (Z.le_gt_cases lo (f_begin w)) as [Hb'|Hb']|].
        -- apply N1. split; [exists (f_begin w); lia|eauto].
        -- apply N2. split; [exists a; split; [lia|exact Hw]|]. exists t. apply (un_rec _ _ _ _ U1). split; [exact Ht|lia].
        -- apply N2. split; [exists a; split; [lia|exact Hw]|]. exists t. apply (un_rec _ _ _ _ U1). split; [exact Ht|lia].
    + intros (H & N). split; [split; [exact H|]|].
      * intros [(a & Ha & Hw) (t & Ht)]. apply N. split; [exists a; split; [lia|exact Hw]|eauto].
      * intros [(a & Ha & Hw) (t & Ht)]. apply (un_rec _ _ _ _ U1) in Ht. apply N. split; [exists a; split; [lia|exact Hw]|exists t; apply Ht].
Qed.
End St.
