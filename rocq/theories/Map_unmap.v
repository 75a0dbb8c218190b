(* Unmapping: each branch of the loop, and the loop. *)
From Verif Require Import Base Big_model Big_spec Big_inv Big_lookup Big_links Big_create Big_hist Big_props Map_model Map_spec Big_field Map_seq Map_aug Map_state.

Section Un.
Variables (nb : nat) (biggest : Z) (dbg : bool) (al : nat -> Z) (cur_ max_ : Z).
Notation R := (reach nb biggest dbg al cur_ max_).
Notation MInv := (MInv nb biggest dbg al cur_ max_).

Lemma find_map S x : MInv S -> exists n, find_from_root nb (fo S) x MMAP false = Ok n /\
  ((n = 0%nat /\ forall t, ~ recorded S x t) \/
   (n <> 0%nat /\ exists v, view (fo S) n = Some v /\ a_alloc v = MMAP /\ a_begin v <= x < a_end v)).
Proof.
  intro MI. destruct (big_find_by_allocator _ _ _ _ _ _ (fo S) x MMAP false (mi_R _ _ _ _ _ _ _ MI)) as (n & E & [(-> & H)|H]); exists n || exists 0%nat; (split; [exact E|]).
  - left. split; [reflexivity|]. intros t (m & L & A & C & _). exact (H m L C A).
  - right. destruct H as (L & C & A & _). split; [apply L|]. exists (attrs_of (bigs (fo S) n)). split; [apply live_as, L|]. split; [exact A|exact C].
Qed.

(* an allocation inside mapping n reaching address a lies in a child of n *)
Lemma inside_map S n v m w a t : MInv S -> view (fo S) n = Some v -> a_alloc v = MMAP -> other S m w ->
  f_begin w <= a < f_end w -> a_begin v <= a < a_end v -> recorded S (f_begin w) t ->
  live (fo S) m /\ anc (fo S) n m /\ exists c wc, view (fo S) c = Some wc /\ a_parent wc = n /\ a_begin wc <= f_begin w /\ f_end w <= a_end wc.
Proof.
  intros MI Hn A (wm & Hm & Am & <-) Ha Hv Rc. cbn in Ha, Rc.
  assert (HR := mi_R _ _ _ _ _ _ _ MI).
  apply (rec_iff _ _ _ _ _ _ _ _ _ MI) in Rc. destruct Rc as (k & vk & Hk & Ak & Sk).
  destruct (mi_seq _ _ _ _ _ _ _ MI k vk Hk Ak) as (Pk & SI & Eb & Ee & _). assert (X := says_in _ _ _ (proj1 SI) Sk).
  assert (AN := vf_root _ _ _ _ _ _ (fo S) HR k m vk wm Hk Hm Pk ltac:(lia)).
  assert (IN := vf_anc _ _ _ _ _ _ (fo S) HR k m vk wm Hk Hm AN).
  destruct (mi_seq _ _ _ _ _ _ _ MI n v Hn A) as (Pn & _).
  assert (E : k = n).
  { destruct (Nat.eq_dec k n) as [|N]; [auto|]. destruct (vf_top _ _ _ _ _ _ (fo S) HR k n vk v Hk Hn Pk Pn N); lia. }
  subst k. assert (Lm := some_live _ _ _ Hm). split; [exact Lm|]. split; [exact AN|].
  destruct (reach_good _ _ _ _ _ _ _ HR) as [(K & rk & HI) _].
  assert (NM : n <> m) by congruence.
  destruct (anc_child _ _ _ _ HI n m AN Lm NM) as (c & Lc & Pc & Ac).
  exists c, (attrs_of (bigs (fo S) c)). split; [apply live_as, Lc|]. split; [exact Pc|].
  exact (vf_anc _ _ _ _ _ _ (fo S) HR c m _ wm (live_as _ _ Lc) Hm Ac).
Qed.

(* no allocation inside a mapping reaches into [x,y) *)
Definition kids_off (S : mst) (n : nat) (x y : Z) : Prop :=
  forall c wc, view (fo S) c = Some wc -> a_parent wc = n -> a_end wc <= x \/ y <= a_begin wc.

Lemma kids_off_oth S n v x y m w : MInv S -> view (fo S) n = Some v -> a_alloc v = MMAP -> a_begin v <= x -> y <= a_end v ->
  kids_off S n x y -> other S m w -> ~ (in_part w x y /\ exists t, recorded S (f_begin w) t).
Proof.
  intros MI Hn A B1 B2 KO Hm [(a & Ha & Hw) (t & Ht)].
  destruct (inside_map S n v m w a t MI Hn A Hm Hw ltac:(lia) Ht) as (_ & _ & c & wc & Hc & Pc & C1 & C2).
  destruct (KO c wc Hc Pc); lia.
Qed.

(* ---- a whole mapping goes ---- *)
Lemma step_delete S n v : MInv S -> view (fo S) n = Some v -> a_alloc v = MMAP ->
  (forall w, view (fo S) (start (fo S)) = Some w -> ~ (a_begin v <= a_begin w < a_end v)) ->
  exists s', delete_at nb biggest dbg (fo S) (a_begin v) MMAP = Ok (s', true) /\ MInv (set_fo S s') /\
    unmapped S (set_fo S s') (a_begin v) (a_end v) /\ start s' = start (fo S) /\
    (forall m w, view s' m = Some w -> view (fo S) m = Some w) /\
    (forall w, view (fo S) (start (fo S)) = Some w -> view s' (start (fo S)) = Some w).
Proof.
  intros MI Hn A NS2. assert (HR := mi_R _ _ _ _ _ _ _ MI). assert (RV := vf_range _ _ _ _ _ _ (fo S) HR n v Hn).
  destruct (mi_seq _ _ _ _ _ _ _ MI n v Hn A) as (Pn & SI & Eb & Ee & _).
  assert (UN : forall k, outermost (fo S) false (a_begin v) MMAP k -> k = n).
  { intros k (Lk & Ck & Ak & _). destruct (Nat.eq_dec k n) as [|N]; [auto|]. exfalso.
    assert (Hk := live_as _ _ Lk). destruct (mi_seq _ _ _ _ _ _ _ MI k _ Hk Ak) as (Pk & _).
    unfold covers in Ck. destruct (vf_top _ _ _ _ _ _ (fo S) HR k n _ v Hk Hn Pk Pn N) as [X|X]; cbn in X; lia. }
  assert (NA : ~ anc (fo S) n (start (fo S))).
  { intro AN. destruct (reach_good _ _ _ _ _ _ _ HR) as [(K & rk & HI) _].
    assert (LS := kid_live _ _ _ _ HI _ _ (I_start _ _ _ _ HI)).
    assert (X := vf_anc _ _ _ _ _ _ (fo S) HR n _ v _ Hn (live_as _ _ LS) AN).
    assert (Y := vf_range _ _ _ _ _ _ (fo S) HR _ _ (live_as _ _ LS)). cbn in X, Y.
    apply (NS2 _ (live_as _ _ LS)). cbn. lia. }
  destruct (big_delete_at_exact nb biggest dbg al cur_ max_ (fo S) (a_begin v) MMAP HR) as [(_ & H)|(s' & k & D & E & O & HR' & SD & G)].
  { intros k Hk. rewrite (UN k Hk). exact NA. }
  { exfalso. apply view_inv in Hn. destruct Hn as [Ln ->]. apply (H n Ln); [unfold covers; cbn in *; lia|exact A]. }
  rewrite (UN k O) in *. clear k O.
  assert (VW : forall m w, view s' m = Some w -> view (fo S) m = Some w).
  { intros m w H. rewrite (go_view _ _ _ G) in H. destruct (existsb (Nat.eqb m) D); [discriminate|exact H]. }
  assert (VD : forall m w, view (fo S) m = Some w -> ~ anc (fo S) n m -> view s' m = Some w).
  { intros m w H N. rewrite (go_view _ _ _ G). destruct (existsb (Nat.eqb m) D) eqn:X; [|exact H]. exfalso.
    apply existsb_exists in X. destruct X as (m' & Hm' & Em). apply Nat.eqb_eq in Em. subst m'. apply N. apply SD, Hm'. }
  assert (VN : forall m, anc (fo S) n m -> view s' m = None).
  { intros m AN. rewrite (go_view _ _ _ G). destruct (existsb (Nat.eqb m) D) eqn:X; [reflexivity|].
    destruct (view (fo S) m) as [w|] eqn:Hm; [|reflexivity]. exfalso.
    assert (IN : In m D) by (apply SD; split; [eapply some_live; eauto|exact AN]).
    assert (Y : existsb (Nat.eqb m) D = true) by (apply existsb_exists; exists m; split; [exact IN|apply Nat.eqb_refl]). congruence. }
  assert (MS : maps_same (fo S) s' n).
  { intros m w N Aw. split; [apply VW|]. intro H. apply VD; [exact H|]. intro AN. apply N.
    destruct (mi_seq _ _ _ _ _ _ _ MI m w H Aw) as (Pm & _). symmetry. eapply anc_top; eauto. }
  assert (NN : view s' n = None) by (apply VN; constructor).
  destruct (del_MInv _ _ _ _ _ _ S s' n MI HR' MS) as [MI' RC]; [rewrite NN; discriminate|].
  exists s'. split; [exact E|]. split; [exact MI'|]. split; [|split; [apply (go_start _ _ _ G)|split; [exact VW|intros w H; apply VD; auto]]].
  constructor.
  - intros a t. rewrite RC, (rec_split _ _ _ _ _ _ S n v a t MI Hn A). split.
    + intro H. split; [auto|]. exact (recO_off _ _ _ _ _ _ S n v a t MI Hn Pn H).
    + intros ([H|H] & N); [|exact H]. assert (X := says_in _ _ _ (proj1 SI) H). lia.
  - intros m w. split.
    + intros (wm & Hm & Am & Ew). cbn in Hm. assert (Om : other S m w) by (exists wm; split; [apply VW, Hm|auto]).
      split; [exact Om|]. intros [(a & Ha & Hw) (t & Ht)].
      destruct (inside_map S n v m w a t MI Hn A Om Hw Ha Ht) as (_ & AN & _). rewrite (VN m AN) in Hm. discriminate.
    + intros ((wm & Hm & Am & Ew) & N). exists wm. split; [|auto]. cbn. apply VD; [exact Hm|]. intro AN. apply N. subst w.
      assert (IN := vf_anc _ _ _ _ _ _ (fo S) HR n m v wm Hn Hm AN). assert (RW := vf_range _ _ _ _ _ _ (fo S) HR m wm Hm).
      split; [exists (a_begin wm); cbn; lia|]. cbn.
      destruct (proj2 (says_range _ (a_begin wm) (proj1 SI))) as (t & Ht); [lia|]. exists t.
      apply (rec_split _ _ _ _ _ _ S n v _ t MI Hn A). auto.
Qed.

(* ---- one end of a mapping goes ---- *)
Lemma step_shrink S n v s' lo hi x y q' : MInv S -> view (fo S) n = Some v -> a_alloc v = MMAP ->
  R s' -> resized (fo S) s' n lo hi -> seq_inv q' -> q_begin q' = lo -> q_end q' = hi ->
  a_begin v <= x -> y <= a_end v -> kids_off S n x y ->
  (forall a t, says q' a t <-> says (seqs S (a_priv v)) a t /\ ~ (x <= a < y)) ->
  MInv (set_seq (set_fo S s') (a_priv v) q') /\ unmapped S (set_seq (set_fo S s') (a_priv v) q') x y.
Proof.
  intros MI Hn A HR' [RV _] SI Eb Ee Bx By KO SQ. assert (HR := mi_R _ _ _ _ _ _ _ MI).
  destruct (mi_seq _ _ _ _ _ _ _ MI n v Hn A) as (Pn & SI0 & Eb0 & Ee0 & FR).
  assert (Vn := RV n). rewrite Nat.eqb_refl in Vn. assert (Hn' := Hn). apply view_inv in Hn'. destruct Hn' as [Ln Ev].
  set (v' := mkAttrs lo hi (b_parent (bigs (fo S) n)) (b_alloc (bigs (fo S) n)) (b_sub (bigs (fo S) n)) (b_priv (bigs (fo S) n)) (b_subpriv (bigs (fo S) n))) in *.
  assert (VO : forall m, m <> n -> view s' m = view (fo S) m) by (intros m N; rewrite RV; destruct (Nat.eqb_spec m n); [congruence|reflexivity]).
  assert (EP : a_priv v' = a_priv v) by (rewrite Ev; reflexivity).
  destruct (put_MInv nb biggest dbg al cur_ max_ S s' (fun i => if Nat.eqb i (a_priv v) then q' else seqs S i) (fresh S) n v' q') as [MI' RC]; try assumption.
  - intros m w N _. rewrite (VO m N). tauto.
  - rewrite Ev in A. exact A.
  - rewrite Ev in Pn. exact Pn.
  - rewrite EP. exact FR.
  - lia.
  - intros i N. rewrite EP in N. destruct (Nat.eqb_spec i (a_priv v)); [congruence|reflexivity].
  - rewrite EP, Nat.eqb_refl. reflexivity.
  - left. exists v. rewrite EP. auto.
  - split; [exact MI'|]. constructor.
    + intros a t. rewrite (rec_split _ _ _ _ _ _ S n v a t MI Hn A).
      assert (X := RC a t). unfold set_seq, set_fo. cbn [fo seqs fresh]. rewrite X, SQ. split.
      * intros [[H N]|H]; [auto|]. split; [auto|]. assert (Y := recO_off _ _ _ _ _ _ S n v a t MI Hn Pn H). lia.
      * intros ([H|H] & N); auto.
    + intros m w. assert (EQ : other (set_seq (set_fo S s') (a_priv v) q') m w <-> other S m w).
      { unfold other. cbn. destruct (Nat.eq_dec m n) as [->|N]; [|rewrite (VO m N); tauto].
        rewrite Vn, Hn. split; intros (z & Hz & Az & _); exfalso; injection Hz as <-; apply Az; [rewrite Ev in A; exact A|exact A]. }
      rewrite EQ. split; [|tauto]. intro H. split; [exact H|]. exact (kids_off_oth S n v x y m w MI Hn A Bx By KO H).
Qed.

(* what the new bounds must satisfy *)
Lemma shrink_range S n v lo hi : MInv S -> view (fo S) n = Some v -> a_alloc v = MMAP ->
  a_begin v <= lo -> lo < hi -> hi <= a_end v -> lo mod PAGE = 0 -> hi mod PAGE = 0 ->
  (forall c wc, view (fo S) c = Some wc -> a_parent wc = n -> lo <= a_begin wc /\ a_end wc <= hi) -> good_range (fo S) n lo hi.
Proof.
  intros MI Hn A B1 B2 B3 A1 A2 KO. assert (HR := mi_R _ _ _ _ _ _ _ MI).
  destruct (mi_seq _ _ _ _ _ _ _ MI n v Hn A) as (Pn & _). assert (RV := vf_range _ _ _ _ _ _ (fo S) HR n v Hn).
  assert (Hn' := Hn). apply view_inv in Hn'. destruct Hn' as [Ln Ev]. rewrite Ev in *. cbn in *.
  constructor.
  - lia.
  - lia.
  - intro N. congruence.
  - intros c Lc Pc. exact (KO c _ (live_as _ _ Lc) Pc).
  - intros m Lm N Pm. rewrite Pn in Pm.
    destruct (vf_top _ _ _ _ _ _ (fo S) HR m n _ _ (live_as _ _ Lm) Hn Pm Pn N) as [X|X]; cbn in X; lia.
  - auto.
Qed.
Lemma rdown_id x : x mod PAGE = 0 -> RDOWN x = x.
Proof. intro H. unfold RDOWN, rdown. unfold PAGE in *. lia. Qed.
Lemma rup_id x : x mod PAGE = 0 -> RUP x = x.
Proof. intro H. unfold RUP, rup. unfold PAGE in *. lia. Qed.

Lemma kid_in S n v c wc : MInv S -> view (fo S) n = Some v -> n <> 0%nat -> view (fo S) c = Some wc -> a_parent wc = n ->
  a_begin v <= a_begin wc /\ a_end wc <= a_end v.
Proof.
  intros MI Hn N0 Hc Pc. destruct (vf_in _ _ _ _ _ _ (fo S) (mi_R _ _ _ _ _ _ _ MI) c wc Hc) as (w & Hw & I1 & I2); [congruence|].
  rewrite Pc in Hw. rewrite Hn in Hw. injection Hw as <-. auto.
Qed.

Lemma step_front S n v x : MInv S -> view (fo S) n = Some v -> a_alloc v = MMAP -> a_begin v < x < a_end v -> x mod PAGE = 0 ->
  kids_off S n (a_begin v) x ->
  exists s' q', truncate_begin biggest dbg (fo S) n x = Ok s' /\ delete_span dbg (seqs S (a_priv v)) (a_begin v) (x - a_begin v) = Ok q' /\
    MInv (set_seq (set_fo S s') (a_priv v) q') /\ unmapped S (set_seq (set_fo S s') (a_priv v) q') (a_begin v) x.
Proof.
  intros MI Hn A Bx Ax KO. assert (HR := mi_R _ _ _ _ _ _ _ MI).
  destruct (mi_seq _ _ _ _ _ _ _ MI n v Hn A) as (Pn & SI & Eb & Ee & _).
  destruct (vf_align _ _ _ _ _ _ (fo S) HR n v Hn Pn) as [A1 A2].
  assert (RV := vf_range _ _ _ _ _ _ (fo S) HR n v Hn).
  assert (Hn' := Hn). apply view_inv in Hn'. destruct Hn' as [Ln Ev].
  destruct (big_truncate_begin_exact nb biggest dbg al cur_ max_ (fo S) n x HR) as (s' & E & HR' & RZ).
  { cbn [legal]. split; [exact Ln|]. rewrite Ev in *. cbn in *. split; [lia|]. split; [|left; rewrite (rup_id _ Ax); lia].
    apply (shrink_range S n (attrs_of (bigs (fo S) n))); try assumption; cbn; try lia.
    intros c wc Hc Pc. assert (K1 := kid_in S n _ c wc MI Hn (proj1 Ln) Hc Pc).
    assert (RW := vf_range _ _ _ _ _ _ (fo S) HR c wc Hc). cbn in K1. destruct (KO c wc Hc Pc) as [K|K]; cbn in K; lia. }
  destruct (delete_span_gen dbg (seqs S (a_priv v)) (a_begin v) (x - a_begin v) SI ltac:(lia)) as (q' & EQ & SI' & _ & Qb & Qe & SQ).
  { left. split; lia. }
  exists s', q'. split; [exact E|]. split; [exact EQ|].
  rewrite Eb, Z.eqb_refl in Qb, Qe.
  assert (RZ' : resized (fo S) s' n x (a_end v)) by (rewrite Ev; exact RZ).
  apply (step_shrink S n v s' x (a_end v) (a_begin v) x q'); try assumption; try lia.
  intros a t. rewrite SQ. replace (a_begin v + (x - a_begin v)) with x by lia. tauto.
Qed.

Lemma step_back S n v x : MInv S -> view (fo S) n = Some v -> a_alloc v = MMAP -> a_begin v < x < a_end v -> x mod PAGE = 0 ->
  kids_off S n x (a_end v) ->
  exists s' q', truncate_end biggest dbg (fo S) n x = Ok s' /\ delete_span dbg (seqs S (a_priv v)) x (a_end v - x) = Ok q' /\
    MInv (set_seq (set_fo S s') (a_priv v) q') /\ unmapped S (set_seq (set_fo S s') (a_priv v) q') x (a_end v) /\
    start s' = start (fo S) /\ (forall m, m <> n -> view s' m = view (fo S) m) /\
    view s' n = Some (mkAttrs (a_begin v) x (a_parent v) (a_alloc v) (a_sub v) (a_priv v) (a_subpriv v)).
Proof.
  intros MI Hn A Bx Ax KO. assert (HR := mi_R _ _ _ _ _ _ _ MI).
  destruct (mi_seq _ _ _ _ _ _ _ MI n v Hn A) as (Pn & SI & Eb & Ee & _).
  destruct (vf_align _ _ _ _ _ _ (fo S) HR n v Hn Pn) as [A1 A2].
  assert (RV := vf_range _ _ _ _ _ _ (fo S) HR n v Hn).
  assert (Hn' := Hn). apply view_inv in Hn'. destruct Hn' as [Ln Ev].
  destruct (big_truncate_end_exact nb biggest dbg al cur_ max_ (fo S) n x HR) as (s' & E & HR' & RZ).
  { split; [exact Ln|]. rewrite Ev in *. cbn in *. split; [lia|]. split; [|left; rewrite (rdown_id _ Ax); lia].
    apply (shrink_range S n (attrs_of (bigs (fo S) n))); try assumption; cbn; try lia.
    intros c wc Hc Pc. assert (K1 := kid_in S n _ c wc MI Hn (proj1 Ln) Hc Pc).
    assert (RW := vf_range _ _ _ _ _ _ (fo S) HR c wc Hc). cbn in K1. destruct (KO c wc Hc Pc) as [K|K]; cbn in K; lia. }
  destruct (delete_span_gen dbg (seqs S (a_priv v)) x (a_end v - x) SI ltac:(lia)) as (q' & EQ & SI' & _ & Qb & Qe & SQ).
  { right. split; lia. }
  exists s', q'. split; [exact E|]. split; [exact EQ|].
  replace (x =? q_begin (seqs S (a_priv v))) with false in Qb, Qe by lia.
  assert (RZ' : resized (fo S) s' n (a_begin v) x) by (rewrite Ev; exact RZ).
  destruct (step_shrink S n v s' (a_begin v) x x (a_end v) q') as [X Y]; try assumption; try lia.
  { intros a t. rewrite SQ. replace (x + (a_end v - x)) with (a_end v) by lia. tauto. }
  split; [exact X|]. split; [exact Y|]. destruct RZ as (RV1 & RV2 & _). split; [exact RV2|]. split.
  - intros m N. rewrite RV1. destruct (Nat.eqb_spec m n); [congruence|reflexivity].
  - rewrite RV1, Nat.eqb_refl. rewrite Ev. reflexivity.
Qed.

(* ---- a hole in the middle ---- *)
Lemma step_hole S n v lo hi : MInv S -> view (fo S) n = Some v -> a_alloc v = MMAP ->
  a_begin v < lo -> lo < hi -> hi < a_end v -> lo mod PAGE = 0 -> hi mod PAGE = 0 -> kids_off S n lo hi -> has_free nb (fo S) ->
  exists s1 nw s2 q1 q2, split nb dbg (fo S) n hi = Ok (s1, nw) /\ truncate_end biggest dbg s1 n lo = Ok s2 /\
    delete_span dbg (seqs S (a_priv v)) lo (a_end v - lo) = Ok q1 /\
    delete_span dbg (seqs S (a_priv v)) (a_begin v) (hi - a_begin v) = Ok q2 /\
    let '(S1, p2) := alloc_seq (set_seq (set_fo S s2) (a_priv v) q1) q2 in
    MInv (set_fo S1 (set_priv s2 nw p2)) /\ unmapped S (set_fo S1 (set_priv s2 nw p2)) lo hi.
Proof.
  intros MI Hn A B1 B2 B3 A1 A2 KO HFr. assert (HR := mi_R _ _ _ _ _ _ _ MI).
  destruct (mi_seq _ _ _ _ _ _ _ MI n v Hn A) as (Pn & SI & Eb & Ee & FR).
  destruct (vf_align _ _ _ _ _ _ (fo S) HR n v Hn Pn) as [Al1 Al2].
  change (aligned (a_begin v)) in Al1. change (aligned (a_end v)) in Al2. change (aligned lo) in A1. change (aligned hi) in A2.
  assert (RV := vf_range _ _ _ _ _ _ (fo S) HR n v Hn).
  assert (Hn' := Hn). apply view_inv in Hn'. destruct Hn' as [Ln Ev].
  destruct (big_split_partial nb biggest dbg al cur_ max_ (fo S) n hi HR HFr) as (s1 & nw & E1 & HR1 & Vnw & Nnw & VW1 & St1 & _).
  { split; [exact Ln|]. split; [exact A2|]. rewrite Ev in *. cbn in *. split; [lia|]. intros c Lc Pc.
    destruct (KO c _ (live_as _ _ Lc) Pc) as [K|K]; cbn in K; lia. }
  assert (NN : nw <> n) by congruence.
  set (v1 := mkAttrs (a_begin v) hi (a_parent v) (a_alloc v) (a_sub v) (a_priv v) (a_subpriv v)).
  set (v2 := mkAttrs hi (a_end v) (a_parent v) (a_alloc v) (a_sub v) (a_priv v) (a_subpriv v)).
  assert (H1n : view s1 n = Some v1) by (rewrite VW1; unfold split_view; rewrite Nat.eqb_refl, <- Ev; reflexivity).
  assert (H1w : view s1 nw = Some v2).
  { rewrite VW1. unfold split_view. destruct (Nat.eqb_spec nw n); [congruence|]. rewrite Nat.eqb_refl, <- Ev. reflexivity. }
  assert (H1o : forall m, m <> n -> m <> nw ->
     match view s1 m, view (fo S) m with
     | Some w, Some u => strip w = strip u /\ (a_parent w = a_parent u \/ (a_parent u = n /\ hi <= a_begin u /\ a_parent w = nw))
     | None, None => True | _, _ => False end).
  { intros m N1 N2. rewrite VW1. unfold split_view. destruct (Nat.eqb_spec m n); [congruence|]. destruct (Nat.eqb_spec m nw); [congruence|].
    destruct (view (fo S) m) as [u|]; [|exact I]. destruct (Nat.eqb_spec (a_parent u) n) as [Q1|Q1]; cbn [andb]; [|auto].
    destruct (Z.leb_spec hi (a_begin u)) as [Q2|Q2]; [|auto]. split; [reflexivity|]. right. auto. }
  (* truncate *)
  assert (L1n := some_live _ _ _ H1n). assert (Ev1 := proj2 (view_inv _ _ _ H1n)).
  destruct (big_truncate_end_exact nb biggest dbg al cur_ max_ s1 n lo HR1) as (s2 & E2 & HR2 & (VW2 & St2 & _)).
  { rewrite Ev1 in H1n. unfold v1 in Ev1. pose proof (f_equal a_begin Ev1) as F1. pose proof (f_equal a_end Ev1) as F2. pose proof (f_equal a_parent Ev1) as F3. cbn in F1, F2, F3.
    split; [exact L1n|]. split; [lia|]. split; [|left; rewrite (rdown_id _ A1); lia]. constructor.
    - lia.
    - lia.
    - intro N. congruence.
    - intros c Lc Pc. destruct (Nat.eq_dec c n) as [->|N1].
      { exfalso. apply (proj1 Ln). congruence. }
      destruct (Nat.eq_dec c nw) as [->|N2].
      { exfalso. assert (X := proj2 (view_inv _ _ _ H1w)). apply (f_equal a_parent) in X. cbn in X. apply (proj1 Ln). congruence. }
      assert (X := H1o c N1 N2). rewrite (live_as _ _ Lc) in X. destruct (view (fo S) c) as [u|] eqn:Hc; [|destruct X].
      destruct X as (X1 & X2). assert (Xb := f_equal f_begin X1). assert (Xe := f_equal f_end X1). cbn in Xb, Xe.
      assert (Pu : a_parent u = n /\ a_begin u < hi).
      { destruct X2 as [X2|(_ & _ & X2)]; cbn in X2; [|congruence]. split; [congruence|].
        assert (Y := VW1 c). rewrite (live_as _ _ Lc) in Y. unfold split_view in Y.
        destruct (Nat.eqb_spec c n); [congruence|]. destruct (Nat.eqb_spec c nw); [congruence|]. rewrite Hc in Y.
        destruct (Z.leb_spec hi (a_begin u)); [|lia]. exfalso.
        replace (Nat.eqb (a_parent u) n) with true in Y by (symmetry; apply Nat.eqb_eq; congruence).
        cbn [andb] in Y. injection Y as _ _ Y _ _ _ _. congruence. }
      destruct Pu as [Pu Pu2]. assert (KI := kid_in S n v c u MI Hn (proj1 Ln) Hc Pu). clear A1 A2 Al1 Al2. destruct (KO c u Hc Pu) as [K|K]; lia.
    - intros m Lm N Pm. assert (P1 : b_parent (bigs s1 n) = 0%nat) by congruence. rewrite P1 in Pm.
      destruct (vf_top _ _ _ _ _ _ s1 HR1 m n _ _ (live_as _ _ Lm) H1n Pm P1 N) as [X|X]; cbn in X; lia.
    - intros _. split; [|exact A1]. rewrite <- F1. exact Al1. }
  clear A1 A2 Al1 Al2.
  set (v3 := mkAttrs (a_begin v) lo (a_parent v) (a_alloc v) (a_sub v) (a_priv v) (a_subpriv v)).
  assert (H2n : view s2 n = Some v3).
  { rewrite VW2, Nat.eqb_refl. unfold v1 in Ev1. unfold v3. inversion Ev1. reflexivity. }
  assert (H2o : forall m, m <> n -> view s2 m = view s1 m) by (intros m N; rewrite VW2; destruct (Nat.eqb_spec m n); [congruence|reflexivity]).
  assert (L2w : live s2 nw) by (apply (some_live _ _ v2); rewrite (H2o nw NN); exact H1w).
  destruct (delete_span_gen dbg (seqs S (a_priv v)) lo (a_end v - lo) SI ltac:(lia)) as (q1 & EQ1 & SI1 & _ & Q1b & Q1e & SQ1); [right; lia|].
  destruct (delete_span_gen dbg (seqs S (a_priv v)) (a_begin v) (hi - a_begin v) SI ltac:(lia)) as (q2 & EQ2 & SI2 & _ & Q2b & Q2e & SQ2); [left; lia|].
  exists s1, nw, s2, q1, q2. split; [exact E1|]. split; [exact E2|]. split; [exact EQ1|]. split; [exact EQ2|].
  cbn [alloc_seq set_seq set_fo fo seqs fresh].
  replace (lo =? q_begin (seqs S (a_priv v))) with false in Q1b, Q1e by lia.
  replace (a_begin v =? q_begin (seqs S (a_priv v))) with true in Q2b, Q2e by lia.
  set (p := a_priv v) in *. set (p2 := fresh S) in *. set (s3 := set_priv s2 nw p2).
  set (sq1 := fun i => if Nat.eqb i p then q1 else seqs S i). set (sq2 := fun i => if Nat.eqb i p2 then q2 else if Nat.eqb i p then q1 else seqs S i).
  destruct (reach_good _ _ _ _ _ _ _ HR2) as [(K2 & rk2 & HI2) _].
  destruct (set_priv_ok nb al s2 K2 rk2 nw p2 HI2 L2w) as [_ VW3]. fold s3 in VW3.
  assert (HR3 : R s3) by (apply (reach_step _ _ _ _ _ _ s2 (SetPriv nw p2)); [exact HR2|exact L2w|reflexivity]).
  set (v4 := mkAttrs hi (a_end v) (a_parent v) (a_alloc v) (a_sub v) p2 (a_subpriv v)).
  assert (H3w : view s3 nw = Some v4).
  { rewrite VW3, Nat.eqb_refl. assert (X := H2o nw NN). rewrite H1w, (live_as _ _ L2w) in X. unfold v2 in X. unfold v4. injection X as X1 X2 X3 X4 X5 X6 X7.
    rewrite X1, X2, X3, X4, X5, X7. reflexivity. }
  assert (H3o : forall m, m <> nw -> view s3 m = view s2 m) by (intros m N; rewrite VW3; destruct (Nat.eqb_spec m nw); [congruence|reflexivity]).
  assert (H3n : view s3 n = Some v3) by (rewrite H3o by congruence; exact H2n).
  assert (FD : p <> p2) by (unfold p2; lia).
  (* sequences *)
  apply MInv_SInv in MI. assert (MIS := proj2 MI).
  destruct (put_SInv al (view (fo S)) (fun m => if Nat.eqb m n then Some v3 else view (fo S) m) (seqs S) sq1 (fresh S) (fresh S) n v3 q1) as [SV1 RC1]; try assumption.
  { intros m w N _. destruct (Nat.eqb_spec m n); [congruence|tauto]. }
  { rewrite Nat.eqb_refl. reflexivity. }
  { exact (eq_trans Q1b Eb). }
  { lia. }
  { intros i N. unfold sq1. destruct (Nat.eqb_spec i p) as [->|]; [exfalso; apply N; reflexivity|reflexivity]. }
  { unfold sq1. cbn. rewrite Nat.eqb_refl. reflexivity. }
  { left. exists v. auto. }
  set (V1 := fun m => if Nat.eqb m n then Some v3 else view (fo S) m) in *.
  destruct (put_SInv al V1 (view s3) sq1 sq2 (fresh S) (Datatypes.S (fresh S)) nw v4 q2) as [SV2 RC2]; try assumption.
  { intros m w N Aw. rewrite (H3o m N). unfold V1. destruct (Nat.eqb_spec m n) as [->|Nn]; [rewrite H2n; tauto|].
    rewrite (H2o m Nn). assert (X := H1o m Nn N). destruct (view s1 m) as [u|] eqn:Eu, (view (fo S) m) as [u'|] eqn:Eu'; try tauto.
    destruct X as (X1 & X2).
    assert (Y1 := f_equal f_begin X1). assert (Y2 := f_equal f_end X1). assert (Y3 := f_equal f_alloc X1).
    assert (Y4 := f_equal f_sub X1). assert (Y5 := f_equal f_priv X1). assert (Y6 := f_equal f_subpriv X1). cbn in Y1, Y2, Y3, Y4, Y5, Y6.
    assert (Z0 : a_alloc u' = MMAP -> a_parent u = a_parent u').
    { intro Au. destruct X2 as [X2|(X2 & _)]; [exact X2|]. exfalso.
      destruct (si_seq _ _ _ MIS m u' Eu' Au) as (P0 & _). apply (proj1 Ln). congruence. }
    destruct u, u'; cbn in *; split; intro H; injection H as <-; cbn in Aw; f_equal; f_equal; auto; try congruence.
    symmetry. apply Z0. congruence. }
  all: try (cbn; lia).
  { intros i N. cbn in N. unfold sq2, sq1. destruct (Nat.eqb_spec i p2); [congruence|reflexivity]. }
  { unfold sq2. cbn. rewrite Nat.eqb_refl. reflexivity. }
  assert (MI0 : MInv S) by (apply MInv_SInv; exact MI).
  assert (MI' : MInv (mkS s3 sq2 (Datatypes.S (fresh S)))) by (apply MInv_SInv; split; [exact HR3|exact SV2]).
  split; [exact MI'|].
  constructor.
  - intros a t. rewrite (rec_iff _ _ _ _ _ _ _ a t MI'). rewrite (rec_split _ _ _ _ _ _ S n v a t MI0 Hn A).
    assert (X := RC2 a t). unfold recV in X. unfold rec'. cbn [fo seqs]. rewrite X. clear X.
    assert (Y : recOV V1 sq1 nw a t <-> recV V1 sq1 a t).
    { unfold recOV, recV. split; [intros (m & w & _ & H); eauto|]. intros (m & w & H1 & H2). exists m, w. split; [|auto].
      intros ->. unfold V1 in H1. destruct (Nat.eqb_spec nw n); [congruence|]. rewrite Vnw in H1. discriminate. }
    rewrite Y, RC1, SQ1, SQ2. fold (recO S n a t). replace (lo + (a_end v - lo)) with (a_end v) by lia.
    replace (a_begin v + (hi - a_begin v)) with hi by lia. split.
    + intros [[H N]|[[H N]|H]].
      * assert (Q := says_in _ _ _ (proj1 SI) H). split; [auto|lia].
      * assert (Q := says_in _ _ _ (proj1 SI) H). split; [auto|lia].
      * split; [auto|]. assert (Q := recO_off _ _ _ _ _ _ S n v a t MI0 Hn Pn H). lia.
    + intros ([H|H] & N); [|auto]. assert (Q := says_in _ _ _ (proj1 SI) H).
      destruct (Z.lt_ge_cases a lo); [right; left; split; [exact H|lia]|left; split; [exact H|lia]].
  - intros m w.
    assert (EQ : other (mkS s3 sq2 (Datatypes.S (fresh S))) m w <-> other S m w).
    { unfold other. cbn [fo]. destruct (Nat.eq_dec m nw) as [->|N2].
      - rewrite H3w, Vnw. split; [intros (z & Hz & Az & _); exfalso; injection Hz as <-; apply Az; exact A|intros (z & Hz & _); discriminate].
      - rewrite (H3o m N2). destruct (Nat.eq_dec m n) as [->|N1].
        + rewrite H2n, Hn. split; intros (z & Hz & Az & _); exfalso; injection Hz as <-; apply Az; exact A.
        + rewrite (H2o m N1). assert (X := H1o m N1 N2). destruct (view s1 m) as [u|], (view (fo S) m) as [u'|]; try tauto.
          destruct X as (X1 & _). assert (Y3 := f_equal f_alloc X1). cbn in Y3.
          split; intros (z & Hz & Az & Ez); injection Hz as <-; [exists u'|exists u]; (split; [reflexivity|]); split; congruence. }
    cbn [fo] in EQ. unfold set_fo. cbn [seqs fresh]. unfold p2 in *.
    assert (EQ' : other (mkS s3 sq2 (1 + fresh S)) m w <-> other S m w) by exact EQ.
    rewrite EQ'. split; [|tauto]. intro H. split; [exact H|]. apply (kids_off_oth S n v lo hi m w MI0 Hn A); auto; lia.
Qed.
End Un.
