(* The start-up scan: a new mapping, and the carving of the stack. *)
From Verif Require Import Base Big_model Big_spec Big_inv Big_lookup Big_links Big_create Big_hist Big_props Big_field
  Map_model Map_spec Map_seq Map_state Map_unmap Scan_model Scan_spec.

(* ---- counting free records ---- *)
Lemma avoid (D : list nat) : forall l k, NoDup l -> length l = (length D + k)%nat ->
  exists l', NoDup l' /\ length l' = k /\ incl l' l /\ forall x, In x l' -> ~ In x D.
Proof.
  induction D as [|d D IH]; intros l k ND L.
  - exists l. split; [exact ND|]. split; [exact L|]. split; [apply incl_refl|]. intros x _ [].
  - assert (X : exists l0, NoDup l0 /\ length l0 = (length D + k)%nat /\ incl l0 l /\ ~ In d l0).
    { destruct (in_dec Nat.eq_dec d l) as [Hd|Hd].
      - apply in_split in Hd. destruct Hd as (l1 & l2 & ->). exists (l1 ++ l2). assert (N2 := NoDup_remove _ _ _ ND).
        split; [apply N2|]. split; [rewrite app_length in *; cbn in L; lia|]. split; [|apply N2].
        intros x Hx. apply in_app_iff in Hx. apply in_app_iff. destruct Hx; [left|right; right]; assumption.
      - destruct l as [|x l0]; [cbn in L; lia|]. exists l0. inversion ND; subst. split; [assumption|]. split; [cbn in L; lia|].
        split; [apply incl_tl, incl_refl|]. intro. apply Hd. right. assumption. }
    destruct X as (l0 & N0 & L0 & I0 & D0). destruct (IH l0 k N0 L0) as (l' & A & B & C & F). exists l'.
    split; [exact A|]. split; [exact B|]. split; [intros x Hx; apply I0, C, Hx|]. intros x Hx [->|Hx']; [apply D0, C, Hx|exact (F x Hx Hx')].
Qed.

Lemma view_none s n : n <> 0%nat -> (view s n = None <-> in_use (bigs s n) = false).
Proof.
  intro N. unfold view. destruct (Nat.eqb_spec n 0); [congruence|]. cbn [negb andb]. destruct (in_use (bigs s n)); split; congruence.
Qed.

Lemma frees_less nb s s' D k : (forall m, ~ In m D -> view s m = None -> view s' m = None) ->
  frees nb s (length D + k) -> frees nb s' k.
Proof.
  intros H (l & ND & L & F). destruct (avoid D l k ND L) as (l' & A & B & C & G). exists l'. split; [exact A|]. split; [exact B|].
  intros n Hn. destruct (F n (C n Hn)) as [F1 F2]. split; [exact F1|]. apply view_none; [lia|]. apply H; [apply G, Hn|]. apply view_none; [lia|exact F2].
Qed.
Lemma frees_some nb s k : frees nb s (S k) -> has_free nb s.
Proof. intros (l & _ & L & F). destruct l as [|x l]; [discriminate|]. exists x. apply F. left. reflexivity. Qed.
Lemma frees_le nb s k k' : (k <= k')%nat -> frees nb s k' -> frees nb s k.
Proof. intros H F. apply (frees_less nb s s (repeat 0%nat (k' - k)) k); [auto|]. rewrite repeat_length. replace (k' - k + k)%nat with k' by lia. exact F. Qed.

Section N.
Variables (nb : nat) (biggest : Z) (dbg : bool) (al : nat -> Z) (cur_ max_ : Z).
Notation R := (reach nb biggest dbg al cur_ max_).
Notation MInv := (MInv nb biggest dbg al cur_ max_).

Lemma go_new S q : MInv S -> seq_inv q -> aligned (q_begin q) -> aligned (q_end q) -> unknown S (q_begin q) (q_end q) ->
  has_free nb (fo S) -> q_end q - q_begin q <= biggest ->
  exists s2 n, new_bigalloc nb biggest dbg (fo S) (q_begin q) (q_end q - q_begin q) 0 0 MMAP = Ok (s2, n) /\
    let S2 := set_fo (fst (alloc_seq S q)) (set_priv s2 n (fresh S)) in
    MInv S2 /\ (forall a t, recorded S2 a t <-> says q a t \/ recorded S a t) /\
    (forall i, i <> fresh S -> seqs S2 i = seqs S i) /\ n <> 0%nat /\ view (fo S) n = None /\
    view (fo S2) n = Some (mkAttrs (q_begin q) (q_end q) 0 MMAP 0 (fresh S) 0) /\
    forall m, m <> n -> view (fo S2) m = view (fo S) m.
Proof.
  intros MI SI A1 A2 CL HFr HB. assert (HR := mi_R _ _ _ _ _ _ _ MI).
  assert (HL : 0 < q_begin q < q_end q) by (split; [apply (so_pos _ (proj1 SI))|apply seq_ok_lt, SI]).
  set (lo := q_begin q) in *. set (hi := q_end q) in *.
  destruct (big_create_exact nb biggest dbg al cur_ max_ (fo S) lo (hi - lo) 0 0 MMAP 0 HR HFr HB) as (s3 & n & E3 & HR3 & Nn & Vn & VW & St & _).
  { replace (lo + (hi - lo)) with hi by lia. split; [lia|]. cbn [Nat.eqb]. split; [auto|]. intros c Lc Pc.
    assert (Q := vf_range _ _ _ _ _ _ (fo S) HR c _ (live_as _ _ Lc)). cbn in Q.
    destruct (Z.le_gt_cases (b_end (bigs (fo S) c)) lo); [auto|]. destruct (Z.le_gt_cases hi (b_begin (bigs (fo S) c))); [auto|].
    exfalso. clear A1 A2. apply (CL c Lc). exists (Z.max lo (b_begin (bigs (fo S) c))). unfold covers. lia. }
  { unfold parent_choice. cbn [Nat.eqb]. replace (lo + (hi - lo)) with hi by lia. unfold lookup_answer. cbn [Nat.eqb]. split; intros m Lm Cm; apply (CL m Lm); eexists; (split; [|exact Cm]); lia. }
  replace (lo + (hi - lo)) with hi in VW by lia. exists s3, n. split; [exact E3|]. cbn [alloc_seq fst].
  assert (V3n := VW n). rewrite Nat.eqb_refl in V3n. assert (L3 : live s3 n) by (apply view_live; congruence).
  destruct (reach_good _ _ _ _ _ _ _ HR3) as [(K3 & rk3 & HI3) _].
  destruct (set_priv_ok nb al s3 K3 rk3 n (fresh S) HI3 L3) as [_ VW3].
  assert (HR4 : R (set_priv s3 n (fresh S))) by (apply (reach_step _ _ _ _ _ _ s3 (SetPriv n (fresh S))); [exact HR3|exact L3|reflexivity]).
  assert (V4n : view (set_priv s3 n (fresh S)) n = Some (mkAttrs lo hi 0 MMAP 0 (fresh S) 0)).
  { rewrite VW3, Nat.eqb_refl. apply view_inv in V3n. destruct V3n as [_ X]. inversion X. reflexivity. }
  assert (V4o : forall m, m <> n -> view (set_priv s3 n (fresh S)) m = view (fo S) m).
  { intros m N. rewrite VW3. destruct (Nat.eqb_spec m n); [congruence|]. rewrite VW. destruct (Nat.eqb_spec m n); [congruence|reflexivity]. }
  destruct (put_MInv nb biggest dbg al cur_ max_ S (set_priv s3 n (fresh S)) (fun i => if Nat.eqb i (fresh S) then q else seqs S i) (1 + fresh S) n
     (mkAttrs lo hi 0 MMAP 0 (fresh S) 0) q) as [MI' RC]; try assumption; try reflexivity; cbn [a_priv a_begin a_end]; try lia.
  { intros m w N Aw. rewrite (V4o m N). tauto. }
  { intros i N. destruct (Nat.eqb_spec i (fresh S)); [congruence|reflexivity]. }
  { rewrite Nat.eqb_refl. reflexivity. }
  unfold set_fo. cbn [seqs fresh fo]. split; [exact MI'|]. split.
  - intros a t. rewrite RC. rewrite (rec_new nb biggest dbg al cur_ max_ S n a t MI) by (intros v Hv; congruence). tauto.
  - split; [intros i N; destruct (Nat.eqb_spec i (fresh S)); [congruence|reflexivity]|]. auto.
Qed.

Lemma stack_ok argcp asc s n lo hi p : R s -> view s n = Some (mkAttrs lo hi 0 MMAP 0 p 0) ->
  (forall m, live s m -> meets s m lo hi -> m = n) -> lo < argcp <= hi -> hi - lo <= biggest -> hi - lo < W64 -> frees nb s 2 ->
  exists s' au k, stack_notify nb biggest dbg argcp asc s 0 n = Ok (s', au) /\ R s' /\ au <> 0%nat /\ au <> k /\ view s au = None /\ view s k = None /\
    forall m, view s' m = if Nat.eqb m au then Some (mkAttrs lo hi n AUXV 0 0 0)
                          else if Nat.eqb m k then Some (mkAttrs lo argcp au STACK FRAME 0 0) else view s m.
Proof.
  intros HR Vn ALL HA HB HW FR. unfold stack_notify. destruct (view_inv _ _ _ Vn) as [Ln EQ].
  assert (RG := vf_range _ _ _ _ _ _ s HR n _ Vn). cbn [a_begin a_end] in RG.
  assert (Nb : b_begin (bigs s n) = lo) by (inversion EQ; reflexivity). assert (Ne : b_end (bigs s n) = hi) by (inversion EQ; reflexivity).
  rewrite Nb, Ne. replace (argcp =? 0) with false by lia. cbn [Nat.eqb negb].
  rewrite (Z.mod_small (argcp - lo) W64) by lia.
  assert (N0 : n <> 0%nat) by apply Ln.
  destruct (big_create_exact nb biggest dbg al cur_ max_ s lo (hi - lo) 0 0 AUXV n HR (frees_some _ _ _ FR) HB) as (s1 & au & E1 & HR1 & Na & Va & VW1 & _).
  { replace (lo + (hi - lo)) with hi by lia. split; [lia|]. destruct (Nat.eqb_spec n 0); [congruence|]. split; [rewrite Nb, Ne; split; [exact Ln|lia]|].
    intros c Lc Pc. exfalso. assert (Q := vf_range _ _ _ _ _ _ s HR c _ (live_as _ _ Lc)). cbn in Q.
    assert (I := fo_inside _ (HF _ _ _ _ _ _ s HR) c Lc ltac:(congruence)). rewrite Pc, Nb, Ne in I.
    assert (c = n). { apply ALL; [exact Lc|]. exists (b_begin (bigs s c)). unfold covers. lia. }
    subst c. inversion EQ. congruence. }
  { unfold parent_choice. cbn [Nat.eqb]. replace (lo + (hi - lo)) with hi by lia. unfold lookup_answer. destruct (Nat.eqb_spec n 0); [congruence|].
    split; (split; [exact Ln|]; split; [unfold covers; rewrite Nb, Ne; lia|]; intros m Lm Cm; rewrite (ALL m Lm); [apply anc_refl|]; eexists; split; [|exact Cm]; lia). }
  replace (lo + (hi - lo)) with hi in VW1 by lia. rewrite E1. cbn [bind].
  assert (V1a := VW1 au). rewrite Nat.eqb_refl in V1a. assert (an : au <> n) by congruence.
  destruct (view_inv _ _ _ V1a) as [L1a EQa].
  assert (Ab : b_begin (bigs s1 au) = lo) by (inversion EQa; reflexivity). assert (Ae : b_end (bigs s1 au) = hi) by (inversion EQa; reflexivity).
  assert (Ap : b_parent (bigs s1 au) = n) by (inversion EQa; reflexivity).
  assert (V1o : forall m, m <> au -> view s1 m = view s m) by (intros m N; rewrite VW1; destruct (Nat.eqb_spec m au); [congruence|reflexivity]).
  assert (ALL1 : forall m, live s1 m -> meets s1 m lo hi -> m = au \/ m = n).
  { intros m Lm Mm. destruct (Nat.eq_dec m au) as [|N]; [auto|right]. assert (V := live_as _ _ Lm). rewrite (V1o m N) in V.
    destruct (view_inv _ _ _ V) as [Lm' EQm]. apply ALL; [exact Lm'|]. destruct Mm as (a & Ha & Ca). exists a. split; [exact Ha|].
    unfold covers in *. inversion EQm. lia. }
  assert (FR1 : frees nb s1 1).
  { apply (frees_less nb s s1 [au] 1); [|exact FR]. intros m Hm. rewrite (V1o m); [auto|]. intros ->. apply Hm. left. reflexivity. }
  destruct (big_create_exact nb biggest dbg al cur_ max_ s1 lo (argcp - lo) 0 0 STACK au HR1 (frees_some _ _ _ FR1) ltac:(lia)) as (s2 & k & E2 & HR2 & Nk & Vk & VW2 & _).
  { replace (lo + (argcp - lo)) with argcp by lia. split; [lia|]. destruct (Nat.eqb_spec au 0); [congruence|]. split; [rewrite Ab, Ae; split; [exact L1a|lia]|].
    intros c Lc Pc. exfalso. assert (Q := vf_range _ _ _ _ _ _ s1 HR1 c _ (live_as _ _ Lc)). cbn in Q.
    assert (I := fo_inside _ (HF _ _ _ _ _ _ s1 HR1) c Lc ltac:(congruence)). rewrite Pc, Ab, Ae in I.
    destruct (ALL1 c Lc) as [->| ->].
    - exists (b_begin (bigs s1 c)). unfold covers. lia.
    - congruence.
    - assert (V := V1o n ltac:(congruence)). rewrite Vn in V. destruct (view_inv _ _ _ V) as [_ EQn]. inversion EQn. congruence. }
  { unfold parent_choice. cbn [Nat.eqb]. replace (lo + (argcp - lo)) with argcp by lia. unfold lookup_answer. destruct (Nat.eqb_spec au 0); [congruence|].
    split; (split; [exact L1a|]; split; [unfold covers; rewrite Ab, Ae; lia|]; intros m Lm Cm;
      destruct (ALL1 m Lm) as [->| ->]; [eexists; split; [|exact Cm]; lia|apply anc_refl|apply anc_up; rewrite Ap; [exact N0|apply anc_refl]]). }
  replace (lo + (argcp - lo)) with argcp in VW2 by lia. rewrite E2. cbn [bind].
  assert (V2k := VW2 k). rewrite Nat.eqb_refl in V2k. assert (ka : au <> k) by congruence.
  assert (V2a := VW2 au). destruct (Nat.eqb_spec au k); [congruence|]. rewrite V1a in V2a.
  destruct (view_inv _ _ _ V2k) as [L2k EQk]. destruct (view_inv _ _ _ V2a) as [L2a EQa2].
  replace (b_parent (bigs s2 k)) with au by (inversion EQk; reflexivity).
  replace (b_alloc (bigs s2 au)) with AUXV by (inversion EQa2; reflexivity).
  destruct (Nat.eqb_spec au 0); [congruence|]. cbn [orb negb Nat.eqb AUXV].
  replace (b_subpriv (bigs s2 k)) with 0%nat by (inversion EQk; reflexivity).
  destruct (reach_good _ _ _ _ _ _ _ HR2) as [(K2 & rk2 & HI2) _].
  destruct (set_sub_ok nb al s2 K2 rk2 k FRAME 0 HI2 L2k) as [_ VW3]. set (s3 := set_sub s2 k FRAME 0) in *.
  assert (HR3 : R s3) by (apply (reach_step _ _ _ _ _ _ s2 (SetSub k FRAME 0)); [exact HR2|exact L2k|reflexivity]).
  assert (V3a := VW3 au). destruct (Nat.eqb_spec au k); [congruence|]. rewrite V2a in V3a. destruct (view_inv _ _ _ V3a) as [L3a EQ3].
  replace (b_subpriv (bigs s3 au)) with 0%nat by (inversion EQ3; reflexivity).
  destruct (reach_good _ _ _ _ _ _ _ HR3) as [(K3 & rk3 & HI3) _].
  destruct (set_sub_ok nb al s3 K3 rk3 au 0 0 HI3 L3a) as [_ VW4]. set (s4 := set_sub s3 au 0 0) in *.
  assert (HR4 : R s4) by (apply (reach_step _ _ _ _ _ _ s3 (SetSub au 0 0)); [exact HR3|exact L3a|reflexivity]).
  exists s4, au, k. split; [reflexivity|]. split; [exact HR4|]. split; [exact Na|]. split; [exact ka|]. split; [exact Va|].
  split; [rewrite <- (V1o k) by congruence; exact Vk|]. intro m. rewrite VW4. destruct (Nat.eqb_spec m au) as [->|N1].
  - inversion EQ3. reflexivity.
  - rewrite VW3. destruct (Nat.eqb_spec m k) as [->|N2]; [inversion EQk; reflexivity|]. rewrite VW2. destruct (Nat.eqb_spec m k); [congruence|]. apply V1o, N1.
Qed.
End N.
