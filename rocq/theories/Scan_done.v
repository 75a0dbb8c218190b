(* The start-up scan: from the lines considered to all the lines. *)
From Verif Require Import Base Big_model Big_spec Big_inv Big_create Big_hist Big_props Big_field
  Map_model Map_spec Map_seq Map_state Scan_model Scan_spec Scan_seq Scan_new Scan_absent Scan_loop.

Section D.
Variables (nb : nat) (biggest : Z) (dbg : bool) (al : nat -> Z) (cur_ max_ : Z) (obj_of : Z -> Z) (argcp asc dseg xend : Z).
Notation MInv := (MInv nb biggest dbg al cur_ max_).
Notation considered := (considered biggest xend).
Notation span := (span biggest xend).

Fixpoint eff (L : list line) : list line :=
  match L with [] => [] | l :: r => match considered l with Some l' => l' :: eff r | None => eff r end end.
Lemma eff_in L l' : In l' (eff L) <-> exists l, In l L /\ considered l = Some l'.
Proof.
  induction L as [|l L IH]; cbn [eff]; [split; [intros []|intros (l & [] & _)]|]. destruct (considered l) as [c|] eqn:C; cbn [In]; rewrite ?IH; split.
  - intros [<-|(x & H & E)]; [exists l; auto|exists x; auto].
  - intros (x & [->|H] & E); [left; congruence|right; exists x; auto].
  - intros (x & H & E). exists x. auto.
  - intros (x & [->|H] & E); [congruence|exists x; auto].
Qed.
Lemma eff_len L : (length (eff L) <= length L)%nat.
Proof. induction L as [|l L IH]; cbn [eff length]; [lia|]. destruct (considered l); cbn [length]; lia. Qed.

Lemma loop_eff L : forall w, scan_loop nb biggest dbg obj_of argcp asc dseg xend w L = loop1 nb biggest dbg obj_of argcp asc dseg w (eff L).
Proof.
  induction L as [|l L IH]; intro w; cbn [scan_loop eff loop1]; [reflexivity|]. unfold add_missing. destruct (considered l) as [c|]; cbn [bind loop1]; [|apply IH].
  change (do q <- extend_current dbg obj_of (sc_cur w) c; (let (q0, ok) := q in
     if ok then Ok (mkSc (sc_m w) q0 (sc_our w)) else
     do x <- if_absent nb biggest dbg argcp asc dseg (sc_m w) (sc_our w) q0; (let (S1, our) := x in
     do y <- extend_current dbg obj_of seq0 c; (let (q1, ok1) := y in if ok1 then Ok (mkSc S1 q1 our) else Abort)))) with (add1 nb biggest dbg obj_of argcp asc dseg w c).
  destruct (add1 nb biggest dbg obj_of argcp asc dseg w c); cbn [bind]; [apply IH|reflexivity..].
Qed.

(* a considered line *)
Definition lawful (l : line) : Prop := 0 < l_first l < l_second l /\ l_second l <= W64 /\ l_rest l <> ROther /\
  (l_rest l = RHeap -> l_first l < xend -> xend <= l_second l).
Record like (l l' : line) : Prop := { lk_first : l_first l' = l_first l; lk_prot : l_prot l' = l_prot l; lk_shared : l_shared l' = l_shared l;
  lk_off : l_off l' = l_off l; lk_name : name_of (l_rest l') = name_of (l_rest l); lk_plain : plain l' }.
Lemma cons_some l l' : lawful l -> considered l = Some l' -> span l (l_first l') (l_second l') /\ like l l' /\ l_first l' < l_second l' <= l_second l.
Proof.
  intros (H1 & H2 & H3 & H4) H. unfold Scan_model.considered in H. rewrite Z.mod_small in H by lia.
  destruct (Z.ltb_spec biggest (l_second l - l_first l)); [discriminate|].
  destruct (Z.eqb_spec (l_second l - l_first l) 0); [lia|]. destruct (Z.leb_spec (2 ^ 63) (l_first l)); [discriminate|]. cbn [orb] in H.
  unfold Scan_spec.span. destruct (l_rest l) as [|f| | |] eqn:R.
  3:{ specialize (H4 eq_refl). destruct (Z.ltb_spec (l_first l) xend); [|discriminate]. injection H as <-. cbn [l_first l_second]. split; [|split; [|lia]].
      - repeat split; lia.
      - constructor; cbn [l_first l_second l_prot l_shared l_off l_rest name_of]; try rewrite R; try reflexivity. }
  4:{ congruence. }
  all: injection H as <-; rewrite ?R; split; [|split; [|lia]]; [repeat split; lia|].
  all: constructor; try reflexivity; unfold plain; rewrite R; reflexivity.
Qed.
Lemma cons_span l lo hi : lawful l -> span l lo hi -> exists l', considered l = Some l' /\ lo = l_first l' /\ hi = l_second l'.
Proof.
  intros (H1 & H2 & H3 & H4) (S1 & S2 & S3 & S4). unfold Scan_model.considered. rewrite Z.mod_small by lia.
  destruct (Z.ltb_spec biggest (l_second l - l_first l)); [lia|].
  destruct (Z.eqb_spec (l_second l - l_first l) 0); [lia|]. destruct (Z.leb_spec (2 ^ 63) (l_first l)); [lia|]. cbn [orb].
  destruct (l_rest l) as [|f| | |] eqn:R; try (exists l; auto; fail).
  destruct S4 as [S4 ->]. destruct (Z.ltb_spec (l_first l) xend); [|lia]. eexists. split; [reflexivity|]. auto.
Qed.
Lemma eff_order L : ForallOrdPairs (fun x y => l_second x <= l_first y) L -> (forall l, In l L -> lawful l) ->
  ForallOrdPairs (fun x y => l_second x <= l_first y) (eff L).
Proof.
  intros N2 LW. induction N2 as [|l r HF H IH]; cbn [eff]; [apply FOP_nil|].
    assert (IH' := IH (fun x Hx => LW x (or_intror Hx))). destruct (considered l) as [c|] eqn:C; [|exact IH']. apply FOP_cons; [|exact IH'].
    apply Forall_forall. intros y' Hy. apply eff_in in Hy. destruct Hy as (y & Hy & E). rewrite Forall_forall in HF. specialize (HF y Hy).
    destruct (cons_some l c (LW l (or_introl eq_refl)) C) as (_ & _ & O1). destruct (cons_some y y' (LW y (or_intror Hy)) E) as (_ & LK & O2).
    rewrite (lk_first _ _ LK). lia.
Qed.
Lemma like_attr l l' : like l l' -> line_attr l' = line_attr l.
Proof. intros [A B C D N P]. unfold line_attr. rewrite B, C, N. reflexivity. Qed.
Lemma like_known l l' S lo hi : like l l' -> known S l lo hi <-> known S l' lo hi.
Proof. intros [A B C D N P]. unfold known. rewrite B, C, D, N. reflexivity. Qed.
Lemma like_stack l l' : like l l' -> stack_line l' <-> stack_line l.
Proof.
  intros [A B C D N P]. unfold stack_line. split; intros (f & R & L); rewrite R in N; cbn in N; exists f; (split; [|exact L]).
  - destruct (l_rest l); cbn in N; congruence.
  - destruct (l_rest l'); cbn in N; congruence.
Qed.

Lemma scan_ok S L : MInv S -> scannable nb biggest xend argcp S L ->
  exists S' our, scan_proc nb biggest dbg obj_of argcp asc dseg xend S 0 L = Ok (S', our) /\ MInv S' /\ scanned biggest xend argcp L S S' our.
Proof.
  intros MI [N1 N2 N3 N4 N5 N6 N7 N8 N9 N10].
  assert (LW : forall l, In l L -> lawful l).
  { intros l H. destruct (N1 l H) as (A & B & _ & _ & D). split; [exact A|]. split; [exact B|]. split; [exact D|]. intros E F. apply (N3 l H E F). }
  assert (EX : forall l', In l' (eff L) -> exists l, In l L /\ considered l = Some l' /\ lawful l /\ span l (l_first l') (l_second l') /\ like l l' /\ l_first l' < l_second l' <= l_second l).
  { intros l' H. apply eff_in in H. destruct H as (l & H & E). exists l. split; [exact H|]. split; [exact E|]. split; [apply LW, H|]. apply cons_some; [apply LW, H|exact E]. }
  assert (XE : forall l lo hi, In l L -> span l lo hi -> exists l', In l' (eff L) /\ like l l' /\ lo = l_first l' /\ hi = l_second l').
  { intros l lo hi H SP. destruct (cons_span l lo hi (LW l H) SP) as (l' & E & -> & ->). exists l'. split; [apply eff_in; exists l; auto|].
    split; [apply (cons_some l l' (LW l H) E)|auto]. }
  assert (RN : forall lo hi, Run (eff L) lo hi -> run biggest xend L lo hi).
  { intros lo hi [A B]. split; [exact A|]. intros a Ha. destruct (B a Ha) as (l' & Hl & C). destruct (EX l' Hl) as (l & H & _ & _ & SP & LK & _).
    exists (line_attr l), l, (l_first l'), (l_second l'). auto. }
  assert (XL : forall l, In l (eff L) -> plain l /\ 0 < l_first l < l_second l /\ l_second l <= W64 /\ aligned (l_first l) /\ aligned (l_second l)).
  { intros l' H. destruct (EX l' H) as (l & Hl & E & (W1 & W2 & _) & SP & LK & O). destruct (N1 l Hl) as (_ & _ & A1 & A2 & _).
    split; [apply LK|]. assert (F := lk_first _ _ LK). split; [clear - F W1 O; lia|]. split; [clear - W2 O; lia|]. split; [rewrite F; exact A1|].
    destruct SP as (S1 & S2 & S3 & S4). destruct (l_rest l) eqn:R; try (rewrite S4; exact A2). destruct S4 as [S4 ->]. apply (N3 l Hl R). clear - F S4; lia. }
  assert (XO : ForallOrdPairs (fun x y => l_second x <= l_first y) (eff L)).
  { apply eff_order; [exact N2|exact LW]. }
  assert (XS : forall l, In l (eff L) -> unknown S (l_first l) (l_second l) \/ exists n, kn S l n).
  { intros l' H. destruct (EX l' H) as (l & Hl & E & _ & SP & LK & _). destruct (N4 l _ _ Hl SP) as [U|K]; [auto|right].
    apply kn_known. apply (like_known l l' S _ _ LK), K. }
  assert (XK : forall l n, In l (eff L) -> kn S l n -> ~ Run (eff L) (l_first l - 1) (l_second l + 1)).
  { intros l' n H K R. destruct (EX l' H) as (l & Hl & E & _ & SP & LK & _). apply (N5 l _ _ Hl SP); [|apply RN, R].
    apply (like_known l l' S _ _ LK), kn_known. exists n. exact K. }
  assert (XT : forall l l' n n', In l (eff L) -> In l' (eff L) -> kn S l n -> kn S l' n' -> l_first l < l_first l' -> ~ Run (eff L) (l_first l) (l_second l')).
  { intros x' y' n n' Hx Hy Kx Ky O R. destruct (EX x' Hx) as (x & Hx1 & _ & _ & SPx & LKx & _). destruct (EX y' Hy) as (y & Hy1 & _ & _ & SPy & LKy & _).
    apply (N6 x _ _ y _ _ Hx1 Hy1 SPx SPy); [| |exact O|apply RN, R].
    - apply (like_known x x' S _ _ LKx), kn_known. exists n. exact Kx.
    - apply (like_known y y' S _ _ LKy), kn_known. exists n'. exact Ky. }
  assert (XZ : forall lo hi, Run (eff L) lo hi -> hi - lo <= biggest) by (intros lo hi R; apply N7, RN, R).
  assert (XU : forall l l', In l (eff L) -> In l' (eff L) -> stack_line l -> stack_line l' -> l = l').
  { intros x' y' Hx Hy Sx Sy. destruct (EX x' Hx) as (x & Hx1 & Ex & _ & SPx & LKx & _). destruct (EX y' Hy) as (y & Hy1 & Ey & _ & SPy & LKy & _).
    assert (x = y) by (apply N9; auto; [apply (like_stack x x' LKx), Sx|apply (like_stack y y' LKy), Sy]). subst y. congruence. }
  assert (XA : forall l, In l (eff L) -> stack_line l -> l_first l < argcp <= l_second l).
  { intros x' Hx Sx. destruct (EX x' Hx) as (x & Hx1 & Ex & _ & SPx & LKx & _). apply (N10 x _ _ Hx1); [apply (like_stack x x' LKx), Sx|exact SPx]. }
  destruct (scan1_ok nb biggest dbg al cur_ max_ obj_of argcp asc dseg S (eff L) XL XO XS XK XT XZ XU XA MI) as (S' & our & E & [JA JI JC JR JU JK JF JO JS]).
  { apply (frees_le nb (fo S) _ (2 + length L)); [|exact N8]. assert (Y := eff_len L). lia. }
  cbn [sc_m sc_our sc_cur] in *. exists S', our. unfold scan_proc. rewrite loop_eff. split; [exact E|]. split; [exact JI|]. constructor.
  - intros a t. rewrite JR. split; (intros [H|H]; [auto|right]).
    + destruct H as (l' & Hl & C & ->). destruct (EX l' Hl) as (l & H & _ & _ & SP & LK & _). exists l, (l_first l'), (l_second l').
      split; [exact H|]. split; [exact SP|]. split; [exact C|apply like_attr, LK].
    + destruct H as (l & lo & hi & H & SP & C & ->). destruct (XE l lo hi H SP) as (l' & Hl & LK & -> & ->). exists l'. split; [exact Hl|]. split; [exact C|].
      symmetry. apply like_attr, LK.
  - exact JO.
  - intro NS. destruct JS as [(A & _ & B)|(_ & l' & k & Hl & Sl & _)]; [auto|]. exfalso. destruct (EX l' Hl) as (l & H & _ & _ & SP & LK & _).
    apply (NS l (l_first l') (l_second l') H); [apply (like_stack l l' LK), Sl|exact SP].
  - intros l lo hi H Sl SP. destruct (XE l lo hi H SP) as (l' & Hl & LK & -> & ->). apply (like_stack l l' LK) in Sl.
    destruct JS as [(_ & A & _)|(_ & x & k & Hx & Sx & ST & O)]; [exfalso; exact (A l' Hl Sl)|].
    rewrite (XU l' x Hl Hx Sl Sx). exists k. split; [exact ST|exact O].
Qed.

Lemma rec_fun S a t t' : MInv S -> recorded S a t -> recorded S a t' -> t = t'.
Proof.
  intros MI R1 R2. destruct R1 as (n & Ln & An & Cn & Sn). destruct R2 as (m & Lm & Am & Cm & Sm).
  assert (Vn := live_as _ _ Ln). assert (Vm := live_as _ _ Lm).
  destruct (mi_seq _ _ _ _ _ _ _ MI n _ Vn An) as (Pn & SI & _). destruct (mi_seq _ _ _ _ _ _ _ MI m _ Vm Am) as (Pm & _).
  destruct (Nat.eq_dec n m) as [->|N].
  - exact (says_fun _ a t t' (proj1 SI) Sn Sm).
  - exfalso. destruct (vf_top _ _ _ _ _ _ (fo S) (mi_R _ _ _ _ _ _ _ MI) n m _ _ Vn Vm Pn Pm N) as [Y|Y]; cbn in Y; unfold covers in *; lia.
Qed.

Lemma lists_iff l a : lists biggest xend l a = true <-> exists lo hi, span l lo hi /\ lo <= a < hi.
Proof.
  unfold lists, Scan_spec.span. rewrite !andb_true_iff, !Z.leb_le, Z.ltb_lt. split.
  - intros [[[A B] C] D]. exists (l_first l). destruct (l_rest l); [exists (l_second l)|exists (l_second l)|exists xend|exists (l_second l)|exists (l_second l)];
      apply Z.ltb_lt in D; repeat split; lia.
  - intros (lo & hi & (A & B & -> & D) & C). split; [split; [split; assumption|apply C]|]. destruct (l_rest l); apply Z.ltb_lt; lia.
Qed.

Lemma scan_mirrors S M L S' our : mirrors S M -> MInv S' -> scanned biggest xend argcp L S S' our -> mirrors S' (list_over biggest xend L M).
Proof.
  intros MR MI [SR _ _ _] a t. unfold list_over. destruct (find (fun l => lists biggest xend l a) L) as [l|] eqn:F.
  - apply find_some in F. destruct F as [Hl F]. apply lists_iff in F. destruct F as (lo & hi & SP & C).
    assert (R : recorded S' a (line_attr l)) by (apply SR; right; exists l, lo, hi; auto).
    split; [intro E; injection E as <-; exact R|]. intro R'. f_equal. exact (rec_fun S' a _ _ MI R R').
  - rewrite (MR a t), SR. split; [auto|]. intros [H|(l & lo & hi & Hl & SP & C & _)]; [exact H|]. exfalso.
    assert (X := find_none _ _ F l Hl). cbn beta in X. assert (lists biggest xend l a = true) by (apply lists_iff; eauto). congruence.
Qed.
End D.
