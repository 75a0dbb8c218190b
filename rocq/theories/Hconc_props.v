(* C70: threads allocating, freeing and looking up heap chunks at once. *)
From Verif Require Import Base Conc_model Conc_spec Conc_proof Hconc_gen Hconc_model Hconc_spec Hconc_proof.

Section Keep.
Variable Inv : hs -> Prop.
Notation P := (prog hs).
Lemma keep_rd {A} (f : hs -> A) : keep Inv (rd f) (fun a => exists s, Inv s /\ f s = a).
Proof. cbn. intros s s' a Hs E. injection E; intros; subst. eauto. Qed.
Lemma keep_rdo {A} (f : hs -> option A) : keep Inv (rdo f) (fun a => exists s, Inv s /\ f s = Some a).
Proof. cbn. intros s s' a Hs E. destruct (f s) eqn:F; [|discriminate]. injection E; intros; subst. eauto. Qed.
Lemma keep_chk dbg b : keep Inv (chk dbg b) (fun _ => True).
Proof. cbn. intros s s' a Hs E. destruct (asrt dbg b); cbn in E; try discriminate. injection E; intros; subst. auto. Qed.
Lemma keep_wr f : (forall s, Inv s -> Inv (f s)) -> keep Inv (wr f) (fun _ => True).
Proof. cbn. intros H s s' a Hs E. injection E; intros; subst. auto. Qed.
Lemma keep_act {A} (f : hs -> res (hs * A)) : (forall s s' a, Inv s -> f s = Ok (s', a) -> Inv s') -> keep Inv (Act f Ret) (fun _ => True).
Proof. cbn. intros H s s' a Hs E. split; [exact (H s s' a Hs E)|exact I]. Qed.
Lemma wli_rd {A B} (g : hs -> A) (k : A -> P B) a : (forall s, Inv s -> g s = a) -> wli hs Inv 0 (k a) -> wli hs Inv 0 (bindp (rd g) k).
Proof.
  intros H Hk. cbn [bindp rd wli]. intros s Hs. exists a. rewrite (H s Hs). split; [reflexivity|]. split; [exact Hk|].
  intros u Hu. cbn. rewrite (H u Hu). reflexivity.
Qed.
Lemma wli_ensure dbg abegin i {B} (k : nat -> P B) : (forall s, Inv s -> h_sub s = true /\ h_priv s = i) -> i <> 0%nat ->
  wli hs Inv 0 (k i) -> wli hs Inv 0 (bindp (p_ensure dbg abegin) k).
Proof.
  intros H Hi Hk. unfold p_ensure, p_arena.
  change (wli hs Inv 0 (bindp (rd h_sub) (fun t => bindp (bindp (if t then Ret tt else
     pdo u <- rd h_sub ; pdo _ <- chk dbg (negb u) ;
     pdo _ <- wr (fun s => mkH true (h_priv s) (h_inf s) (h_buf s) (h_nexti s) (h_nextb s)) ;
     pdo _ <- p_ensure_info abegin ; Ret tt) (fun _ => p_ensure_info abegin)) k))).
  apply (wli_rd _ _ true); [intros s Hs; apply H; exact Hs|]. cbn [bindp]. unfold p_ensure_info.
  change (wli hs Inv 0 (bindp (rd h_priv) (fun pr => bindp (bindp (if Nat.eqb pr 0 then
              pdo i <- Act (fun s => Ok (mkH (h_sub s) (h_priv s) (fun j => if Nat.eqb j (h_nexti s) then inf0 else h_inf s j)
                                            (h_buf s) (S (h_nexti s)) (h_nextb s), h_nexti s)) Ret ;
              pdo _ <- wr (fun s => mkH (h_sub s) i (h_inf s) (h_buf s) (h_nexti s) (h_nextb s)) ;
              pdo _ <- w_nw i 0 ; pdo _ <- w_bm i 0 ; pdo _ <- w_bu i 0 ; w_base i (rdown abegin SPAN)
            else Ret tt) (fun _ => rd h_priv)) k))).
  apply (wli_rd _ _ i); [intros s Hs; apply H; exact Hs|]. destruct (Nat.eqb_spec i 0); [contradiction|]. cbn [bindp].
  apply (wli_rd h_priv k i); [intros s Hs; apply H; exact Hs|exact Hk].
Qed.

Lemma wli_inv {A} (p : P A) : forall d s s' r, wli hs Inv d p -> Inv s -> run p s = Ok (s', r) -> Inv s'.
Proof.
  induction p as [a|q IH|q IH|X f q IH]; cbn [wli run]; intros d s s' r Hw Hs E.
  - injection E; intros; subst; auto.
  - eapply IH; eauto.
  - destruct d as [|[|d]]; [contradiction| |eapply IH; eauto]. destruct Hw as [x ->]. cbn in E. injection E; intros; subst; auto.
  - destruct d as [|d].
    + destruct (Hw s Hs) as (a & Ef & Hk & _). rewrite Ef in E. cbn in E. eapply IH; eauto.
    + destruct (f s) as [[s1 a]| | |] eqn:Ef; cbn in E; try discriminate. destruct (Hw s s1 a Hs Ef). eapply IH; eauto.
Qed.

(* code which only reads, and whose answer is the same whatever it reads *)
Fixpoint obs {A} (p : P A) (Q : A -> Prop) : Prop :=
  match p with
  | Ret a => Q a
  | Lock _ | Unlock _ => False
  | Act f k => forall s, Inv s -> exists a, f s = Ok (s, a) /\ obs (k a) Q
  end.
Lemma obs_bind {A B} (p : P A) (k : A -> P B) Q Q2 : obs p Q -> (forall a, Q a -> obs (k a) Q2) -> obs (bindp p k) Q2.
Proof.
  induction p as [a|q IH|q IH|X f q IH]; cbn; intros Hp Hk; auto; try contradiction.
  intros s Hs. destruct (Hp s Hs) as (a & E & Hq). exists a. split; auto.
Qed.
Lemma obs_run {A} (p : P A) r u : obs p (eq r) -> Inv u -> run p u = Ok (u, r).
Proof.
  intros Hp Hu. induction p as [a|q IH|q IH|X f q IH]; cbn in *; try contradiction; [congruence|].
  destruct (Hp u Hu) as (a & E & Hq). rewrite E. cbn. apply IH. exact Hq.
Qed.
Lemma obs_wli {A} (p : P A) r : obs p (eq r) -> wli hs Inv 0 p.
Proof.
  intro Hp. induction p as [a|q IH|q IH|X f q IH]; cbn [wli]; try contradiction; [reflexivity|].
  intros s Hs. destruct (Hp s Hs) as (a & E & Hq). exists a. split; [exact E|]. split; [apply IH; exact Hq|].
  intros u Hu. rewrite (obs_run (q a) r u Hq Hu). symmetry. apply (obs_run (Act f q) r u Hp Hu).
Qed.
Lemma obs_rd {A} (f : hs -> A) : obs (rd f) (fun a => exists s, Inv s /\ f s = a).
Proof. cbn. intros s Hs. eauto 6. Qed.
Lemma obs_rdo {A} (f : hs -> option A) : (forall s, Inv s -> f s <> None) -> obs (rdo f) (fun a => exists s, Inv s /\ f s = Some a).
Proof. cbn. intros H s Hs. destruct (f s) eqn:E; [|edestruct H; eauto]. eauto 6. Qed.
End Keep.

Section Props.
Variables (dbg : bool) (abegin : Z) (junk : Z -> Z).
Notation cd := (hcode dbg abegin junk).
Notation sm := (sem hs hcall Z cd).
Notation base := (abase abegin).

(* ---- allocating and freeing ---- *)
Definition InvA (i : nat) (s : hs) : Prop := h_sub s = true /\ h_priv s = i.
Lemma keepA_wr i (f : hs -> hs) : (forall s, h_sub (f s) = h_sub s /\ h_priv (f s) = h_priv s) -> keep (InvA i) (wr f) (fun _ => True).
Proof. intro H. apply keep_wr. intros s [A B]. destruct (H s) as [E1 E2]. split; congruence. Qed.
Lemma keepA_word i b j v : keep (InvA i) (w_word b j v) (fun _ => True).
Proof.
  apply keep_act. intros s s' a [A B] E. destruct (h_buf s b) as [[n w]|]; [|discriminate]. destruct (inside n j); [|discriminate].
  injection E; intros; subst. split; auto.
Qed.
Ltac kb := apply (keep_bind _ _ _ (fun _ => True)).
Ltac kr := eapply keep_wk; [first [apply keep_rd|apply keep_rdo|apply keep_chk]|auto].
Lemma keepA_grow i j e : keep (InvA i) (p_grow dbg abegin junk j e) (fun _ => True).
Proof.
  unfold p_grow. kb; [kr|]. intros b _. kb; [kr|]. intros _ _. cbv zeta. kb; [kr|]. intros nw _.
  destruct (nw <? _); [|exact I]. kb; [kr|]. intros bm _. kb.
  - apply keep_act. intros s s' a [A B] E. destruct (if Nat.eqb bm 0 then Some (0, junk) else h_buf s bm) as [[? ?]|]; [|discriminate].
    injection E; intros; subst. split; auto.
  - intros b' _. kb; [apply keepA_wr; intro s; split; reflexivity|]. intros _ _. kb.
    + apply keep_act. intros s s' a [A B] E. destruct (h_buf s b') as [[? ?]|]; [|discriminate]. injection E; intros; subst. split; auto.
    + intros _ _. apply keepA_wr. intro s; split; reflexivity.
Qed.
Lemma wliA i x : i <> 0%nat -> (forall m, x <> HLook m) -> wli hs (InvA i) 0 (cd x).
Proof.
  intros Hi Hx. destruct x as [p req cu|p|m]; [| |edestruct Hx; reflexivity]; cbn [hcode].
  - apply (wli_ensure _ _ _ i); [intros s H; exact H|exact Hi|]. unfold p_insert, locked. cbn [bindp wli].
    eapply keep_wli with (Q := fun _ => True). kb; [apply keepA_grow|]. intros _ _. kb; [kr|]. intros b _. kb; [kr|]. intros bs _.
    kb; [kr|]. intros _ _. kb; [kr|]. intros pr _. kb; [kr|]. intros nw _. kb; [kr|]. intros _ _. kb; [kr|]. intros bu _.
    kb; [apply keepA_wr; intro s; split; reflexivity|]. intros _ _. cbv zeta. kb; [kr|]. intros w _. apply keepA_word.
  - apply (wli_ensure _ _ _ i); [intros s H; exact H|exact Hi|]. unfold p_delete, locked. cbn [bindp wli].
    eapply keep_wli with (Q := fun _ => True). kb; [kr|]. intros b _. kb; [kr|]. intros bs _. kb; [kr|]. intros _ _. kb; [kr|]. intros _ _.
    cbv zeta. kb; [kr|]. intros w _. apply keepA_word.
Qed.

Lemma honest_no_look L t0 j m : honest abegin L t0 -> ~ In (HLook m) (t0 j).
Proof.
  intros Hh Hin. apply in_split in Hin. destruct Hin as (a & b & E).
  pose proof (Hh (map (fun x => (j, x, 0)) a) j (HLook m) b) as F.
  assert (Ec : forall k, calls k (map (fun x : hcall => (j, x, 0)) a) = if Nat.eqb j k then a else []).
  { intro k. unfold calls, mine. clear. induction a as [|x a IH]; cbn; [destruct (Nat.eqb j k); reflexivity|].
    destruct (Nat.eqb j k) eqn:E; cbn; rewrite IH, ?E; reflexivity. }
  apply F.
  - intro k. rewrite Ec. destruct (Nat.eqb_spec j k) as [<-|_]; [eauto|]. exists (t0 k). reflexivity.
  - rewrite Ec, Nat.eqb_refl. exact E.
Qed.
Lemma live_snoc L l e : live_after L (l ++ [e]) = after (live_after L l) (snd (fst e)).
Proof. unfold live_after. rewrite fold_left_app. reflexivity. Qed.
Lemma prefix_snoc (t0 : nat -> list hcall) (l : list (nat * hcall * Z)) i x r : (forall j, exists q, t0 j = calls j (l ++ [(i, x, r)]) ++ q) ->
  (forall j, exists q, t0 j = calls j l ++ q) /\ exists rest, t0 i = calls i l ++ x :: rest.
Proof.
  intro H. split.
  - intro j. destruct (H j) as [q E]. rewrite calls_snoc, <- app_assoc in E. eauto.
  - destruct (H i) as [q E]. rewrite calls_snoc, Nat.eqb_refl, <- app_assoc in E. exists q. exact E.
Qed.
Lemma one i s L x : ready abegin i s -> (forall q, chunk_at abegin q -> marked abegin i s q = L q) -> fits abegin L x ->
  exists s' r, sm x s = Ok (s', r) /\ ready abegin i s' /\ forall q, chunk_at abegin q -> marked abegin i s' q = after L x q.
Proof.
  intros HR HM HF. unfold sem. destruct x as [p req cu|p|m]; [| |contradiction].
  - destruct HF as [Hp Hq]. destruct (alloc_run dbg abegin junk i s p req cu HR Hp Hq) as (s' & E & HR' & HM'). exists s', 0. split; [exact E|].
    split; [exact HR'|]. intros q Hc. rewrite (HM' q Hc), (HM q Hc). reflexivity.
  - destruct HF as [Hp HL]. destruct (free_run dbg abegin junk i s p HR Hp) as (s' & E & HR' & HM'); [rewrite (HM p Hp); exact HL|]. exists s', 0.
    split; [exact E|]. split; [exact HR'|]. intros q Hc. rewrite (HM' q Hc), (HM q Hc). reflexivity.
Qed.
Lemma serial_live i s0 t0 L l s : ready abegin i s0 -> (forall q, chunk_at abegin q -> marked abegin i s0 q = L q) -> honest abegin L t0 ->
  serial sm s0 l s -> (forall j, exists r, t0 j = calls j l ++ r) ->
  ready abegin i s /\ forall q, chunk_at abegin q -> marked abegin i s q = live_after L l q.
Proof.
  intros HR HM Hh Hs. induction Hs as [|l s j x r s' Hs IH E]; intro Hp; [split; auto|].
  destruct (prefix_snoc t0 l j x r Hp) as [Hp' [rest Hr]]. destruct (IH Hp') as [HR1 HM1].
  destruct (one i s _ x HR1 HM1 (Hh l j x rest Hp' Hr)) as (s1 & r1 & E1 & HR2 & HM2).
  rewrite E in E1. injection E1; intros; subst. split; [exact HR2|]. intros q Hc. rewrite live_snoc. apply HM2. exact Hc.
Qed.

(* Full statement: for any threads allocating, freeing and looking up, from the arena's first
   use on.  Missing: the first allocation in an arena and lookups, for which see below. *)
Theorem hconc_index_partial : forall i s0 t0 L c1 c2, ready abegin i s0 ->
  (forall q, chunk_at abegin q -> marked abegin i s0 q = L q) -> honest abegin L t0 ->
  steps cd (start_c s0 t0) c1 -> steps cd c1 c2 ->
  (forall j r, tstep cd j c2 = Some r -> exists c', r = Ok c') /\
  exists l1 s1 l' s2, accounts sm s0 t0 c1 l1 s1 /\ accounts sm s0 t0 c2 (l1 ++ l') s2 /\
    ready abegin i s1 /\ (forall q, chunk_at abegin q -> marked abegin i s1 q = live_after L l1 q) /\
    ready abegin i s2 /\ (forall q, chunk_at abegin q -> marked abegin i s2 q = live_after L (l1 ++ l') q).
Proof.
  intros i s0 t0 L c1 c2 HR HM Hh H1 H2.
  assert (Hi : i <> 0%nat) by (destruct HR as (? & ? & ? & ? & A & _); exact A).
  assert (HI : InvA i s0) by (destruct HR as (? & ? & ? & ? & _ & A & B & _); split; assumption).
  assert (Hw : forall j x, In x (t0 j) -> wli hs (InvA i) 0 (cd x)).
  { intros j x Hx. apply wliA; [exact Hi|]. intros m ->. exact (honest_no_look L t0 j m Hh Hx). }
  destruct (cinv_steps hs (InvA i) hcall Z cd s0 t0 Hw _ _ H1 [] s0 (cinv_init _ _ _ _ _ _ _ HI)) as (l1 & s1 & I1). cbn [app] in I1.
  destruct (cinv_steps hs (InvA i) hcall Z cd s0 t0 Hw _ _ H2 l1 s1 I1) as (l' & s2 & I2).
  pose proof (cinv_accounts _ _ _ _ _ _ _ _ _ _ I1) as A1. pose proof (cinv_accounts _ _ _ _ _ _ _ _ _ _ I2) as A2.
  destruct (serial_live i s0 t0 L l1 s1 HR HM Hh (ac_serial _ _ _ _ _ _ _ _ _ A1) (ac_order _ _ _ _ _ _ _ _ _ A1)) as [R1 M1].
  destruct (serial_live i s0 t0 L _ s2 HR HM Hh (ac_serial _ _ _ _ _ _ _ _ _ A2) (ac_order _ _ _ _ _ _ _ _ _ A2)) as [R2 M2].
  split.
  - intros j r Hr. destruct r as [c'| | |]; [eauto| | |]; exfalso;
      destruct (cinv_fail _ _ _ _ _ _ _ _ _ _ _ _ I2 Hr) as (x & rest & E1 & E2); try discriminate;
      destruct (one i s2 _ x R2 M2 (Hh _ j x rest (ac_order _ _ _ _ _ _ _ _ _ A2) E1)) as (s' & r' & E' & _); exact (E2 _ _ E').
  - exists l1, s1, l', s2. auto 8.
Qed.

(* ---- lookups beside writers ---- *)
Section Look.
Variables (i : nat) (X cu n : Z).
Hypothesis (Hi : i <> 0%nat) (HX : chunk_at abegin X) (Hcu : 0 < cu) (Hin : X + cu <= base + n * SPAN) (H32 : n * NBITS <= W32).
Definition kX : Z := (X - base) / MALLOC_ALIGN.
Definition kE : Z := (X + cu - 1 - base) / MALLOC_ALIGN.
Definition okw (w : Z -> Z) : Prop :=
  Z.testbit (w (kX / NBITS)) (kX mod NBITS) = true /\ forall k, kX < k <= kE -> Z.testbit (w (k / NBITS)) (k mod NBITS) = false.
Definition Inv2 (b : nat) (s : hs) : Prop :=
  b <> 0%nat /\ exists u w, is_ abegin i s n b u w /\ cu <= u /\ okw w.

Lemma bounds : 0 <= kX /\ kX <= kE /\ kE < n * NBITS.
Proof.
  clear Hi H32. destruct HX as [A B]. unfold kX, kE, MALLOC_ALIGN, NBITS, SPAN in *. split; [apply Z.div_pos; lia|].
  split; [apply Z.div_le_mono; lia|]. apply Z.div_lt_upper_bound; lia.
Qed.
Lemma index_of p : chunk_at abegin p -> p = base + MALLOC_ALIGN * ((p - base) / MALLOC_ALIGN).
Proof. intros [_ M]. unfold abase, rdown, SPAN, MALLOC_ALIGN in *. clear - M. Z.div_mod_to_equations. lia. Qed.

Lemma keep2_rdo b {A} (f : hs -> option A) : keep (Inv2 b) (rdo f) (fun a => exists s, Inv2 b s /\ f s = Some a).
Proof. apply keep_rdo. Qed.
Lemma inf2 b s : Inv2 b s -> exists u, h_inf s i = mkI (Some base) (Some n) (Some b) (Some u) /\ cu <= u.
Proof. intros [_ (u & w & H & Hu & _)]. exists u. split; [exact (is_inf _ _ _ _ _ _ _ H)|exact Hu]. Qed.
(* writing a word which was read from a good state, changed at a bit which does not matter *)
Lemma keep2_word b j v : (forall w, okw w -> okw (fun k => if k =? j then v else w k)) -> keep (Inv2 b) (w_word b j v) (fun _ => True).
Proof.
  intro Hv. apply keep_act. intros s s' a [Hb (u & w & H & Hu & Hw)] E.
  pose proof H as [A1 A2 A3 A4 A5 A6 A7 A8]. destruct A8 as [[-> _] | [_ Eb]]; [contradiction|]. rewrite Eb in E.
  destruct (inside n j); [|discriminate]. injection E; intros _ <-. split; [exact Hb|].
  exists u, (fun k => if k =? j then v else w k). split; [|split; [exact Hu|apply Hv; exact Hw]].
  constructor; cbn [upd_buf h_sub h_priv h_inf h_buf h_nextb]; auto.
  - destruct (Nat.eqb_spec 0 b); [congruence|exact A6].
  - right. split; [exact Hb|]. rewrite Nat.eqb_refl. reflexivity.
Qed.
Lemma word_from b s j x : Inv2 b s -> (match h_buf s b with Some (m, w) => if inside m j then Some (w j) else None | None => None end) = Some x ->
  exists w0, okw w0 /\ x = w0 j.
Proof.
  intros [Hb (u & w & H & _ & Hw)] E. pose proof (is_buf _ _ _ _ _ _ _ H) as [[-> _] | [_ Eb]]; [contradiction|]. rewrite Eb in E.
  destruct (inside n j); [|discriminate]. injection E; intros <-. eauto.
Qed.
Lemma divmod_eq k m : k / NBITS = m / NBITS -> k mod NBITS = m mod NBITS -> k = m.
Proof. intros E1 E2. rewrite (Z.div_mod k NBITS), (Z.div_mod m NBITS) by (unfold NBITS; lia). rewrite E1, E2. reflexivity. Qed.
Lemma ok_or k w0 : okw w0 -> k < kX \/ kE < k -> forall w, okw w ->
  okw (fun j => if j =? k / NBITS then Z.lor (w0 (k / NBITS)) (2 ^ (k mod NBITS)) else w j).
Proof.
  intros [W1 W2] Hk w [V1 V2]. assert (Bn : forall y, 0 <= y mod NBITS) by (intro y; apply Z.mod_pos_bound; reflexivity). split.
  - destruct (Z.eqb_spec (kX / NBITS) (k / NBITS)) as [E|E]; [|exact V1]. rewrite (bit_or _ _ _ (Bn _) (Bn _)), <- E, W1. apply orb_true_r.
  - intros y Hy. destruct (Z.eqb_spec (y / NBITS) (k / NBITS)) as [E|E]; [|apply V2; exact Hy]. rewrite (bit_or _ _ _ (Bn _) (Bn _)).
    destruct (Z.eqb_spec (y mod NBITS) (k mod NBITS)) as [E2|E2]; [exfalso; pose proof (divmod_eq _ _ E E2) as F; clear - F Hk Hy; lia|]. cbn [orb]. rewrite <- E. apply W2. exact Hy.
Qed.
Lemma ok_ldiff k w0 : okw w0 -> k <> kX -> forall w, okw w ->
  okw (fun j => if j =? k / NBITS then Z.ldiff (w0 (k / NBITS)) (2 ^ (k mod NBITS)) else w j).
Proof.
  intros [W1 W2] Hk w [V1 V2]. assert (Bn : forall y, 0 <= y mod NBITS) by (intro y; apply Z.mod_pos_bound; reflexivity). split.
  - destruct (Z.eqb_spec (kX / NBITS) (k / NBITS)) as [E|E]; [|exact V1]. rewrite (bit_ldiff _ _ _ (Bn _) (Bn _)), <- E, W1. rewrite andb_true_r.
    destruct (Z.eqb_spec (kX mod NBITS) (k mod NBITS)) as [E2|E2]; [|reflexivity]. exfalso. apply Hk. symmetry. apply divmod_eq; assumption.
  - intros y Hy. destruct (Z.eqb_spec (y / NBITS) (k / NBITS)) as [E|E]; [|apply V2; exact Hy]. rewrite (bit_ldiff _ _ _ (Bn _) (Bn _)), <- E.
    rewrite W2 by exact Hy. apply andb_false_r.
Qed.

Lemma total_le e : e <= base + n * SPAN -> (rup e SPAN - base) / SPAN <= n.
Proof.
  clear Hi HX Hcu Hin H32. unfold rup, abase, rdown, SPAN. intro H.
  replace ((e + (1024 - 1)) / 1024 * 1024 - abegin / 1024 * 1024) with (((e + (1024-1))/1024 - abegin/1024) * 1024) by lia.
  rewrite Z.div_mul by lia. Z.div_mod_to_equations. lia.
Qed.
Ltac kb2 := apply (keep_bind _ _ _ (fun _ => True)); [eapply keep_wk; [first [apply keep_rd|apply keep_rdo|apply keep_chk]|auto]|].
Lemma keep2_alloc b p req cu' : chunk_at abegin p -> 0 < req -> p + req <= base + n * SPAN -> p < X \/ X + cu <= p ->
  wli hs (Inv2 b) 0 (cd (HAlloc p req cu')).
Proof.
  intros Hp Hr He Ho. cbn [hcode].
  apply (wli_ensure _ _ _ i); [intros s [_ (u & w & H & _)]; split; [exact (is_sub _ _ _ _ _ _ _ H)|exact (is_priv _ _ _ _ _ _ _ H)]|exact Hi|].
  unfold p_insert, locked. cbn [bindp wli]. eapply keep_wli with (Q := fun _ => True).
  apply (keep_bind _ _ _ (fun _ => True)).
  { unfold p_grow. apply (keep_bind _ _ _ (fun x => x = base)).
    - eapply keep_wk; [apply keep_rdo|]. intros a (s & Hs & E). destruct (inf2 b s Hs) as (u & F & _). rewrite F in E. cbn in E. congruence.
    - intros bs ->. kb2. intros _ _. cbv zeta. apply (keep_bind _ _ _ (fun x => x = n)).
      + eapply keep_wk; [apply keep_rdo|]. intros a (s & Hs & E). destruct (inf2 b s Hs) as (u & F & _). rewrite F in E. cbn in E. congruence.
      + intros nw ->. pose proof (total_le _ He). destruct (Z.ltb_spec n ((rup (p + req) SPAN - base) / SPAN)); [lia|]. exact I. }
  intros _ _. apply (keep_bind _ _ _ (fun x => x = b)).
  { eapply keep_wk; [apply keep_rdo|]. intros a (s & Hs & E). destruct (inf2 b s Hs) as (u & F & _). rewrite F in E. cbn in E. congruence. }
  intros b1 ->. apply (keep_bind _ _ _ (fun x => x = base)).
  { eapply keep_wk; [apply keep_rdo|]. intros a (s & Hs & E). destruct (inf2 b s Hs) as (u & F & _). rewrite F in E. cbn in E. congruence. }
  intros bs ->. kb2. intros _ _. kb2. intros pr _. kb2. intros nw _. kb2. intros _ _. apply (keep_bind _ _ _ (fun x => cu <= x)).
  { eapply keep_wk; [apply keep_rdo|]. intros a (s & Hs & E). destruct (inf2 b s Hs) as (u & F & G). rewrite F in E. cbn in E. injection E; intros; subst. exact G. }
  intros bu Hbu. apply (keep_bind _ _ _ (fun _ => True)).
  { apply keep_wr. intros s [Hb (u & w & H & Hu & Hw)]. split; [exact Hb|]. exists (Z.max bu cu'), w. split; [|split; [lia|exact Hw]].
    destruct H as [A1 A2 A3 A4 A5 A6 A7 A8]. constructor; cbn [upd_inf h_sub h_priv h_inf h_buf h_nextb]; auto.
    rewrite Nat.eqb_refl, A4. reflexivity. }
  intros _ _. cbv zeta. apply (keep_bind _ _ _ (fun x => exists w0, okw w0 /\ x = w0 ((p - base) / MALLOC_ALIGN / NBITS))).
  { eapply keep_wk; [apply keep_rdo|]. intros a (s & Hs & E). exact (word_from b s _ a Hs E). }
  intros x (w0 & Hw0 & ->). apply keep2_word. apply ok_or; [exact Hw0|].
  pose proof (index_of p Hp) as Ep. pose proof (index_of X HX) as EX. unfold kX, kE, MALLOC_ALIGN in *.
  destruct Ho as [Ho|Ho]; [left; lia|right]. apply Z.div_lt_upper_bound; lia.
Qed.
Lemma keep2_free b p : chunk_at abegin p -> p <> X -> wli hs (Inv2 b) 0 (cd (HFree p)).
Proof.
  intros Hp Ho. cbn [hcode].
  apply (wli_ensure _ _ _ i); [intros s [_ (u & w & H & _)]; split; [exact (is_sub _ _ _ _ _ _ _ H)|exact (is_priv _ _ _ _ _ _ _ H)]|exact Hi|].
  unfold p_delete, locked. cbn [bindp wli]. eapply keep_wli with (Q := fun _ => True). apply (keep_bind _ _ _ (fun x => x = b)).
  { eapply keep_wk; [apply keep_rdo|]. intros a (s & Hs & E). destruct (inf2 b s Hs) as (u & F & _). rewrite F in E. cbn in E. congruence. }
  intros b1 ->. apply (keep_bind _ _ _ (fun x => x = base)).
  { eapply keep_wk; [apply keep_rdo|]. intros a (s & Hs & E). destruct (inf2 b s Hs) as (u & F & _). rewrite F in E. cbn in E. congruence. }
  intros bs ->. kb2. intros _ _. kb2. intros _ _. cbv zeta.
  apply (keep_bind _ _ _ (fun x => exists w0, okw w0 /\ x = w0 ((p - base) / MALLOC_ALIGN / NBITS))).
  { eapply keep_wk; [apply keep_rdo|]. intros a (s & Hs & E). exact (word_from b s _ a Hs E). }
  intros x (w0 & Hw0 & ->). apply keep2_word. apply ok_ldiff; [exact Hw0|].
  pose proof (index_of p Hp) as Ep. pose proof (index_of X HX) as EX. unfold kX, MALLOC_ALIGN in *. intro E. apply Ho. lia.
Qed.

Lemma top_some w t : forall m, (t <= m)%nat -> Z.testbit w (Z.of_nat t) = true ->
  (forall y, (t < y <= m)%nat -> Z.testbit w (Z.of_nat y) = false) -> top w m = Some t.
Proof.
  clear. induction m as [|m IH]; intros Hm Ht Hc.
  - assert (t = 0%nat) by lia. subst. cbn [top]. rewrite Ht. reflexivity.
  - cbn [top]. destruct (Nat.eq_dec t (S m)) as [<-|E]; [rewrite Ht; reflexivity|]. rewrite Hc by lia. apply IH; [lia|exact Ht|]. intros y Hy. apply Hc. lia.
Qed.
Lemma top_none w : forall m, (forall y, (y <= m)%nat -> Z.testbit w (Z.of_nat y) = false) -> top w m = None.
Proof.
  clear. induction m as [|m IH]; intros Hc; cbn [top]; rewrite Hc by lia; [reflexivity|]. apply IH. intros y Hy. apply Hc. lia.
Qed.
Lemma obs_scan b : b <> 0%nat -> forall fuel lo j m, lo <= kX / NBITS -> kX / NBITS <= j -> (m < 64)%nat ->
  kX <= j * NBITS + Z.of_nat m <= kE -> j - lo < Z.of_nat fuel -> obs (Inv2 b) (p_scan fuel b lo j m) (eq kX).
Proof.
  intro Hb. pose proof bounds as (B1 & B2 & B3). assert (NB : NBITS = 64) by reflexivity. rewrite NB in *.
  pose proof (Z.div_mod kX 64 ltac:(lia)) as DX. pose proof (Z.mod_pos_bound kX 64 ltac:(lia)) as MX.
  induction fuel as [|fuel IH]; intros lo j m Hlo Hj Hm Hk Hf; [lia|]. cbn [p_scan]. rewrite NB.
  destruct (Z.ltb_spec j lo); [lia|].
  apply (obs_bind _ _ _ (fun x => exists w0, okw w0 /\ x = w0 j)).
  - cbn. intros s Hs. pose proof Hs as [_ (u & w & H0 & _ & Hw)]. pose proof (is_buf _ _ _ _ _ _ _ H0) as [[-> _] | [_ Eb]]; [contradiction|].
    rewrite Eb. assert (E : inside n j = true) by (unfold inside; lia). rewrite E. exists (w j). split; [reflexivity|eauto].
  - intros x (w0 & [W1 W2] & ->). destruct (Z.eq_dec j (kX / 64)) as [Ej|Ej].
    + rewrite (top_some _ (Z.to_nat (kX mod 64))).
      * cbn [obs]. rewrite Z2Nat.id by lia. lia.
      * lia.
      * rewrite Z2Nat.id by lia. rewrite Ej. exact W1.
      * intros y Hy. pose proof (W2 (j * 64 + Z.of_nat y)) as F. rewrite NB in F.
        replace ((j * 64 + Z.of_nat y) / 64) with j in F by (rewrite Z.add_comm, Z.div_add, Z.div_small by lia; lia).
        replace ((j * 64 + Z.of_nat y) mod 64) with (Z.of_nat y) in F by (rewrite Z.add_comm, Z.mod_add, Z.mod_small by lia; lia).
        apply F. lia.
    + rewrite top_none.
      * apply IH; [lia|lia|lia| |lia]. lia.
      * intros y Hy. pose proof (W2 (j * 64 + Z.of_nat y)) as F. rewrite NB in F.
        replace ((j * 64 + Z.of_nat y) / 64) with j in F by (rewrite Z.add_comm, Z.div_add, Z.div_small by lia; lia).
        replace ((j * 64 + Z.of_nat y) mod 64) with (Z.of_nat y) in F by (rewrite Z.add_comm, Z.mod_add, Z.mod_small by lia; lia).
        apply F. lia.
Qed.
Lemma obs_look b m : b <> 0%nat -> X <= m < X + cu -> obs (Inv2 b) (cd (HLook m)) (eq X).
Proof.
  intros Hb Hm. pose proof bounds as (B1 & B2 & B3). pose proof (index_of X HX) as EX. cbn [hcode].
  assert (Hs : forall s, Inv2 b s -> h_sub s = true /\ h_priv s = i).
  { intros s [_ (u & w & H & _)]. split; [exact (is_sub _ _ _ _ _ _ _ H)|exact (is_priv _ _ _ _ _ _ _ H)]. }
  apply (obs_bind _ _ _ (eq i)).
  { unfold p_info. apply (obs_bind _ _ _ (fun _ => True)).
    - unfold p_arena. apply (obs_bind _ _ _ (eq true)); [|intros t <-; exact I]. cbn. intros s H. exists (h_sub s). destruct (Hs s H). split; auto.
    - intros _ _. cbn. intros s H. exists (h_priv s). destruct (Hs s H). split; auto. }
  intros ? <-. unfold p_look. destruct (Nat.eqb_spec i 0); [contradiction|].
  assert (RO : forall A (f : inf -> option A) (Q : A -> Prop), (forall u, cu <= u -> exists a, f (mkI (Some base) (Some n) (Some b) (Some u)) = Some a /\ Q a) ->
     obs (Inv2 b) (rdo (fun s => f (h_inf s i))) Q).
  { intros A f Q HQ. cbn. intros s H. destruct (inf2 b s H) as (u & F & G). rewrite F. destruct (HQ u G) as (a & -> & Qa). eauto. }
  apply (obs_bind _ _ _ (eq base)); [apply RO; intros u Hu; cbn; eauto|]. intros ? <-. cbv zeta.
  set (start := (m - base) / MALLOC_ALIGN).
  assert (S1 : kX <= start <= kE) by (unfold kX, kE, start, MALLOC_ALIGN; split; apply Z.div_le_mono; lia).
  rewrite Z.mod_small by (unfold W32 in *; lia).
  apply (obs_bind _ _ _ (fun h => 0 <= h /\ h <= kX / NBITS)).
  { destruct dbg; [cbn; split; [lia|apply Z.div_pos; [lia|reflexivity]]|].
    apply (obs_bind _ _ _ (fun u => cu <= u)); [apply RO; intros u Hu; cbn; eauto|]. intros u Hu. cbv zeta. cbn [obs].
    assert (Q : kX / NBITS = (X - base) / SPAN) by (unfold kX, NBITS, MALLOC_ALIGN, SPAN; rewrite Z.div_div by lia; reflexivity). rewrite Q.
    destruct (Z.ltb_spec base (rdown (m - u) SPAN)) as [E|E].
    - split; [apply Z.div_pos; [lia|reflexivity]|]. apply Z.div_le_mono; [reflexivity|].
      assert (rdown (m - u) SPAN <= m - u); [|lia]. unfold rdown, SPAN. clear. Z.div_mod_to_equations. lia.
    - split; [lia|]. apply Z.div_pos; [destruct HX; lia|reflexivity]. }
  intros hid [Hh0 Hh]. apply (obs_bind _ _ _ (eq b)); [apply RO; intros u Hu; cbn; eauto|]. intros ? <-.
  apply (obs_bind _ _ _ (eq n)); [apply RO; intros u Hu; cbn; eauto|]. intros ? <-.
  assert (K : (hid * NBITS <=? start) && (start <? n * NBITS) = true).
  { apply andb_true_intro. split; [apply Z.leb_le|apply Z.ltb_lt; lia]. clear - Hh S1. unfold NBITS in *. pose proof (Z.mul_div_le kX 64 ltac:(lia)). lia. }
  rewrite K. cbn [negb]. apply (obs_bind _ _ _ (eq kX)).
  - pose proof (Z.div_mod start NBITS ltac:(unfold NBITS; lia)) as DM. pose proof (Z.mod_pos_bound start NBITS ltac:(reflexivity)) as MB.
    apply obs_scan; [exact Hb|exact Hh| | | |].
    + apply Z.div_le_mono; [reflexivity|lia].
    + unfold NBITS in *. lia.
    + rewrite Z2Nat.id by lia. lia.
    + rewrite Nat2Z.inj_succ, Z2Nat.id; [lia|]. assert (kX / NBITS <= start / NBITS) by (apply Z.div_le_mono; [reflexivity|lia]). lia.
  - intros ? <-. destruct (Z.eqb_spec kX (-1)); [lia|]. cbn. unfold kX. exact EX.
Qed.
End Look.

(* Whatever other threads allocate and free, looking up an address of a chunk which stays
   allocated is answered with that chunk, although lookups take no lock.  Missing from the
   full statement: allocations which make the bitmap grow, for which see below. *)
Theorem hconc_lookup_partial : forall i X cu n s0 t0 c, settled abegin i X cu n s0 ->
  (forall j x, In x (t0 j) -> stays abegin X cu n x) -> steps cd (start_c s0 t0) c ->
  (forall j r, tstep cd j c = Some r -> exists c', r = Ok c') /\
  forall j k m r, nth_error (t0 j) k = Some (HLook m) -> nth_error (done_ c j) k = Some r -> r = X.
Proof.
  intros i X cu n s0 t0 c HS Hst H.
  destruct HS as [HR Hnw (u & Hu & Huc) HX Hcu Hin H32 HM Hal]. apply ready_is in HR. destruct HR as (n0 & b & u0 & w & HI).
  pose proof HI as [A1 A2 A3 A4 A5 A6 A7 A8]. rewrite A4 in Hnw, Hu. cbn in Hnw, Hu. injection Hnw; intros ->. injection Hu; intros ->. clear Hnw Hu.
  assert (Hb : b <> 0%nat /\ h_buf s0 b = Some (n, w)).
  { destruct A8 as [[-> ->] | A8]; [|exact A8]. rewrite (marked_is _ _ _ _ _ _ _ _ HI) in HM. unfold mk, inside in HM. lia. }
  assert (NB : NBITS = 64) by reflexivity. assert (SP : SPAN = 1024) by reflexivity. assert (MA : MALLOC_ALIGN = 16) by reflexivity.
  assert (I0 : Inv2 i X cu n b s0).
  { split; [apply Hb|]. exists u, w. split; [exact HI|]. split; [exact Huc|]. split.
    - rewrite (marked_is _ _ _ _ _ _ _ _ HI) in HM. apply andb_prop in HM. exact (proj2 HM).
    - intros k Hk. set (q := base + 16 * k).
      assert (Hq : chunk_at abegin q /\ X < q < X + cu /\ (q - base) / 16 = k).
      { pose proof (bounds X cu n HX Hcu Hin) as (B1 & B2 & B3). pose proof (index_of X HX) as EX. unfold kX, kE in *. rewrite MA in *.
        split; [split|split].
        - unfold q. lia.
        - unfold q, abase, rdown. rewrite MA, SP. replace (abegin / 1024 * 1024 + 16 * k) with ((abegin / 1024 * 64 + k) * 16) by lia. apply Z.mod_mul. lia.
        - unfold q. split; [lia|]. assert (16 * k <= X + cu - 1 - base); [|lia].
          pose proof (Z.mul_div_le (X + cu - 1 - base) 16 ltac:(lia)). lia.
        - unfold q. replace (base + 16 * k - base) with (k * 16) by lia. apply Z.div_mul. lia. }
      destruct Hq as (Q1 & Q2 & Q3). pose proof (Hal q Q1 Q2) as F. rewrite (marked_is _ _ _ _ _ _ _ _ HI) in F. unfold mk in F. rewrite MA, Q3 in F.
      apply andb_false_iff in F. destruct F as [F|F]; [|exact F]. exfalso.
      pose proof (bounds X cu n HX Hcu Hin) as (B1 & B2 & B3). rewrite NB in *. unfold inside in F.
      assert (0 <= k / 64) by (apply Z.div_pos; lia). assert (k / 64 < n) by (apply Z.div_lt_upper_bound; lia). lia. }
  assert (Hw : forall j x, In x (t0 j) -> wli hs (Inv2 i X cu n b) 0 (cd x)).
  { intros j x Hx. pose proof (Hst j x Hx) as S. destruct x as [p req cu'|p|m]; cbn [stays] in S.
    - destruct S as (S1 & S2 & S3 & S4). apply keep2_alloc; assumption.
    - destruct S as (S1 & S2 & _). apply keep2_free; assumption.
    - apply (obs_wli _ _ X). apply obs_look; try assumption. apply Hb. }
  destruct (cinv_steps hs (Inv2 i X cu n b) hcall Z cd s0 t0 Hw _ _ H [] s0 (cinv_init _ _ _ _ _ _ _ I0)) as (l & s & Ic). cbn [app] in Ic.
  pose proof (cinv_accounts _ _ _ _ _ _ _ _ _ _ Ic) as Ac. destruct Ac as [Hser Hord Hans _ _].
  assert (Hsem : forall s1 j x, Inv2 i X cu n b s1 -> In x (t0 j) -> exists s2 r, sm x s1 = Ok (s2, r) /\ Inv2 i X cu n b s2 /\ forall m, x = HLook m -> r = X).
  { intros s1 j x H1 Hx. pose proof (Hst j x Hx) as S.
    assert (E : exists s2 r, sm x s1 = Ok (s2, r) /\ forall m, x = HLook m -> r = X).
    { destruct H1 as [_ (u1 & w1 & J & J2 & J3)]. unfold sem. destruct x as [p req cu'|p|m]; cbn [stays] in S.
      - destruct S as (S1 & S2 & _). assert (R : ready abegin i s1) by (apply ready_is; eauto).
        destruct (alloc_run dbg abegin junk i s1 p req cu' R S1 S2) as (s2 & E & _). exists s2, 0. split; [exact E|discriminate].
      - destruct S as (S1 & S2 & S3).
        destruct (free_run_in dbg abegin junk i s1 n b u1 w1 p J S1) as (s2 & E & _).
        { destruct S1 as [S1 _]. rewrite Z.div_div by (rewrite ?MA, ?NB; lia). rewrite MA, NB. unfold inside. rewrite SP in S3.
          assert (0 <= (p - base) / (16 * 64)) by (apply Z.div_pos; lia). assert ((p - base) / (16 * 64) < n) by (apply Z.div_lt_upper_bound; lia). lia. }
        exists s2, 0. split; [exact E|discriminate].
      - exists s1, X. split; [|reflexivity]. apply (obs_run (Inv2 i X cu n b)); [apply obs_look; try assumption; apply Hb|].
        split; [apply Hb|]. exists u1, w1. auto. }
    destruct E as (s2 & r & E & F). exists s2, r. split; [exact E|]. split; [|exact F].
    apply (wli_inv _ (cd x) 0 s1 s2 r); [apply (Hw j); exact Hx|exact H1|exact E]. }
  assert (Hpre : forall l s, serial sm s0 l s -> (forall j, exists r, t0 j = calls j l ++ r) ->
      Inv2 i X cu n b s /\ forall e m, In e l -> snd (fst e) = HLook m -> snd e = X).
  { intros l0 s1 Hs1. induction Hs1 as [|l1 s1 j x r s2 Hs1 IH E]; intro Hp.
    - split; [exact I0|]. intros e m [].
    - destruct (prefix_snoc t0 l1 j x r Hp) as [Hp' [rest Hr]]. destruct (IH Hp') as [I1 G1].
      assert (Hx : In x (t0 j)) by (rewrite Hr; apply in_or_app; right; left; reflexivity).
      destruct (Hsem s1 j x I1 Hx) as (s3 & r3 & E3 & I3 & F3). rewrite E in E3. injection E3; intros -> ->. split; [exact I3|].
      intros e m He Hm. apply in_app_or in He. destruct He as [He|[<-|[]]]; [exact (G1 e m He Hm)|]. exact (F3 m Hm). }
  destruct (Hpre l s Hser Hord) as [Is G]. split.
  - intros j r Hr. destruct r as [c'| | |]; [eauto| | |]; exfalso;
      destruct (cinv_fail _ _ _ _ _ _ _ _ _ _ _ _ Ic Hr) as (x & rest & E1 & E2); try discriminate;
      destruct (Hsem s j x Is) as (s' & r' & E' & _); try exact (E2 _ _ E'); rewrite E1; apply in_or_app; right; left; reflexivity.
  - intros j k m r Hc Hr. destruct (Hans j) as (more & Ea & _). destruct (Hord j) as [rest Eo].
    assert (Hr' : nth_error (answers j l) k = Some r).
    { rewrite Ea, nth_error_app1; [exact Hr|]. apply nth_error_Some. congruence. }
    unfold answers in Hr'. rewrite nth_error_map in Hr'. destruct (nth_error (mine j l) k) as [e|] eqn:Ee; [|discriminate].
    assert (Hc' : nth_error (calls j l) k = Some (HLook m)).
    { rewrite Eo, nth_error_app1 in Hc; [exact Hc|]. unfold calls. rewrite map_length. apply nth_error_Some. congruence. }
    unfold calls in Hc'. rewrite nth_error_map, Ee in Hc'. cbn in Hr', Hc'. injection Hr'; intros <-. injection Hc'; intros Hm.
    apply (G e m); [|exact Hm]. apply nth_error_In in Ee. unfold mine in Ee. apply filter_In in Ee. exact (proj1 Ee).
Qed.

(* The first allocation in an arena, made while no other thread uses it, leaves the arena
   ready for any number of threads. *)
Theorem hconc_first : forall s p req cu, h_priv s = 0%nat -> (0 < h_nexti s)%nat -> (0 < h_nextb s)%nat -> h_buf s 0 = None ->
  chunk_at abegin p -> 0 < req ->
  exists i s', sm (HAlloc p req cu) s = Ok (s', 0) /\ ready abegin i s' /\
    forall q, chunk_at abegin q -> marked abegin i s' q = (q =? p).
Proof.
  intros s p req cu Hpr Hi Hb Hb0 Hp Hq. set (i := h_nexti s).
  assert (Hi0 : Nat.eqb i 0 = false) by (unfold i; destruct (h_nexti s); [lia|reflexivity]).
  assert (Eq : exists s2, run (cd (HAlloc p req cu)) s = run (cd (HAlloc p req cu)) s2 /\ ready abegin i s2 /\ forall q, marked abegin i s2 q = false).
  { cbn [hcode]. rewrite (run_bind _ (p_ensure dbg abegin)).
    set (s2 := upd_inf (upd_inf (upd_inf (upd_inf (mkH true i (fun j => if Nat.eqb j i then inf0 else h_inf s j) (h_buf s) (S i) (h_nextb s)) i
       (fun f => mkI (f_base f) (Some 0) (f_bm f) (f_bu f))) i (fun f => mkI (f_base f) (f_nw f) (Some 0%nat) (f_bu f))) i
       (fun f => mkI (f_base f) (f_nw f) (f_bm f) (Some 0))) i (fun f => mkI (Some base) (f_nw f) (f_bm f) (f_bu f))).
    assert (I2 : h_inf s2 i = mkI (Some base) (Some 0) (Some 0%nat) (Some 0)) by (cbn; rewrite Nat.eqb_refl; reflexivity).
    assert (J2 : is_ abegin i s2 0 0 0 junk).
    { constructor; auto; [apply Nat.eqb_neq; exact Hi0|reflexivity]. }
    assert (E2 : run (p_ensure dbg abegin) s = Ok (s2, i)).
    { unfold p_ensure, p_arena, p_ensure_info. cbn [bindp rd run bind]. destruct (h_sub s) eqn:Es; cbn [bindp rd run bind].
      - rewrite Hpr. cbn [Nat.eqb]. cbn. unfold s2. rewrite <- Es. reflexivity.
      - rewrite Es. cbn [negb]. unfold chk, asrt. rewrite andb_false_r. cbn. rewrite Hpr. cbn. fold i. rewrite Hi0. cbn. reflexivity. }
    exists s2. rewrite E2. cbn [bind]. split; [|split].
    - symmetry. apply (run_ensure dbg abegin s2 i 0 0 0 junk (fun i => pdo _ <- p_insert dbg abegin junk i p req cu; Ret 0) J2).
    - apply ready_is. eauto.
    - intro q. rewrite (marked_is _ _ _ _ _ _ _ _ J2). unfold mk, inside. lia. }
  destruct Eq as (s2 & Eq & R2 & M2). destruct (alloc_run dbg abegin junk i s2 p req cu R2 Hp Hq) as (s3 & E3 & R3 & M3).
  exists i, s3. unfold sem. rewrite Eq. split; [exact E3|]. split; [exact R3|]. intros q Hc. rewrite (M3 q Hc), M2. apply orb_false_r.
Qed.
End Props.

Module HcEx.
Definition B : Z := 1048576.
Definition j5 : Z -> Z := fun _ => 5.
Definition two (a b : list hcall) : nat -> list hcall := fun i => match i with O => a | 1%nat => b | _ => [] end.
Definition at_ (dbg : bool) (s : hs) (a b : list hcall) (l : list nat) : config hs hcall Z :=
  match exec (hcode dbg B j5) l (start_c s (two a b)) with Some c => c | None => start_c s (two a b) end.
Definition okc (dbg : bool) (s : hs) (a b : list hcall) (l : list nat) : bool :=
  match exec (hcode dbg B j5) l (start_c s (two a b)) with Some _ => true | None => false end.
Lemma at_steps dbg s a b l : okc dbg s a b l = true -> steps (hcode dbg B j5) (start_c s (two a b)) (at_ dbg s a b l).
Proof.
  unfold okc, at_. destruct (exec (hcode dbg B j5) l (start_c s (two a b))) as [c|] eqn:E; [|discriminate]. intros _. exact (exec_steps _ _ _ _ _ _ _ E).
Qed.
Definition idle2 (c : config hs hcall Z) : bool :=
  match cur c 0%nat, cur c 1%nat, todo c 0%nat, todo c 1%nat with None, None, [], [] => true | _, _, _, _ => false end.
(* no info yet; an info and an empty index; two chunks in it *)
Definition s00 : hs := mkH false 0 (fun _ => inf0) (fun _ => None) 1 1.
Definition s01 : hs := mkH true 1 (fun j => if Nat.eqb j 1 then mkI (Some B) (Some 0) (Some 0%nat) (Some 0) else inf0) (fun _ => None) 2 1.
Definition s02 : hs := mkH true 1 (fun j => if Nat.eqb j 1 then mkI (Some B) (Some 2) (Some 1%nat) (Some 200) else inf0)
  (fun j => if Nat.eqb j 1 then Some (2, fun k => if k =? 0 then 2 ^ 2 + 2 ^ 60 else if k =? 1 then 2 ^ 9 else 0) else None) 2 2.
Lemma ready01 : ready B 1 s01. Proof. exists 0, 0%nat, 0, j5. repeat split; auto; try discriminate; cbn; lia. Qed.
Lemma ready02 : ready B 1 s02.
Proof. eexists _, _, _, _. repeat split; cbn; try reflexivity; try discriminate; try lia. right. split; [discriminate|reflexivity]. Qed.
Ltac at16 := split; [apply Z.leb_le; vm_compute; reflexivity|vm_compute; reflexivity].

Definition ta : list hcall := [HAlloc (B + 32) 100 112; HFree (B + 32)].
Definition tb : list hcall := [HAlloc (B + 4096) 64 80; HAlloc (B + 16) 8 16].
Lemma live_stays p : forall (l : list (nat * hcall * Z)) L, L p = true -> (forall e, In e l -> snd (fst e) <> HFree p) -> live_after L l p = true.
Proof.
  induction l as [|[[j x] r] l IH]; intros L HL Hf; [exact HL|]. cbn. apply IH; [|intros e He; apply Hf; right; exact He].
  destruct x as [q ? ?|q|q]; cbn; [rewrite HL; apply orb_true_r| |exact HL]. rewrite HL, andb_true_r.
  destruct (Z.eqb_spec p q) as [->|]; [|reflexivity]. edestruct (Hf (j, HFree q, r)); [left; reflexivity|reflexivity].
Qed.
Lemma live_made p : forall (l : list (nat * hcall * Z)) L, (exists e a b, In e l /\ snd (fst e) = HAlloc p a b) ->
  (forall e, In e l -> snd (fst e) <> HFree p) -> live_after L l p = true.
Proof.
  induction l as [|f l IH]; intros L (e & a & b & He & E) Hf; [contradiction|]. cbn. destruct He as [<-|He].
  - apply live_stays; [rewrite E; cbn; rewrite Z.eqb_refl; reflexivity|]. intros g Hg. apply Hf. right; exact Hg.
  - apply IH; eauto. intros g Hg. apply Hf. right; exact Hg.
Qed.
Lemma in_calls (l : list (nat * hcall * Z)) x : (exists e, In e l /\ snd (fst e) = x) <-> exists j, In x (calls j l).
Proof.
  split.
  - intros (e & He & E). exists (fst (fst e)). unfold calls, mine. apply in_map_iff. exists e. split; [exact E|]. apply filter_In. split; [exact He|apply Nat.eqb_refl].
  - intros (j & H). unfold calls, mine in H. apply in_map_iff in H. destruct H as (e & E & He). apply filter_In in He. exists e. tauto.
Qed.
Lemma ex_honest : honest B (fun _ => false) (two ta tb).
Proof.
  intros l i x rest Hp Hx. destruct i as [|[|i]].
  - destruct (calls 0 l) as [|y [|z q]] eqn:E0; cbn [two ta app] in Hx.
    + injection Hx; intros _ <-. split; [at16|lia].
    + injection Hx; intros _ <- <-. split; [at16|]. apply live_made.
      * assert (H : exists j, In (HAlloc (B + 32) 100 112) (calls j l)) by (exists 0%nat; rewrite E0; left; reflexivity).
        apply in_calls in H. destruct H as (e & He & E). eauto.
      * intros e He E. assert (H : exists j, In (HFree (B + 32)) (calls j l)) by (apply in_calls; eauto). destruct H as [j H].
        destruct j as [|[|j]]; [rewrite E0 in H; destruct H as [H|[]]; discriminate| |].
        -- destruct (Hp 1%nat) as [r Er]. assert (G : In (HFree (B + 32)) tb) by (change tb with (two ta tb 1); rewrite Er; apply in_or_app; auto).
           destruct G as [G|[G|[]]]; discriminate.
        -- destruct (Hp (S (S j))) as [r Er]. cbn [two] in Er. destruct (calls (S (S j)) l); [contradiction|discriminate].
    + exfalso. injection Hx; intros Hx1 _ _. destruct q; discriminate.
  - assert (G : In x tb) by (change tb with (two ta tb 1); rewrite Hx; apply in_or_app; right; left; reflexivity).
    destruct G as [<-|[<-|[]]]; (split; [at16|lia]).
  - cbn [two] in Hx. destruct (calls (S (S i)) l); discriminate.
Qed.
Definition r0 : nat -> list nat := repeat 0%nat.
Definition r1 : nat -> list nat := repeat 1%nat.
Definition mid : config hs hcall Z := at_ true s01 ta tb (r1 4 ++ r0 12).
Definition fin_ : config hs hcall Z := at_ true s01 ta tb (r1 4 ++ r0 38 ++ r1 41).
Definition lk : list hcall := [HLook (B + 32); HLook (B + 95)].
Definition lo : list hcall := [HFree (B + 960); HAlloc (B + 1904) 100 112; HAlloc (B + 96) 500 512; HFree (B + 1168)].
Definition lm : config hs hcall Z := at_ false s02 lk lo (r0 6 ++ r1 30 ++ r0 12 ++ r1 10).
End HcEx.

Example hconc_index_ex : exists s0 t0 L c1 c2, ready HcEx.B 1 s0 /\ (forall q, chunk_at HcEx.B q -> marked HcEx.B 1 s0 q = L q) /\
  honest HcEx.B L t0 /\ steps (hcode true HcEx.B HcEx.j5) (start_c s0 t0) c1 /\ own c1 <> None /\
  HcEx.idle2 c2 = true /\ steps (hcode true HcEx.B HcEx.j5) (start_c s0 t0) c2 /\
  marked HcEx.B 1 (sh c2) (HcEx.B + 32) = false /\ marked HcEx.B 1 (sh c2) (HcEx.B + 4096) = true /\ marked HcEx.B 1 (sh c2) (HcEx.B + 16) = true.
Proof.
  exists HcEx.s01, (HcEx.two HcEx.ta HcEx.tb), (fun _ => false), HcEx.mid, HcEx.fin_.
  split; [exact HcEx.ready01|]. split; [intros q _; reflexivity|]. split; [exact HcEx.ex_honest|].
  split; [apply HcEx.at_steps; vm_compute; reflexivity|]. split; [vm_compute; discriminate|]. split; [vm_compute; reflexivity|].
  split; [apply HcEx.at_steps; vm_compute; reflexivity|]. vm_compute. auto.
Qed.
Example hconc_lookup_ex : exists s0 t0 c, settled HcEx.B 1 (HcEx.B + 32) 64 2 s0 /\
  (forall j x, In x (t0 j) -> stays HcEx.B (HcEx.B + 32) 64 2 x) /\ steps (hcode false HcEx.B HcEx.j5) (start_c s0 t0) c /\
  done_ c 0 = [HcEx.B + 32; HcEx.B + 32] /\ done_ c 1 = [0; 0].
Proof.
  exists HcEx.s02, (HcEx.two HcEx.lk HcEx.lo), HcEx.lm. split; [constructor|].
  - exact HcEx.ready02.
  - reflexivity.
  - exists 200. split; [reflexivity|lia].
  - HcEx.at16.
  - lia.
  - apply Z.leb_le; vm_compute; reflexivity.
  - apply Z.leb_le; vm_compute; reflexivity.
  - vm_compute; reflexivity.
  - intros q [Q1 Q2] Q3. change (abase HcEx.B) with HcEx.B in Q1. unfold HcEx.B, MALLOC_ALIGN in *.
    assert (E : q = 1048576 + 48 \/ q = 1048576 + 64 \/ q = 1048576 + 80) by (clear - Q2 Q3; Z.div_mod_to_equations; lia).
    destruct E as [-> | [-> | ->]]; vm_compute; reflexivity.
  - split; [|split; [apply HcEx.at_steps; vm_compute; reflexivity|vm_compute; auto]].
    intros j x Hx. destruct j as [|[|j]]; [| |contradiction].
    + destruct Hx as [<-|[<-|[]]]; cbn [stays]; unfold HcEx.B; lia.
    + destruct Hx as [<-|[<-|[<-|[<-|[]]]]]; cbn [stays]; change (abase HcEx.B) with HcEx.B; unfold SPAN; repeat split;
        try (vm_compute; reflexivity); try (apply Z.leb_le; vm_compute; reflexivity); try discriminate; try (right; apply Z.leb_le; vm_compute; reflexivity).
Qed.
Example hconc_first_ex : h_priv HcEx.s00 = 0%nat /\ (0 < h_nexti HcEx.s00)%nat /\ (0 < h_nextb HcEx.s00)%nat /\ h_buf HcEx.s00 0 = None /\
  chunk_at HcEx.B (HcEx.B + 32) /\ 0 < 100.
Proof. repeat split; try (vm_compute; reflexivity); try (cbn; lia); try (apply Z.leb_le; vm_compute; reflexivity). Qed.

Print Assumptions hconc_index_partial.
Print Assumptions hconc_lookup_partial.
Print Assumptions hconc_first.
