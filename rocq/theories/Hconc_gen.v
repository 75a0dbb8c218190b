(* Calls which read stable facts outside the lock and change memory inside it only are
   atomic, for every interleaving.  Generalises Conc_proof to reads outside the lock. *)
From Verif Require Import Base Conc_model Conc_spec Conc_proof.

Section Gen.
Variable S_ : Type.
(* what holds of shared memory at all times *)
Variable Inv : S_ -> Prop.

(* [wli d p]: at depth d of the lock.  Outside it p only reads, and what it goes on to do
   is the same for any value that could be read.  Inside, each access keeps [Inv].  Having
   left the lock it only returns. *)
Fixpoint wli {R} (d : nat) (p : prog S_ R) : Prop :=
  match p with
  | Ret _ => d = 0%nat
  | Lock k => wli (S d) k
  | Unlock k => match d with O => False | S O => exists r, k = Ret r | S d' => wli d' k end
  | Act f k => match d with
      | O => forall s, Inv s -> exists a, f s = Ok (s, a) /\ wli 0 (k a) /\ forall u, Inv u -> run (k a) u = run (Act f k) u
      | S _ => forall s s' a, Inv s -> f s = Ok (s', a) -> Inv s' /\ wli d (k a)
      end
  end.

Variables (C R : Type) (code : C -> prog S_ R).
Notation config := (config S_ C R).
Definition sem x s := run (code x) s.
Variables (s0 : S_) (t0 : nat -> list C).
Hypothesis Hi0 : Inv s0.
Hypothesis Hwl : forall i x, In x (t0 i) -> wli 0 (code x).

Inductive tinv (c : config) (l : list (nat * C * R)) (s : S_) (i : nat) : Prop :=
| ti_idle : cur c i = None -> owns S_ C R c i = false -> t0 i = calls i l ++ todo c i -> answers i l = done_ c i -> tinv c l s i
| ti_ret r : cur c i = Some (Ret r) -> owns S_ C R c i = false -> t0 i = calls i l ++ todo c i -> answers i l = done_ c i ++ [r] -> tinv c l s i
| ti_out x p : cur c i = Some p -> owns S_ C R c i = false -> t0 i = calls i l ++ x :: todo c i -> answers i l = done_ c i ->
    wli 0 p -> (forall u, Inv u -> run p u = sem x u) -> tinv c l s i
| ti_in x p d : cur c i = Some p -> own c = Some (i, S d) -> t0 i = calls i l ++ x :: todo c i -> answers i l = done_ c i ->
    wli (S d) p -> run p (sh c) = sem x s -> tinv c l s i.

Record cinv (c : config) (l : list (nat * C * R)) (s : S_) : Prop := {
  ci_ser : serial sem s0 l s;
  ci_free : own c = None -> sh c = s;
  ci_inv : Inv s;
  ci_sh : Inv (sh c);
  ci_thr : forall i, tinv c l s i }.

Lemma cinv_init : cinv (start_c s0 t0) [] s0.
Proof. constructor; [constructor|reflexivity|exact Hi0|exact Hi0|]. intro i. apply ti_idle; reflexivity. Qed.

Lemma tinv_other c c' l s i j :
  tinv c l s j -> j <> i ->
  cur c' j = cur c j -> todo c' j = todo c j -> done_ c' j = done_ c j ->
  owns S_ C R c' j = owns S_ C R c j ->
  (forall d, own c = Some (j, S d) -> own c' = own c /\ sh c' = sh c) ->
  tinv c' l s j.
Proof.
  intros H Hne Ec Et Ed Eo Hin. destruct H as [A B D E|r A B D E|x p A B D E W G|x p d A B D E W G].
  - apply ti_idle; congruence.
  - apply (ti_ret _ _ _ _ r); congruence.
  - apply (ti_out _ _ _ _ x p); try congruence; auto.
  - destruct (Hin d B) as [F1 F2]. apply (ti_in _ _ _ _ x p d); try congruence.
Qed.
Lemma tinv_commit c l s s' i x r j : j <> i -> owns S_ C R c j = false -> tinv c l s j -> tinv c (l ++ [(i, x, r)]) s' j.
Proof.
  intros Hne Ho H. assert (En : Nat.eqb i j = false) by (apply Nat.eqb_neq; congruence).
  destruct H as [A B D E|q A B D E|y p A B D E W G|y p d A B D E W G].
  - apply ti_idle; auto; rewrite ?calls_snoc, ?answers_snoc, En, app_nil_r; auto.
  - apply (ti_ret _ _ _ _ q); auto; rewrite ?calls_snoc, ?answers_snoc, En, app_nil_r; auto.
  - apply (ti_out _ _ _ _ y p); auto; rewrite ?calls_snoc, ?answers_snoc, En, app_nil_r; auto.
  - unfold owns in Ho. rewrite B, Nat.eqb_refl in Ho. discriminate.
Qed.
Lemma excl (c : config) i j d : own c = Some (i, d) -> j <> i -> owns S_ C R c j = false.
Proof. intros H Hne. unfold owns. rewrite H. apply Nat.eqb_neq. exact Hne. Qed.

Lemma cinv_step c l s i c' : cinv c l s -> tstep code i c = Some (Ok c') ->
  exists l' s', cinv c' (l ++ l') s'.
Proof.
  intros [Hs Hf HI HSh Ht] Hstep. unfold tstep in Hstep. pose proof (Ht i) as Hi.
  assert (Oth : forall c1 l1 s1,
    (forall j, j <> i -> tinv c l s j -> tinv c1 l1 s1 j) -> tinv c1 l1 s1 i -> forall j, tinv c1 l1 s1 j).
  { intros c1 l1 s1 H1 H2 j. destruct (Nat.eq_dec j i) as [->|E]; [exact H2|apply H1; auto]. }
  destruct (cur c i) as [p|] eqn:Ec.
  2:{ (* a new call *)
    destruct (todo c i) as [|x r] eqn:Et; [discriminate|]. injection Hstep; intros <-; clear Hstep.
    exists [], s. rewrite app_nil_r. constructor; cbn [own sh]; auto.
    apply Oth.
    - intros j Hne Hj. apply (tinv_other c _ l s i j Hj Hne); cbn [cur todo done_ own sh]; rewrite ?set_other by auto; auto.
    - destruct Hi as [A B D E|r0 A B D E|y p A B D E W G|y p d A B D E W G]; try congruence.
      assert (Hx : In x (t0 i)) by (rewrite D, Et; apply in_or_app; right; left; reflexivity).
      apply (ti_out _ _ _ _ x (code x)); cbn [cur todo done_ own sh]; rewrite ?set_same; auto; try congruence.
      apply (Hwl i). exact Hx. }
  destruct p as [r|k|k|X f k].
  - (* return *)
    injection Hstep; intros <-; clear Hstep.
    destruct Hi as [A B D E|r0 A B D E|y p A B D E W G|y p d A B D E W G]; try congruence.
    + rewrite Ec in A. injection A; intros <-.
      exists [], s. rewrite app_nil_r. constructor; cbn [own sh]; auto.
      apply Oth.
      * intros j Hne Hj. apply (tinv_other c _ l s i j Hj Hne); cbn [cur todo done_ own sh]; rewrite ?set_other by auto; auto.
      * apply ti_idle; cbn [cur todo done_ own sh]; rewrite ?set_same; auto.
    + (* a call which never needed the lock *)
      rewrite Ec in A. injection A; intros <-. pose proof (G s HI) as Gs. cbn in Gs.
      exists [(i, y, r)], s. constructor; cbn [own sh]; auto.
      * econstructor; eauto.
      * apply Oth.
        -- intros j Hne Hj.
           assert (En : Nat.eqb i j = false) by (apply Nat.eqb_neq; congruence).
           assert (Hj' : tinv (mkC (sh c) (own c) (todo c) (set (cur c) i None) (set (done_ c) i (done_ c i ++ [r]))) l s j).
           { apply (tinv_other c _ l s i j Hj Hne); cbn [cur todo done_ own sh]; rewrite ?set_other by auto; auto. }
           destruct Hj' as [A1 B1 D1 E1|q A1 B1 D1 E1|z p1 A1 B1 D1 E1 W1 G1|z p1 d A1 B1 D1 E1 W1 G1].
           ++ apply ti_idle; auto; rewrite ?calls_snoc, ?answers_snoc, En, app_nil_r; auto.
           ++ apply (ti_ret _ _ _ _ q); auto; rewrite ?calls_snoc, ?answers_snoc, En, app_nil_r; auto.
           ++ apply (ti_out _ _ _ _ z p1); auto; rewrite ?calls_snoc, ?answers_snoc, En, app_nil_r; auto.
           ++ apply (ti_in _ _ _ _ z p1 d); auto; rewrite ?calls_snoc, ?answers_snoc, En, app_nil_r; auto.
        -- apply ti_idle; cbn [cur todo done_ own sh]; rewrite ?set_same, ?calls_snoc, ?answers_snoc, ?Nat.eqb_refl; auto.
           ++ rewrite <- app_assoc. exact D.
           ++ rewrite E. reflexivity.
    + rewrite Ec in A. injection A; intros <-. cbn in W. discriminate.
  - (* lock *)
    destruct (own c) as [[j d]|] eqn:Eo.
    + destruct (Nat.eqb_spec i j) as [<-|E]; [|discriminate]. injection Hstep; intros <-; clear Hstep.
      destruct Hi as [A B D E|r0 A B D E|y p A B D E W G|y p d0 A B D E W G]; try congruence.
      * unfold owns in B. rewrite Eo, Nat.eqb_refl in B. discriminate.
      * rewrite Eo in B. injection B; intros ->. rewrite Ec in A. injection A; intros <-.
        exists [], s. rewrite app_nil_r. constructor; cbn [own sh]; auto; try discriminate.
        apply Oth.
        -- intros j Hne Hj. pose proof (excl c i j _ Eo Hne) as Hx.
           apply (tinv_other c _ l s i j Hj Hne); cbn [cur todo done_ own sh]; rewrite ?set_other by auto; auto.
           ++ rewrite Hx. unfold owns; cbn [own]. apply Nat.eqb_neq; exact Hne.
           ++ intros d1 F. congruence.
        -- apply (ti_in _ _ _ _ y k (S d0)); cbn [cur todo done_ own sh]; rewrite ?set_same; auto.
    + injection Hstep; intros <-; clear Hstep.
      destruct Hi as [A B D E|r0 A B D E|y p A B D E W G|y p d0 A B D E W G]; try congruence.
      rewrite Ec in A. injection A; intros <-.
      exists [], s. rewrite app_nil_r. constructor; cbn [own sh]; auto; try discriminate.
      apply Oth.
      * intros j Hne Hj. apply (tinv_other c _ l s i j Hj Hne); cbn [cur todo done_ own sh]; rewrite ?set_other by auto; auto.
        -- unfold owns; cbn [own]. rewrite Eo. apply Nat.eqb_neq; exact Hne.
        -- intros d1 F. congruence.
      * apply (ti_in _ _ _ _ y k 0%nat); cbn [cur todo done_ own sh]; rewrite ?set_same; auto.
        rewrite (Hf eq_refl). apply (G s HI).
  - (* unlock *)
    destruct (own c) as [[j [|d]]|] eqn:Eo; try discriminate.
    destruct (Nat.eqb_spec i j) as [<-|E]; [|discriminate]. injection Hstep; intros <-; clear Hstep.
    destruct Hi as [A B D E|r0 A B D E|y p A B D E W G|y p d0 A B D E W G]; try congruence.
    + unfold owns in B. rewrite Eo, Nat.eqb_refl in B. discriminate.
    + rewrite Eo in B. injection B; intros <-. rewrite Ec in A. injection A; intros <-. cbn [wli] in W. cbn [run] in G.
      destruct d as [|d].
      * destruct W as [r ->]. cbn in G. symmetry in G.
        exists [(i, y, r)], (sh c). constructor; cbn [own sh]; auto.
        -- econstructor; eauto.
        -- apply Oth.
           ++ intros j Hne Hj. apply tinv_commit with (s := s); auto.
              apply (tinv_other c _ l s i j Hj Hne); cbn [cur todo done_ own sh]; rewrite ?set_other by auto; auto.
              ** symmetry. apply (excl c i j _ Eo Hne).
              ** intros d1 F. congruence.
           ++ apply (ti_ret _ _ _ _ r); cbn [cur todo done_ own sh]; rewrite ?set_same, ?calls_snoc, ?answers_snoc, ?Nat.eqb_refl; auto.
              ** rewrite <- app_assoc. exact D.
              ** rewrite E. reflexivity.
      * exists [], s. rewrite app_nil_r. constructor; cbn [own sh]; auto; try discriminate.
        apply Oth.
        -- intros j Hne Hj. pose proof (excl c i j _ Eo Hne) as Hx.
           apply (tinv_other c _ l s i j Hj Hne); cbn [cur todo done_ own sh]; rewrite ?set_other by auto; auto.
           ++ rewrite Hx. unfold owns; cbn [own]. apply Nat.eqb_neq; exact Hne.
           ++ intros d1 F. congruence.
        -- apply (ti_in _ _ _ _ y k d); cbn [cur todo done_ own sh]; rewrite ?set_same; auto.
  - (* an access *)
    destruct Hi as [A B D E|r0 A B D E|y p A B D E W G|y p d0 A B D E W G]; try congruence;
      rewrite Ec in A; injection A; intros <-; cbn [wli] in W.
    + destruct (W (sh c) HSh) as (a & Ef & Wk & Gk). rewrite Ef in Hstep. cbn in Hstep. injection Hstep; intros <-; clear Hstep.
      exists [], s. rewrite app_nil_r. constructor; cbn [own sh]; auto.
      apply Oth.
      * intros j Hne Hj. apply (tinv_other c _ l s i j Hj Hne); cbn [cur todo done_ own sh]; rewrite ?set_other by auto; auto.
      * apply (ti_out _ _ _ _ y (k a)); cbn [cur todo done_ own sh]; rewrite ?set_same; auto.
        intros u Hu. rewrite (Gk u Hu). apply G. exact Hu.
    + cbn [run] in G.
      destruct (f (sh c)) as [[s1 x]| | |] eqn:Ef; cbn in Hstep; try discriminate.
      injection Hstep; intros <-; clear Hstep. cbn in G. destruct (W (sh c) s1 x HSh Ef) as [HI1 W1].
      exists [], s. rewrite app_nil_r. constructor; cbn [own sh]; auto; try congruence.
      apply Oth.
      * intros j Hne Hj. pose proof (excl c i j _ B Hne) as Hx.
        apply (tinv_other c _ l s i j Hj Hne); cbn [cur todo done_ own sh]; rewrite ?set_other by auto; auto.
        intros d1 F. congruence.
      * apply (ti_in _ _ _ _ y (k x) d0); cbn [cur todo done_ own sh]; rewrite ?set_same; auto.
Qed.

Lemma cinv_steps c c' : steps code c c' -> forall l s, cinv c l s -> exists l' s', cinv c' (l ++ l') s'.
Proof.
  induction 1 as [c|c c1 i c2 H IH E]; intros l s Hi.
  - exists [], s. rewrite app_nil_r. exact Hi.
  - destruct (IH _ _ Hi) as (l1 & s1 & H1). destruct (cinv_step _ _ _ _ _ H1 E) as (l2 & s2 & H2).
    exists (l1 ++ l2), s2. rewrite app_assoc. exact H2.
Qed.

Lemma cinv_accounts c l s : cinv c l s -> accounts sem s0 t0 c l s.
Proof.
  clear Hi0 Hwl. intros [Hs Hf HI HSh Ht]. constructor; auto.
  - intro i. destruct (Ht i) as [A B D E|r A B D E|x p A B D E W G|x p d A B D E W G]; eauto.
  - intro i. destruct (Ht i) as [A B D E|r A B D E|x p A B D E W G|x p d A B D E W G].
    + exists []. rewrite app_nil_r. auto.
    + exists [r]. split; auto. split; [cbn; lia|congruence].
    + exists []. rewrite app_nil_r. split; auto.
    + exists []. rewrite app_nil_r. split; auto.
  - intros i H1 H2. destruct (Ht i) as [A B D E|r A B D E|x p A B D E W G|x p d A B D E W G]; try congruence.
    rewrite H2, app_nil_r in D. auto.
Qed.
Lemma cinv_fail c l s i r : cinv c l s -> tstep code i c = Some r -> (forall c', r <> Ok c') ->
  exists x rest, t0 i = calls i l ++ x :: rest /\ forall s' a, sem x s <> Ok (s', a).
Proof.
  clear Hi0 Hwl. intros [Hs Hf HI HSh Ht] Hstep Hn. unfold tstep in Hstep.
  destruct (cur c i) as [p|] eqn:Ec; [|destruct (todo c i); [discriminate|]; injection Hstep; intros <-; edestruct Hn; reflexivity].
  destruct (Ht i) as [A B D E|q A B D E|x p0 A B D E W G|x p0 d0 A B D E W G]; try congruence; rewrite Ec in A; injection A; intros Ep.
  - rewrite Ep in Hstep. injection Hstep; intros <-; edestruct Hn; reflexivity.
  - subst p0. destruct p as [q|k|k|X f k]; cbn [wli] in W; try tauto.
    + injection Hstep; intros <-; edestruct Hn; reflexivity.
    + destruct (own c) as [[j d]|].
      * destruct (Nat.eqb i j); [|discriminate]. injection Hstep; intros <-; edestruct Hn; reflexivity.
      * injection Hstep; intros <-; edestruct Hn; reflexivity.
    + destruct (W (sh c) HSh) as (a & Ef & _). rewrite Ef in Hstep. cbn in Hstep. injection Hstep; intros <-. edestruct Hn; reflexivity.
  - subst p0. destruct p as [q|k|k|X f k]; rewrite ?B, ?Nat.eqb_refl in Hstep;
      try (injection Hstep; intros <-; edestruct Hn; reflexivity).
    exists x, (todo c i). split; auto. rewrite <- G. cbn [run].
    injection Hstep; intros <-.
    destruct (f (sh c)) as [[s1 y]| | |]; cbn; intros s' a; try discriminate. edestruct Hn; reflexivity.
Qed.
End Gen.
