(* Calls made wholly under the lock are atomic, for every interleaving. *)
From Verif Require Import Base Big_model Big_hist Big_spec Conc_model Conc_spec.

Section Gen.
Variable S_ : Type.

Lemma run_bind {A B} (p : prog S_ A) (k : A -> prog S_ B) s :
  run (bindp p k) s = do '(s', a) <- run p s ; run (k a) s'.
Proof.
  revert s. induction p as [a|q IH|q IH|X f q IH]; intro s; cbn; auto.
  destruct (f s) as [[s' x]| | |]; cbn; auto.
Qed.
Lemma run_locked {A} (p : prog S_ A) s : run (locked p) s = run p s.
Proof. unfold locked; cbn. rewrite run_bind. destruct (run p s) as [[s' a]| | |]; reflexivity. Qed.

(* [wl d p]: at depth d of the lock, p touches shared memory only inside it, gives back all
   of it, and does nothing more once it has. *)
Fixpoint wl {R} (d : nat) (p : prog S_ R) : Prop :=
  match p with
  | Ret _ => d = 0%nat
  | Lock k => wl (S d) k
  | Unlock k => match d with O => False | S O => exists r, k = Ret r | S d' => wl d' k end
  | Act f k => d <> 0%nat /\ forall a, wl d (k a)
  end.
(* [bal d p]: p gives back what it took and d more *)
Fixpoint bal {R} (d : nat) (p : prog S_ R) : Prop :=
  match p with
  | Ret _ => d = 0%nat
  | Lock k => bal (S d) k
  | Unlock k => match d with O => False | S d' => bal d' k end
  | Act f k => forall a, bal d (k a)
  end.
Lemma bal_bind {A B} (p : prog S_ A) (k : A -> prog S_ B) d : bal d p -> (forall a, bal 0 (k a)) -> bal d (bindp p k).
Proof.
  revert d. induction p as [a|q IH|q IH|X f q IH]; cbn; intros d Hp Hk.
  - subst d. apply Hk.
  - apply IH; auto.
  - destruct d; [contradiction|]. apply IH; auto.
  - intro a. apply IH; auto.
Qed.
Lemma bal_wl {A} (p : prog S_ A) d : bal d p -> wl (S d) (bindp p (fun a => Unlock (Ret a))).
Proof.
  revert d. induction p as [a|q IH|q IH|X f q IH]; cbn; intros d Hp.
  - subst d. eauto.
  - apply (IH (S d)); auto.
  - destruct d; [contradiction|]. apply (IH d); auto.
  - split; [discriminate|]. intro a. apply IH. auto.
Qed.
Lemma wl_locked {A} (p : prog S_ A) : bal 0 p -> wl 0 (locked p).
Proof. intro H. unfold locked. cbn. apply bal_wl. exact H. Qed.
Lemma bal_locked {A} (p : prog S_ A) : bal 0 p -> bal 0 (locked p).
Proof.
  intro H. unfold locked. cbn.
  assert (G : forall d (q : prog S_ A), bal d q -> bal (S d) (bindp q (fun a => Unlock (Ret a)))).
  { intros d q. revert d. induction q as [a|q IH|q IH|X f q IH]; cbn; intros d Hq.
    - subst d. reflexivity.
    - apply (IH (S d)); auto.
    - destruct d; [contradiction|]. apply (IH d); auto.
    - intro a. apply IH; auto. }
  apply G. exact H.
Qed.

Variables (C R : Type) (code : C -> prog S_ R) (sem : C -> S_ -> res (S_ * R)).
Notation config := (config S_ C R).
Variables (s0 : S_) (t0 : nat -> list C).
Hypothesis Hsem : forall i x s, In x (t0 i) -> run (code x) s = sem x s.
Hypothesis Hwl : forall i x, In x (t0 i) -> wl 0 (code x).

Definition owns (c : config) (i : nat) : bool := match own c with Some (j, _) => Nat.eqb i j | None => false end.

Inductive tinv (c : config) (l : list (nat * C * R)) (s : S_) (i : nat) : Prop :=
| ti_idle : cur c i = None -> owns c i = false -> t0 i = calls i l ++ todo c i -> answers i l = done_ c i -> tinv c l s i
| ti_ret r : cur c i = Some (Ret r) -> owns c i = false -> t0 i = calls i l ++ todo c i -> answers i l = done_ c i ++ [r] -> tinv c l s i
| ti_out x p : cur c i = Some p -> owns c i = false -> t0 i = calls i l ++ x :: todo c i -> answers i l = done_ c i ->
    wl 0 p -> (forall u, run p u = sem x u) -> tinv c l s i
| ti_in x p d : cur c i = Some p -> own c = Some (i, S d) -> t0 i = calls i l ++ x :: todo c i -> answers i l = done_ c i ->
    wl (S d) p -> run p (sh c) = sem x s -> tinv c l s i.

Record cinv (c : config) (l : list (nat * C * R)) (s : S_) : Prop := {
  ci_ser : serial sem s0 l s;
  ci_free : own c = None -> sh c = s;
  ci_thr : forall i, tinv c l s i }.

Lemma mine_snoc i (l : list (nat * C * R)) j x r : mine i (l ++ [(j, x, r)]) = mine i l ++ (if Nat.eqb j i then [(j, x, r)] else []) :> list (nat * C * R).
Proof. unfold mine. rewrite filter_app. cbn. destruct (Nat.eqb j i); reflexivity. Qed.
Lemma calls_snoc i (l : list (nat * C * R)) j x r : calls i (l ++ [(j, x, r)]) = calls i l ++ (if Nat.eqb j i then [x] else []) :> list C.
Proof. unfold calls. rewrite mine_snoc, map_app. destruct (Nat.eqb j i); reflexivity. Qed.
Lemma answers_snoc i (l : list (nat * C * R)) j x r : answers i (l ++ [(j, x, r)]) = answers i l ++ (if Nat.eqb j i then [r] else []) :> list R.
Proof. unfold answers. rewrite mine_snoc, map_app. destruct (Nat.eqb j i); reflexivity. Qed.

Lemma set_same {X} (f : nat -> X) i x : set f i x i = x.
Proof. unfold set. rewrite Nat.eqb_refl. reflexivity. Qed.
Lemma set_other {X} (f : nat -> X) i x j : j <> i -> set f i x j = f j.
Proof. intro H. unfold set. destruct (Nat.eqb_spec j i); [contradiction|reflexivity]. Qed.

Lemma cinv_init : cinv (start_c s0 t0) [] s0.
Proof.
  constructor; [constructor|reflexivity|]. intro i. apply ti_idle; reflexivity.
Qed.

(* Threads other than the one which moved. *)
Lemma tinv_other c c' l s i j :
  tinv c l s j -> j <> i ->
  cur c' j = cur c j -> todo c' j = todo c j -> done_ c' j = done_ c j ->
  owns c' j = owns c j ->
  (forall d, own c = Some (j, S d) -> own c' = own c /\ sh c' = sh c) ->
  tinv c' l s j.
Proof.
  intros H Hne Ec Et Ed Eo Hin. destruct H as [A B D E|r A B D E|x p A B D E W G|x p d A B D E W G].
  - apply ti_idle; congruence.
  - apply (ti_ret _ _ _ _ r); congruence.
  - apply (ti_out _ _ _ _ x p); try congruence.
  - destruct (Hin d B) as [F1 F2]. apply (ti_in _ _ _ _ x p d); try congruence.
Qed.
Lemma tinv_commit c l s s' i x r j : j <> i -> owns c j = false -> tinv c l s j -> tinv c (l ++ [(i, x, r)]) s' j.
Proof.
  intros Hne Ho H. assert (En : Nat.eqb i j = false) by (apply Nat.eqb_neq; congruence).
  destruct H as [A B D E|q A B D E|y p A B D E W G|y p d A B D E W G].
  - apply ti_idle; auto; rewrite ?calls_snoc, ?answers_snoc, En, app_nil_r; auto.
  - apply (ti_ret _ _ _ _ q); auto; rewrite ?calls_snoc, ?answers_snoc, En, app_nil_r; auto.
  - apply (ti_out _ _ _ _ y p); auto; rewrite ?calls_snoc, ?answers_snoc, En, app_nil_r; auto.
  - unfold owns in Ho. rewrite B, Nat.eqb_refl in Ho. discriminate.
Qed.
Lemma excl c i j d : own c = Some (i, d) -> j <> i -> owns c j = false.
Proof. intros H Hne. unfold owns. rewrite H. apply Nat.eqb_neq. exact Hne. Qed.

Lemma cinv_step c l s i c' : cinv c l s -> tstep code i c = Some (Ok c') ->
  exists l' s', cinv c' (l ++ l') s'.
Proof.
  intros [Hs Hf Ht] Hstep. unfold tstep in Hstep. pose proof (Ht i) as Hi.
  assert (Oth : forall c1 l1 s1,
    (forall j, j <> i -> tinv c l s j -> tinv c1 l1 s1 j) -> tinv c1 l1 s1 i -> forall j, tinv c1 l1 s1 j).
  { intros c1 l1 s1 H1 H2 j. destruct (Nat.eq_dec j i) as [->|E]; [exact H2|apply H1; auto]. }
  destruct (cur c i) as [p|] eqn:Ec.
  2:{ (* a new call *)
    destruct (todo c i) as [|x r] eqn:Et; [discriminate|]. injection Hstep; intros <-; clear Hstep.
    exists [], s. rewrite app_nil_r. constructor; cbn [own sh]; auto.
    apply Oth.
    - intros j Hne Hj. apply (tinv_other c _ l s i j Hj Hne); cbn [cur todo done_ own sh]; rewrite ?set_other by auto; auto.
    - destruct Hi as [A B D E|r0 A B D E|y p A B D E W G|y p d A B D E W G]; try congruence.
      assert (Hx : In x (t0 i)) by (rewrite D, Et; apply in_or_app; right; left; reflexivity).
      apply (ti_out _ _ _ _ x (code x)); cbn [cur todo done_ own sh]; rewrite ?set_same; auto; try congruence.
      + apply (Hwl i). exact Hx.
      + intro u. apply (Hsem i). exact Hx. }
  destruct p as [r|k|k|X f k].
  - (* return *)
    injection Hstep; intros <-; clear Hstep.
    destruct Hi as [A B D E|r0 A B D E|y p A B D E W G|y p d A B D E W G]; try congruence.
    + rewrite Ec in A. injection A; intros <-.
      exists [], s. rewrite app_nil_r. constructor; cbn [own sh]; auto.
      apply Oth.
      * intros j Hne Hj. apply (tinv_other c _ l s i j Hj Hne); cbn [cur todo done_ own sh]; rewrite ?set_other by auto; auto.
      * apply ti_idle; cbn [cur todo done_ own sh]; rewrite ?set_same; auto.
    + (* a call which never needed the lock *)
      rewrite Ec in A. injection A; intros <-. pose proof (G s) as Gs. cbn in Gs.
      exists [(i, y, r)], s. constructor; cbn [own sh].
      * econstructor; eauto.
      * auto.
      * apply Oth.
        -- intros j Hne Hj.
           assert (En : Nat.eqb i j = false) by (apply Nat.eqb_neq; congruence).
           assert (Hj' : tinv (mkC (sh c) (own c) (todo c) (set (cur c) i None) (set (done_ c) i (done_ c i ++ [r]))) l s j).
           { apply (tinv_other c _ l s i j Hj Hne); cbn [cur todo done_ own sh]; rewrite ?set_other by auto; auto. }
           destruct Hj' as [A1 B1 D1 E1|q A1 B1 D1 E1|z p1 A1 B1 D1 E1 W1 G1|z p1 d A1 B1 D1 E1 W1 G1].
           ++ apply ti_idle; auto; rewrite ?calls_snoc, ?answers_snoc, En, app_nil_r; auto.
           ++ apply (ti_ret _ _ _ _ q); auto; rewrite ?calls_snoc, ?answers_snoc, En, app_nil_r; auto.
           ++ apply (ti_out _ _ _ _ z p1); auto; rewrite ?calls_snoc, ?answers_snoc, En, app_nil_r; auto.
           ++ apply (ti_in _ _ _ _ z p1 d); auto; rewrite ?calls_snoc, ?answers_snoc, En, app_nil_r; auto.
        -- apply ti_idle; cbn [cur todo done_ own sh]; rewrite ?set_same, ?calls_snoc, ?answers_snoc, ?Nat.eqb_refl; auto.
           ++ rewrite <- app_assoc. exact D.
           ++ rewrite E. reflexivity.
    + rewrite Ec in A. injection A; intros <-. cbn in W. discriminate.
  - (* lock *)
    destruct (own c) as [[j d]|] eqn:Eo.
    + destruct (Nat.eqb_spec i j) as [<-|E]; [|discriminate]. injection Hstep; intros <-; clear Hstep.
      destruct Hi as [A B D E|r0 A B D E|y p A B D E W G|y p d0 A B D E W G]; try congruence.
      * unfold owns in B. rewrite Eo, Nat.eqb_refl in B. discriminate.
      * rewrite Eo in B. injection B; intros ->. rewrite Ec in A. injection A; intros <-.
        exists [], s. rewrite app_nil_r. constructor; cbn [own sh]; auto; try discriminate.
        apply Oth.
        -- intros j Hne Hj. pose proof (excl c i j _ Eo Hne) as Hx.
           apply (tinv_other c _ l s i j Hj Hne); cbn [cur todo done_ own sh]; rewrite ?set_other by auto; auto.
           ++ rewrite Hx. unfold owns; cbn [own]. apply Nat.eqb_neq; exact Hne.
           ++ intros d1 F. congruence.
        -- apply (ti_in _ _ _ _ y k (S d0)); cbn [cur todo done_ own sh]; rewrite ?set_same; auto.
    + injection Hstep; intros <-; clear Hstep.
      destruct Hi as [A B D E|r0 A B D E|y p A B D E W G|y p d0 A B D E W G]; try congruence.
      rewrite Ec in A. injection A; intros <-.
      exists [], s. rewrite app_nil_r. constructor; cbn [own sh]; auto; try discriminate.
      apply Oth.
      * intros j Hne Hj. apply (tinv_other c _ l s i j Hj Hne); cbn [cur todo done_ own sh]; rewrite ?set_other by auto; auto.
        -- unfold owns; cbn [own]. rewrite Eo. apply Nat.eqb_neq; exact Hne.
        -- intros d1 F. congruence.
      * apply (ti_in _ _ _ _ y k 0%nat); cbn [cur todo done_ own sh]; rewrite ?set_same; auto.
        rewrite (Hf eq_refl). apply (G s).
  - (* unlock *)
    destruct (own c) as [[j [|d]]|] eqn:Eo; try discriminate.
    destruct (Nat.eqb_spec i j) as [<-|E]; [|discriminate]. injection Hstep; intros <-; clear Hstep.
    destruct Hi as [A B D E|r0 A B D E|y p A B D E W G|y p d0 A B D E W G]; try congruence.
    + unfold owns in B. rewrite Eo, Nat.eqb_refl in B. discriminate.
    + rewrite Eo in B. injection B; intros <-. rewrite Ec in A. injection A; intros <-. cbn [wl] in W. cbn [run] in G.
      destruct d as [|d].
      * destruct W as [r ->]. cbn in G. symmetry in G.
        exists [(i, y, r)], (sh c). constructor; cbn [own sh].
        -- econstructor; eauto.
        -- auto.
        -- apply Oth.
           ++ intros j Hne Hj. apply tinv_commit with (s := s); auto.
              apply (tinv_other c _ l s i j Hj Hne); cbn [cur todo done_ own sh]; rewrite ?set_other by auto; auto.
              ** symmetry. apply (excl c i j _ Eo Hne).
              ** intros d1 F. congruence.
           ++ apply (ti_ret _ _ _ _ r); cbn [cur todo done_ own sh]; rewrite ?set_same, ?calls_snoc, ?answers_snoc, ?Nat.eqb_refl; auto.
              ** rewrite <- app_assoc. exact D.
              ** rewrite E. reflexivity.
      * exists [], s. rewrite app_nil_r. constructor; cbn [own sh]; auto; try discriminate.
        apply Oth.
        -- intros j Hne Hj. pose proof (excl c i j _ Eo Hne) as Hx.
           apply (tinv_other c _ l s i j Hj Hne); cbn [cur todo done_ own sh]; rewrite ?set_other by auto; auto.
           ++ rewrite Hx. unfold owns; cbn [own]. apply Nat.eqb_neq; exact Hne.
           ++ intros d1 F. congruence.
        -- apply (ti_in _ _ _ _ y k d); cbn [cur todo done_ own sh]; rewrite ?set_same; auto.
  - (* an access *)
    destruct Hi as [A B D E|r0 A B D E|y p A B D E W G|y p d0 A B D E W G]; try congruence;
      rewrite Ec in A; injection A; intros <-; cbn in W; [destruct W; congruence|].
    destruct W as [_ W]. cbn [run] in G.
    destruct (f (sh c)) as [[s1 x]| | |] eqn:Ef; cbn in Hstep; try discriminate.
    injection Hstep; intros <-; clear Hstep. cbn in G.
    exists [], s. rewrite app_nil_r. constructor; cbn [own sh]; auto; try congruence.
    apply Oth.
    * intros j Hne Hj. pose proof (excl c i j _ B Hne) as Hx.
      apply (tinv_other c _ l s i j Hj Hne); cbn [cur todo done_ own sh]; rewrite ?set_other by auto; auto.
      intros d1 F. congruence.
    * apply (ti_in _ _ _ _ y (k x) d0); cbn [cur todo done_ own sh]; rewrite ?set_same; auto.
Qed.

Lemma cinv_steps c c' : steps code c c' -> forall l s, cinv c l s -> exists l' s', cinv c' (l ++ l') s'.
Proof.
  induction 1 as [c|c c1 i c2 H IH E]; intros l s Hi.
  - exists [], s. rewrite app_nil_r. exact Hi.
  - destruct (IH _ _ Hi) as (l1 & s1 & H1). destruct (cinv_step _ _ _ _ _ H1 E) as (l2 & s2 & H2).
    exists (l1 ++ l2), s2. rewrite app_assoc. exact H2.
Qed.

Lemma cinv_accounts c l s : cinv c l s -> accounts sem s0 t0 c l s.
Proof.
  clear Hsem Hwl. intros [Hs Hf Ht]. constructor; auto.
  - intro i. destruct (Ht i) as [A B D E|r A B D E|x p A B D E W G|x p d A B D E W G]; eauto.
  - intro i. destruct (Ht i) as [A B D E|r A B D E|x p A B D E W G|x p d A B D E W G].
    + exists []. rewrite app_nil_r. auto.
    + exists [r]. split; auto. split; [cbn; lia|congruence].
    + exists []. rewrite app_nil_r. split; auto. 
    + exists []. rewrite app_nil_r. split; auto.
  - intros i H1 H2. destruct (Ht i) as [A B D E|r A B D E|x p A B D E W G|x p d A B D E W G]; try congruence.
    rewrite H2, app_nil_r in D. auto.
Qed.

Lemma cinv_progress c l s i : cinv c l s -> (cur c i <> None \/ todo c i <> []) -> exists j r, tstep code j c = Some r.
Proof.
  intros [Hs Hf Ht] Hw.
  destruct (own c) as [[j d]|] eqn:Eo.
  - exists j. destruct (Ht j) as [A B D E|r A B D E|x p A B D E W G|x p d0 A B D E W G];
      try (unfold owns in B; rewrite Eo, Nat.eqb_refl in B; discriminate).
    unfold tstep. rewrite A, B. destruct p as [r|k|k|X f k]; rewrite ?Nat.eqb_refl; eauto.
  - exists i. unfold tstep. rewrite Eo. destruct (cur c i) as [[r|k|k|X f k]|]; eauto.
    destruct (todo c i); eauto. destruct Hw; congruence.
Qed.
Lemma cinv_fail c l s i r : cinv c l s -> tstep code i c = Some r -> (forall c', r <> Ok c') ->
  exists x rest e, t0 i = calls i l ++ x :: rest /\ sem x s = e /\
    match r, e with Abort, Abort | UB, UB | Fuel, Fuel => True | _, _ => False end.
Proof.
  intros [Hs Hf Ht] Hstep Hn. unfold tstep in Hstep.
  destruct (cur c i) as [p|] eqn:Ec; [|destruct (todo c i); [discriminate|]; injection Hstep; intros <-; edestruct Hn; reflexivity].
  destruct (Ht i) as [A B D E|q A B D E|x p0 A B D E W G|x p0 d0 A B D E W G]; try congruence; rewrite Ec in A; injection A; intros Ep.
  - rewrite Ep in Hstep. injection Hstep; intros <-; edestruct Hn; reflexivity.
  - subst p0. destruct p as [q|k|k|X f k]; cbn in W; try tauto.
    + injection Hstep; intros <-; edestruct Hn; reflexivity.
    + destruct (own c) as [[j d]|].
      * destruct (Nat.eqb i j); [|discriminate]. injection Hstep; intros <-; edestruct Hn; reflexivity.
      * injection Hstep; intros <-; edestruct Hn; reflexivity.
  - subst p0. destruct p as [q|k|k|X f k]; rewrite ?B, ?Nat.eqb_refl in Hstep;
      try (injection Hstep; intros <-; edestruct Hn; reflexivity).
    exists x, (todo c i), (sem x s). split; auto. split; auto. rewrite <- G. cbn [run].
    injection Hstep; intros <-.
    destruct (f (sh c)) as [[s1 y]| | |]; cbn; auto. edestruct Hn; reflexivity.
Qed.
Lemma cinv_lock_free c l s : cinv c l s -> (forall i, cur c i = None) -> own c = None.
Proof.
  intros [Hs Hf Ht] H. destruct (own c) as [[j d]|] eqn:Eo; auto.
  destruct (Ht j) as [A B D E|r A B D E|x p A B D E W G|x p d0 A B D E W G]; try (rewrite H in A; discriminate).
  unfold owns in B. rewrite Eo, Nat.eqb_refl in B. discriminate.
Qed.

(* a call none of whose accesses meets a change of memory answers as if alone *)
Lemma steps_trans c1 c2 c3 : steps code c1 c2 -> steps code c2 c3 -> steps code c1 c3.
Proof. intros H1 H2. revert H1. induction H2 as [c|c c4 i c5 H IH E]; intro H1; [exact H1|]. eapply steps_snoc; [apply IH; exact H1|exact E]. Qed.
Lemma exec_steps l : forall c c', exec code l c = Some c' -> steps code c c'.
Proof.
  induction l as [|i l IH]; cbn; intros c c' H.
  - injection H; intros ->. constructor.
  - destruct (tstep code i c) as [[c1| | |]|] eqn:E; try discriminate.
    apply (steps_trans _ c1); [eapply steps_snoc; [constructor|exact E]|]. apply IH. exact H.
Qed.
End Gen.
