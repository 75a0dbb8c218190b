(* Runs of finitely many threads are finite; a call during which memory does not change
   answers as if alone. *)
From Verif Require Import Base Big_model Big_hist Big_spec Conc_model Conc_spec Conc_proof.

(* a call which writes nothing *)
Fixpoint ro {S_ R : Type} (p : prog S_ R) : Prop :=
  match p with
  | Ret _ => True
  | Lock k => ro k
  | Unlock k => ro k
  | Act f k => (forall s s' a, f s = Ok (s', a) -> s' = s) /\ forall a, ro (k a)
  end.
Lemma ro_bind {S_ R Q : Type} (p : prog S_ R) (k : R -> prog S_ Q) : ro p -> (forall a, ro (k a)) -> ro (bindp p k).
Proof. induction p as [a|q IH|q IH|X f q IH]; cbn; intros Hp Hk; auto. destruct Hp as [H1 H2]. split; auto. Qed.

Section Fin.
Variables (S_ C R : Type) (code : C -> prog S_ R).
Notation config := (config S_ C R).

(* what a thread has left to do, and one step of it *)
Definition T := (option (prog S_ R) * list C)%type.
Definition tlt (y t : T) : Prop :=
  match t with
  | (None, []) => False
  | (None, x :: r) => y = (Some (code x), r)
  | (Some (Ret _), r) => y = (None, r)
  | (Some (Lock k), r) => y = (Some k, r)
  | (Some (Unlock k), r) => y = (Some k, r)
  | (Some (Act f k), r) => exists a, y = (Some (k a), r)
  end.

Lemma tlt_some (r : list C) : Acc tlt (None, r) -> forall p, Acc tlt (Some p, r).
Proof.
  intros H p. induction p as [a|q IH|q IH|A f q IH]; constructor; intros y Hy; cbn in Hy.
  - subst y. exact H.
  - subst y. exact IH.
  - subst y. exact IH.
  - destruct Hy as [a ->]. apply IH.
Qed.
Lemma tlt_acc (t : T) : Acc tlt t.
Proof.
  destruct t as [o r].
  assert (H : Acc tlt (None, r)).
  { induction r as [|x r IH]; constructor; intros y Hy; cbn in Hy; [contradiction|]. subst y. apply tlt_some. exact IH. }
  destruct o; [apply tlt_some; exact H|exact H].
Qed.

(* one thread moves, the others keep *)
Definition vlt (u t : nat -> T) : Prop := exists i, tlt (u i) (t i) /\ forall j, j <> i -> u j = t j.

Lemma vlt_extend n : forall t, Acc vlt t -> t n = (None, []) ->
  forall v, Acc tlt v -> forall u, (forall i, i <> n -> u i = t i) -> u n = v -> Acc vlt u.
Proof.
  intros t Ht. induction Ht as [t _ IHt]. intros Hn v Hv. induction Hv as [v Hv' IHv].
  intros u Hu Hun. constructor. intros w (i & Hi & Hj).
  destruct (Nat.eq_dec i n) as [->|E].
  - rewrite Hun in Hi. apply (IHv (w n) Hi w); auto. intros j Hne. rewrite (Hj j Hne). apply Hu. exact Hne.
  - rewrite (Hu i E) in Hi.
    assert (V : vlt (set t i (w i)) t).
    { exists i. rewrite set_same. split; [exact Hi|]. intros j Hne. apply set_other. exact Hne. }
    apply (IHt _ V) with (v := v).
    + rewrite set_other; auto.
    + constructor. exact Hv'.
    + intros j Hne. destruct (Nat.eq_dec j i) as [->|E2]; [rewrite set_same; reflexivity|].
      rewrite set_other by exact E2. rewrite (Hj j E2). apply Hu. exact Hne.
    + rewrite Hj by congruence. exact Hun.
Qed.
Lemma vlt_acc n : forall t, (forall i, (n <= i)%nat -> t i = (None, [])) -> Acc vlt t.
Proof.
  induction n as [|n IH]; intros t Ht.
  - constructor. intros u (i & Hi & _). rewrite Ht in Hi by lia. contradiction.
  - apply (vlt_extend n (set t n (None, []))) with (v := t n).
    + apply IH. intros i Hi. destruct (Nat.eq_dec i n) as [->|E]; [apply set_same|]. rewrite set_other by exact E. apply Ht. lia.
    + apply set_same.
    + apply tlt_acc.
    + intros i Hi. rewrite set_other by exact Hi. reflexivity.
    + reflexivity.
Qed.

Definition vec (c : config) : nat -> T := fun i => (cur c i, todo c i).
Definition next (c' c : config) : Prop := exists i, tstep code i c = Some (Ok c').

Lemma tstep_vlt c c' : next c' c -> vlt (vec c') (vec c).
Proof.
  intros [i H]. exists i. unfold tstep in H. unfold vec.
  destruct (cur c i) as [p|] eqn:Ec.
  - destruct p as [r|k|k|X f k].
    + injection H; intros <-. cbn [cur todo]. split; [rewrite set_same; reflexivity|]. intros j Hne. rewrite set_other by exact Hne. reflexivity.
    + destruct (own c) as [[j d]|].
      * destruct (Nat.eqb i j); [|discriminate]. injection H; intros <-. cbn [cur todo]. split; [rewrite set_same; reflexivity|].
        intros j0 Hne. rewrite set_other by exact Hne. reflexivity.
      * injection H; intros <-. cbn [cur todo]. split; [rewrite set_same; reflexivity|]. intros j Hne. rewrite set_other by exact Hne. reflexivity.
    + destruct (own c) as [[j [|d]]|]; try discriminate. destruct (Nat.eqb i j); [|discriminate]. injection H; intros <-. cbn [cur todo].
      split; [rewrite set_same; reflexivity|]. intros j0 Hne. rewrite set_other by exact Hne. reflexivity.
    + destruct (f (sh c)) as [[s' x]| | |]; cbn in H; try discriminate. injection H; intros <-. cbn [cur todo].
      split; [rewrite set_same; cbn; eauto|]. intros j Hne. rewrite set_other by exact Hne. reflexivity.
  - destruct (todo c i) as [|x r] eqn:Et; [discriminate|]. injection H; intros <-. cbn [cur todo].
    split; [rewrite !set_same; reflexivity|]. intros j Hne. rewrite !set_other by exact Hne. reflexivity.
Qed.
Lemma next_acc c n : (forall i, (n <= i)%nat -> cur c i = None /\ todo c i = []) -> Acc next c.
Proof.
  intro H. assert (A : Acc vlt (vec c)).
  { apply (vlt_acc n). intros i Hi. destruct (H i Hi) as [E1 E2]. unfold vec. rewrite E1, E2. reflexivity. }
  remember (vec c) as t eqn:Et. assert (E : t = vec c) by exact Et. clear Et H. revert c E.
  induction A as [t _ IH]. intros c ->. constructor. intros c' Hn. apply (IH (vec c')); auto. apply tstep_vlt. exact Hn.
Qed.
Lemma acc_no_chain (X : Type) (rel : X -> X -> Prop) x : Acc rel x -> forall f : nat -> X, f 0%nat = x -> ~ (forall k, rel (f (S k)) (f k)).
Proof.
  induction 1 as [x _ IH]. intros f Hf H.
  apply (IH (f 1%nat)) with (f := fun k => f (S k)); auto. rewrite <- Hf. apply H.
Qed.

(* ---- quiet calls ---- *)
(* steps by any threads, none of which changes the memory *)
Inductive quiet (s : S_) : config -> config -> Prop :=
| quiet_refl c : sh c = s -> quiet s c c
| quiet_snoc c c1 i c2 : quiet s c c1 -> tstep code i c1 = Some (Ok c2) -> sh c2 = s -> quiet s c c2.

Lemma quiet_call s c c' i x rest : quiet s c c' -> cur c i = None -> todo c i = x :: rest ->
  (cur c' i = None /\ todo c' i = x :: rest /\ done_ c' i = done_ c i) \/
  (exists p, cur c' i = Some p /\ done_ c' i = done_ c i /\ run p s = run (code x) s) \/
  (exists r more, done_ c' i = done_ c i ++ r :: more /\ run (code x) s = Ok (s, r)).
Proof.
  intro H. induction H as [c Hc|c c1 j c2 H IH E Hs]; intros E1 E2; [left; auto|].
  specialize (IH E1 E2).
  assert (Hs1 : sh c1 = s) by (destruct H; auto).
  destruct (Nat.eq_dec i j) as [->|Hne].
  - unfold tstep in E. destruct IH as [(A & B & D)|[(p & A & D & G)|(r & more & D & G)]].
    + rewrite A, B in E. injection E; intros <-. right; left. exists (code x). cbn [cur done_]. rewrite set_same. auto.
    + rewrite A in E. destruct p as [r|k|k|X f k].
      * injection E; intros <-. right; right. exists r, []. cbn [done_]. rewrite set_same, D. split; auto.
      * destruct (own c1) as [[o d]|].
        -- destruct (Nat.eqb j o); [|discriminate]. injection E; intros <-. right; left. exists k. cbn [cur done_]. rewrite set_same. auto.
        -- injection E; intros <-. right; left. exists k. cbn [cur done_]. rewrite set_same. auto.
      * destruct (own c1) as [[o [|d]]|]; try discriminate. destruct (Nat.eqb j o); [|discriminate]. injection E; intros <-.
        right; left. exists k. cbn [cur done_]. rewrite set_same. auto.
      * cbn [run] in G. rewrite Hs1 in E. destruct (f s) as [[s' y]| | |] eqn:Ef; cbn in E; try discriminate.
        injection E; intros <-. cbn [sh] in Hs. subst s'. cbn in G. right; left. exists (k y). cbn [cur done_]. rewrite set_same. auto.
    + right; right. destruct (cur c1 j) as [[r1|k|k|X f k]|].
      * injection E; intros <-. exists r, (more ++ [r1]). cbn [done_]. rewrite set_same, D, <- app_assoc. auto.
      * destruct (own c1) as [[o d]|]; [destruct (Nat.eqb j o); [|discriminate]|]; injection E; intros <-; exists r, more; cbn [done_]; auto.
      * destruct (own c1) as [[o [|d]]|]; try discriminate. destruct (Nat.eqb j o); [|discriminate]. injection E; intros <-; exists r, more; cbn [done_]; auto.
      * destruct (f (sh c1)) as [[s' y]| | |]; cbn in E; try discriminate. injection E; intros <-; exists r, more; cbn [done_]; auto.
      * destruct (todo c1 j); [discriminate|]. injection E; intros <-; exists r, more; cbn [done_]; auto.
  - assert (K : cur c2 i = cur c1 i /\ todo c2 i = todo c1 i /\ done_ c2 i = done_ c1 i).
    { unfold tstep in E. destruct (cur c1 j) as [[r1|k|k|X f k]|].
      - injection E; intros <-. cbn [cur todo done_]. rewrite !set_other by exact Hne. auto.
      - destruct (own c1) as [[o d]|]; [destruct (Nat.eqb j o); [|discriminate]|]; injection E; intros <-; cbn [cur todo done_]; rewrite !set_other by exact Hne; auto.
      - destruct (own c1) as [[o [|d]]|]; try discriminate. destruct (Nat.eqb j o); [|discriminate]. injection E; intros <-; cbn [cur todo done_]; rewrite !set_other by exact Hne; auto.
      - destruct (f (sh c1)) as [[s' y]| | |]; cbn in E; try discriminate. injection E; intros <-; cbn [cur todo done_]; rewrite !set_other by exact Hne; auto.
      - destruct (todo c1 j); [discriminate|]. injection E; intros <-; cbn [cur todo done_]; rewrite !set_other by exact Hne; auto. }
    destruct K as (K1 & K2 & K3). rewrite K1, K2, K3. exact IH.
Qed.

(* ---- threads which only read ---- *)
Definition read_inv (s : S_) (t0 : nat -> list C) (c : config) : Prop :=
  sh c = s /\ forall i, exists pre, Forall2 (fun x r => run (code x) s = Ok (s, r)) pre (done_ c i) /\
    match cur c i with
    | None => t0 i = pre ++ todo c i
    | Some p => ro p /\ exists x, t0 i = pre ++ x :: todo c i /\ run p s = run (code x) s
    end.
Lemma read_step s t0 c i c' : (forall i x, In x (t0 i) -> ro (code x)) -> read_inv s t0 c -> tstep code i c = Some (Ok c') -> read_inv s t0 c'.
Proof.
  intros Hro [Hs H] E.
  assert (Oth : forall c1 : config, sh c1 = s -> (forall j, j <> i -> cur c1 j = cur c j /\ todo c1 j = todo c j /\ done_ c1 j = done_ c j) ->
    (exists pre, Forall2 (fun x r => run (code x) s = Ok (s, r)) pre (done_ c1 i) /\
      match cur c1 i with None => t0 i = pre ++ todo c1 i
      | Some p => ro p /\ exists x, t0 i = pre ++ x :: todo c1 i /\ run p s = run (code x) s end) -> read_inv s t0 c1).
  { intros c1 Hs1 Ho Hi. split; [exact Hs1|]. intro j. destruct (Nat.eq_dec j i) as [->|Hne]; [exact Hi|].
    destruct (Ho j Hne) as (E1 & E2 & E3). rewrite E1, E2, E3. apply H. }
  destruct (H i) as (pre & HF & Hc). unfold tstep in E. destruct (cur c i) as [p|] eqn:Ec.
  - destruct Hc as [Hp (x & Ex & G)]. destruct p as [r|k|k|X f k].
    + injection E; intros <-. apply Oth; cbn [sh cur todo done_]; auto.
      * intros j Hne. rewrite !set_other by exact Hne. auto.
      * rewrite !set_same. exists (pre ++ [x]). split.
        -- apply Forall2_app; auto.
        -- rewrite <- app_assoc. exact Ex.
    + assert (E' : exists o, c' = mkC (sh c) o (todo c) (set (cur c) i (Some k)) (done_ c)).
      { destruct (own c) as [[o d]|]; [destruct (Nat.eqb i o); [|discriminate]|]; injection E; intros <-; eauto. }
      destruct E' as [o ->]. apply Oth; cbn [sh cur todo done_]; auto.
      * intros j Hne. rewrite !set_other by exact Hne. auto.
      * rewrite !set_same. exists pre. split; auto. split; [exact Hp|]. exists x. auto.
    + assert (E' : exists o, c' = mkC (sh c) o (todo c) (set (cur c) i (Some k)) (done_ c)).
      { destruct (own c) as [[o [|d]]|]; try discriminate. destruct (Nat.eqb i o); [|discriminate]. injection E; intros <-; eauto. }
      destruct E' as [o ->]. apply Oth; cbn [sh cur todo done_]; auto.
      * intros j Hne. rewrite !set_other by exact Hne. auto.
      * rewrite !set_same. exists pre. split; auto. split; [exact Hp|]. exists x. auto.
    + destruct Hp as [Hf Hk]. rewrite Hs in E. cbn [run] in G. destruct (f s) as [[s' y]| | |] eqn:Ef; cbn in E; try discriminate.
      rewrite (Hf _ _ _ Ef) in *. injection E; intros <-. apply Oth; cbn [sh cur todo done_]; auto.
      * intros j Hne. rewrite !set_other by exact Hne. auto.
      * rewrite !set_same. exists pre. split; auto. split; [apply Hk|]. exists x. split; auto.
  - destruct (todo c i) as [|x r] eqn:Et; [discriminate|]. injection E; intros <-. apply Oth; cbn [sh cur todo done_]; auto.
    + intros j Hne. rewrite !set_other by exact Hne. auto.
    + rewrite !set_same. exists pre. split; auto. split; [|exists x; auto].
      apply (Hro i). rewrite Hc. apply in_or_app. right. left. reflexivity.
Qed.
Lemma read_steps s t0 c : (forall i x, In x (t0 i) -> ro (code x)) -> steps code (start_c s t0) c -> read_inv s t0 c.
Proof.
  intros Hro H. remember (start_c s t0) as c0 eqn:E0. induction H as [c|c c1 i c2 H IH E].
  - subst c. split; [reflexivity|]. intro i. exists []. split; [constructor|reflexivity].
  - apply (read_step s t0 c1 i c2 Hro (IH E0) E).
Qed.
Lemma read_quiet s t0 c : (forall i x, In x (t0 i) -> ro (code x)) -> steps code (start_c s t0) c -> quiet s (start_c s t0) c.
Proof.
  intros Hro H. pose proof (read_steps s t0 c Hro H) as [Hs _]. revert Hs. remember (start_c s t0) as c0 eqn:E0.
  induction H as [c|c c1 i c2 H IH E]; intro Hs.
  - constructor. exact Hs.
  - apply (quiet_snoc _ _ c1 i); auto. apply IH; auto. subst c. exact (proj1 (read_steps s t0 c1 Hro H)).
Qed.
End Fin.
