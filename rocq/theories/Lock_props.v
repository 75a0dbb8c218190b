(* C72: threads in the library never wait for each other for ever. *)
From Verif Require Import Base Lock_model Lock_proof.

Definition finished (c : config) : Prop := (forall t p, nth_error (cur c) t = Some p -> p = Ret) /\ forall l, own c l = None.

(* Whatever calls the threads make and however they are scheduled, when messages go to stderr:
   either some thread can take a step, or all the calls have returned and every lock is free;
   no run goes on for ever; and so from any point on every call can be completed.
   Full statement: the same wherever messages go.  Missing: false when LIBALLOCS_ERR is set
   (lock_message_refuted). *)
Theorem lock_no_deadlock_partial : forall ts c, steps (start false ts) c ->
  ((exists c', step c c') \/ finished c) /\
  (~ exists f : nat -> config, f 0%nat = c /\ forall n, step (f n) (f (S n))) /\
  exists c', steps c c' /\ finished c'.
Proof.
  intros ts c S. destruct (steps_inv _ _ _ (start_inv ts) S) as (hs & HI).
  assert (P : forall c hs, inv c hs -> (exists c', step c c') \/ finished c).
  { clear. intros c hs HI. assert (D : forall ps, (forall p, In p ps -> p = Ret) \/ exists t p, nth_error ps t = Some p /\ p <> Ret).
    { induction ps as [|p ps IH]; [left; intros p []|]. destruct IH as [IH|(t & q & E & N)]; [|right; exists (S t), q; auto].
      destruct p; [left; intros q [<-|Hq]; auto|right; eexists 0%nat, _; split; [reflexivity|discriminate]..]. }
    destruct (D (cur c)) as [A|(t & p & E & N)].
    - right. assert (A' : forall t p, nth_error (cur c) t = Some p -> p = Ret) by (intros t p E; apply A, (nth_error_In _ _ E)).
      split; [exact A'|]. intro l. destruct (own c l) as [[u d]|] eqn:O; [|reflexivity]. exfalso.
      assert (Hl : In l (hs u)).
      { apply (count_occ_In lk_dec). rewrite (i_own _ _ HI u l). unfold holds. rewrite O, Nat.eqb_refl. assert (Q := i_pos _ _ HI _ _ _ O). lia. }
      destruct (held_live c hs u l HI Hl) as (q & Eq & Nq). exact (Nq (A' u q Eq)).
    - left. apply (progress_from c hs 4 HI t p E N). intros l k _. lia. }
  split; [exact (P c hs HI)|]. split.
  - intros (f & F0 & F). clear S HI. revert f F0 F. induction (step_acc c) as [c _ IH]. intros f F0 F.
    assert (S1 := F 0%nat). rewrite F0 in S1. apply (IH (f 1%nat) S1 (fun n => f (S n)) eq_refl). intro n. apply F.
  - clear S. revert hs HI. induction (step_acc c) as [c _ IH]. intros hs HI. destruct (P c hs HI) as [(c1 & S1)|Q]; [|exists c; split; [constructor|exact Q]].
    destruct (step_inv _ _ _ HI S1) as (h1 & I1). destruct (IH c1 S1 h1 I1) as (c' & S' & Q). exists c'. split; [|exact Q].
    clear - S1 S'. induction S' as [c1|c1 c2 c3 S' IH' S3]; [exact (ss_step _ _ _ (ss_refl c) S1)|exact (ss_step _ _ _ (IH' S1) S3)].
Qed.
Print Assumptions lock_no_deadlock_partial.

(* A lock is held only by a thread that is in the middle of its calls: none is left locked by a
   thread that has returned from all of them. *)
Theorem lock_released : forall ts c t l d, steps (start false ts) c -> own c l = Some (t, d) ->
  (0 < d)%nat /\ exists p, nth_error (cur c) t = Some p /\ p <> Ret.
Proof.
  intros ts c t l d S O. destruct (steps_inv _ _ _ (start_inv ts) S) as (hs & HI). assert (Q := i_pos _ _ HI _ _ _ O). split; [exact Q|].
  apply (held_live c hs t l HI). apply (count_occ_In lk_dec). rewrite (i_own _ _ HI t l). unfold holds. rewrite O, Nat.eqb_refl. lia.
Qed.
Print Assumptions lock_released.

(* ---- running a given schedule: which thread goes, and its choice *)
Definition go (c : config) (tn : nat * nat) : option config :=
  let (t, n) := tn in
  match nth_error (cur c) t with
  | Some (Lock l k) => match own c l with
      | None => Some (mkL (set_own (own c) l (Some (t, 1%nat))) (put (cur c) t k))
      | Some (u, d) => if Nat.eqb u t then Some (mkL (set_own (own c) l (Some (t, S d))) (put (cur c) t k)) else None
      end
  | Some (Unlock l k) => match own c l with
      | Some (u, S O) => if Nat.eqb u t then Some (mkL (set_own (own c) l None) (put (cur c) t k)) else None
      | Some (u, S (S d)) => if Nat.eqb u t then Some (mkL (set_own (own c) l (Some (t, S d))) (put (cur c) t k)) else None
      | _ => None
      end
  | Some (Any k) => Some (mkL (own c) (put (cur c) t (k n)))
  | _ => None
  end.
Fixpoint go_all (c : config) (l : list (nat * nat)) : option config :=
  match l with [] => Some c | x :: l => match go c x with Some c' => go_all c' l | None => None end end.
Lemma go_step c x c' : go c x = Some c' -> step c c'.
Proof.
  destruct x as [t n]. unfold go. destruct (nth_error (cur c) t) as [[|l k|l k|k]|] eqn:E; try discriminate.
  - destruct (own c l) as [[u d]|] eqn:O; [destruct (Nat.eqb_spec u t) as [->|]; [|discriminate]|]; intros [= <-]; [eapply s_again|eapply s_take]; eauto.
  - destruct (own c l) as [[u [|[|d]]]|] eqn:O; try discriminate; (destruct (Nat.eqb_spec u t) as [->|]; [|discriminate]); intros [= <-]; [eapply s_drop|eapply s_less]; eauto.
  - intros [= <-]. apply s_any. exact E.
Qed.
Lemma go_steps c0 c l c' : steps c0 c -> go_all c l = Some c' -> steps c0 c'.
Proof.
  revert c. induction l as [|x l IH]; cbn; intros c H E; [injection E as <-; exact H|]. destruct (go c x) as [c1|] eqn:E1; [|discriminate].
  apply (IH c1); [|exact E]. exact (ss_step _ _ _ H (go_step _ _ _ E1)).
Qed.

(* what each thread waits for *)
Definition waits (c : config) (t : nat) : option lk :=
  match nth_error (cur c) t with
  | Some (Lock l _) => match own c l with Some (u, _) => if Nat.eqb u t then None else Some l | None => None end
  | _ => None
  end.
Definition stuckb (c : config) : bool := forallb (fun t => match waits c t with Some _ => true | None => false end) (seq 0 (length (cur c))).
Lemma stuck_no_step c : stuckb c = true -> ~ exists c', step c c'.
Proof.
  unfold stuckb. rewrite forallb_forall. intros H (c' & S).
  assert (X : forall t p, nth_error (cur c) t = Some p -> exists l k u d, p = Lock l k /\ own c l = Some (u, d) /\ u <> t).
  { intros t p E. assert (L : (t < length (cur c))%nat) by (apply nth_error_Some; congruence).
    specialize (H t ltac:(apply in_seq; lia)). unfold waits in H. rewrite E in H. destruct p; try discriminate. destruct (own c l) as [[u d]|] eqn:O; [|discriminate].
    destruct (Nat.eqb_spec u t); [discriminate|]. exists l, p, u, d. auto. }
  destruct S as [c t l k E O|c t l k d E O|c t l k E O|c t l k d E O|c t k n E]; destruct (X _ _ E) as (l0 & k0 & u & d0 & E1 & O1 & N); try discriminate; injection E1 as <- <-; congruence.
Qed.

Module LkEx.
(* three threads: one is indexing a small object, one is allocating and freeing, one looks up
   an address which the stack claims, and prints.  The first waits for the table while holding
   the small-object lock, the second while holding its arena's, and the third holds the table. *)
Definition ts := [[IndexSmall; UnindexSmall]; [Malloc 7; Free 7]; [LookupDeepest; ReportWild]].
Definition sched : list (nat * nat) :=
  [(0, 0); (1, 0); (1, 0); (1, 0); (1, 0); (1, 0); (1, 0); (2, 0); (2, 1)]%nat.
Definition c1 := go_all (start false ts) sched.
Example lock_no_deadlock_ex : exists c, steps (start false ts) c /\
  waits c 0 = Some Table /\ waits c 1 = Some Table /\ waits c 2 = None /\
  own c Small = Some (0, 1)%nat /\ own c (Arena 7) = Some (1, 1)%nat /\ own c Table = Some (2, 1)%nat.
Proof.
  destruct c1 as [c|] eqn:E; [|vm_compute in E; discriminate]. exists c. split; [apply (go_steps _ (start false ts) sched); [constructor|exact E]|].
  unfold c1 in E. vm_compute in E. injection E as <-. vm_compute. auto 10.
Qed.
Example lock_released_ex : exists c t l d, steps (start false ts) c /\ own c l = Some (t, d) /\ waits c t <> None.
Proof. destruct lock_no_deadlock_ex as (c & S & W & _ & _ & O & _). exists c, 0%nat, Small, 1%nat. split; [exact S|]. split; [exact O|]. rewrite W. discriminate. Qed.

(* When LIBALLOCS_ERR names a file: a thread looks up an address that the stack claims, and has
   the table locked while it prints a warning, for which a stream is opened and so memory
   allocated; another thread is allocating from the same arena, whose lock it holds, and wants
   the table.  Neither ever goes on. *)
Definition dl := [[LookupDeepest]; [Malloc 0]].
Definition dsched : list (nat * nat) :=
  [(1, 0); (1, 0); (1, 0); (1, 0); (1, 0); (1, 0); (0, 0); (0, 1); (0, 0); (0, 0)]%nat.
Theorem lock_message_refuted : exists ts c, steps (start true ts) c /\ (~ exists c', step c c') /\ ~ finished c /\
  waits c 0 = Some (Arena 0) /\ own c (Arena 0) = Some (1, 1)%nat /\ waits c 1 = Some Table /\ own c Table = Some (0, 1)%nat.
Proof.
  exists dl. destruct (go_all (start true dl) dsched) as [c|] eqn:E; [|vm_compute in E; discriminate]. exists c.
  split; [apply (go_steps _ (start true dl) dsched); [constructor|exact E]|].
  assert (Q : stuckb c = true /\ waits c 0 = Some (Arena 0) /\ own c (Arena 0) = Some (1, 1)%nat /\ waits c 1 = Some Table /\ own c Table = Some (0, 1)%nat).
  { vm_compute in E. injection E as <-. vm_compute. auto 10. }
  destruct Q as (Q & W0 & O0 & W1 & O1). split; [apply stuck_no_step, Q|]. split; [|auto]. intros [_ F]. rewrite F in O1. discriminate.
Qed.
End LkEx.
Print Assumptions LkEx.lock_message_refuted.
