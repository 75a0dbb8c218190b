(* C69: threads calling into the table of big allocations at once. *)
From Verif Require Import Base Big_model Big_spec Big_inv Big_lookup Big_links Big_hist Big_more Big_common Big_range Big_props
  Conc_model Conc_spec Conc_proof Conc_code Conc_more.

Section Props.
Variables (nb : nat) (biggest : Z) (dbg : bool) (al : nat -> Z) (lcur lmax : Z).
Notation R := (reach nb biggest dbg al lcur lmax).
Notation cd := (code nb biggest dbg al lcur lmax).
Notation sm := (sem nb biggest dbg al lcur lmax).

Definition all_locked (t0 : nat -> list call) : Prop := forall i x, In x (t0 i) -> in_lock x = true.

Lemma base s0 t0 : all_locked t0 -> forall c, steps cd (start_c s0 t0) c ->
  exists l s, cinv st call nat sm s0 t0 c l s.
Proof.
  intros HL c H.
  destruct (cinv_steps st call nat cd sm s0 t0 (fun i x s _ => code_run nb biggest dbg al lcur lmax x s)
    (fun i x Hx => code_locked nb biggest dbg al lcur lmax x (HL i x Hx)) _ _ H [] s0 (cinv_init _ _ _ _ _ _)) as (l & s & Hi).
  exists l, s. exact Hi.
Qed.

(* Full statement: whatever threads do, each call takes effect at one instant between being
   made and returning.  Missing: the calls which read or write outside the lock, for which
   see the refutations below.  The second moment extends the account of the first, so a call
   which returned before another was made comes before it. *)
Theorem conc_atomic_partial : forall s0 t0 c1 c2, all_locked t0 ->
  steps cd (start_c s0 t0) c1 -> steps cd c1 c2 ->
  exists l1 s1 l' s2, accounts sm s0 t0 c1 l1 s1 /\ accounts sm s0 t0 c2 (l1 ++ l') s2.
Proof.
  intros s0 t0 c1 c2 HL H1 H2. destruct (base s0 t0 HL c1 H1) as (l & s & Hi).
  destruct (cinv_steps st call nat cd sm s0 t0 (fun i x s _ => code_run nb biggest dbg al lcur lmax x s)
    (fun i x Hx => code_locked nb biggest dbg al lcur lmax x (HL i x Hx)) _ _ H2 l s Hi) as (l' & s' & Hi').
  exists l, s, l', s'. split; apply cinv_accounts; assumption.
Qed.

(* no deadlock: while any thread has something to do, some thread can move; and the lock is
   free when no call is under way *)
Theorem conc_no_deadlock_partial : forall s0 t0 c, all_locked t0 -> steps cd (start_c s0 t0) c ->
  (forall i, cur c i <> None \/ todo c i <> [] -> exists j r, tstep cd j c = Some r) /\
  ((forall i, cur c i = None) -> own c = None).
Proof.
  intros s0 t0 c HL H. destruct (base s0 t0 HL c H) as (l & s & Hi). split.
  - intros i Hw. exact (cinv_progress _ _ _ _ _ _ _ _ _ _ _ Hi Hw).
  - intro Hn. exact (cinv_lock_free _ _ _ _ _ _ _ _ _ Hi Hn).
Qed.

(* no run of finitely many threads goes on for ever, whatever they call *)
Theorem conc_finite : forall s0 t0 n, (forall i, (n <= i)%nat -> t0 i = []) ->
  forall f : nat -> config st call nat, f 0%nat = start_c s0 t0 -> ~ (forall k, exists i, tstep cd i (f k) = Some (Ok (f (S k)))).
Proof.
  intros s0 t0 n Hn f H0 H.
  apply (acc_no_chain _ _ (start_c s0 t0) (next_acc st call nat cd (start_c s0 t0) n (fun i Hi => conj eq_refl (Hn i Hi))) f H0).
  exact H.
Qed.

(* ---- with callers within their contracts ---- *)
Lemma sem_step x o s : op_of x = Some o -> step nb biggest dbg al lcur lmax s o = do '(s', _) <- sm x s ; Ok s'.
Proof.
  destruct x; cbn [op_of]; intro E; try discriminate E; injection E; intros <-; cbn [step sem]; unfold with_ans; try reflexivity.
  - destruct (delete_at nb biggest dbg s a alloc) as [[s' t]| | |]; reflexivity.
  - destruct (delete_overlapping nb biggest dbg s lo hi); reflexivity.
  - destruct (extend biggest dbg s n e); reflexivity.
  - destruct (pre_extend nb biggest dbg s n b); reflexivity.
  - destruct (truncate_end biggest dbg s n e); reflexivity.
  - destruct (truncate_begin biggest dbg s n b); reflexivity.
  - destruct (adjust_end biggest dbg s n e); reflexivity.
Qed.
Lemma sem_legal x s : R s -> legalc nb biggest al s x -> exists s' r, sm x s = Ok (s', r) /\ R s'.
Proof.
  intros HR HL. unfold legalc in HL. destruct (op_of x) as [o|] eqn:Eo.
  - destruct (big_calls_succeed _ _ _ _ _ _ s o HR HL) as (s' & E & HR'). rewrite (sem_step x o s Eo) in E.
    destruct (sm x s) as [[s1 r]| | |]; cbn in E; try discriminate. injection E; intros ->. eauto.
  - destruct x; try discriminate Eo; cbn [sem]; unfold look.
    + destruct (big_find_by_allocator _ _ _ _ _ _ s a x bysub HR) as (n & E & _). rewrite E. cbn. eauto.
    + destruct (big_mapping_at_or_above_partial _ _ _ _ _ _ s a HR) as (n & E & _). rewrite E. cbn. eauto.
    + destruct (big_mapping_below _ _ _ _ _ _ s a HR) as (n & E & _). rewrite E. cbn. eauto.
    + destruct (big_leaf_lookup_innermost _ _ _ _ _ _ s a HR) as (n & E & _). rewrite E. cbn. eauto.
    + destruct (big_leaf_allocator _ _ _ _ _ _ s a HR) as (n & y & _ & E & _). rewrite E. cbn. eauto.
    + destruct (big_top_level_lookup _ _ _ _ _ _ s a HR) as (n & E & _). rewrite E. cbn. eauto.
Qed.
Lemma prefix_snoc (t0 : nat -> list call) (l : list (nat * call * nat)) e : (forall j, exists r, t0 j = calls j (l ++ [e]) ++ r) ->
  (forall j, exists r, t0 j = calls j l ++ r) /\ exists rest, t0 (fst (fst e)) = calls (fst (fst e)) l ++ snd (fst e) :: rest.
Proof.
  destruct e as [[i x] r]. intro H. split.
  - intro j. destruct (H j) as [q E]. rewrite calls_snoc in E. rewrite <- app_assoc in E. eauto.
  - destruct (H i) as [q E]. rewrite calls_snoc, Nat.eqb_refl, <- app_assoc in E. exists q. exact E.
Qed.
Lemma serial_R s0 t0 l s : R s0 -> honest nb biggest dbg al lcur lmax s0 t0 -> serial sm s0 l s ->
  (forall j, exists r, t0 j = calls j l ++ r) -> R s.
Proof.
  intros HR Hh Hs. induction Hs as [|l s i x r s' Hs IH E]; intro Hp; auto.
  destruct (prefix_snoc t0 l (i, x, r) Hp) as [Hp' [rest Hr]]. cbn [fst snd] in Hr.
  destruct (sem_legal x s (IH Hp') (Hh l s i x rest Hs Hp' Hr)) as (s1 & r1 & E1 & HR1).
  rewrite E in E1. injection E1; intros; subst. exact HR1.
Qed.
Lemma sem_right x s s' r : R s -> R s' -> sm x s = Ok (s', r) -> right x s s' r.
Proof.
  intros HR HR' E. destruct x; cbn [right]; auto; cbn [sem] in E; unfold look in E.
  - unfold find_deepest_adopt in E. destruct (Nat.eqb (pidx s (PAGENUM a)) 0).
    + destruct (stack_notify nb biggest dbg al lcur lmax s stacks a) as [[s1 t]| | |]; cbn in E; try discriminate.
      destruct (find_deepest nb s1 a) as [n| | |] eqn:F; cbn in E; try discriminate. injection E; intros; subst.
      destruct (big_lookup_innermost _ _ _ _ _ _ s' a HR') as (n & F' & A). rewrite F in F'. injection F'; intros; subst. exact A.
    + destruct (find_deepest nb s a) as [n| | |] eqn:F; cbn in E; try discriminate. injection E; intros; subst.
      destruct (big_lookup_innermost _ _ _ _ _ _ s' a HR') as (n & F' & A). rewrite F in F'. injection F'; intros; subst. exact A.
  - destruct (big_find_by_allocator _ _ _ _ _ _ s a x bysub HR) as (n & F & A). rewrite F in E. cbn in E. injection E; intros; subst. auto.
  - destruct (big_mapping_below _ _ _ _ _ _ s a HR) as (n & F & A). rewrite F in E. cbn in E. injection E; intros; subst. auto.
  - destruct (big_leaf_lookup_innermost _ _ _ _ _ _ s a HR) as (n & F & A). rewrite F in E. cbn in E. injection E; intros; subst. auto.
  - destruct (big_leaf_allocator _ _ _ _ _ _ s a HR) as (n & y & A & F & B). rewrite F in E. cbn in E. injection E; intros; subst y s'. eauto.
  - destruct (big_top_level_lookup _ _ _ _ _ _ s a HR) as (n & F & A). rewrite F in E. cbn in E. injection E; intros; subst. auto.
Qed.
Lemma serial_at s0 (l2 : list (nat * call * nat)) : forall l s, serial sm s0 l s -> forall l1 i x r, l = l1 ++ (i, x, r) :: l2 ->
  exists s1 s2, serial sm s0 l1 s1 /\ sm x s1 = Ok (s2, r) /\ serial sm s0 (l1 ++ [(i, x, r)]) s2.
Proof.
  induction l2 as [|e l2 IH] using rev_ind; intros l s Hs l1 i x r El.
  - destruct Hs as [|l s i0 x0 r0 s' Hs E].
    + destruct l1; discriminate.
    + apply app_inj_tail in El. destruct El as [-> El]. injection El; intros; subst. exists s, s'. split; auto. split; auto. econstructor; eauto.
  - destruct Hs as [|l s i0 x0 r0 s' Hs E].
    + destruct l1; discriminate.
    + rewrite app_comm_cons, app_assoc in El. apply app_inj_tail in El. destruct El as [El _]. exact (IH l s Hs l1 i x r El).
Qed.
Lemma prefix_app (t0 : nat -> list call) (l1 l2 : list (nat * call * nat)) : (forall j, exists r, t0 j = calls j (l1 ++ l2) ++ r) -> forall j, exists r, t0 j = calls j l1 ++ r.
Proof.
  intros H j. destruct (H j) as [r E]. unfold calls, mine in E. rewrite filter_app, map_app, <- app_assoc in E. eauto.
Qed.

(* Threads within their contracts, holding the lock: no thread aborts, the table is at every
   free moment one that a sequence of calls could have made, and each answer was right at
   the moment of its call.  (Same limit as conc_atomic_partial.) *)
Theorem conc_table_partial : forall s0 t0 c, all_locked t0 -> R s0 -> honest nb biggest dbg al lcur lmax s0 t0 ->
  steps cd (start_c s0 t0) c ->
  (forall i r, tstep cd i c = Some r -> exists c', r = Ok c') /\
  (own c = None -> R (sh c)) /\
  exists l s, accounts sm s0 t0 c l s /\
    forall l1 i x r l2, l = l1 ++ (i, x, r) :: l2 ->
      exists s1 s2, serial sm s0 l1 s1 /\ serial sm s0 (l1 ++ [(i, x, r)]) s2 /\ R s1 /\ R s2 /\ right x s1 s2 r.
Proof.
  intros s0 t0 c HL HR Hh H. destruct (base s0 t0 HL c H) as (l & s & Hi).
  pose proof (cinv_accounts _ _ _ _ _ _ _ _ _ Hi) as Ha. pose proof (ac_order _ _ _ _ _ _ _ _ _ Ha) as Hp.
  pose proof (ac_serial _ _ _ _ _ _ _ _ _ Ha) as Hs. pose proof (serial_R s0 t0 l s HR Hh Hs Hp) as HRs.
  split; [|split].
  - intros i r Ht. destruct r as [c'| | |]; [eauto| | |]; exfalso;
      destruct (cinv_fail _ _ _ _ _ _ _ _ _ _ _ _ Hi Ht) as (x & rest & e & E1 & E2 & M); try discriminate;
      destruct (sem_legal x s HRs (Hh l s i x rest Hs Hp E1)) as (s' & r' & E' & _); subst e; rewrite E' in M; exact M.
  - intro Ho. rewrite (ac_state _ _ _ _ _ _ _ _ _ Ha Ho). exact HRs.
  - exists l, s. split; [exact Ha|]. intros l1 i x r l2 ->.
    destruct (serial_at s0 l2 _ s Hs l1 i x r eq_refl) as (s1 & s2 & A & B & D).
    assert (Hp2 : forall j, exists q, t0 j = calls j (l1 ++ [(i, x, r)]) ++ q).
    { apply (prefix_app t0 _ l2). intro j. rewrite <- app_assoc. apply Hp. }
    pose proof (serial_R s0 t0 _ s2 HR Hh D Hp2) as R2.
    pose proof (serial_R s0 t0 _ s1 HR Hh A (prefix_app t0 l1 _ Hp2)) as R1.
    exists s1, s2. split; [exact A|]. split; [exact D|]. split; [exact R1|]. split; [exact R2|]. exact (sem_right x s1 s2 r R1 R2 B).
Qed.

(* Any call at all, locked or not, made and answered while no thread writes, is answered
   rightly. *)
Theorem conc_quiet : forall s c c' i x rest, R s -> quiet st call nat cd s c c' -> cur c i = None -> todo c i = x :: rest ->
  done_ c' i <> done_ c i -> exists r more, done_ c' i = done_ c i ++ r :: more /\ right x s s r.
Proof.
  intros s c c' i x rest HR H E1 E2 Hn.
  destruct (quiet_call st call nat cd s c c' i x rest H E1 E2) as [(_ & _ & A)|[(p & _ & A & _)|(r & more & A & B)]]; try congruence.
  exists r, more. split; [exact A|]. rewrite code_run in B. exact (sem_right x s s r HR HR B).
Qed.

(* Threads which only look things up, with the lock or without, all get right answers. *)
Definition reader (x : call) : bool :=
  match x with CFind _ _ _ | CAbove _ | CBelow _ | CLeaf _ | CLeafAlloc _ | CTop _ => true | _ => false end.
Lemma code_ro x : reader x = true -> ro (cd x).
Proof.
  assert (RD : forall A (f : st -> A), ro (rd f)) by (intros; cbn; split; [intros; congruence|auto]).
  assert (RR : forall A (f : st -> res A), ro (rdr f)).
  { intros A f. cbn. split; [|auto]. intros s s' a Hx. destruct (f s); cbn in Hx; congruence. }
  assert (DI : forall A (r : res A), ro (die r)) by (intros; apply RR).
  assert (HL : forall a fu c acc, ro (p_last fu c a acc)).
  { intros a fu. induction fu as [|fu IH]; intros c acc; [apply DI|]. cbn [p_last]. destruct (Nat.eqb c 0); [exact I|].
    apply ro_bind; [apply RD|]. intro t. apply ro_bind; [apply RD|]. intro. apply IH. }
  assert (HR : forall a fu c, ro (p_leaf_rec nb fu c a)).
  { intros a fu. induction fu as [|fu IH]; intros c; [apply DI|]. cbn [p_leaf_rec]. apply ro_bind; [apply RD|]. intro fc.
    apply ro_bind; [apply HL|]. intro r. destruct (Nat.eqb r c); [exact I|apply IH]. }
  assert (HF : forall a, ro (p_leaf nb a)).
  { intro a. unfold p_leaf. apply ro_bind; [apply RD|]. intro n. destruct (Nat.eqb n 0); [exact I|apply HR]. }
  assert (HC : forall fu n, ro (p_climb fu n)).
  { induction fu as [|fu IH]; intro n; [apply DI|]. cbn [p_climb]. apply ro_bind; [apply RD|]. intro q. destruct (Nat.eqb q 0); [exact I|apply IH]. }
  assert (LK : forall A (q : prog st A), ro q -> ro (locked q)).
  { intros A q Hq. unfold locked. cbn [ro]. apply ro_bind; [exact Hq|]. intro. exact I. }
  destruct x; cbn [reader code]; try discriminate; intros _.
  - apply LK, RR.
  - apply LK, RR.
  - apply LK, RR.
  - apply HF.
  - unfold p_leaf_allocator. apply ro_bind; [apply HF|]. intro n. destruct (Nat.eqb n 0); [exact I|].
    apply ro_bind; [apply RD|]. intro u. destruct (Nat.eqb u 0); [apply RD|exact I].
  - unfold p_top. apply ro_bind; [apply LK, RD|]. intro n. destruct (Nat.eqb n 0); [exact I|apply HC].
Qed.
Theorem conc_readers : forall s0 t0 c, R s0 -> (forall i x, In x (t0 i) -> reader x = true) -> steps cd (start_c s0 t0) c ->
  sh c = s0 /\ forall i k r, nth_error (done_ c i) k = Some r -> exists x, nth_error (t0 i) k = Some x /\ right x s0 s0 r.
Proof.
  intros s0 t0 c HR Hr H.
  destruct (read_steps st call nat cd s0 t0 c (fun i x Hx => code_ro x (Hr i x Hx)) H) as [Hs Hi]. split; [exact Hs|].
  intros i k r Hk. destruct (Hi i) as (pre & HF & Hc).
  assert (Ht : exists q, t0 i = pre ++ q) by (destruct (cur c i); [destruct Hc as [_ (x & E & _)]|]; eauto).
  destruct Ht as [q ->]. clear Hc. revert k Hk. induction HF as [|x y l1 l2 Hxy HF IH]; intros k Hk; [destruct k; discriminate|].
  destruct k as [|k]; cbn [nth_error app] in *.
  - injection Hk; intros ->. exists x. split; [reflexivity|]. rewrite code_run in Hxy. exact (sem_right x s0 s0 r HR HR Hxy).
  - apply IH. exact Hk.
Qed.
End Props.

Module CoEx.
Import Big_props.Ex.
Notation R := (reach NB BIG true al (-1) (-1)).
Notation cd := (code NB BIG true al (-1) (-1)).
Notation sm := (sem NB BIG true al (-1) (-1)).
Definition two (a b : list call) : nat -> list call := fun i => match i with O => a | 1%nat => b | _ => [] end.
Definition at_ (s : st) (a b : list call) (l : list nat) : config st call nat :=
  match exec cd l (start_c s (two a b)) with Some c => c | None => start_c s (two a b) end.
Definition okc (s : st) (a b : list call) (l : list nat) : bool :=
  match exec cd l (start_c s (two a b)) with Some _ => true | None => false end.
Lemma at_steps s a b l : okc s a b l = true -> steps cd (start_c s (two a b)) (at_ s a b l).
Proof.
  unfold okc, at_. destruct (exec cd l (start_c s (two a b))) as [c|] eqn:E; [|discriminate]. intros _. exact (exec_steps _ _ _ _ _ _ _ E).
Qed.
Definition idle (c : config st call nat) : Prop := forall i, cur c i = None /\ todo c i = [].
Definition aft (s : st) (x : call) : st := match sm x s with Ok (s', _) => s' | _ => s end.
Lemma is_aft s x r : match sm x s with Ok (_, r') => Nat.eqb r' r | _ => false end = true -> sm x s = Ok (aft s x, r).
Proof. unfold aft. destruct (sm x s) as [[s' r']| | |]; intro H; try discriminate. apply Nat.eqb_eq in H. subst. reflexivity. Qed.
Lemma other_idle s a b l : okc s a b l = true -> forall i, (2 <= i)%nat -> cur (at_ s a b l) i = None /\ todo (at_ s a b l) i = [].
Proof.
  intros H i Hi. pose proof (at_steps s a b l H) as Hs. remember (start_c s (two a b)) as c0 eqn:E0.
  assert (G : cur c0 i = None /\ todo c0 i = []) by (subst c0; cbn; destruct i as [|[|i]]; [lia|lia|auto]).
  clear E0 H. revert G. induction Hs as [c|c c1 j c2 Hs IH E]; auto. intro G. specialize (IH G). destruct IH as [A B].
  assert (Hne : i <> j).
  { intros ->. unfold tstep in E. rewrite A, B in E. discriminate. }
  unfold tstep in E. destruct (cur c1 j) as [[r1|k|k|X f k]|].
  - injection E; intros <-; cbn [cur todo]; rewrite ?set_other by exact Hne; auto.
  - destruct (own c1) as [[o d]|]; [destruct (Nat.eqb j o); [|discriminate]|]; injection E; intros <-; cbn [cur todo]; rewrite ?set_other by exact Hne; auto.
  - destruct (own c1) as [[o [|d]]|]; try discriminate. destruct (Nat.eqb j o); [|discriminate]. injection E; intros <-; cbn [cur todo]; rewrite ?set_other by exact Hne; auto.
  - destruct (f (sh c1)) as [[s' y]| | |]; cbn in E; try discriminate. injection E; intros <-; cbn [cur todo]; rewrite ?set_other by exact Hne; auto.
  - destruct (todo c1 j); [discriminate|]. injection E; intros <-; cbn [cur todo]; rewrite ?set_other by exact Hne; auto.
Qed.
Definition idle2 (c : config st call nat) : bool :=
  match cur c 0%nat, cur c 1%nat, todo c 0%nat, todo c 1%nat with None, None, [], [] => true | _, _, _, _ => false end.
Lemma idle_all s a b l : okc s a b l = true -> idle2 (at_ s a b l) = true -> idle (at_ s a b l).
Proof.
  intros H H2 i. destruct i as [|[|i]]; [| |apply (other_idle _ _ _ _ H); lia]; unfold idle2 in H2;
    destruct (cur (at_ s a b l) 0%nat), (cur (at_ s a b l) 1%nat), (todo (at_ s a b l) 0%nat), (todo (at_ s a b l) 1%nat); try discriminate; auto.
Qed.

(* ---- the case the theorems are about ---- *)
Definition ta : list call := [CDelAt 4194304 1].
Definition tb : list call := [CFind 2101300 3 false; CBelow 4194304].
Lemma not_start s n : R s -> ~ (n = 1%nat) -> b_parent (bigs s 1) = 0%nat -> ~ anc s n 1.
Proof. intros _ Hn Hp H. apply anc_of_root in H; congruence. Qed.
Lemma ex_honest : honest NB BIG true al (-1) (-1) s6 (two ta tb).
Proof.
  intros l s i x rest Hs Hp Hx.
  destruct i as [|[|i]]; [| |destruct (calls (S (S i)) l); discriminate].
  2:{ assert (Hin : In x tb) by (cbn [two] in Hx; rewrite Hx; apply in_or_app; right; left; reflexivity).
      destruct Hin as [<-|[<-|[]]]; exact I. }
  assert (E0 : calls 0 l = [] /\ x = CDelAt 4194304 1).
  { cbn [two ta] in Hx. destruct (calls 0 l) as [|y [|z q]]; cbn in Hx; try discriminate. injection Hx; intros; subst; auto. }
  destruct E0 as [E0 ->]. clear Hx.
  assert (Es : s = s6).
  { revert E0 Hp. induction Hs as [|l s i x r s' Hs IH E]; intros E0 Hp; auto.
    destruct (prefix_snoc (two ta tb) l (i, x, r) Hp) as [Hp' [q Hq]]. cbn [fst snd] in Hq.
    rewrite calls_snoc in E0. apply app_eq_nil in E0. destruct E0 as [E0 E1].
    rewrite (IH E0 Hp') in E. destruct i as [|[|i]]; [discriminate E1| |destruct (calls (S (S i)) l); discriminate].
    assert (Hin : In x tb) by (cbn [two] in Hq; rewrite Hq; apply in_or_app; right; left; reflexivity).
    destruct Hin as [<-|[<-|[]]]; cbn [sem] in E; unfold Conc_spec.look in E.
    - destruct (find_from_root NB s6 2101300 3 false); cbn in E; congruence.
    - destruct (mapping_below NB true s6 4194304); cbn in E; congruence. }
  subst s. cbn [legalc op_of legal]. intros n (L & Cv & _) Ha.
  change (start s6) with 1%nat in Ha. apply anc_of_root in Ha; [|vm_compute; reflexivity]. subst n.
  destruct Cv as [_ Cv]. revert Cv. apply Z.le_ngt. apply Z.leb_le. vm_compute. reflexivity.
Qed.
(* an interleaving: thread 1 takes the lock first, thread 0 waits, then deletes *)
Definition sch : list nat := [0;1;1;1;1;1;0;1]%nat ++ repeat 0%nat 15 ++ repeat 1%nat 4.
Example conc_ex : all_locked (two ta tb) /\ R s6 /\ honest NB BIG true al (-1) (-1) s6 (two ta tb) /\
  steps cd (start_c s6 (two ta tb)) (at_ s6 ta tb sch) /\ idle (at_ s6 ta tb sch) /\
  done_ (at_ s6 ta tb sch) 0 = [1%nat] /\ done_ (at_ s6 ta tb sch) 1 = [4%nat; 2%nat] /\ own (at_ s6 ta tb sch) = None /\
  tstep cd 0 (at_ s6 ta tb [0;1;1]%nat) = None.
Proof.
  split; [|split; [exact r6|split; [exact ex_honest|split; [apply at_steps; vm_compute; reflexivity|]]]].
  - intros i x Hx. destruct i as [|[|i]]; [| |contradiction]; cbn in Hx; intuition; subst; reflexivity.
  - split; [apply idle_all; vm_compute; reflexivity|]. repeat split; vm_compute; reflexivity.
Qed.
(* conc_finite: no thread beyond the second has anything to do *)
Example conc_finite_ex : forall i, (2 <= i)%nat -> two ta tb i = [].
Proof. intros [|[|i]] H; [lia|lia|reflexivity]. Qed.
(* conc_quiet: an unlocked lookup answered while another thread waits for nothing *)
Definition qa := [CLeaf 2101300].
Definition qb := [CFind 2101300 3 false].
Lemma qreader : forall i x, In x (two qa qb i) -> reader x = true.
Proof. intros i x Hx. destruct i as [|[|i]]; [| |contradiction]; destruct Hx as [<-|[]]; reflexivity. Qed.
Lemma qro : forall i x, In x (two qa qb i) -> ro (cd x).
Proof. intros i x Hx. apply code_ro. exact (qreader i x Hx). Qed.
Definition st_ (s : st) : config st call nat := start_c s (two qa qb).
Definition qs : list nat := [0;1;0;1;0;1;0;1;1]%nat.
Example conc_quiet_ex : exists s c i x rest r, R s /\ quiet st call nat cd s (st_ s) c /\
  cur (st_ s) i = None /\ todo (st_ s) i = x :: rest /\ in_lock x = false /\ done_ c i = [r] /\ r = 4%nat.
Proof.
  exists s6, (at_ s6 qa qb qs), 0%nat, (CLeaf 2101300), [], 4%nat. split; [exact r6|]. split.
  - apply (read_quiet st call nat cd s6 (two qa qb)); [exact qro|]. apply at_steps. vm_compute. reflexivity.
  - repeat split; vm_compute; reflexivity.
Qed.
(* conc_readers: the same two threads *)
Example conc_readers_ex : R s6 /\ (forall i x, In x (two qa qb i) -> reader x = true) /\
  steps cd (start_c s6 (two qa qb)) (at_ s6 qa qb qs) /\ done_ (at_ s6 qa qb qs) 0 = [4%nat].
Proof. split; [exact r6|]. split; [exact qreader|]. split; [apply at_steps|]; vm_compute; reflexivity. Qed.
End CoEx.
Print Assumptions conc_atomic_partial.
Print Assumptions conc_no_deadlock_partial.
Print Assumptions conc_finite.
Print Assumptions conc_table_partial.
Print Assumptions conc_quiet.
Print Assumptions conc_readers.
