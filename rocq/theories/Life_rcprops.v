(* C45: reference counting, as a lifetime policy, counts exactly and collects exactly. *)
From Verif Require Import Base Life_model Life_spec Life_proof Life_props Life_rcspec Life_rc.

Section P.
Variables (LP : Z) (dbg : bool) (roots : list nat).
Hypothesis HLP : 1 <= LP <= 4.
Hypothesis Hroots : NoDup roots.
Notation cnt := (Z -> nat -> nat).
Notation world := (Life_model.world cnt).
Notation lstep := (lstep LP dbg cnt add1 del1).
Notation active := (active roots).
Notation refs := (refs roots).

(* What the program must respect: a new object's pointer slots are storage not otherwise in
   use and start out null; a policy attached to an object starts from the right count; a
   pointer is only written to storage that is in use, and still is when the write happens. *)
Definition rlegal (w : world) (op : lop) : Prop :=
  legal LP (snd w) op /\
  match op with
  | New o slots _ => NoDup slots /\ forall s, In s slots -> ~ In s (active (snd w)) /\ g_mem (snd w) s = None
  | Attach i o => i = 0 \/ fst w i o = refs (snd w) o
  | Write s v => In s (active (snd w))
  | _ => True
  end.
Definition lasts (op : lop) (w' : world) : Prop := match op with Write s v => In s (active (snd w')) | _ => True end.
Inductive rreach : world -> Prop :=
| rr_start u mem : rreach (u, start mem)
| rr_step f w op w' : rreach w -> rlegal w op -> lstep f w op = Ok w' -> lasts op w' -> rreach w'.

Lemma rr_l w : rreach w -> lreach LP dbg cnt add1 del1 w.
Proof. induction 1 as [u mem|f w op w' H IH [L _] E _]; [apply lr_start|exact (lr_step _ _ _ _ _ f w op w' IH L E)]. Qed.

(* a new object changes no count *)
Lemma new_refs g o slots stale : ~ allocated (g_log g) o -> (forall s, In s slots -> g_mem g s = None) -> forall x, refs (new_obj g o slots stale) x = refs g x.
Proof.
  intros Na Mn x. unfold Life_rcspec.refs, Life_rcspec.active. cbn [new_obj log_ g_log g_obj g_mem objs flat_map app]. fold (objs (g_log g)).
  change (match ENew o with ENew o0 => [o0] | _ => [] end) with [o]. cbn [app flat_map]. rewrite upd_same. cbn [o_live o_slots].
  replace (flat_map (fun p => if o_live (upd (g_obj g) o (mkObj true (Z.lor stale 1) slots) p) then o_slots (upd (g_obj g) o (mkObj true (Z.lor stale 1) slots) p) else []) (objs (g_log g)))
    with (flat_map (fun p => if o_live (g_obj g p) then o_slots (g_obj g p) else []) (objs (g_log g))).
  - rewrite !filter_app, !app_length. replace (length (filter (fun s => points (g_mem g s) x) slots)) with 0%nat; [reflexivity|].
    clear -Mn. induction slots as [|s r IH]; [reflexivity|]. cbn. rewrite (Mn s (or_introl eq_refl)). cbn. apply IH. intros y Iy. apply Mn. right. exact Iy.
  - assert (N : ~ In o (objs (g_log g))) by (rewrite objs_in; exact Na). clear -N. induction (objs (g_log g)) as [|p l IH]; [reflexivity|]. cbn [flat_map].
    rewrite upd_other by (intros ->; apply N; left; reflexivity). rewrite IH by (intro X; apply N; right; exact X). reflexivity.
Qed.
Lemma new_tidy g o slots stale : tidy roots g -> ~ allocated (g_log g) o -> NoDup slots -> (forall s, In s slots -> ~ In s (active g)) -> tidy roots (new_obj g o slots stale).
Proof.
  intros T Na Nd Dj. unfold tidy, Life_rcspec.active in *. cbn [new_obj log_ g_log g_obj objs flat_map app]. fold (objs (g_log g)).
  change (match ENew o with ENew o0 => [o0] | _ => [] end) with [o]. cbn [app flat_map]. rewrite upd_same. cbn [o_live o_slots].
  replace (flat_map (fun p => if o_live (upd (g_obj g) o (mkObj true (Z.lor stale 1) slots) p) then o_slots (upd (g_obj g) o (mkObj true (Z.lor stale 1) slots) p) else []) (objs (g_log g)))
    with (flat_map (fun p => if o_live (g_obj g p) then o_slots (g_obj g p) else []) (objs (g_log g))).
  - rewrite nodup_app in T. destruct T as (P1 & P2 & P3). rewrite !nodup_app. split; [exact P1|]. split; [split; [exact Nd|]; split; [exact P2|]|].
    + intros x X Y. apply (Dj x X). apply in_or_app. right. exact Y.
    + intros x X Y. apply in_app_or in Y. destruct Y as [Y|Y]; [|eauto]. apply (Dj x Y). apply in_or_app. left. exact X.
  - assert (N : ~ In o (objs (g_log g))) by (rewrite objs_in; exact Na). clear -N. induction (objs (g_log g)) as [|p l IH]; [reflexivity|]. cbn [flat_map].
    rewrite upd_other by (intros ->; apply N; left; reflexivity). rewrite IH by (intro X; apply N; right; exact X). reflexivity.
Qed.

(* one operation: exactness, and its effect on policies *)
Definition spared (w : world) (op : lop) (o : nat) (i : Z) : Prop :=
  match op with
  | Detach j x => ~ (x = o /\ j = i)
  | Write s v => v = Some o -> refs (snd w) o = 0%nat \/ exists r, In r roots /\ r <> s /\ g_mem (snd w) r = Some o
  | _ => True
  end.
Lemma step_Q f w op w' : Q LP roots (fst w) (snd w) -> rlegal w op -> lstep f w op = Ok w' -> lasts op w' ->
  Q LP roots (fst w') (snd w') /\
  (forall o i, 1 <= i -> att (g_log (snd w)) o i = true -> (refs (snd w') o > 0)%nat -> spared w op o i -> att (g_log (snd w')) o i = true) /\
  (forall o i, 1 <= i -> att (g_log (snd w)) o i = true -> att (g_log (snd w')) o i = true -> refs (snd w) o = 0%nat \/ (refs (snd w') o > 0)%nat \/ op = Detach i o) /\
  ((forall o, refs (snd w') o = refs (snd w) o) \/ att_le (snd w') (snd w) /\ objs (g_log (snd w')) = objs (g_log (snd w))).
Proof.
  intros Iq [Lg Rl] E La. destruct w as [u g]. cbn [fst snd] in *.
  assert (N : exists N, below N g /\ mk_below N op).
  { exists (Nat.max (S (list_max (objs (g_log g)))) (match op with New o _ _ => S o | _ => 0 end)%nat). split.
    - intros o L. assert (Io : In o (objs (g_log g))) by (apply objs_in, (j_live _ _ _ (q_J _ _ _ _ Iq) o L)).
      destruct (list_max_le (objs (g_log g)) (list_max (objs (g_log g)))) as [Z _]. specialize (Z (Nat.le_refl _)). rewrite Forall_forall in Z. specialize (Z o Io). lia.
    - destruct op; cbn; try exact I; lia. }
  destruct N as (N & Nb & Nm). assert (J' := step_ok LP dbg cnt add1 del1 HLP N f (u, g) op (q_J _ _ _ _ Iq) Lg Nb Nm). rewrite E in J'. cbn in J'. destruct J' as [J' _].
  destruct op as [|o slots stale|i o|i o|o|s v]; cbn [Life_model.lstep legal lasts fst snd] in *.
  - unfold register in E. destruct (_ >? _); [cbn in E; injection E as <-|destruct (_ && _); [cbn in E; injection E as <-|discriminate]]; cbn [fst snd] in *.
    + split; [constructor; [exact J'|apply Iq|apply (q_n _ _ _ _ Iq)]|]. split; [auto|]. split; [|left; reflexivity]. intros x i Hi A _. change (refs _ x) with (refs g x) at 2. destruct (refs g x); auto. right. left. lia.
    + split; [constructor; [exact J'|apply Iq|apply (q_n _ _ _ _ Iq)]|]. split; [auto|]. split; [|left; reflexivity]. intros x i Hi A _. change (refs _ x) with (refs g x) at 2. destruct (refs g x); auto. right. left. lia.
  - injection E as <-. cbn [fst snd] in *. destruct Lg as [Na _], Rl as [Nd Dj].
    assert (R := new_refs g o slots stale Na (fun s X => proj2 (Dj s X))).
    assert (A : forall x i, 1 <= i -> att (g_log (new_obj g o slots stale)) x i = true -> att (g_log g) x i = true).
    { intros x i Hi. cbn. destruct (Nat.eqb o x); [|auto]. intro X. apply Z.eqb_eq in X. lia. }
    split; [constructor; [exact J'|apply new_tidy; auto; [apply Iq|intros s X; apply Dj, X]|]|].
    + intros x i Hi At. rewrite R. apply (q_n _ _ _ _ Iq); auto.
    + split; [|split; [|left; exact R]].
      * intros x i Hi At _ _. cbn. destruct (Nat.eqb_spec o x) as [<-|]; [|exact At]. exfalso. apply Na.
        destruct (o_live (g_obj g o)) eqn:L; [apply (j_live _ _ _ (q_J _ _ _ _ Iq) o L)|]. destruct (j_dead _ _ _ (q_J _ _ _ _ Iq) o L) as (_ & X & _). congruence.
      * intros x i Hi _ _. rewrite R. destruct (refs g x); auto. right. left. lia.
  - unfold attach in E. destruct (Z.ltb_spec i 0); [lia|]. destruct (o_live (g_obj g o)) eqn:L.
    + unfold flag in E. destruct (Z.leb_spec 0 i); [|lia]. destruct (Z.ltb_spec i 31); [|lia]. cbn [andb bind] in E. injection E as <-. cbn [fst snd] in *.
      set (p := Z.lor _ _ mod 16) in *.
      assert (R : forall x, refs (log_ (set_pol g o p) (EAttach i o)) x = refs g x) by (intro x; rewrite <- !refs_none; apply refsd_pol; discriminate).
      split; [apply Q_pol; [exact Iq|exact J'|discriminate|]|].
      * intros x j Hj A. cbn in A. destruct (Nat.eqb_spec o x) as [<-|]; [|auto]. destruct (Z.eqb_spec i j) as [<-|]; [|auto]. right. destruct Rl; [lia|assumption].
      * split; [|split; [|left; exact R]]; intros x j Hj A.
        -- intros _ _. cbn. destruct (_ && _); auto.
        -- intros _. rewrite R. destruct (refs g x); auto. right. left. lia.
    + cbn in E. injection E as <-. cbn [fst snd] in *. split; [exact Iq|]. split; [auto|]. split; [|left; reflexivity]. intros x j Hj A _. destruct (refs g x); auto. right. left. lia.
  - destruct (detach_top LP dbg roots HLP f u g i o w' Iq Lg E) as (X & Y & Z). split; [exact X|]. split; [|split; [|right; exact Z]].
    + intros x j Hj A R Sp. apply (Y x j Hj); auto. cbn in Sp. intros [-> ->]. auto.
    + intros x j Hj A A'. destruct (Nat.eq_dec x o) as [->|Nx]; [destruct (Z.eq_dec j i) as [->|Nj]; [auto|]|].
      * destruct (proj2 (Y o j Hj ltac:(intros [_ W]; contradiction)) A A'); auto.
      * destruct (proj2 (Y x j Hj ltac:(intros [W _]; contradiction)) A A'); auto.
  - destruct Lg as [Ao Ro]. assert (L : o_live (g_obj g o) = true) by (apply (live_iff LP g [] o (q_J _ _ _ _ Iq)); auto).
    destruct (free_top LP dbg roots HLP f u g o w' Iq L E) as (X & Y & Z). split; [exact X|]. split; [|split; [|right; exact Z]].
    + intros x j Hj A R _. apply (Y x j Hj); auto.
    + intros x j Hj A A'. destruct (proj2 (Y x j Hj) A A'); auto.
  - destruct (write_top LP dbg roots HLP f u g s v w' Iq Rl La E) as (X & Y & Z & _ & V). split; [exact X|]. split; [|split; [|right; exact V]].
    + intros x j Hj A R Sp. apply (Z x j Hj); auto.
    + intros x j Hj A A'. destruct (Y x j Hj A A'); auto.
Qed.
Lemma rr_Q w : rreach w -> Q LP roots (fst w) (snd w).
Proof.
  induction 1 as [u mem|f w op w' H IH L E La]; [|exact (proj1 (step_Q f w op w' IH L E La))]. constructor; cbn [fst snd].
  - apply (J_start LP cnt add1 del1). exact HLP.
  - unfold tidy, Life_rcspec.active. cbn. rewrite app_nil_r. exact Hroots.
  - discriminate.
Qed.

(* Each attached policy's count is the number of pointers in use that refer to the object. *)
Theorem rc_counts_exact : forall w, rreach w -> forall o i, 1 <= i -> att (g_log (snd w)) o i = true -> fst w i o = refs (snd w) o.
Proof. intros w H o i Hi A. exact (q_n _ _ _ _ (rr_Q w H) o i Hi A). Qed.

(* An object that is still referred to keeps its policies, and is not released, unless the
   program detaches the policy; when the write itself stores a pointer to the object, it must
   not have been held only through what the write drops. *)
Theorem rc_referenced_kept : forall f w op w' o i, rreach w -> rlegal w op -> lstep f w op = Ok w' -> lasts op w' -> 1 <= i ->
  att (g_log (snd w)) o i = true -> (refs (snd w') o > 0)%nat -> spared w op o i ->
  att (g_log (snd w')) o i = true /\ releases (g_log (snd w')) o = 0%nat.
Proof.
  intros f w op w' o i H L E La Hi A R Sp. destruct (step_Q f w op w' (rr_Q w H) L E La) as (Iq & K & _). assert (A' := K o i Hi A R Sp). split; [exact A'|].
  destruct (o_live (g_obj (snd w') o)) eqn:Lv; [apply (j_live _ _ _ (q_J _ _ _ _ Iq) o Lv)|]. destruct (j_dead _ _ _ (q_J _ _ _ _ Iq) o Lv) as (_ & X & _). rewrite X in A'. discriminate.
Qed.

(* An object that loses its last reference loses its policies, and is released if it has
   already been freed by hand. *)
Theorem rc_unreferenced_collected : forall f w op w' o, rreach w -> rlegal w op -> lstep f w op = Ok w' -> lasts op w' ->
  (forall i, op <> Detach i o) -> (refs (snd w) o > 0)%nat -> refs (snd w') o = 0%nat ->
  (forall i, 1 <= i -> att (g_log (snd w')) o i = false) /\
  (allocated (g_log (snd w)) o -> att (g_log (snd w)) o 0 = false -> releases (g_log (snd w')) o = 1%nat).
Proof.
  intros f w op w' o H L E La Nd R0 R1. destruct (step_Q f w op w' (rr_Q w H) L E La) as (Iq & _ & K & Le). destruct Le as [Le|[Le Lo]]; [rewrite Le in R1; lia|].
  assert (A : forall i, 1 <= i -> att (g_log (snd w')) o i = false).
  { intros i Hi. destruct (att (g_log (snd w')) o i) eqn:A; [|reflexivity]. destruct (K o i Hi (Le o i A) A) as [X|[X|X]]; [lia|lia|]. destruct (Nd i X). }
  split; [exact A|]. intros Ao A0. assert (H' := rr_step f w op w' H L E La).
  assert (All : forall i, att (g_log (snd w')) o i = false).
  { intro i. destruct (Z.leb_spec 1 i); [auto|]. destruct (att (g_log (snd w')) o i) eqn:X; [|reflexivity]. destruct (j_reg _ _ _ (q_J _ _ _ _ Iq) o i X). assert (i = 0) by lia. subst. apply Le in X. congruence. }
  destruct (o_live (g_obj (snd w') o)) eqn:Lv.
  - exfalso. destruct (j_live _ _ _ (q_J _ _ _ _ Iq) o Lv) as (_ & B & _ & D & P). apply D. apply pol_zero; [lia|]. intro i. rewrite B. apply All.
  - apply (j_dead _ _ _ (q_J _ _ _ _ Iq) o Lv).
    apply objs_in. rewrite Lo. apply objs_in, Ao.
Qed.
End P.

(* ---- a concrete history: the variable is slot 0 ---- *)
Definition R0 : list nat := [0%nat].
Definition mem_nat (n : nat) (l : list nat) : bool := existsb (Nat.eqb n) l.
Lemma mem_nat_in n l : mem_nat n l = true <-> In n l.
Proof. unfold mem_nat. rewrite existsb_exists. split; [intros (x & Ix & Ex); apply Nat.eqb_eq in Ex; subst; exact Ix|intro H; exists n; split; [exact H|apply Nat.eqb_refl]]. Qed.
Fixpoint nodup_b (l : list nat) : bool := match l with [] => true | x :: r => negb (mem_nat x r) && nodup_b r end.
Lemma nodup_b_ok l : nodup_b l = true -> NoDup l.
Proof. induction l as [|x r IH]; intro H; constructor; cbn in H; apply andb_prop in H; destruct H as [H1 H2]; [|auto]. rewrite <- mem_nat_in. destruct (mem_nat x r); discriminate. Qed.
Definition rlegal_b (w : (Z -> nat -> nat) * gst) (op : lop) : bool :=
  legal_b (snd w) op &&
  match op with
  | New o slots _ => nodup_b slots && forallb (fun s => negb (mem_nat s (active R0 (snd w))) && match g_mem (snd w) s with None => true | _ => false end) slots
  | Attach i o => (i =? 0) || Nat.eqb (fst w i o) (refs R0 (snd w) o)
  | Write s v => mem_nat s (active R0 (snd w))
  | _ => true
  end.
Lemma rlegal_b_ok w op : rlegal_b w op = true -> rlegal 4 R0 w op.
Proof.
  unfold rlegal_b. intro H. apply andb_prop in H. destruct H as [H1 H2]. split; [apply legal_b_ok, H1|]. destruct op; try exact I.
  - apply andb_prop in H2. destruct H2 as [H2 H3]. split; [apply nodup_b_ok, H2|]. rewrite forallb_forall in H3. intros s Is. specialize (H3 s Is). apply andb_prop in H3. destruct H3 as [H3 H4].
    rewrite <- mem_nat_in. split; [destruct (mem_nat s _); discriminate|destruct (g_mem _ s); [discriminate|reflexivity]].
  - apply orb_prop in H2. destruct H2 as [H2|H2]; [left; lia|right; apply Nat.eqb_eq, H2].
  - apply mem_nat_in, H2.
Qed.
Definition lasts_b (op : lop) (w' : (Z -> nat -> nat) * gst) : bool := match op with Write s v => mem_nat s (active R0 (snd w')) | _ => true end.
Lemma lasts_b_ok op w' : lasts_b op w' = true -> lasts R0 op w'.
Proof. destruct op; cbn [lasts_b lasts]; auto. apply mem_nat_in. Qed.
Fixpoint all_ok (w : (Z -> nat -> nat) * gst) (ops : list lop) : bool :=
  match ops with [] => true | op :: r => rlegal_b w op && match lstep 4 true _ add1 del1 10 w op with Ok w' => lasts_b op w' && all_ok w' r | _ => false end end.
Fixpoint runr (w : (Z -> nat -> nat) * gst) (ops : list lop) : (Z -> nat -> nat) * gst :=
  match ops with [] => w | op :: r => match lstep 4 true _ add1 del1 10 w op with Ok w' => runr w' r | _ => w end end.
Lemma runr_reach : forall ops w, rreach 4 true R0 w -> all_ok w ops = true -> rreach 4 true R0 (runr w ops).
Proof.
  intro ops. induction ops as [|op r IH]; intros w H A; [exact H|]. cbn [all_ok runr] in *. apply andb_prop in A. destruct A as [A1 A2].
  destruct (lstep 4 true _ add1 del1 10 w op) as [w'| | |] eqn:E; try discriminate. apply andb_prop in A2. destruct A2 as [A2 A3]. apply IH; [|exact A3].
  exact (rr_step _ _ _ 10%nat w op w' H (rlegal_b_ok _ _ A1) E (lasts_b_ok _ _ A2)).
Qed.

(* 0 -> 1 -> 2, both counted and both freed by hand; counts are 1; clearing the variable
   leaves both unreferenced, and both go *)
Example rc_ex : let w := runr W0 demo in let w' := runr w [Write 0 None] in
  rreach 4 true R0 w /\ fst w 1 1%nat = 1%nat /\ refs R0 (snd w) 1 = 1%nat /\ refs R0 (snd w) 2 = 1%nat /\ att (g_log (snd w)) 2 1 = true /\
  rlegal 4 R0 w (Write 0 None) /\ lstep 4 true _ add1 del1 10 w (Write 0 None) = Ok w' /\ lasts R0 (Write 0 None) w' /\
  refs R0 (snd w') 1 = 0%nat /\ releases (g_log (snd w')) 1 = 1%nat /\ releases (g_log (snd w')) 2 = 1%nat.
Proof.
  cbv zeta. split; [apply runr_reach; [apply rr_start|vm_compute; reflexivity]|]. do 4 (split; [vm_compute; reflexivity|]). split; [apply rlegal_b_ok; vm_compute; reflexivity|].
  split; [|split; [apply lasts_b_ok; vm_compute; reflexivity|vm_compute; auto]].
  set (w := runr W0 demo). assert (G : good (lstep 4 true _ add1 del1 10 w (Write 0 None)) = true) by (vm_compute; reflexivity). apply got_ok in G. rewrite G. unfold runr at 1. rewrite G. reflexivity.
Qed.
(* clearing the inner pointer instead keeps the outer object *)
Example rc_kept_ex : let w := runr W0 demo in let w' := runr w [Write 10 None] in
  rreach 4 true R0 w /\ all_ok w [Write 10 None] = true /\ att (g_log (snd w)) 1 2 = true /\ refs R0 (snd w') 1 = 1%nat /\ att (g_log (snd w')) 1 2 = true /\ releases (g_log (snd w')) 2 = 1%nat.
Proof. cbv zeta. split; [apply runr_reach; [apply rr_start|vm_compute; reflexivity]|]. vm_compute. auto 6. Qed.

(* A new object whose storage still holds an old pointer: the first write over that pointer
   drops a reference that was never counted, and releases an object still referred to. *)
Definition W1 : (Z -> nat -> nat) * gst := (fun _ _ => 0%nat, start (fun s => if Nat.eqb s 10 then Some 2%nat else None)).
Theorem rc_uninitialised_refuted : exists w w', rreach 4 true R0 w /\ g_mem (snd w) 0 = Some 2%nat /\ g_mem (snd w) 10 = Some 2%nat /\ ~ In 10%nat (active R0 (snd w)) /\
  (let n := runr w [New 1 [10%nat] 0] in lreach 4 true _ add1 del1 n /\ lstep 4 true _ add1 del1 10 n (Write 10 None) = Ok w') /\
  g_mem (snd w') 0 = Some 2%nat /\ In 0%nat (active R0 (snd w')) /\ releases (g_log (snd w')) 2 = 1%nat.
Proof.
  set (w := runr W1 [Register; New 2 [] 0; Attach 1 2; Write 0 (Some 2%nat); Free 2]). exists w, (got (lstep 4 true _ add1 del1 10 (runr w [New 1 [10%nat] 0]) (Write 10 None))).
  assert (Rw : rreach 4 true R0 w) by (apply runr_reach; [apply rr_start|vm_compute; reflexivity]).
  split; [exact Rw|]. do 2 (split; [vm_compute; reflexivity|]). split; [rewrite <- mem_nat_in; vm_compute; discriminate|]. split; [|vm_compute; auto]. cbv zeta. split; [|apply got_ok; vm_compute; reflexivity].
  apply (lr_step _ _ _ _ _ 10%nat w (New 1 [10%nat] 0) _ (rr_l _ _ _ _ Rw)); [apply legal_b_ok; vm_compute; reflexivity|reflexivity].
Qed.

Print Assumptions rc_counts_exact.
Print Assumptions rc_referenced_kept.
Print Assumptions rc_unreferenced_collected.
Print Assumptions rc_uninitialised_refuted.
