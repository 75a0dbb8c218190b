(* The theorems about the rewriting of pointer stores. *)
From Verif Require Import Base Trapw_model Trapw_spec Trapw_proof.

(* Where notifications leave memory alone, the rewritten function does what the function did, and
   before each store to memory not written as one to a local it tells of every pointer stored,
   where and with what value: once if the type has no unions, and of nothing else.  Missing:
   notifications which release storage. *)
Theorem trapw_same_partial : forall w n c s f, (forall e m, w_note w e m = m) -> sbelow n c -> tr s = [] ->
  match exec w f s c, exec w f s (snd (vstmt n c)) with
  | None, None => True
  | Some (o, t), Some (o', t') =>
      o' = o /\ (forall v i, (v < n)%nat -> vars t' v i = vars t v i) /\ mem t' = mem t /\ announced (tr t) (tr t')
  | _, _ => False
  end.
Proof.
  intros w n c s f Q B T. assert (S : sim n s s) by (constructor; auto; rewrite T; constructor).
  pose proof (exec_sim w Q n f c n s s (le_n n) B S) as H.
  destruct (exec w f s c) as [[o t]|], (exec w f s (snd (vstmt n c))) as [[o' t']|]; cbn in H; try tauto.
  destruct H as [<- [V M _ A]]. auto.
Qed.

(* The traces differ in notifications only. *)
Definition noted (e : event) : bool := match e with ENote _ _ | ECopy _ _ => true | _ => false end.
Theorem trapw_erased : forall l l', announced l l' -> Forall (fun e => noted e = false) l -> filter (fun e => negb (noted e)) l' = l.
Proof.
  induction 1 as [|a t vs l l' A IH|e l l' X A IH|a t vs ns l l' N D A IH]; intro F; [reflexivity| | |]; inversion F as [|? ? F1 F2]; subst.
  - cbn. now rewrite IH.
  - cbn. rewrite F1. cbn. now rewrite IH.
  - rewrite filter_app. rewrite (filter_none _ ns).
    + cbn. now rewrite IH.
    + intros e I. rewrite Forall_forall in N. specialize (N e I). destruct e; cbn in *; tauto.
Qed.

(* A function none of whose stores to memory other than locals is of a type with pointers is left
   as it is. *)
Fixpoint calm (c : stmt) : Prop :=
  match c with
  | Ins l => Forall (fun i => match i with
      | Set_ (Mem false _ t) _ | Call (Some (Mem false _ t)) _ _ => forall k, ~ holds t k
      | _ => True end) l
  | Seq a b | If _ a b => calm a /\ calm b
  | Loop a => calm a
  | _ => True
  end.
Theorem trapw_untouched : forall m n c, sbelow m c -> calm c -> vstmt n c = (n, c).
Proof.
  assert (N : forall t, wf t -> (forall k, ~ holds t k) -> needs t = false).
  { intros t W H. destruct (needs t) eqn:E; [|reflexivity]. destruct (needs_holds t W E) as [k Hk]. destruct (H k Hk). }
  assert (I1 : forall m i n, ibelow m i -> match i with
      | Set_ (Mem false _ t) _ | Call (Some (Mem false _ t)) _ _ => forall k, ~ holds t k
      | _ => True end -> vinst n i = (n, [i])).
  { intros m i n B H. destruct i as [[v o t|[] a t] [r|e]|[[v o t|[] a t]|] f args|l r|l r k]; cbn [vinst lv_needs]; try reflexivity; rewrite N; auto; apply B. }
  intros m n c. revert n. induction c as [|l|a IHa b IHb|e a IHa b IHb|a IHa| |e]; intros n B H; cbn [vstmt]; try reflexivity.
  - assert (E : vinsts n l = (n, l)).
    { cbn [sbelow calm] in *. induction B as [|i l B1 B2 IH]; [reflexivity|]. inversion H as [|? ? H1 H2]; subst. cbn [vinsts]. now rewrite (I1 m i n B1 H1), (IH H2). }
    now rewrite E.
  - destruct B, H. rewrite IHa by auto. now rewrite IHb by auto.
  - destruct B as (_ & ? & ?), H. rewrite IHa by auto. now rewrite IHb by auto.
  - now rewrite IHa by auto.
Qed.

(* Whatever notifications do to memory, a pointer that is computed, or that a call returns, is stored
   as it was told, where the place is a global or otherwise needs no load to find. *)
Fixpoint loadfree (e : expr) : Prop :=
  match e with Const _ | Lv _ _ => True | Add a b | Mul a b => loadfree a /\ loadfree b | Load _ => False end.
Theorem trapw_value_kept : forall w n s a, loadfree a -> ebelow n a ->
  (forall e, tr (execs w s (snd (vinst n (Set_ (Mem false a TPtr) (RVal e))))) =
     tr s ++ [ENote (eval s a) (eval s e); EStore false (eval s a) TPtr [eval s e]]) /\
  (forall f args, tr (execs w s (snd (vinst n (Call (Some (Mem false a TPtr)) f args)))) =
     tr s ++ [ECall f (map (eval s) args); ENote (eval s a) (w_ret w (ncall s) 0); EStore false (eval s a) TPtr [w_ret w (ncall s) 0%nat]]).
Proof.
  intros w n s a L B.
  assert (E : forall t, (forall v i, (v < n)%nat -> vars t v i = vars s v i) -> eval t a = eval s a).
  { intros t H. clear w. induction a; cbn in *; try tauto; [now apply H| |]; rewrite IHa1, IHa2 by tauto; reflexivity. }
  split; intros; unfold vinst; cbn [lv_needs needs snd lty add_traps]; unfold execs; cbn [fold_left exec1].
  - set (s1 := store (Loc n 0 TPtr) [eval s e] s).
    assert (V : forall v i, (v < n)%nat -> vars s1 v i = vars s v i) by (intros v i Lv; cbn; replace (Nat.eqb v n) with false by lia; reflexivity).
    assert (W : vars s1 n 0 = eval s e) by (cbn; now rewrite Nat.eqb_refl).
    unfold words. cbn [lty size seq map word note emit store tr addr vars Nat.add]. repeat match goal with |- context [eval ?t a] => tryif constr_eq t s then fail else rewrite (E t V) end. rewrite W. rewrite <- app_assoc. reflexivity.
  - set (s1 := store (Loc n 0 TPtr) _ _).
    assert (V : forall v i, (v < n)%nat -> vars s1 v i = vars s v i) by (intros v i Lv; cbn; replace (Nat.eqb v n) with false by lia; reflexivity).
    assert (W : vars s1 n 0 = w_ret w (ncall s) 0) by (cbn; now rewrite Nat.eqb_refl).
    assert (T : tr s1 = tr s ++ [ECall f (map (eval s) args)]) by reflexivity.
    unfold words. cbn [lty size seq map word note emit store tr addr vars Nat.add]. repeat match goal with |- context [eval ?t a] => tryif constr_eq t s then fail else rewrite (E t V) end. rewrite W, T. rewrite <- !app_assoc. reflexivity.
Qed.

Module TwEx.
Definition s0 : st := mkS (fun _ _ => 0) (fun a => if a =? 10 then 20 else if a =? 20 then 30 else a * 100) 0 [].
(* notifications which only log, and calls which do nothing and return 4000, 4001, ... *)
Definition logs : world := mkW (fun k i => Z.of_nat (4000 + 10 * k + i)) (fun _ m => m) (fun _ m => m).
(* struct { long n; char *p; struct { char *q[2]; long z; } in; } *)
Definition rec_t : ty := TComp false 5 [(0, TInt); (1, TPtr); (2, TNamed (TComp false 3 [(0, TArr TPtr (Some 2)); (2, TInt)]))]%nat.
Definition g (a : Z) (t : ty) : lval := Mem false (Const a) t.
(* *50 = *60; f's result to *70; then, twice, the pointer *80 set to the value of local 0 *)
Definition prog : stmt :=
  Seq (Ins [Set_ (g 50 rec_t) (RLval (g 60 rec_t)); Call (Some (g 70 TPtr)) 9 [Load (Const 50)]; Set_ (Loc 0 0 TInt) (RVal (Const 2))])
      (Seq (Loop (If (Lv 0 0) (Ins [Set_ (g 80 TPtr) (RVal (Add (Lv 0 0) (Const 500))); Set_ (Loc 0 0 TInt) (RVal (Add (Lv 0 0) (Const (-1))))]) Break))
           (Return (Load (Const 80)))).
Definition trace (r : option (out * st)) : list event := match r with Some (_, t) => tr t | None => [] end.
Definition outcome (r : option (out * st)) : option out := match r with Some (o, _) => Some o | None => None end.
Example logs_quiet : forall e m, w_note logs e m = m. Proof. reflexivity. Qed.
Example prog_below : sbelow 1 prog.
Proof. cbn. repeat split; repeat (apply Forall_cons || apply Forall_nil); cbn; repeat split; auto; try lia; try discriminate;
  try (intros _); repeat (apply FOP_cons || apply FOP_nil || apply Forall_cons || apply Forall_nil); cbn; repeat split; auto; try lia; try discriminate. Qed.
Example prog_runs : outcome (exec logs 20 s0 (snd (vstmt 1 prog))) = Some (Ret 501) /\ outcome (exec logs 20 s0 prog) = Some (Ret 501) /\
  trace (exec logs 20 s0 prog) = [EStore false 50 rec_t [6000; 6100; 6200; 6300; 6400]; ECall 9 [6000]; EStore false 70 TPtr [4000]; EStore false 80 TPtr [502]; EStore false 80 TPtr [501]] /\
  trace (exec logs 20 s0 (snd (vstmt 1 prog))) = [ECopy 52 [6200; 6300]; ENote 51 6100; EStore false 50 rec_t [6000; 6100; 6200; 6300; 6400]; ECall 9 [6000]; ENote 70 4000; EStore false 70 TPtr [4000];
    ENote 80 502; EStore false 80 TPtr [502]; ENote 80 501; EStore false 80 TPtr [501]].
Proof. vm_compute. auto. Qed.
Example erased_ex : announced (trace (exec logs 20 s0 prog)) (trace (exec logs 20 s0 (snd (vstmt 1 prog)))) /\ Forall (fun e => noted e = false) (trace (exec logs 20 s0 prog)).
Proof.
  split; [|vm_compute; repeat constructor]. pose proof (trapw_same_partial logs 1 prog s0 20 logs_quiet prog_below eq_refl) as H.
  destruct (exec logs 20 s0 prog) as [[o t]|] eqn:E1, (exec logs 20 s0 (snd (vstmt 1 prog))) as [[o' t']|] eqn:E2; cbn; first [tauto|constructor].
Qed.
Example untouched_ex : let c := Seq (Ins [Set_ (Mem true (Const 5) TPtr) (RVal (Const 1)); Set_ (g 6 (TArr TInt (Some 3%nat))) (RLval (g 9 (TArr TInt (Some 3%nat))))]) Break in
  sbelow 1 c /\ calm c /\ vstmt 1 c = (1%nat, c).
Proof.
  cbn. repeat split; repeat (apply Forall_cons || apply Forall_nil); cbn; repeat split; auto; try discriminate. intros k H. inversion H as [| | |? ? ? ? ? H'|]; subst. inversion H'.
Qed.

(* head = head->next, where head is at 10.  Overwriting head drops the last reference to the node at
   20, which is released when that is notified: the first word of its storage becomes 777. *)
Definition counts : world := mkW (fun _ _ => 0) (fun _ m => m)
  (fun e m x => match e with ENote a _ => if (m a =? 20) && (a =? 10) && (x =? 20) then 777 else m x | _ => m x end).
Definition pop : stmt := Ins [Set_ (g 10 TPtr) (RLval (Mem false (Load (Const 10)) TPtr))].
Example kept_ex : loadfree (Const 10) /\ ebelow 1 (Const 10) /\
  tr (execs counts s0 (snd (vinst 1 (Set_ (g 10 TPtr) (RVal (Load (Load (Const 10)))))))) = [ENote 10 30; EStore false 10 TPtr [30]].
Proof. vm_compute. auto. Qed.
End TwEx.
Import TwEx.

(* A notification which releases what the store unlinks: the store then reads the released storage,
   and stores neither what the function stored nor what was told.  Only the released object is
   changed. *)
Theorem trapw_release_refuted : exists w n c s f a v v', sbelow n c /\ tr s = [] /\
  (forall e m x, w_note w e m x <> m x -> exists y, e = ENote a y /\ x = m a) /\
  trace (exec w f s c) = [EStore false a TPtr [v]] /\
  trace (exec w f s (snd (vstmt n c))) = [ENote a v; EStore false a TPtr [v']] /\ v' <> v.
Proof.
  exists counts, 1%nat, pop, s0, 2%nat, 10, 30, 777. split; [cbn; repeat (apply Forall_cons || apply Forall_nil); cbn; repeat split|]. split; [reflexivity|]. split.
  - intros e m x H. destruct e as [? ? ? ?|? ?|a v|? ?]; cbn in H; try congruence. exists v. destruct ((m a =? 20) && (a =? 10) && (x =? 20)) eqn:E; [|congruence].
    assert (a = 10) by lia. subst a. split; [reflexivity|lia].
  - vm_compute. repeat split; congruence.
Qed.

(* A local whose address is taken: the store to it by name is not told of, that through its address
   is, and whoever keeps count is told that a reference goes which never came. *)
Theorem trapw_local_refuted : exists w n c s f a v v', (forall e m, w_note w e m = m) /\ sbelow n c /\ tr s = [] /\
  trace (exec w f s (snd (vstmt n c))) = [EStore true a TPtr [v]; ENote a v'; EStore false a TPtr [v']].
Proof.
  exists logs, 1%nat, (Ins [Set_ (Mem true (Const 5) TPtr) (RVal (Const 100)); Set_ (Mem false (Const 5) TPtr) (RVal (Const 200))]), s0, 2%nat, 5, 100, 200.
  split; [reflexivity|]. split; [cbn; repeat (apply Forall_cons || apply Forall_nil); cbn; repeat split|]. split; reflexivity.
Qed.

(* Unions: a store of one with two pointer members is told of twice, and one with a pointer member
   is told of as a pointer though it holds a number. *)
Theorem trapw_union_refuted :
  (exists w n c s f a v t, (forall e m, w_note w e m = m) /\ sbelow n c /\ tr s = [] /\
    trace (exec w f s (snd (vstmt n c))) = [ENote a v; ENote a v; EStore false a t [v]]) /\
  (exists w n c s f a u v t, (forall e m, w_note w e m = m) /\ sbelow n c /\ tr s = [] /\
    trace (exec w f s (snd (vstmt n c))) = [EStore false a TInt [v]; ENote u v; EStore false u t [v]]).
Proof.
  split.
  - set (t := TComp true 1 [(0, TPtr); (0, TPtr)]%nat). exists logs, 1%nat, (Ins [Set_ (g 5 t) (RLval (g 6 t))]), s0, 2%nat, 5, 600, t.
    split; [reflexivity|]. split; [|split; reflexivity]. cbn. repeat (apply Forall_cons || apply Forall_nil); cbn; repeat split; auto; try discriminate; lia.
  - set (t := TComp true 1 [(0, TInt); (0, TPtr)]%nat). exists logs, 1%nat, (Ins [Set_ (g 6 TInt) (RVal (Const 3)); Set_ (g 5 t) (RLval (g 6 t))]), s0, 2%nat, 6, 5, 3, t.
    split; [reflexivity|]. split; [|split; reflexivity]. cbn. repeat (apply Forall_cons || apply Forall_nil); cbn; repeat split; auto; try discriminate; lia.
Qed.

Print Assumptions trapw_same_partial.
Print Assumptions trapw_erased.
Print Assumptions trapw_untouched.
Print Assumptions trapw_value_kept.
Print Assumptions trapw_release_refuted.
Print Assumptions trapw_local_refuted.
Print Assumptions trapw_union_refuted.
