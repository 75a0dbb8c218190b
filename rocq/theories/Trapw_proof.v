(* Proofs about the rewriting of pointer stores. *)
From Verif Require Import Base Trapw_model Trapw_spec.

Section TyInd.
Variable P : ty -> Prop.
Hypothesis H1 : P TInt.
Hypothesis H2 : P TPtr.
Hypothesis H3 : P TFun.
Hypothesis H4 : forall u sz fs, Forall (fun x => P (snd x)) fs -> P (TComp u sz fs).
Hypothesis H5 : forall t n, P t -> P (TArr t n).
Hypothesis H6 : forall t, P t -> P (TNamed t).
Fixpoint ty_rect' (t : ty) : P t :=
  match t with
  | TInt => H1 | TPtr => H2 | TFun => H3
  | TComp u sz fs => H4 u sz fs ((fix go (l : list (nat * ty)) : Forall (fun x => P (snd x)) l :=
       match l with [] => Forall_nil _ | x :: l => Forall_cons x (ty_rect' (snd x)) (go l) end) fs)
  | TArr t n => H5 t n (ty_rect' t)
  | TNamed t => H6 t (ty_rect' t)
  end.
End TyInd.

Lemma wf_comp u sz fs : wf (TComp u sz fs) <->
  Forall (fun x => wf (snd x) /\ (fst x + size (snd x) <= sz)%nat) fs /\ (u = false -> ForallOrdPairs (fun x y => fst x + size (snd x) <= fst y)%nat fs).
Proof.
  cbn [wf]. split; intros [A B]; (split; [clear B|exact B]).
  - induction fs as [|[o t] fs IH]; constructor; cbn; [tauto|apply IH; tauto].
  - induction A as [|[o t] fs X A IH]; cbn in *; tauto.
Qed.
Lemma nounion_comp u sz fs : nounion (TComp u sz fs) <-> u = false /\ Forall (fun x => nounion (snd x)) fs.
Proof.
  cbn [nounion]. split; intros [A B]; (split; [exact A|clear A]).
  - induction fs as [|[o t] fs IH]; constructor; cbn; [tauto|apply IH; tauto].
  - induction B as [|[o t] fs X A IH]; cbn in *; tauto.
Qed.
Lemma needs_comp u sz fs : needs (TComp u sz fs) = existsb (fun x => needs (snd x)) fs.
Proof. cbn [needs]. induction fs as [|[o t] fs IH]; cbn; [reflexivity|]. now rewrite IH. Qed.

Lemma holds_size t k : wf t -> holds t k -> (k < size t)%nat.
Proof.
  intros W H. induction H as [| |u sz fs o t k I H IH|t n i k L H IH|t k H IH]; cbn [size]; [lia|lia| | |].
  - apply wf_comp in W. destruct W as [W _]. rewrite Forall_forall in W. destruct (W _ I) as [W1 W2]. cbn in *. specialize (IH W1). lia.
  - destruct W as [W _]. specialize (IH W). nia.
  - exact (IH W).
Qed.
Lemma needs_holds t : wf t -> needs t = true -> exists k, holds t k.
Proof.
  induction t as [| | |u sz fs F|t n IH|t IH] using ty_rect'; intros W N; try discriminate N.
  - exists 0%nat. constructor.
  - exists 0%nat. constructor.
  - rewrite needs_comp in N. apply existsb_exists in N. destruct N as ([o t] & I & N). apply wf_comp in W. destruct W as [W _].
    rewrite Forall_forall in F, W. destruct (F _ I (proj1 (W _ I)) N) as [k H]. exists (o + k)%nat. eapply ho_field; eauto.
  - destruct n as [n|]; [|discriminate N]. destruct W as [W X]. destruct (IH W N) as [k H]. exists (0 * size t + k)%nat. apply ho_elem; [|exact H].
    destruct n; [congruence|lia].
  - destruct (IH W N) as [k H]. exists k. now constructor.
Qed.
Lemma holds_needs t k : holds t k -> needs t = true.
Proof.
  induction 1 as [| |u sz fs o t k I H IH|t n i k L H IH|t k H IH]; auto. rewrite needs_comp. apply existsb_exists. exists (o, t). auto.
Qed.

(* notifications which change nothing *)
Definition emits (ns : list event) (s : st) : st := mkS (vars s) (mem s) (ncall s) (tr s ++ ns).
Lemma eval_emits ns s e : eval (emits ns s) e = eval s e.
Proof. induction e; cbn [eval vars mem]; rewrite ?IHe, ?IHe1, ?IHe2; reflexivity. Qed.
Lemma word_emits ns s l i : word (emits ns s) l i = word s l i.
Proof. destruct l; cbn [word]; [reflexivity|]. now rewrite eval_emits. Qed.
Lemma words_emits ns s l n : words (emits ns s) l n = words s l n.
Proof. apply map_ext. intro. apply word_emits. Qed.
Lemma addr_emits ns s l : addr (emits ns s) l = addr s l.
Proof. destruct l; cbn [addr]; [reflexivity|]. apply eval_emits. Qed.
Lemma emits_emits a b s : emits b (emits a s) = emits (a ++ b) s.
Proof. unfold emits. cbn. now rewrite <- app_assoc. Qed.
Lemma words_nth s l n i v : nth_error (words s l n) i = Some v -> (i < n)%nat /\ v = word s l i.
Proof.
  unfold words. intro H. assert (L : (i < length (map (word s l) (seq 0 n)))%nat) by (apply nth_error_Some; congruence).
  rewrite map_length, seq_length in L. split; [exact L|]. rewrite nth_error_map in H. destruct (nth_error (seq 0 n) i) eqn:E; cbn in H; [|discriminate H].
  apply nth_error_nth with (d := 0%nat) in E. rewrite seq_nth in E by exact L. cbn in E. subst. congruence.
Qed.
Lemma words_at s l n i : (i < n)%nat -> nth_error (words s l n) i = Some (word s l i).
Proof.
  intro L. unfold words. rewrite nth_error_map. rewrite (nth_error_nth' (seq 0 n) 0%nat) by (rewrite seq_length; lia). rewrite seq_nth by lia. reflexivity.
Qed.
Lemma words_len s l n : length (words s l n) = n.
Proof. unfold words. now rewrite map_length, seq_length. Qed.

Lemma due_ext t a g g' ns : wf t -> (forall k, (k < size t)%nat -> g k = g' k) -> due t a g ns -> due t a g' ns.
Proof.
  intros W E [A B C]. constructor; [|intros e I|exact C].
  - intros k H. destruct (A k H) as (e & I & T). exists e. rewrite <- E by (now apply holds_size). auto.
  - destruct (B e I) as (B1 & B2 & B3). repeat split; auto. intros b v T. destruct (B2 b v T) as (k & K1 & K2 & K3). exists k. rewrite <- E by exact K1. auto.
Qed.
Lemma about_range t a g ns e b : due t a g ns -> In e ns -> about b e = true -> a <= b < a + Z.of_nat (size t).
Proof.
  intros [_ B _] I H. destruct (B e I) as (_ & B2 & _).
  assert (X : exists v, tells e b v).
  { destruct e as [? ? ? ?|? ?|d v|d vs]; cbn in H; try discriminate H.
    - exists v. cbn. lia.
    - assert (L : (Z.to_nat (b - d) < length vs)%nat) by lia. destruct (nth_error vs (Z.to_nat (b - d))) as [v|] eqn:En; [|apply nth_error_None in En; lia].
      exists v. exists (Z.to_nat (b - d)). split; [lia|exact En]. }
  destruct X as [v T]. destruct (B2 b v T) as (k & K1 & -> & _). lia.
Qed.
Lemma filter_none {A} (f : A -> bool) l : (forall x, In x l -> f x = false) -> filter f l = [].
Proof. induction l as [|x l IH]; intro H; [reflexivity|]. cbn. rewrite (H x (or_introl eq_refl)). apply IH. intros y I. apply H. now right. Qed.

Section Traps.
Variable w : world.
Hypothesis Q : forall e m, w_note w e m = m.

Lemma note_emits e s : note w e s = emits [e] s.
Proof. unfold note, emit, emits. cbn. now rewrite Q. Qed.

(* the fields of a structure or union *)
Definition fdue (fs : list (nat * ty)) (a : Z) (g : nat -> Z) (ns : list event) : Prop :=
  (forall o t k, In (o, t) fs -> holds t k -> exists e, In e ns /\ tells e (a + Z.of_nat (o + k)) (g (o + k)%nat)) /\
  (forall e, In e ns -> exists o t, In (o, t) fs /\
    (exists k, holds t k /\ about (a + Z.of_nat (o + k)) e = true) /\
    (forall b v, tells e b v -> exists k, (k < size t)%nat /\ b = a + Z.of_nat (o + k) /\ v = g (o + k)%nat) /\
    (forall b v, e = ENote b v -> exists k, holds t k /\ b = a + Z.of_nat (o + k))) /\
  (forall b e, In e ns -> about b e = true -> exists o t, In (o, t) fs /\ a + Z.of_nat o <= b < a + Z.of_nat (o + size t)) /\
  (ForallOrdPairs (fun x y => fst x + size (snd x) <= fst y)%nat fs -> Forall (fun x => nounion (snd x)) fs ->
   forall o t k, In (o, t) fs -> holds t k -> length (filter (about (a + Z.of_nat (o + k))) ns) = 1%nat).

Definition mem_lv (l : lval) : Prop := match l with Mem _ _ _ => True | _ => False end.
Lemma addr_sub s l o t : mem_lv l -> addr s (sub l o t) = addr s l + Z.of_nat o.
Proof. destruct l; cbn; [tauto|reflexivity]. Qed.
Lemma word_sub s l o t i : word s (sub l o t) i = word s l (o + i).
Proof. destruct l; cbn; f_equal; lia. Qed.

Lemma traps_run t : wf t -> forall l r s, mem_lv l ->
  exists ns, Forall is_note ns /\ due t (addr s l) (word s r) ns /\
    forall tail, execs w s (add_traps t l r tail) = execs w (emits ns s) tail.
Proof.
  assert (P1 : forall t, (t = TPtr \/ t = TFun) -> forall l r s, mem_lv l ->
    exists ns, Forall is_note ns /\ due t (addr s l) (word s r) ns /\
      forall tail, execs w s (NotePtr l r :: tail) = execs w (emits ns s) tail).
  { intros u U l r s M. exists [ENote (addr s l) (word s r 0)]. split; [repeat constructor|]. split.
    - assert (Hk : forall k, holds u k -> k = 0%nat) by (intros k Hk; destruct U; subst u; inversion Hk; reflexivity).
      assert (H0 : holds u 0) by (destruct U; subst u; constructor).
      assert (Sz : size u = 1%nat) by (destruct U; subst u; reflexivity).
      constructor.
      + intros k Hh. apply Hk in Hh. subst k. eexists. split; [left; reflexivity|]. cbn. split; [lia|reflexivity].
      + intros e [<-|[]]. split; [exists 0%nat; split; [exact H0|cbn; lia]|]. split.
        * intros b v [-> ->]. exists 0%nat. rewrite Sz. repeat split; lia.
        * intros b v [= <- <-]. exists 0%nat. split; [exact H0|lia].
      + intros _ k Hh. apply Hk in Hh. subst k. cbn [filter about]. replace (addr s l =? addr s l + Z.of_nat 0) with true by lia. reflexivity.
    - intro tail. unfold execs. cbn [fold_left exec1]. now rewrite note_emits. }
  induction t as [| | |u sz fs F|t n IH|t IH] using ty_rect'; intros W l r s M.
  - exists []. split; [constructor|]. split; [|intro; cbn [add_traps]; unfold emits; rewrite app_nil_r; now destruct s].
    constructor; [|intros e []|]; intros; match goal with H : holds TInt _ |- _ => inversion H end.
  - apply P1; auto.
  - apply P1; auto.
  - apply wf_comp in W. destruct W as [W D].
    assert (G : exists ns, Forall is_note ns /\ fdue fs (addr s l) (word s r) ns /\
      forall tail, execs w s (add_traps (TComp u sz fs) l r tail) = execs w (emits ns s) tail).
    { cbn [add_traps]. clear D. induction fs as [|[o t] fs IHf].
      - exists []. split; [constructor|]. split; [|intro; unfold emits; rewrite app_nil_r; now destruct s].
        split; [intros ? ? ? []|]. split; [intros ? []|]. split; [intros ? ? []|intros ? ? ? ? ? []].
      - inversion F as [|? ? Ft Fs]; subst. inversion W as [|? ? Wt Ws]; subst. cbn [fst snd] in Ft, Wt. destruct (IHf Fs Ws) as (nf & Nf & Df & Rf). clear IHf.
        destruct (Ft (proj1 Wt) (sub l o t) (sub r o t) (emits nf s)) as (nt & Nt & Dt & Rt); [destruct l; [destruct M|exact I]|].
        rewrite addr_emits, addr_sub in Dt by exact M.
        assert (Dt' : due t (addr s l + Z.of_nat o) (fun k => word s r (o + k)) nt).
        { eapply due_ext; [exact (proj1 Wt)| |exact Dt]. intros k _. rewrite word_emits. apply word_sub. }
        clear Dt. exists (nf ++ nt). split; [apply Forall_app; auto|]. split.
        + assert (Rg : forall e b, In e nt -> about b e = true -> addr s l + Z.of_nat o <= b < addr s l + Z.of_nat o + Z.of_nat (size t)) by (intros e b; exact (about_range _ _ _ _ e b Dt')). destruct Df as (D1 & D2 & D3 & D4). destruct Dt' as [T1 T2 T3].
          split; [|split; [|split]].
          * intros o' t' k [[= <- <-]|Ii] Hk.
            -- destruct (T1 k Hk) as (e & Ie & Te). exists e. split; [apply in_or_app; auto|]. replace (addr s l + Z.of_nat (o + k)) with (addr s l + Z.of_nat o + Z.of_nat k) by lia. exact Te.
            -- destruct (D1 o' t' k Ii Hk) as (e & Ie & Te). exists e. split; [apply in_or_app; auto|exact Te].
          * intros e Ie. apply in_app_or in Ie. destruct Ie as [Ie|Ie].
            -- destruct (D2 e Ie) as (o' & t' & Ii & X). exists o', t'. split; [now right|exact X].
            -- exists o, t. split; [now left|]. destruct (T2 e Ie) as ((k & K1 & K2) & B2 & B3). split; [|split].
               ++ exists k. split; [exact K1|]. replace (addr s l + Z.of_nat (o + k)) with (addr s l + Z.of_nat o + Z.of_nat k) by lia. exact K2.
               ++ intros b v Tb. destruct (B2 b v Tb) as (j & J1 & J2 & J3). exists j. split; [exact J1|]. split; [lia|exact J3].
               ++ intros b v Eb. destruct (B3 b v Eb) as (j & J1 & J2). exists j. split; [exact J1|lia].
          * intros b e Ie Ab. apply in_app_or in Ie. destruct Ie as [Ie|Ie].
            -- destruct (D3 b e Ie Ab) as (o' & t' & Ii & X). exists o', t'. split; [now right|exact X].
            -- exists o, t. split; [now left|]. pose proof (Rg e b Ie Ab). lia.
          * intros Op Nu o' t' k Ii Hk. inversion Op as [|? ? O1 O2]; subst. inversion Nu as [|? ? U1 U2]; subst. cbn in U1. rewrite Forall_forall in O1, Ws.
            rewrite filter_app, app_length. destruct Ii as [[= <- <-]|Ii].
            -- rewrite (filter_none _ nf).
               ++ replace (addr s l + Z.of_nat (o + k)) with (addr s l + Z.of_nat o + Z.of_nat k) by lia. cbn. exact (T3 U1 k Hk).
               ++ intros e Ie. destruct (about (addr s l + Z.of_nat (o + k)) e) eqn:Ab; [|reflexivity]. destruct (D3 _ e Ie Ab) as (o' & t' & Ii & X).
                  specialize (O1 _ Ii). cbn in O1. pose proof (holds_size t k (proj1 Wt) Hk). lia.
            -- rewrite (filter_none _ nt).
               ++ rewrite (D4 O2 U2 o' t' k Ii Hk). reflexivity.
               ++ intros e Ie. destruct (about (addr s l + Z.of_nat (o' + k)) e) eqn:Ab; [|reflexivity].
                  pose proof (Rg e _ Ie Ab). specialize (O1 _ Ii). cbn in O1. lia.
        + intro tail. rewrite Rf, Rt, emits_emits. reflexivity. }
    destruct G as (ns & N & (D1 & D2 & D3 & D4) & R). exists ns. split; [exact N|]. split; [|exact R]. constructor.
    + intros k H. inversion H; subst. eauto.
    + intros e Ie. destruct (D2 e Ie) as (o & t & Ii & (k & K1 & K2) & B2 & B3). rewrite Forall_forall in W. pose proof (proj2 (W _ Ii)) as Sz. cbn in Sz. split; [|split].
      * exists (o + k)%nat. split; [eapply ho_field; eauto|exact K2].
      * intros b v T. destruct (B2 b v T) as (j & J1 & J2 & J3). exists (o + j)%nat. cbn [size]. repeat split; auto; lia.
      * intros b v Eb. destruct (B3 b v Eb) as (j & J1 & J2). exists (o + j)%nat. split; [eapply ho_field; eauto|exact J2].
    + intros Nu k H. apply nounion_comp in Nu. destruct Nu as [U Nu]. inversion H; subst. eapply D4; eauto.
  - destruct W as [W X]. destruct n as [n|]; [destruct (needs t) eqn:N|].
    + cbn [add_traps]. rewrite N. set (e := ECopy (addr s l) (words s r (n * size t))). exists [e]. split; [repeat constructor|]. split.
      * assert (Wt : wf (TArr t (Some n))) by (split; auto). constructor.
        -- intros k H. exists e. split; [now left|]. exists k. split; [reflexivity|]. apply words_at. exact (holds_size _ _ Wt H).
        -- intros e' [<-|[]]. split; [|split].
           ++ destruct (needs_holds _ Wt N) as [k H]. exists k. split; [exact H|]. unfold e. cbn [about]. rewrite words_len. pose proof (holds_size _ _ Wt H) as L. cbn [size] in L. lia.
           ++ intros b v (i & -> & E). apply words_nth in E. destruct E as [L ->]. exists i. cbn [size]. auto.
           ++ intros b v [=].
        -- intros _ k H. unfold e. cbn [filter about]. rewrite words_len. pose proof (holds_size _ _ Wt H) as L. cbn [size] in L.
           replace (_ && _) with true by lia. reflexivity.
      * intro tail. unfold execs. cbn [fold_left exec1]. now rewrite note_emits.
    + cbn [add_traps]. rewrite N. exists []. split; [constructor|]. split; [|intro; unfold emits; rewrite app_nil_r; now destruct s].
      constructor; [|intros e []|]; intros; match goal with H : holds _ _ |- _ => apply holds_needs in H; cbn in H; congruence end.
    + exists []. split; [constructor|]. split; [|intro; cbn [add_traps]; unfold emits; rewrite app_nil_r; now destruct s].
      constructor; [|intros e []|]; intros; match goal with H : holds _ _ |- _ => inversion H end.
  - destruct (IH W l r s M) as (ns & N & [D1 D2 D3] & R). exists ns. split; [exact N|]. split; [|exact R]. constructor.
    + intros k H. inversion H; subst. eauto.
    + intros e Ie. destruct (D2 e Ie) as ((k & K1 & K2) & B2 & B3). split; [exists k; split; [now constructor|exact K2]|]. split; [exact B2|].
      intros b v Eb. destruct (B3 b v Eb) as (j & J1 & J2). exists j. split; [now constructor|exact J2].
    + intros Nu k H. inversion H; subst. eauto.
Qed.

(* ---- the simulation *)
Variable n0 : var.
Record sim (s s' : st) : Prop := {
  si_vars : forall v i, (v < n0)%nat -> vars s' v i = vars s v i;
  si_mem : mem s' = mem s;
  si_ncall : ncall s' = ncall s;
  si_tr : announced (tr s) (tr s') }.

Lemma eval_sim s s' e : sim s s' -> ebelow n0 e -> eval s' e = eval s e.
Proof. intros [V M _ _]. induction e; cbn; intro B; try tauto; [now apply V| | |]; rewrite ?M, ?IHe1, ?IHe2, ?IHe by tauto; reflexivity. Qed.
Lemma word_sim s s' l i : sim s s' -> lbelow n0 l -> word s' l i = word s l i.
Proof. intros S [_ B]. destruct l; cbn; [now apply (si_vars _ _ S)|]. now rewrite (si_mem _ _ S), (eval_sim _ _ _ S B). Qed.
Lemma words_sim s s' l n : sim s s' -> lbelow n0 l -> words s' l n = words s l n.
Proof. intros S B. apply map_ext. intro. now apply word_sim. Qed.
Lemma evals_sim s s' l : sim s s' -> Forall (ebelow n0) l -> map (eval s') l = map (eval s) l.
Proof. intros S. induction 1 as [|e l B F IH]; cbn; [reflexivity|]. now rewrite (eval_sim _ _ _ S B), IH. Qed.
Lemma announced_app a a' b b' : announced a a' -> announced b b' -> announced (a ++ b) (a' ++ b').
Proof.
  intros A B. induction A as [|x t vs l l' A IH|e l l' X A IH|x t vs ns l l' N D A IH]; cbn; [exact B|now constructor|now constructor|].
  rewrite <- app_assoc. now apply an_store.
Qed.
Lemma one_other e : (forall b a t vs, e <> EStore b a t vs) -> announced [e] [e].
Proof. intro. apply an_other; [assumption|constructor]. Qed.

(* a store with no notifications due *)
Lemma due_none t a g : needs t = false -> due t a g [].
Proof. intro N. constructor; [|intros e []|]; intros; match goal with H : holds _ _ |- _ => apply holds_needs in H; congruence end. Qed.
Lemma store_sim s s' l vs ns : sim s s' -> lbelow n0 l -> Forall is_note ns ->
  (match l with Mem false a t => due t (eval s a) (fun k => nth k vs 0) ns | _ => ns = [] end) ->
  sim (store l vs s) (store l vs (emits ns s')).
Proof.
  intros S B N D. destruct l as [v k t|b a t].
  - subst ns. destruct S as [V M C T]. constructor; cbn; auto; [|now rewrite app_nil_r]. intros u i L. destruct (_ && _); [reflexivity|now apply V].
  - assert (E := eval_sim _ _ _ S (proj2 B)). cbn [store]. rewrite eval_emits, E. destruct S as [V M C T]. constructor; cbn; auto; [now rewrite M|].
    destruct b.
    + subst ns. rewrite app_nil_r. apply announced_app; [exact T|]. repeat constructor.
    + rewrite <- app_assoc. apply announced_app; [exact T|]. apply an_store; [exact N|exact D|constructor].
Qed.
Lemma store_quiet s s' l vs : sim s s' -> lbelow n0 l -> lv_needs l = false -> sim (store l vs s) (store l vs s').
Proof.
  intros S B Qu. replace s' with (emits [] s') by (unfold emits; rewrite app_nil_r; now destruct s'). apply store_sim; auto.
  destruct l as [|[] a t]; auto. now apply due_none.
Qed.
Lemma nth_words s r n k : (k < n)%nat -> nth k (words s r n) 0 = word s r k.
Proof. intro L. apply nth_error_nth. now apply words_at. Qed.

(* the trapped store of an lvalue whose words are those stored before *)
Lemma trapped s s' l r : sim s s' -> lbelow n0 l -> lv_needs l = true ->
  sim (store l (words s' r (size (lty l))) s) (execs w s' (add_traps (lty l) l r [Set_ l (RLval r)])).
Proof.
  intros S B N. destruct l as [|[] a t]; try discriminate N. cbn [lty].
  destruct (traps_run t (proj1 B) (Mem false a t) r s' I) as (ns & Nn & D & R). rewrite R. unfold execs. cbn [fold_left exec1 lty].
  rewrite words_emits. apply store_sim; auto. cbn [addr] in D. rewrite <- (eval_sim _ _ _ S (proj2 B)).
  eapply due_ext; [exact (proj1 B)| |exact D]. intros k L. now rewrite nth_words.
Qed.

Lemma vinst_sim n i s s' : (n0 <= n)%nat -> ibelow n0 i -> sim s s' ->
  (n0 <= fst (vinst n i))%nat /\ sim (exec1 w s i) (execs w s' (snd (vinst n i))).
Proof.
  intros L B S. destruct i as [l [r|e]|[l|] f args|l r|l r k]; cbn [vinst].
  - destruct B as [Bl Br]. destruct (lv_needs l) eqn:N; cbn [fst snd]; (split; [exact L|]).
    + cbn [exec1]. rewrite <- (words_sim _ _ _ _ S Br). apply trapped; auto.
    + unfold execs. cbn [fold_left exec1]. rewrite (words_sim _ _ _ _ S Br). now apply store_quiet.
  - destruct B as (Bl & Be & Sz). destruct (lv_needs l) eqn:N; cbn [fst snd].
    + split; [lia|]. unfold execs. cbn [fold_left]. fold (execs w). set (s1 := exec1 w s' (Set_ (Loc n 0 (lty l)) (RVal e))).
      assert (S1 : sim s s1).
      { destruct S as [V M C T]. constructor; cbn; auto. intros v i Lv. replace (Nat.eqb v n) with false by lia. cbn. now apply V. }
      assert (Wd : words s1 (Loc n 0 (lty l)) (size (lty l)) = [eval s e]).
      { rewrite Sz. unfold words. cbn [seq map]. f_equal. subst s1. cbn [exec1 store word vars length]. rewrite Nat.eqb_refl. cbn. exact (eval_sim _ _ _ S Be). }
      cbn [exec1]. rewrite <- Wd. apply trapped; auto.
    + split; [exact L|]. unfold execs. cbn [fold_left exec1]. rewrite (eval_sim _ _ _ S Be). now apply store_quiet.
  - destruct B as (Bl & Ba).
    assert (S1 : sim (exec1 w s (Call None f args)) (exec1 w s' (Call None f args))).
    { assert (Ea := evals_sim _ _ _ S Ba). destruct S as [V M C T]. constructor; cbn; auto; [now rewrite C, M|]. rewrite Ea. apply announced_app; [exact T|]. apply one_other. intros ? ? ? ? [=]. }
    destruct (lv_needs l) eqn:N; cbn [fst snd].
    + split; [lia|]. unfold execs. cbn [fold_left]. fold (execs w). set (s2 := exec1 w s' (Call (Some (Loc n 0 (lty l))) f args)).
      assert (S2 : sim (exec1 w s (Call None f args)) s2).
      { destruct S1 as [V M C T]. constructor; auto. intros v i Lv. cbn. replace (Nat.eqb v n) with false by lia. cbn. now apply V. }
      assert (Wd : words s2 (Loc n 0 (lty l)) (size (lty l)) = map (w_ret w (ncall s)) (seq 0 (size (lty l)))).
      { unfold words. apply map_ext_in. intros i Ii. apply in_seq in Ii. subst s2. cbn [exec1 store word vars lty]. rewrite Nat.eqb_refl, map_length, seq_length.
        replace (_ && _ && _) with true by lia. rewrite Nat.add_0_l, Nat.sub_0_r. rewrite (si_ncall _ _ S).
        rewrite nth_indep with (d' := w_ret w (ncall s) 0%nat) by (rewrite map_length, seq_length; lia). rewrite map_nth, seq_nth by lia. reflexivity. }
      change (exec1 w s (Call (Some l) f args)) with (store l (map (w_ret w (ncall s)) (seq 0 (size (lty l)))) (exec1 w s (Call None f args))).
      rewrite <- Wd. apply trapped; auto.
    + split; [exact L|]. unfold execs. cbn [fold_left].
      change (exec1 w s (Call (Some l) f args)) with (store l (map (w_ret w (ncall s)) (seq 0 (size (lty l)))) (exec1 w s (Call None f args))).
      change (exec1 w s' (Call (Some l) f args)) with (store l (map (w_ret w (ncall s')) (seq 0 (size (lty l)))) (exec1 w s' (Call None f args))).
      rewrite (si_ncall _ _ S). now apply store_quiet.
  - destruct B as (_ & Ba). cbn [fst snd]. split; [exact L|]. unfold execs. cbn [fold_left].
    assert (Ea := evals_sim _ _ _ S Ba). destruct S as [V M C T]. constructor; cbn; auto; [now rewrite C, M|]. rewrite Ea. apply announced_app; [exact T|]. apply one_other. intros ? ? ? ? [=].
  - destruct B as [Bl Br]. cbn [fst snd]. split; [exact L|]. unfold execs. cbn [fold_left exec1]. rewrite !note_emits.
    assert (Ea : addr s' l = addr s l) by (destruct l; [reflexivity|exact (eval_sim _ _ _ S (proj2 Bl))]). rewrite Ea, (word_sim _ _ _ _ S Br).
    destruct S as [V M C T]. constructor; cbn; auto. apply announced_app; [exact T|]. apply one_other. intros ? ? ? ? [=].
  - destruct B as [Bl Br]. cbn [fst snd]. split; [exact L|]. unfold execs. cbn [fold_left exec1]. rewrite !note_emits.
    assert (Ea : addr s' l = addr s l) by (destruct l; [reflexivity|exact (eval_sim _ _ _ S (proj2 Bl))]). rewrite Ea, (words_sim _ _ _ _ S Br).
    destruct S as [V M C T]. constructor; cbn; auto. apply announced_app; [exact T|]. apply one_other. intros ? ? ? ? [=].
Qed.
Lemma vinsts_sim l : forall n s s', (n0 <= n)%nat -> Forall (ibelow n0) l -> sim s s' ->
  (n0 <= fst (vinsts n l))%nat /\ sim (execs w s l) (execs w s' (snd (vinsts n l))).
Proof.
  induction l as [|i l IH]; intros n s s' L B S; [split; [exact L|exact S]|]. inversion B as [|? ? B1 B2]; subst. cbn [vinsts].
  destruct (vinst_sim n i s s' L B1 S) as [L1 S1]. destruct (vinst n i) as [n1 a]. cbn [fst snd] in *.
  destruct (IH n1 _ _ L1 B2 S1) as [L2 S2]. destruct (vinsts n1 l) as [n2 b]. cbn [fst snd] in *. split; [exact L2|].
  unfold execs in *. rewrite fold_left_app. exact S2.
Qed.
Lemma vstmt_le c : forall n, (n <= fst (vstmt n c))%nat.
Proof.
  assert (I1 : forall i n, (n <= fst (vinst n i))%nat) by (intros [l [r|e]|[l|] f args|l r|l r k] n; cbn [vinst]; try destruct (lv_needs l); cbn; lia).
  induction c as [|l|a IHa b IHb|e a IHa b IHb|a IHa| |e]; intro n; cbn [vstmt]; try (cbn; lia).
  - assert (H : forall l n, (n <= fst (vinsts n l))%nat).
    { induction l0 as [|i l0 IH]; intro m; [cbn; lia|]. cbn [vinsts]. specialize (I1 i m). destruct (vinst m i) as [m1 x]. specialize (IH m1). destruct (vinsts m1 l0). cbn in *. lia. }
    specialize (H l n). destruct (vinsts n l). exact H.
  - specialize (IHa n). destruct (vstmt n a) as [n1 a']. specialize (IHb n1). destruct (vstmt n1 b). cbn in *. lia.
  - specialize (IHa n). destruct (vstmt n a) as [n1 a']. specialize (IHb n1). destruct (vstmt n1 b). cbn in *. lia.
  - specialize (IHa n). destruct (vstmt n a). exact IHa.
Qed.
Definition same (r r' : option (out * st)) : Prop :=
  match r, r' with
  | None, None => True
  | Some (o, s), Some (o', s') => o = o' /\ sim s s'
  | _, _ => False
  end.
Lemma exec_sim f : forall c n s s', (n0 <= n)%nat -> sbelow n0 c -> sim s s' -> same (exec w f s c) (exec w f s' (snd (vstmt n c))).
Proof.
  induction f as [|f IH]; intros c n s s' L B S; [exact I|]. destruct c as [|l|a b|e a b|a| |e]; cbn [vstmt snd].
  - cbn. auto.
  - destruct (vinsts_sim l n s s' L B S) as [_ X]. destruct (vinsts n l) as [n1 l']. cbn in *. auto.
  - destruct B as [Ba Bb]. pose proof (vstmt_le a n) as L1. pose proof (IH a n s s' L Ba S) as H1. destruct (vstmt n a) as [n1 a']. cbn [fst snd] in *.
    assert (H2 : forall s s', sim s s' -> same (exec w f s b) (exec w f s' (snd (vstmt n1 b)))) by (intros; apply IH; auto; lia).
    destruct (vstmt n1 b) as [n2 b']. cbn [snd exec] in *. destruct (exec w f s a) as [[o t]|], (exec w f s' a') as [[o' t']|]; cbn in H1; try tauto.
    destruct H1 as [<- S1]. destruct o; cbn; auto.
  - destruct B as (Be & Ba & Bb). pose proof (vstmt_le a n) as L1. pose proof (IH a n s s' L Ba S) as H1. destruct (vstmt n a) as [n1 a']. cbn [fst snd] in *.
    pose proof (IH b n1 s s' ltac:(lia) Bb S) as H2. destruct (vstmt n1 b) as [n2 b']. cbn [snd exec] in *. rewrite (eval_sim _ _ _ S Be). destruct (_ =? 0); auto.
  - pose proof (IH a n s s' L B S) as H1. assert (H2 : forall s s', sim s s' -> same (exec w f s (Loop a)) (exec w f s' (snd (vstmt n (Loop a))))) by (intros; apply IH; auto).
    cbn [vstmt] in H2. destruct (vstmt n a) as [n1 a']. cbn [snd exec] in *. destruct (exec w f s a) as [[o t]|], (exec w f s' a') as [[o' t']|]; cbn in H1; try tauto.
    destruct H1 as [<- S1]. destruct o; cbn; auto.
  - cbn. auto.
  - cbn. rewrite (eval_sim _ _ _ S B). auto.
Qed.
End Traps.
