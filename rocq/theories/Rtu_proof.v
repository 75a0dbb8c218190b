(* Proofs about the built-in types. *)
From Verif Require Import Base Intern_model Rtu_model Rtu_spec.

Lemma eqs_iff : forall a b, eqs a b = true <-> a = b.
Proof.
  induction a as [|x a IH]; destruct b as [|y b]; cbn [eqs]; try (split; [discriminate|discriminate]); try (split; reflexivity).
  rewrite andb_true_iff, IH, Ascii.eqb_eq. split; [intros [-> ->]; reflexivity|intro H; injection H; auto].
Qed.

Lemma rfind_some : forall s w k i, rfind s w k = Some i ->
  (k <= i)%nat /\ (exists t, nth_error w (i - k) = Some t /\ r_sym t = s) /\
  forall j t, (j < i - k)%nat -> nth_error w j = Some t -> r_sym t <> s.
Proof.
  induction w as [|t w IH]; intros k i H; [discriminate|]. cbn [rfind] in H.
  destruct (eqs (r_sym t) s) eqn:E.
  - injection H as <-. replace (k - k)%nat with O by lia. split; [lia|]. split; [exists t; split; [reflexivity|apply eqs_iff; exact E]|].
    intros j u Hj. lia.
  - destruct (IH _ _ H) as (A & (u & U1 & U2) & B). split; [lia|]. replace (i - k)%nat with (S (i - S k)) by lia. split; [exists u; auto|].
    intros j v Hj Hv. destruct j; [injection Hv as <-; intro X; apply eqs_iff in X; congruence|]. apply (B j); [lia|exact Hv].
Qed.
Lemma rfind_none : forall s w k, rfind s w k = None -> unnamed w s.
Proof.
  induction w as [|t w IH]; intros k H u Hu; [destruct Hu|]. cbn [rfind] in H.
  destruct (eqs (r_sym t) s) eqn:E; [discriminate|]. destruct Hu as [<-|Hu]; [intro X; apply eqs_iff in X; congruence|]. exact (IH _ H u Hu).
Qed.
Lemma rdlsym_iff w s i : rdlsym w s = Some i <-> first_named w s i.
Proof.
  split.
  - intro H. destruct (rfind_some _ _ _ _ H) as (_ & A & B). replace (i - 0)%nat with i in * by lia. split; assumption.
  - intros [(t & A1 & A2) B]. unfold rdlsym. destruct (rfind s w 0) as [j|] eqn:E.
    + destruct (rfind_some _ _ _ _ E) as (_ & (u & U1 & U2) & C). replace (j - 0)%nat with j in * by lia.
      destruct (Nat.lt_trichotomy i j) as [X|[->|X]]; [|reflexivity|].
      * exfalso. exact (C i t X A1 A2).
      * exfalso. exact (B j u X U1 U2).
    + exfalso. exact (rfind_none _ _ _ E t (nth_error_In _ _ A1) A2).
Qed.
Lemma rdlsym_none w s : rdlsym w s = None -> unnamed w s.
Proof. apply rfind_none. Qed.

Lemma filled_refl t : filled t t.
Proof. repeat split; auto. induction (r_rel t); constructor; auto. Qed.
Lemma filled_trans a b c : filled a b -> filled b c -> filled a c.
Proof.
  intros (A1 & A2 & A3 & A4) (B1 & B2 & B3 & B4). repeat split; try congruence.
  revert B4. generalize (r_rel c). induction A4 as [|x y l l' X Y IH]; intros m B4; inversion B4; subst; constructor; auto.
  destruct X as [X|X]; [auto|]. subst y. tauto.
Qed.
Lemma kept_refl w : kept w w.
Proof. intros i t H. exists t. split; [exact H|apply filled_refl]. Qed.
Lemma kept_trans a b c : kept a b -> kept b c -> kept a c.
Proof. intros X Y i t H. destruct (X i t H) as (u & U & V). destruct (Y i u U) as (v & P & Q). exists v. split; [exact P|]. eapply filled_trans; eauto. Qed.
Lemma kept_app w l : kept w (w ++ l).
Proof. intros i t H. exists t. split; [|apply filled_refl]. rewrite nth_error_app1; [exact H|]. apply nth_error_Some. congruence. Qed.
Lemma kept_length w w' : kept w w' -> (length w <= length w')%nat.
Proof.
  intro K. destruct (Nat.le_gt_cases (length w) (length w')) as [|G]; [assumption|]. exfalso.
  destruct (nth_error w (length w')) as [t|] eqn:E; [|apply nth_error_None in E; lia].
  destruct (K _ _ E) as (u & U & _). assert (nth_error w' (length w') = None) by (apply nth_error_None; lia). congruence.
Qed.
Lemma kept_first w w' s i : kept w w' -> first_named w s i -> first_named w' s i.
Proof.
  intros K [(t & A & B) C]. destruct (K _ _ A) as (u & U & V). split; [exists u; split; [exact U|destruct V; congruence]|].
  intros j v Hj Hv. assert (exists x, nth_error w j = Some x) as (x & X).
  { destruct (nth_error w j) eqn:E; [eauto|]. apply nth_error_None in E. assert (nth_error w i <> None) by congruence. apply nth_error_Some in H. lia. }
  destruct (K _ _ X) as (y & Y & Z). rewrite Hv in Y. injection Y as <-. destruct Z as [Z _]. rewrite Z. exact (C j x Hj X).
Qed.

Lemma upd_same : forall w i t, (i < length w)%nat -> nth_error (upd_nth w i t) i = Some t.
Proof. induction w; intros i t H; [cbn in H; lia|]. destruct i; cbn; [reflexivity|]. apply IHw. cbn in H. lia. Qed.
Lemma upd_other : forall w i t j, j <> i -> nth_error (upd_nth w i t) j = nth_error w j.
Proof. induction w; intros i t j H; [destruct i, j; reflexivity|]. destruct i, j; cbn; try reflexivity; try contradiction. apply IHw. lia. Qed.
Lemma upd_length : forall w i t, length (upd_nth w i t) = length w.
Proof. induction w; intros i t; [reflexivity|]. destruct i; cbn; [reflexivity|]. f_equal. apply IHw. Qed.
Lemma kept_upd w i t t' : nth_error w i = Some t -> filled t t' -> kept w (upd_nth w i t').
Proof.
  intros H F j u Hu. destruct (Nat.eq_dec j i) as [->|N].
  - rewrite H in Hu. injection Hu as <-. exists t'. split; [apply upd_same; apply nth_error_Some; congruence|exact F].
  - exists u. split; [rewrite upd_other; auto|apply filled_refl].
Qed.

Lemma veqb_iff a b : veqb a b = true <-> a = b.
Proof. destruct a, b; cbn; split; congruence. Qed.
Lemma set_same e v x : set_v e v x v = x.
Proof. unfold set_v. destruct (veqb v v) eqn:E; [reflexivity|]. assert (veqb v v = true) by (apply veqb_iff; reflexivity). congruence. Qed.
Lemma set_other e v x u : u <> v -> set_v e v x u = e u.
Proof. intro N. unfold set_v. destruct (veqb u v) eqn:E; [apply veqb_iff in E; contradiction|reflexivity]. Qed.

(* ------------------------------------------------------------ the invariant *)
Record es := mkEs { s_v : var; s_look : str; s_bind : str; s_size : Z; s_kind : rkind; s_nrel : nat; s_rel : list var }.
Definition ensure (s : es) : rstep := Ensure (s_v s) (s_look s) (s_bind s) (s_size s) (s_kind s) (s_nrel s) (s_rel s).

Definition made (e : env) (s : es) (t : rt) : Prop :=
  r_sym t = s_bind s /\ as_said e (s_size s) (s_kind s) (s_rel s) t /\ (s_nrel s <= length (r_rel t))%nat.
Definition stays (done : list es) (e e' : env) : Prop := forall s, In s done -> e' (s_v s) = e (s_v s).

Record Inv (w0 : rworld) (done : list es) (w : rworld) (e : env) : Prop := {
  i_kept : kept w0 w;
  i_rel : forall s u, In s done -> In u (s_rel s) -> exists s', In s' done /\ s_v s' = u;
  i_new : forall i t, (length w0 <= i)%nat -> nth_error w i = Some t -> exists s, In s done /\ unnamed w0 (s_look s) /\ made e s t;
  i_done : forall s, In s done -> exists i t, e (s_v s) = Some i /\ nth_error w i = Some t /\
     (s_look s = s_bind s -> first_named w (s_look s) i) /\
     (first_named w0 (s_look s) i \/ (unnamed w0 (s_look s) /\ (length w0 <= i)%nat /\ made e s t)) }.

(* what each step asks of those before it *)
Definition ok_ensure (done : list es) (s : es) : Prop :=
  Forall (fun s' => s_bind s' <> s_look s \/ s' = s) done /\
  Forall (fun s' => s_v s' <> s_v s \/ (s' = s /\ s_look s = s_bind s)) done /\
  Forall (fun u => exists s', In s' done /\ s_v s' = u) (s_rel s) /\ (length (s_rel s) <= s_nrel s)%nat.

Lemma as_said_filled e e' size k rel t t' :
  (forall u, In u rel -> e' u = e u) -> filled t t' -> as_said e size k rel t -> as_said e' size k rel t'.
Proof.
  intros He (F1 & F2 & F3 & F4) (A & B & C). split; [congruence|]. split; [congruence|].
  intros j u Hu. destruct (C j u Hu) as (x & o & X & Y). exists x, o. split; [rewrite He; [exact X|eapply nth_error_In; eauto]|].
  clear - Y F4. revert j Y. induction F4 as [|a b l l' [H|H] _ IH]; intros j Y; [destruct j; discriminate| |].
  - destruct j; cbn in *; [injection Y as ->; discriminate|auto].
  - destruct j; cbn in *; [congruence|auto].
Qed.
Lemma F2_length {A B} (P : A -> B -> Prop) l l' : Forall2 P l l' -> length l = length l'.
Proof. induction 1; cbn; congruence. Qed.
Lemma made_filled e e' s t t' : (forall u, In u (s_rel s) -> e' u = e u) -> filled t t' -> made e s t -> made e' s t'.
Proof.
  intros He F (A & B & C). split; [destruct F; congruence|]. split; [eapply as_said_filled; eauto|].
  destruct F as (_ & _ & _ & F). apply F2_length in F. lia.
Qed.

Lemma rel_stays w0 done w e e' s : Inv w0 done w e -> stays done e e' -> In s done -> forall u, In u (s_rel s) -> e' u = e u.
Proof. intros I St Hs u Hu. destruct (i_rel _ _ _ _ I s u Hs Hu) as (s' & A & <-). apply St; exact A. Qed.

Lemma first_split w0 w s i : kept w0 w -> first_named w s i -> (i < length w0)%nat -> first_named w0 s i.
Proof.
  intros K [(t & A & B) C] Hi. split.
  - destruct (nth_error w0 i) as [u|] eqn:E; [|apply nth_error_None in E; lia]. exists u. split; [reflexivity|].
    destruct (K _ _ E) as (u' & U & V). rewrite A in U. injection U as <-. destruct V; congruence.
  - intros j u Hj Hu. destruct (K _ _ Hu) as (u' & U & V). specialize (C j u' Hj U). destruct V; congruence.
Qed.
Lemma first_later w0 w s i : kept w0 w -> first_named w s i -> (length w0 <= i)%nat -> unnamed w0 s.
Proof.
  intros K [_ C] Hi t Ht. apply In_nth_error in Ht. destruct Ht as (j & Hj). destruct (K _ _ Hj) as (u & U & V).
  assert (nth_error w0 j <> None) by congruence. apply nth_error_Some in H. specialize (C j u ltac:(lia) U). destruct V; congruence.
Qed.
Lemma relate_said e rel nrel : (forall u, In u rel -> exists x, e u = Some x) ->
  forall j u, nth_error rel j = Some u -> exists x o, e u = Some x /\ nth_error (relate e nrel rel) j = Some (o, Some x).
Proof.
  intros H j u Hu. destruct (H u (nth_error_In _ _ Hu)) as (x & X). exists x, 0. split; [exact X|]. unfold relate.
  rewrite nth_error_app1 by (rewrite map_length; apply nth_error_Some; congruence). rewrite nth_error_map, Hu. cbn. rewrite X. reflexivity.
Qed.

Lemma ensure_inv w0 done w e s : Inv w0 done w e -> ok_ensure done s ->
  exists w' e', rstep1 (w, e) (ensure s) = Ok (w', e') /\ Inv w0 (s :: done) w' e'.
Proof.
  intros I (O1 & O2 & O3 & O4). rewrite Forall_forall in O1, O2, O3. unfold ensure. cbn [rstep1].
  assert (St : forall i, (s_look s = s_bind s -> first_named w (s_look s) i \/ ~ (exists s', In s' done /\ s_v s' = s_v s)) ->
                 (forall s', In s' done -> s_v s' = s_v s -> s_look s = s_bind s -> first_named w (s_look s) i) -> stays done e (set_v e (s_v s) (Some i))).
  { intros i _ Hi s' Hs'. destruct (veqb (s_v s') (s_v s)) eqn:E.
    - apply veqb_iff in E. rewrite E, set_same. destruct (O2 s' Hs') as [X|[X Y]]; [contradiction|]. subst s'.
      destruct (i_done _ _ _ _ I s Hs') as (j & t & A & B & C & _). rewrite A. f_equal.
      specialize (C Y). specialize (Hi s Hs' eq_refl Y). apply rdlsym_iff in C. apply rdlsym_iff in Hi. congruence.
    - apply set_other. intro X. apply veqb_iff in X. congruence. }
  assert (Bd : forall u, In u (s_rel s) -> exists x, e u = Some x).
  { intros u Hu. destruct (O3 u Hu) as (s' & A & <-). destruct (i_done _ _ _ _ I s' A) as (i & t & B & _). eauto. }
  assert (Rl : forall s' u, In s' (s :: done) -> In u (s_rel s') -> exists s'', In s'' (s :: done) /\ s_v s'' = u).
  { intros s' u [<-|Hs'] Hu; [destruct (O3 u Hu) as (x & X & Y)|destruct (i_rel _ _ _ _ I s' u Hs' Hu) as (x & X & Y)]; exists x; split; [right; exact X|exact Y|right; exact X|exact Y]. }
  destruct (rdlsym w (s_look s)) as [i|] eqn:E.
  - (* found *)
    apply rdlsym_iff in E. set (e' := set_v e (s_v s) (Some i)).
    assert (S1 : stays done e e') by (apply St; intros; try left; exact E).
    exists w, e'. split; [reflexivity|].
    assert (Sr : forall u, In u (s_rel s) -> e' u = e u).
    { intros u Hu. destruct (O3 u Hu) as (s' & A & <-). apply S1; exact A. }
    constructor.
    + exact (i_kept _ _ _ _ I).
    + exact Rl.
    + intros j t Hj Ht. destruct (i_new _ _ _ _ I j t Hj Ht) as (s' & A & B & C). exists s'. split; [right; exact A|]. split; [exact B|].
      eapply made_filled; [|apply filled_refl|exact C]. eapply rel_stays; eauto.
    + intros s' [<-|Hs'].
      * pose proof E as E'. destruct E' as [(t & A & B) _]. exists i, t. split; [apply set_same|]. split; [exact A|]. split; [intros _; exact E|].
        destruct (Nat.lt_ge_cases i (length w0)) as [X|X].
        -- left. exact (first_split _ _ _ _ (i_kept _ _ _ _ I) E X).
        -- right. split; [exact (first_later _ _ _ _ (i_kept _ _ _ _ I) E X)|]. split; [exact X|].
           destruct (i_new _ _ _ _ I i t X A) as (s1 & M1 & M2 & M3). destruct (O1 s1 M1) as [N|N]; [exfalso; apply N; destruct M3; congruence|].
           subst s1. eapply made_filled; [exact Sr|apply filled_refl|exact M3].
      * destruct (i_done _ _ _ _ I s' Hs') as (j & t & A & B & C & D). exists j, t. split; [rewrite S1; assumption|]. split; [exact B|]. split; [exact C|].
        destruct D as [D|(D1 & D2 & D3)]; [left; exact D|right]. split; [exact D1|]. split; [exact D2|].
        eapply made_filled; [|apply filled_refl|exact D3]. eapply rel_stays; eauto.
  - (* made *)
    apply rdlsym_none in E. set (t0 := mkRt (s_bind s) (s_size s) (s_kind s) (relate e (s_nrel s) (s_rel s))). set (e' := set_v e (s_v s) (Some (length w))).
    assert (S1 : stays done e e').
    { intros s' Hs'. destruct (O2 s' Hs') as [X|[X Y]]; [apply set_other; exact X|]. subst s'.
      destruct (i_done _ _ _ _ I s Hs') as (j & t & A & B & C & _). destruct (C Y) as [(u & U1 & U2) _]. exfalso. exact (E u (nth_error_In _ _ U1) U2). }
    assert (Sr : forall u, In u (s_rel s) -> e' u = e u).
    { intros u Hu. destruct (O3 u Hu) as (s' & A & <-). apply S1; exact A. }
    exists (w ++ [t0]), e'. split; [reflexivity|].
    assert (K : kept w (w ++ [t0])) by apply kept_app.
    assert (U0 : unnamed w0 (s_look s)).
    { intros t Ht. apply In_nth_error in Ht. destruct Ht as (j & Hj). destruct (i_kept _ _ _ _ I _ _ Hj) as (u & U & V).
      specialize (E u (nth_error_In _ _ U)). destruct V; congruence. }
    assert (M0 : made e' s t0).
    { split; [reflexivity|]. split; [split; [reflexivity|split; [reflexivity|]]|].
      - intros j u Hu. destruct (relate_said e (s_rel s) (s_nrel s) Bd j u Hu) as (x & o & X & Y). exists x, o. split; [|exact Y].
        rewrite Sr; [exact X|eapply nth_error_In; eauto].
      - unfold t0, relate. cbn [r_rel]. rewrite app_length, map_length, repeat_length. lia. }
    assert (Nth : nth_error (w ++ [t0]) (length w) = Some t0) by (rewrite nth_error_app2, Nat.sub_diag by lia; reflexivity).
    constructor.
    + eapply kept_trans; [exact (i_kept _ _ _ _ I)|exact K].
    + exact Rl.
    + intros j t Hj Ht. destruct (Nat.lt_ge_cases j (length w)) as [X|X].
      * rewrite nth_error_app1 in Ht by exact X. destruct (i_new _ _ _ _ I j t Hj Ht) as (s' & A & B & C). exists s'. split; [right; exact A|]. split; [exact B|].
        eapply made_filled; [|apply filled_refl|exact C]. eapply rel_stays; eauto.
      * assert (j = length w). { assert (nth_error (w ++ [t0]) j <> None) by congruence. apply nth_error_Some in H. rewrite app_length in H. cbn in H. lia. }
        subst j. rewrite Nth in Ht. injection Ht as <-. exists s. split; [left; reflexivity|]. split; [exact U0|exact M0].
    + intros s' [<-|Hs'].
      * exists (length w), t0. split; [apply set_same|]. split; [exact Nth|]. split.
        -- intro Y. split; [exists t0; split; [exact Nth|rewrite Y; reflexivity]|]. intros j u Hj Hu. rewrite nth_error_app1 in Hu by exact Hj.
           exact (E u (nth_error_In _ _ Hu)).
        -- right. split; [exact U0|]. split; [exact (kept_length _ _ (i_kept _ _ _ _ I))|exact M0].
      * destruct (i_done _ _ _ _ I s' Hs') as (j & t & A & B & C & D). exists j, t. split; [rewrite S1; assumption|].
        split; [rewrite nth_error_app1; [exact B|apply nth_error_Some; congruence]|]. split; [intro Y; eapply kept_first; eauto|].
        destruct D as [D|(D1 & D2 & D3)]; [left; exact D|right]. split; [exact D1|]. split; [exact D2|].
        eapply made_filled; [|apply filled_refl|exact D3]. eapply rel_stays; eauto.
Qed.

Lemma fill_inv w0 done w e sa sb : Inv w0 done w e -> In sa done -> In sb done -> (1 <= s_nrel sa)%nat ->
  (forall t, In t w0 -> r_sym t = s_look sa -> r_rel t <> []) ->
  exists w', rstep1 (w, e) (Fill (s_v sa) (s_v sb)) = Ok (w', e) /\ Inv w0 done w' e /\
    exists i t o x, e (s_v sa) = Some i /\ nth_error w' i = Some t /\ nth_error (r_rel t) 0 = Some (o, Some x).
Proof.
  intros I Ha Hb Hn Hr. cbn [rstep1]. destruct (i_done _ _ _ _ I sa Ha) as (i & t & A & B & C & D).
  destruct (i_done _ _ _ _ I sb Hb) as (ib & tb & Ab & _). rewrite A, B.
  assert (NE : r_rel t <> []).
  { destruct D as [F|(_ & _ & (_ & _ & M))].
    - destruct F as [(t1 & F1 & F2) _]. destruct (i_kept _ _ _ _ I _ _ F1) as (t2 & T1 & T2). rewrite B in T1. injection T1 as <-.
      pose proof (Hr t1 (nth_error_In _ _ F1) F2) as R1. destruct T2 as (_ & _ & _ & T2). intro X. rewrite X in T2. inversion T2; congruence.
    - intro X. rewrite X in M. cbn in M. lia. }
  destruct (r_rel t) as [|(o, x) rest] eqn:R1; [contradiction|]. destruct x as [x|].
  - exists w. split; [reflexivity|]. split; [exact I|]. exists i, t, o, x. repeat split; auto. rewrite R1. reflexivity.
  - assert (F : filled t (set_rel0 t (e (s_v sb)))).
    { repeat split. cbn [set_rel0 r_rel]. rewrite R1. cbn [tl]. constructor; [left; reflexivity|]. clear. induction rest; constructor; auto. }
    pose proof (kept_upd w i t _ B F) as K. set (w' := upd_nth w i (set_rel0 t (e (s_v sb)))) in *.
    exists w'. split; [reflexivity|].
    assert (Back : forall j u, nth_error w' j = Some u -> exists v, nth_error w j = Some v /\ filled v u).
    { intros j u Hu. destruct (Nat.eq_dec j i) as [->|N].
      - unfold w' in Hu. rewrite upd_same in Hu by (apply nth_error_Some; congruence). injection Hu as <-. exists t. auto.
      - unfold w' in Hu. rewrite upd_other in Hu by exact N. exists u. split; [exact Hu|apply filled_refl]. }
    split.
    + constructor.
      * eapply kept_trans; [exact (i_kept _ _ _ _ I)|exact K].
      * exact (i_rel _ _ _ _ I).
      * intros j u Hj Hu. destruct (Back j u Hu) as (v & V1 & V2). destruct (i_new _ _ _ _ I j v Hj V1) as (s & S1 & S2 & S3).
        exists s. split; [exact S1|]. split; [exact S2|]. eapply made_filled; [reflexivity|exact V2|exact S3].
      * intros s Hs. destruct (i_done _ _ _ _ I s Hs) as (j & u & P & Q & U & V). destruct (K _ _ Q) as (u' & Q1 & Q2).
        exists j, u'. split; [exact P|]. split; [exact Q1|]. split; [intro Y; eapply kept_first; eauto|].
        destruct V as [V|(V1 & V2 & V3)]; [left; exact V|right]. split; [exact V1|]. split; [exact V2|]. eapply made_filled; [reflexivity|exact Q2|exact V3].
    + exists i, (set_rel0 t (e (s_v sb))), 0, ib. split; [reflexivity|]. split; [apply upd_same; apply nth_error_Some; congruence|]. cbn. rewrite Ab. reflexivity.
Qed.
