(* Start-up: each piece of work is done at most once and start-up ends, for
   every order of the calls and every re-entry; the order is the right one when
   the mmap initialiser comes first and is not overtaken. *)
From Coq Require Import List Bool Arith Lia.
From Verif Require Import Start_model Start_spec.
Import ListNotations.

(* ---- The computed runs are runs ---- *)

Lemma exec_sound : forall fuel o l s r, exec fuel o l s = Some r -> ex o l s r.
Proof.
  induction fuel as [|fuel IH]; intros o l s r H; cbn [exec] in H; [discriminate|].
  destruct l as [|a l]; [injection H as <-; constructor|].
  destruct (act1 o a s) as [[s1 sub]|] eqn:E.
  - destruct (exec fuel o sub s1) as [[[|] s2]|] eqn:E2; [| |discriminate].
    + eapply x_cons; eauto.
    + injection H as <-. eapply x_stop; eauto.
  - injection H as <-. apply x_fail; assumption.
Qed.

Lemma ex_det : forall o l s r1, ex o l s r1 -> forall r2, ex o l s r2 -> r1 = r2.
Proof.
  intros o l s r1 H.
  induction H as [s|a l s s1 sub s2 r E1 H1 IH1 H2 IH2|a l s s1 sub s2 E1 H1 IH1|a l s E1];
    intros r2 K; inversion K; subst; try reflexivity; try congruence;
    match goal with
    | A : act1 ?o ?a ?s = Some (?x, ?y), B : act1 ?o ?a ?s = Some (?z, ?w) |- _ =>
        rewrite A in B; injection B; intros; subst; clear B
    end;
    match goal with
    | A : forall r, ex _ ?sub _ r -> _ = r, B : ex _ ?sub _ (_, ?s3) |- _ =>
        pose proof (A _ B) as Q; injection Q; intros; subst; try discriminate; auto
    end.
Qed.

Lemma comp_eqb_eq a b : comp_eqb a b = true <-> a = b.
Proof. split; [destruct a, b; cbn; congruence|intros <-; destruct a; reflexivity]. Qed.
Lemma comp_eqb_refl a : comp_eqb a a = true.
Proof. destruct a; reflexivity. Qed.

Lemma ex_app : forall o a s s1, ex o a s (true, s1) -> forall b r, ex o b s1 r -> ex o (a ++ b) s r.
Proof.
  intros o a s s1 H. remember (true, s1) as q eqn:Q. revert s1 Q.
  induction H as [s|x l s t1 sub t2 r E1 H1 _ H2 IH2|x l s t1 sub t2 E1 H1 _|x l s E1];
    intros s1 Q b q K; try discriminate.
  - injection Q as ->. exact K.
  - cbn [app]. eapply x_cons; eauto.
Qed.

Lemma ex_app_inv : forall o a b s r, ex o (a ++ b) s r ->
  (exists s1, ex o a s (true, s1) /\ ex o b s1 r) \/
  (exists s1, ex o a s (false, s1) /\ r = (false, s1)).
Proof.
  intros o a; induction a as [|x a IH]; intros b s r H; cbn [app] in H.
  - left. exists s. split; [constructor|exact H].
  - inversion H as [|? ? ? ? ? ? ? E1 E2 E3|? ? ? ? ? s2 E1 E2|? ? ? E1]; subst.
    + destruct (IH _ _ _ E3) as [(t & K1 & K2)|(t & K1 & K2)].
      * left. exists t. split; [eapply x_cons; eauto|exact K2].
      * right. exists t. split; [eapply x_cons; eauto|exact K2].
    + right. exists s2. split; [eapply x_stop; eauto|reflexivity].
    + right. exists s. split; [apply x_fail; assumption|reflexivity].
Qed.

(* ---- Flags only go up ---- *)

Definition le (s s' : st) : Prop :=
  (forall c, touched s c = true -> touched s' c = true) /\
  (forall c, inited s c = true -> inited s' c = true) /\
  exists t, trace s' = trace s ++ t.

Lemma le_refl s : le s s.
Proof. repeat split; auto. exists []. symmetry; apply app_nil_r. Qed.
Lemma le_trans a b c : le a b -> le b c -> le a c.
Proof.
  intros (T1 & I1 & t1 & E1) (T2 & I2 & t2 & E2). repeat split; auto.
  exists (t1 ++ t2). rewrite E2, E1, app_assoc. reflexivity.
Qed.
Lemma le_touch c s : le s (touch c s).
Proof.
  repeat split; cbn; auto; [|exists []; symmetry; apply app_nil_r].
  intros d ->. apply orb_true_r.
Qed.
Lemma le_finish c s : le s (finish c s).
Proof.
  repeat split; cbn; auto; [| |exists []; symmetry; apply app_nil_r];
    intros d ->; apply orb_true_r.
Qed.
Lemma le_record e s : le s (record e s).
Proof. repeat split; cbn; auto. exists [e]; reflexivity. Qed.
Lemma le_enter c s s1 sub : enter c s = (s1, sub) -> le s s1.
Proof.
  unfold enter. destruct (touched s c); intros [= <- _]; [apply le_refl|].
  destruct (early c); [apply le_touch|apply le_refl].
Qed.
Lemma le_act o a s s1 sub : act1 o a s = Some (s1, sub) -> le s s1.
Proof.
  destruct a as [[c|]|e|c]; cbn [act1].
  - intros [= E]. eapply le_enter; eauto.
  - destruct (inited s Global); [intros [= <- _]; apply le_refl|].
    destruct (touched s Global); [discriminate|]. intros [= E]. eapply le_enter; eauto.
  - intros [= <- _]. apply le_record.
  - intros [= <- _]. apply le_finish.
Qed.
Lemma le_ex o l s r : ex o l s r -> le s (snd r).
Proof.
  induction 1 as [s|x l s t1 sub t2 r E1 H1 IH1 H2 IH2|x l s t1 sub t2 E1 H1 IH1|x l s E1]; cbn [snd] in *.
  - apply le_refl.
  - eapply le_trans; [eapply le_act; eauto|]. eapply le_trans; eauto.
  - eapply le_trans; [eapply le_act; eauto|]. assumption.
  - apply le_refl.
Qed.

(* ---- Each piece of work at most once ---- *)

Definition owner (e : event) : comp :=
  match e with
  | EIndex | EScan | ETrap | EBrkCheck | EMeta | EBind => Mmap
  | EBrk => Brk | EFiles => RuntFiles | EAux => Auxv | EStack => Stack | EFrame => Frame
  end.

Fixpoint evs (l : list act) : list event :=
  match l with [] => [] | Ev e :: l => e :: evs l | _ :: l => evs l end.

Lemma evs_calls ks : evs (map Call ks) = [].
Proof. induction ks; cbn; auto. Qed.
Lemma evs_code c : NoDup (evs (code c)) /\ Forall (fun e => owner e = c /\ early c = true) (evs (code c)).
Proof.
  destruct c; cbn; split; repeat constructor; cbn; intuition congruence.
Qed.

Definition okt (s : st) : Prop :=
  NoDup (trace s) /\ forall e, In e (trace s) -> touched s (owner e) = true.

Lemma NoDup_snoc {A} (l : list A) x : NoDup l -> ~ In x l -> NoDup (l ++ [x]).
Proof.
  induction l as [|y l IH]; cbn; intros N K; [repeat constructor; auto|].
  inversion N; subst. constructor; [|apply IH; tauto].
  rewrite in_app_iff; cbn. intuition.
Qed.

Lemma once_gen o l s r : ex o l s r ->
  okt s -> NoDup (evs l) -> (forall e, In e (evs l) -> ~ In e (trace s) /\ touched s (owner e) = true) ->
  okt (snd r) /\
  (forall e, In e (trace (snd r)) -> In e (trace s) \/ In e (evs l) \/ touched s (owner e) = false).
Proof.
  induction 1 as [s|x l s t1 sub t2 r E1 H1 IH1 H2 IH2|x l s t1 sub t2 E1 H1 IH1|x l s E1];
    intros OK ND DJ; cbn [snd] in *.
  - split; auto.
  - assert (A : okt t2 /\ forall e, In e (trace t2) ->
       In e (trace s) \/ In e (evs [x]) \/ touched s (owner e) = false).
    { clear IH2. destruct x as [k|e|c].
      - assert (B : (t1 = s /\ sub = []) \/ exists c, touched s c = false /\
             t1 = (if early c then touch c s else s) /\ sub = code c).
        { destruct k as [c|]; cbn [act1] in E1.
          - injection E1 as E1. unfold enter in E1. destruct (touched s c) eqn:T; injection E1 as <- <-; [left; auto|right; exists c; auto].
          - destruct (inited s Global); [injection E1 as <- <-; left; auto|].
            destruct (touched s Global) eqn:T; [discriminate|]. injection E1 as E1. unfold enter in E1. rewrite T in E1.
            injection E1 as <- <-. right; exists Global; auto. }
        destruct B as [[-> ->]|(c & T & -> & ->)].
        + destruct IH1 as [I1 I2]; [exact OK|constructor|intros ? []|]. split; [exact I1|].
          intros e K. destruct (I2 e K) as [K1|[[]|K1]]; auto.
        + destruct (evs_code c) as [N1 N2]. rewrite Forall_forall in N2.
          destruct IH1 as [I1 I2].
          * destruct OK as [O1 O2]. destruct (early c); [|split; auto]. split; cbn; auto.
            intros e K. rewrite (O2 e K). apply orb_true_r.
          * exact N1.
          * intros e K. destruct (N2 e K) as [W EA]. rewrite EA. cbn. rewrite W, comp_eqb_refl. split; [|reflexivity].
            intros K2. destruct OK as [_ O2]. rewrite <- W in T. rewrite (O2 e K2) in T. discriminate.
          * split; [exact I1|]. intros e K. destruct (I2 e K) as [K1|[K1|K1]].
            -- left. destruct (early c); exact K1.
            -- right; right. destruct (N2 e K1) as [W _]. rewrite W. exact T.
            -- right; right. destruct (early c); [|exact K1]. cbn in K1. apply orb_false_elim in K1. tauto.
      - injection E1 as <- <-. rewrite evs_calls in IH1. cbn [evs] in *.
        destruct (DJ e (or_introl eq_refl)) as [D1 D2].
        destruct IH1 as [I1 I2].
        + destruct OK as [O1 O2]. split; cbn; [apply NoDup_snoc; assumption|].
          intros f K. apply in_app_or in K. destruct K as [K|[<-|[]]]; auto.
        + constructor.
        + intros ? [].
        + split; [exact I1|]. intros f K. destruct (I2 f K) as [K1|[[]|K1]].
          * cbn in K1. apply in_app_or in K1. destruct K1 as [K1|[<-|[]]]; cbn; auto.
          * right; right. exact K1.
      - injection E1 as <- <-. destruct IH1 as [I1 I2].
        + destruct OK as [O1 O2]. split; cbn; auto. intros e K. rewrite (O2 e K). apply orb_true_r.
        + constructor.
        + intros ? [].
        + split; [exact I1|]. intros f K. destruct (I2 f K) as [K1|[[]|K1]]; [left; exact K1|].
          right; right. cbn in K1. apply orb_false_elim in K1. tauto. }
    destruct A as [A1 A2].
    assert (LE : le s t2) by (eapply le_trans; [eapply le_act; eauto|apply (le_ex _ _ _ _ H1)]).
    assert (NE : NoDup (evs l)) by (destruct x; cbn in ND; auto; inversion ND; auto).
    assert (SUBL : forall e, In e (evs l) -> In e (evs (x :: l))) by (intros; destruct x; cbn; auto).
    destruct IH2 as [J1 J2]; [exact A1|exact NE| |].
    + intros e K. destruct (DJ e (SUBL e K)) as [D1 D2]. split; [|apply LE; exact D2].
      intros K2. destruct (A2 e K2) as [K3|[K3|K3]]; [auto| |congruence].
      destruct x; cbn in K3, ND; try contradiction. destruct K3 as [<-|[]]. inversion ND; auto.
    + split; [exact J1|]. intros e K. destruct (J2 e K) as [K1|[K1|K1]].
      * destruct (A2 e K1) as [K2|[K2|K2]]; auto.
        right; left. destruct x; cbn in K2 |- *; try contradiction. destruct K2 as [<-|[]]; auto.
      * auto.
      * right; right. destruct (touched s (owner e)) eqn:T; [|reflexivity].
        destruct LE as [LT _]. rewrite (LT _ T) in K1. discriminate.
  - (* the same for the part that stopped *)
    assert (A : okt t2 /\ forall e, In e (trace t2) ->
       In e (trace s) \/ In e (evs [x]) \/ touched s (owner e) = false).
    { destruct x as [k|e|c].
      - assert (B : (t1 = s /\ sub = []) \/ exists c, touched s c = false /\
             t1 = (if early c then touch c s else s) /\ sub = code c).
        { destruct k as [c|]; cbn [act1] in E1.
          - injection E1 as E1. unfold enter in E1. destruct (touched s c) eqn:T; injection E1 as <- <-; [left; auto|right; exists c; auto].
          - destruct (inited s Global); [injection E1 as <- <-; left; auto|].
            destruct (touched s Global) eqn:T; [discriminate|]. injection E1 as E1. unfold enter in E1. rewrite T in E1.
            injection E1 as <- <-. right; exists Global; auto. }
        destruct B as [[-> ->]|(c & T & -> & ->)].
        + inversion H1.
        + destruct (evs_code c) as [N1 N2]. rewrite Forall_forall in N2.
          destruct IH1 as [I1 I2].
          * destruct OK as [O1 O2]. destruct (early c); [|split; auto]. split; cbn; auto.
            intros e K. rewrite (O2 e K). apply orb_true_r.
          * exact N1.
          * intros e K. destruct (N2 e K) as [W EA]. rewrite EA. cbn. rewrite W, comp_eqb_refl. split; [|reflexivity].
            intros K2. destruct OK as [_ O2]. rewrite <- W in T. rewrite (O2 e K2) in T. discriminate.
          * split; [exact I1|]. intros e K. destruct (I2 e K) as [K1|[K1|K1]].
            -- left. destruct (early c); exact K1.
            -- right; right. destruct (N2 e K1) as [W _]. rewrite W. exact T.
            -- right; right. destruct (early c); [|exact K1]. cbn in K1. apply orb_false_elim in K1. tauto.
      - injection E1 as <- <-. rewrite evs_calls in IH1. cbn [evs] in *.
        destruct (DJ e (or_introl eq_refl)) as [D1 D2].
        destruct IH1 as [I1 I2].
        + destruct OK as [O1 O2]. split; cbn; [apply NoDup_snoc; assumption|].
          intros f K. apply in_app_or in K. destruct K as [K|[<-|[]]]; auto.
        + constructor.
        + intros ? [].
        + split; [exact I1|]. intros f K. destruct (I2 f K) as [K1|[[]|K1]].
          * cbn in K1. apply in_app_or in K1. destruct K1 as [K1|[<-|[]]]; cbn; auto.
          * right; right. exact K1.
      - injection E1 as <- <-. inversion H1. }
    destruct A as [A1 A2]. split; [exact A1|]. intros e K. destruct (A2 e K) as [K2|[K2|K2]]; auto.
    right; left. destruct x; cbn in K2 |- *; try contradiction. destruct K2 as [<-|[]]; auto.
  - split; auto.
Qed.

(* However the initialisers are entered, from outside and from within their own
   work, and whether or not an assertion stops them, no piece of the work is
   done twice. *)
Theorem start_once : forall o l ok s, start o l (ok, s) -> NoDup (trace s).
Proof.
  intros o l ok s H. unfold start in H.
  apply once_gen in H; [apply H|split; cbn; [constructor|intros ? []]| |]; rewrite evs_calls;
    [constructor|intros ? []].
Qed.

(* ---- Start-up ends ---- *)

Definition comps := [Global; Mmap; File; Segment; Section_; Symbol; Auxv; RuntFiles; Brk; Stack; Frame].
Lemma comps_all c : In c comps.
Proof. destruct c; cbn; tauto. Qed.
Definition left_ (s : st) : nat := length (filter (fun c => negb (touched s c)) comps).

Lemma filter_le {A} (f g : A -> bool) l :
  (forall x, f x = true -> g x = true) -> length (filter f l) <= length (filter g l).
Proof.
  intros H; induction l as [|x l IH]; cbn; [lia|].
  destruct (f x) eqn:F; [rewrite (H x F); cbn; lia|]. destruct (g x); cbn; lia.
Qed.
Lemma filter_lt {A} (f g : A -> bool) l y :
  (forall x, f x = true -> g x = true) -> In y l -> f y = false -> g y = true ->
  length (filter f l) < length (filter g l).
Proof.
  intros H; induction l as [|x l IH]; cbn; [tauto|]. intros [->|K] F G.
  - rewrite F, G. cbn. pose proof (filter_le f g l H). lia.
  - specialize (IH K F G). destruct (f x) eqn:FX; [rewrite (H x FX); cbn; lia|]. destruct (g x); cbn; lia.
Qed.
Lemma left_le s s' : le s s' -> left_ s' <= left_ s.
Proof.
  intros (T & _). apply filter_le. intros c. rewrite !negb_true_iff.
  intros K. destruct (touched s c) eqn:E; [|reflexivity]. rewrite (T _ E) in K. discriminate.
Qed.
Lemma left_touch c s : touched s c = false -> left_ (touch c s) < left_ s.
Proof.
  intros K. apply filter_lt with (y := c); cbn; [| apply comps_all |rewrite comp_eqb_refl; reflexivity|rewrite K; reflexivity].
  intros d. rewrite !negb_true_iff. intros D. apply orb_false_elim in D. tauto.
Qed.

Lemma ends_gen o : forall u s, left_ s <= u -> forall l, exists r, ex o l s r.
Proof.
  induction u as [u IHu] using (well_founded_induction lt_wf).
  (* a body that is entered with its flag set *)
  assert (BODY : forall s c, left_ s <= u -> touched s c = false -> early c = true ->
            exists r, ex o (code c) (touch c s) r).
  { intros s c L T E. pose proof (left_touch c s T). apply (IHu (left_ (touch c s))); lia. }
  assert (FILE : forall s, left_ s <= u -> exists r, ex o [Call (CInit File); Done Segment] s r).
  { intros s L. destruct (touched s File) eqn:T.
    - eexists. eapply x_cons; [cbn [act1]; unfold enter; rewrite T; reflexivity|constructor|].
      eapply x_cons; [reflexivity|constructor|constructor].
    - destruct (BODY s File L T eq_refl) as [[[|] s2] B].
      + eexists. eapply x_cons; [cbn [act1]; unfold enter; rewrite T; reflexivity|exact B|].
        eapply x_cons; [reflexivity|constructor|constructor].
      + eexists. eapply x_stop; [cbn [act1]; unfold enter; rewrite T; reflexivity|exact B]. }
  assert (ENT : forall s c, left_ s <= u -> exists r, ex o (snd (enter c s)) (fst (enter c s)) r).
  { intros s c L. unfold enter. destruct (touched s c) eqn:T; [eexists; constructor|].
    destruct (early c) eqn:E; cbn [fst snd].
    - apply BODY; assumption.
    - destruct c; try discriminate. apply FILE; assumption. }
  assert (CALLS : forall ks s, left_ s <= u -> exists r, ex o (map Call ks) s r).
  { induction ks as [|k ks IH]; intros s L; [eexists; constructor|]. cbn [map].
    destruct (act1 o (Call k) s) as [[s1 sub]|] eqn:E; [|eexists; apply x_fail; exact E].
    assert (B : exists r, ex o sub s1 r).
    { destruct k as [c|]; cbn [act1] in E.
      - injection E as E. destruct (ENT s c L) as [r B]. rewrite E in B. exists r; exact B.
      - destruct (inited s Global); [injection E as <- <-; eexists; constructor|].
        destruct (touched s Global); [discriminate|]. injection E as E.
        destruct (ENT s Global L) as [r B]. rewrite E in B. exists r; exact B. }
    destruct B as [[[|] s2] B]; [|eexists; eapply x_stop; eauto].
    destruct (IH s2) as [r C].
    { pose proof (left_le _ _ (le_ex _ _ _ _ B)). pose proof (left_le _ _ (le_act _ _ _ _ _ E)). cbn [snd] in *. lia. }
    eexists; eapply x_cons; eauto. }
  intros s L l. revert s L. induction l as [|a l IH]; intros s L; [eexists; constructor|].
  destruct (act1 o a s) as [[s1 sub]|] eqn:E; [|eexists; apply x_fail; exact E].
  pose proof (left_le _ _ (le_act _ _ _ _ _ E)) as L1.
  assert (B : exists r, ex o sub s1 r).
  { destruct a as [k|e|c]; cbn [act1] in E.
    - destruct k as [c|].
      + injection E as E. destruct (ENT s c L) as [r B]. rewrite E in B. exists r; exact B.
      + destruct (inited s Global); [injection E as <- <-; eexists; constructor|].
        destruct (touched s Global); [discriminate|]. injection E as E.
        destruct (ENT s Global L) as [r B]. rewrite E in B. exists r; exact B.
    - injection E as <- <-. apply CALLS. lia.
    - injection E as <- <-. eexists; constructor. }
  destruct B as [[[|] s2] B]; [|eexists; eapply x_stop; eauto].
  destruct (IH s2) as [r C]; [pose proof (left_le _ _ (le_ex _ _ _ _ B)); cbn [snd] in *; lia|].
  eexists; eapply x_cons; eauto.
Qed.

(* Start-up ends, with one outcome, for every order and every re-entry. *)
Theorem start_ends : forall o l, exists r, start o l r /\ forall r', start o l r' -> r' = r.
Proof.
  intros o l. destruct (ends_gen o (left_ st0) st0 (le_n _) (map Call l)) as [r R].
  exists r. split; [exact R|]. intros r' R'. symmetry. eapply ex_det; eauto.
Qed.

(* ---- What was asked for is initialised ---- *)

Definition prog (s : st) (c : comp) : bool := touched s c && negb (inited s c).
Definition dones (l : list act) (c : comp) : bool :=
  existsb (fun a => match a with Done d => comp_eqb d c | _ => false end) l.
Definition iot (s : st) : Prop := forall c, inited s c = true -> touched s c = true.

Lemma dones_calls ks c : dones (map Call ks) c = false.
Proof. induction ks; cbn; auto. Qed.
Lemma dones_code c d : dones (code c) d = comp_eqb c d.
Proof. destruct c, d; reflexivity. Qed.

Lemma iot_le_act o a s s1 sub : act1 o a s = Some (s1, sub) -> iot s -> iot s1.
Proof.
  destruct a as [[c|]|e|c]; cbn [act1]; intros E I d D.
  - injection E as E. unfold enter in E. destruct (touched s c); injection E as <- <-; [apply I; exact D|].
    destruct (early c); cbn in *; rewrite (I d D); auto. apply orb_true_r.
  - destruct (inited s Global); [injection E as <- <-; apply I; exact D|].
    destruct (touched s Global) eqn:T; [discriminate|]. injection E as E. unfold enter in E. rewrite T in E.
    injection E as <- <-. cbn in *. rewrite (I d D). apply orb_true_r.
  - injection E as <- <-. apply I; exact D.
  - injection E as <- <-. cbn in *. apply orb_true_iff in D. destruct D as [->|D]; [reflexivity|].
    rewrite (I d D). apply orb_true_r.
Qed.

Lemma prog_gen o l s r : ex o l s r -> fst r = true -> iot s ->
  iot (snd r) /\ forall c, prog (snd r) c = prog s c && negb (dones l c).
Proof.
  induction 1 as [s|x l s t1 sub t2 r E1 H1 IH1 H2 IH2|x l s t1 sub t2 E1 H1 IH1|x l s E1];
    intros OK I; cbn [snd fst] in *; try discriminate.
  - split; [exact I|]. intros c. cbn. rewrite andb_true_r. reflexivity.
  - destruct (IH1 eq_refl (iot_le_act _ _ _ _ _ E1 I)) as [I1 P1].
    destruct (IH2 OK I1) as [I2 P2]. split; [exact I2|]. intros c. rewrite P2, P1.
    assert (B : prog t1 c && negb (dones sub c) = prog s c && negb (dones [x] c)).
    { assert (EN : forall d, enter d s = (t1, sub) -> prog t1 c && negb (dones sub c) = prog s c).
      { intros d E. unfold enter in E. destruct (touched s d) eqn:T; injection E as <- <-.
        - cbn. apply andb_true_r.
        - rewrite dones_code. destruct (comp_eqb d c) eqn:Q.
          + apply comp_eqb_eq in Q. subst d. cbn. rewrite andb_false_r. unfold prog. rewrite T. reflexivity.
          + cbn. rewrite andb_true_r. destruct (early d); unfold prog; cbn; [rewrite Q|]; reflexivity. }
      destruct x as [[d|]|e|d]; cbn [act1] in E1.
      - injection E1 as E1. rewrite (EN d E1). cbn. rewrite andb_true_r. reflexivity.
      - destruct (inited s Global); [injection E1 as <- <-; reflexivity|].
        destruct (touched s Global); [discriminate|]. injection E1 as E1. rewrite (EN _ E1). cbn. rewrite andb_true_r. reflexivity.
      - injection E1 as <- <-. rewrite dones_calls. reflexivity.
      - injection E1 as <- <-. cbn. rewrite andb_true_r, orb_false_r. unfold prog; cbn.
        destruct (comp_eqb d c); cbn; rewrite ?andb_false_r, ?andb_true_r; reflexivity. }
    rewrite B. cbn [dones existsb]. rewrite orb_false_r, negb_orb, andb_assoc. reflexivity.
Qed.

Definition names (k : call) (c : comp) : Prop := k = CInit c \/ (k = CEnsure /\ c = Global).

Lemma calls_touch o ks s r : ex o (map Call ks) s r -> fst r = true ->
  iot s -> (forall c, prog s c = false) -> forall k c, In k ks -> names k c -> inited (snd r) c = true.
Proof.
  revert s r. induction ks as [|k0 ks IH]; intros s r H OK I P k c K N; [destruct K|].
  destruct (prog_gen _ _ _ _ H OK I) as [_ PR].
  cbn [map] in H. inversion H as [|? ? ? s1 sub s2 ? E1 E2 E3|? ? ? ? ? s2 E1 E2|? ? ? E1]; subst;
    try (cbn [fst] in OK; discriminate).
  destruct (prog_gen _ _ _ _ E2 eq_refl (iot_le_act _ _ _ _ _ E1 I)) as [I2 P2]. cbn [snd] in *.
  assert (TOP : forall d, prog s2 d = false).
  { assert (ONE : ex o (map Call [k0]) s (true, s2)) by (eapply x_cons; [exact E1|exact E2|constructor]).
    destruct (prog_gen _ _ _ _ ONE eq_refl I) as [_ Q]. intros d. cbn [snd] in Q. rewrite Q, P. reflexivity. }
  destruct K as [->|K]; [|eapply IH; eauto].
  apply (le_ex _ _ _ _ E3).
  destruct (inited s2 c) eqn:IN; [reflexivity|exfalso].
  specialize (TOP c). unfold prog in TOP. rewrite IN, andb_true_r in TOP.
  assert (NT : touched s c = false).
  { destruct (touched s c) eqn:T; [|reflexivity].
    destruct (le_act _ _ _ _ _ E1) as [L1 _]. destruct (le_ex _ _ _ _ E2) as [L2 _]. cbn [snd] in L2.
    rewrite (L2 _ (L1 _ T)) in TOP. discriminate. }
  assert (EN : enter c s = (s1, sub)).
  { destruct N as [->|[-> ->]]; cbn [act1] in E1; [injection E1 as E1; exact E1|].
    destruct (inited s Global) eqn:IG; [rewrite (I _ IG) in NT; discriminate|].
    rewrite NT in E1. injection E1 as E1. exact E1. }
  unfold enter in EN. rewrite NT in EN. injection EN as <- <-.
  destruct (early c) eqn:EA.
  - destruct (le_ex _ _ _ _ E2) as [L2 _]. cbn [snd] in L2. rewrite (L2 c) in TOP; [discriminate|].
    cbn. rewrite comp_eqb_refl. reflexivity.
  - destruct c; try discriminate. cbn [code] in E2.
    change [Call (CInit File); Done Segment] with ([Call (CInit File)] ++ [Done Segment]) in E2.
    apply ex_app_inv in E2. destruct E2 as [(t & _ & F)|(t & _ & F)]; [|discriminate].
    inversion F as [|? ? ? f1 fs f2 ? F1 F2 F3|? ? ? ? ? f2 F1 F2|? ? ? F1]; subst.
    injection F1 as <- <-. inversion F2; subst. inversion F3; subst. cbn in IN. discriminate.
Qed.

(* Whatever was called is initialised when start-up is over, unless an
   assertion stopped it. *)
Theorem start_done : forall o l s, start o l (true, s) ->
  forall k c, In k l -> names k c -> inited s c = true.
Proof.
  intros o l s H k c K N. eapply (calls_touch o l st0 (true, s)); eauto.
  intros d D; discriminate.
Qed.

(* ---- The right order ---- *)

Definition core (s : st) : list event := filter (fun e => negb (alone e)) (trace s).
Definition side (c : comp) : bool :=
  match c with Auxv | Stack | Frame | Section_ => true | _ => false end.
(* the same as far as the work that matters goes *)
Definition same (s s' : st) : Prop :=
  core s' = core s /\ forall c, side c = false -> touched s' c = touched s c /\ inited s' c = inited s c.

Lemma same_refl s : same s s.
Proof. split; auto. Qed.
Lemma same_trans a b c : same a b -> same b c -> same a c.
Proof. intros [A1 A2] [B1 B2]. split; [congruence|]. intros d D. destruct (A2 d D), (B2 d D). split; congruence. Qed.

Definition quiet_act (a : act) : bool :=
  match a with
  | Call k => quiet_call k
  | Ev e => alone e
  | Done c => side c
  end.

Definition quiet (o : oracle) : Prop := forall n, forallb quiet_call (o n) = true.

Lemma quiet_map ks : forallb quiet_call ks = true -> forallb quiet_act (map Call ks) = true.
Proof. induction ks; cbn; auto. intros H. apply andb_true_iff in H. destruct H as [-> H]. cbn. auto. Qed.

(* while the mmap allocator's initialiser is under way or done, nothing that is
   quiet changes what matters *)
Lemma quiet_same o (Q : quiet o) : forall l s r, ex o l s r ->
  forallb quiet_act l = true -> touched s Mmap = true -> fst r = true /\ same s (snd r).
Proof.
  induction 1 as [s|x l s t1 sub t2 r E1 H1 IH1 H2 IH2|x l s t1 sub t2 E1 H1 IH1|x l s E1];
    intros QL M; cbn [snd fst] in *.
  - split; [reflexivity|apply same_refl].
  - cbn [forallb] in QL. apply andb_true_iff in QL. destruct QL as [QX QL].
    assert (S1 : same s t1 /\ forallb quiet_act sub = true).
    { destruct x as [[c|]|e|c]; cbn in QX; try discriminate.
      - cbn [act1] in E1. injection E1 as E1. unfold enter in E1.
        destruct c; try discriminate; cbn in QX;
          match type of E1 with (if touched s ?c then _ else _) = _ => destruct (touched s c) eqn:T end;
          try congruence; injection E1 as <- <-; (split; [|reflexivity]); try apply same_refl;
          (split; [reflexivity|]; intros d D; destruct d; try discriminate; split; reflexivity).
      - injection E1 as <- <-. split; [|apply quiet_map, Q]. split; [|auto].
        unfold core. cbn. rewrite filter_app. cbn. rewrite QX. cbn. apply app_nil_r.
      - injection E1 as <- <-. split; [|reflexivity]. split; [reflexivity|].
        intros d D. cbn. destruct c; try discriminate; destruct d; try discriminate; split; reflexivity. }
    destruct S1 as [S1 QS].
    assert (M1 : touched t1 Mmap = true) by (destruct S1 as [_ S1]; destruct (S1 Mmap eq_refl) as [-> _]; exact M).
    destruct (IH1 QS M1) as [_ S2].
    assert (M2 : touched t2 Mmap = true) by (destruct S2 as [_ S2]; destruct (S2 Mmap eq_refl) as [-> _]; exact M1).
    destruct (IH2 QL M2) as [O3 S3]. split; [exact O3|].
    eapply same_trans; [exact S1|]. eapply same_trans; [exact S2|exact S3].
  - exfalso. cbn [forallb] in QL. apply andb_true_iff in QL. destruct QL as [QX QL].
    assert (S1 : touched t1 Mmap = true /\ forallb quiet_act sub = true).
    { split; [apply (le_act _ _ _ _ _ E1); exact M|].
      destruct x as [[c|]|e|c]; cbn in QX; try discriminate.
      - cbn [act1] in E1. injection E1 as E1. unfold enter in E1.
        destruct c; try discriminate; cbn in QX;
          match type of E1 with (if touched s ?c then _ else _) = _ => destruct (touched s c) eqn:T end;
          try congruence; injection E1 as <- <-; reflexivity.
      - injection E1 as <- <-. apply quiet_map, Q.
      - injection E1 as <- <-. reflexivity. }
    destruct S1 as [S1 S2]. destruct (IH1 S2 S1) as [F _]. discriminate.
  - exfalso. cbn [forallb] in QL. apply andb_true_iff in QL. destruct QL as [QX QL].
    destruct x as [[c|]|e|c]; cbn in QX, E1; discriminate.
Qed.

(* the flags of the parts that matter *)
Definition mst (s : st) : list event * list (bool * bool) :=
  (core s, map (fun c => (touched s c, inited s c)) [Mmap; Global; File; RuntFiles; Brk]).

Lemma same_mst s s' : same s s' -> mst s' = mst s.
Proof.
  intros [C F]. unfold mst. rewrite C. cbn.
  destruct (F Mmap eq_refl) as [-> ->], (F Global eq_refl) as [-> ->], (F File eq_refl) as [-> ->],
    (F RuntFiles eq_refl) as [-> ->], (F Brk eq_refl) as [-> ->]. reflexivity.
Qed.

Lemma ex_cons_inv o a l s ok s' : ex o (a :: l) s (ok, s') ->
  match act1 o a s with
  | None => ok = false
  | Some (s1, sub) =>
      exists ok2 s2, ex o sub s1 (ok2, s2) /\ (ok2 = true -> ex o l s2 (ok, s')) /\ (ok2 = false -> ok = false /\ s' = s2)
  end.
Proof.
  intros H. inversion H as [|? ? ? s1 sub s2 ? E1 E2 E3|? ? ? ? ? s2 E1 E2|? ? ? E1]; subst; rewrite E1.
  - exists true, s2. repeat split; auto; discriminate.
  - exists false, s'. repeat split; auto; discriminate.
  - reflexivity.
Qed.

Section Order.
Variable o : oracle.
Hypothesis Q : quiet o.

Lemma run_ev e l s ok s' t fl : alone e = false -> mst s = (t, fl) -> touched s Mmap = true ->
  ex o (Ev e :: l) s (ok, s') ->
  exists s2, mst s2 = (t ++ [e], fl) /\ touched s2 Mmap = true /\ ex o l s2 (ok, s').
Proof.
  intros A E M H. apply ex_cons_inv in H. cbn [act1] in H. destruct H as (ok2 & s2 & H1 & H2 & _).
  destruct (quiet_same o Q _ _ _ H1 (quiet_map _ (Q _)) M) as [K1 K2]. cbn [fst snd] in *.
  exists s2. split; [|split; [apply (le_ex _ _ _ _ H1); exact M|apply H2; exact K1]].
  rewrite (same_mst _ _ K2). unfold mst in *. injection E as E1 E2. rewrite <- E1, <- E2. unfold core at 1. cbn.
  rewrite filter_app. cbn. rewrite A. reflexivity.
Qed.

Lemma run_side c l s ok s' : side c = true -> touched s Mmap = true ->
  ex o (Call (CInit c) :: l) s (ok, s') ->
  exists s2, mst s2 = mst s /\ touched s2 Mmap = true /\ ex o l s2 (ok, s').
Proof.
  intros A M H. change (Call (CInit c) :: l) with ([Call (CInit c)] ++ l) in H.
  assert (QC : forallb quiet_act [Call (CInit c)] = true) by (destruct c; try discriminate; reflexivity).
  apply ex_app_inv in H. destruct H as [(s1 & H1 & H2)|(s1 & H1 & H2)];
    destruct (quiet_same o Q _ _ _ H1 QC M) as [K1 K2]; cbn [fst snd] in *; [|discriminate].
  exists s1. split; [apply same_mst; exact K2|]. split; [apply (le_ex _ _ _ _ H1); exact M|exact H2].
Qed.

Lemma run_blocked c l s ok s' : touched s c = true ->
  ex o (Call (CInit c) :: l) s (ok, s') -> ex o l s (ok, s').
Proof.
  intros T H. apply ex_cons_inv in H. cbn [act1] in H. unfold enter in H. rewrite T in H.
  destruct H as (ok2 & s2 & H1 & H2 & _). inversion H1; subst. auto.
Qed.

Lemma run_open c l s ok s' : touched s c = false -> early c = true ->
  ex o (Call (CInit c) :: l) s (ok, s') ->
  exists ok2 s2, ex o (code c) (touch c s) (ok2, s2) /\ (ok2 = true -> ex o l s2 (ok, s')) /\ (ok2 = false -> ok = false).
Proof.
  intros T E H. apply ex_cons_inv in H. cbn [act1] in H. unfold enter in H. rewrite T, E in H.
  destruct H as (ok2 & s2 & H1 & H2 & H3). exists ok2, s2. repeat split; auto. intros K; apply H3; exact K.
Qed.

Lemma run_done c l s ok s' : ex o (Done c :: l) s (ok, s') -> ex o l (finish c s) (ok, s').
Proof.
  intros H. apply ex_cons_inv in H. cbn [act1] in H. destruct H as (ok2 & s2 & H1 & H2 & _).
  inversion H1; subst. auto.
Qed.

Lemma mst_flags s t fm fg ff fr fb : mst s = (t, [fm; fg; ff; fr; fb]) ->
  core s = t /\ (touched s Mmap, inited s Mmap) = fm /\ (touched s Global, inited s Global) = fg /\
  (touched s File, inited s File) = ff /\ (touched s RuntFiles, inited s RuntFiles) = fr /\
  (touched s Brk, inited s Brk) = fb.
Proof. unfold mst. cbn. intros [= -> -> -> -> -> ->]. repeat split. Qed.

Lemma mst_touch c s t fm fg ff fr fb : mst s = (t, [fm; fg; ff; fr; fb]) ->
  mst (touch c s) = (t, [(comp_eqb c Mmap || fst fm, snd fm); (comp_eqb c Global || fst fg, snd fg);
    (comp_eqb c File || fst ff, snd ff); (comp_eqb c RuntFiles || fst fr, snd fr); (comp_eqb c Brk || fst fb, snd fb)]).
Proof. intros E. apply mst_flags in E. destruct E as (<- & <- & <- & <- & <- & <-). reflexivity. Qed.

Lemma mst_finish c s t fm fg ff fr fb : mst s = (t, [fm; fg; ff; fr; fb]) ->
  mst (finish c s) = (t, [(comp_eqb c Mmap || fst fm, comp_eqb c Mmap || snd fm); (comp_eqb c Global || fst fg, comp_eqb c Global || snd fg);
    (comp_eqb c File || fst ff, comp_eqb c File || snd ff); (comp_eqb c RuntFiles || fst fr, comp_eqb c RuntFiles || snd fr);
    (comp_eqb c Brk || fst fb, comp_eqb c Brk || snd fb)]).
Proof. intros E. apply mst_flags in E. destruct E as (<- & <- & <- & <- & <- & <-). reflexivity. Qed.

Notation T := (true, true).
Notation I := (true, false).
Notation U := (false, false).

Ltac flags E :=
  let A := fresh "A" in
  pose proof (mst_flags _ _ _ _ _ _ _ E) as A; decompose [and] A; clear A;
  repeat match goal with K : (touched _ _, inited _ _) = (_, _) |- _ => injection K; clear K; intros end.

Lemma run_brk s ok s' t fg ff fr : mst s = (t, [I; fg; ff; fr; I]) ->
  ex o (code Brk) s (ok, s') -> ok = true /\ mst s' = (t ++ [EBrk], [I; fg; ff; fr; T]).
Proof.
  intros E H. assert (M : touched s Mmap = true) by (flags E; assumption).
  cbn [code] in H. apply (run_ev EBrk _ _ _ _ _ _ eq_refl E M) in H. destruct H as (s2 & E2 & M2 & H).
  apply run_done in H. inversion H; subst. split; [reflexivity|].
  rewrite (mst_finish _ _ _ _ _ _ _ _ E2). cbn. destruct fg, ff, fr. reflexivity.
Qed.

Lemma run_files s ok s' t fg ff fb : mst s = (t, [I; fg; ff; I; fb]) ->
  ex o (code RuntFiles) s (ok, s') -> ok = true /\ mst s' = (t ++ [EFiles], [I; fg; ff; T; fb]).
Proof.
  intros E H. assert (M : touched s Mmap = true) by (flags E; assumption).
  cbn [code] in H. apply (run_ev EFiles _ _ _ _ _ _ eq_refl E M) in H. destruct H as (s2 & E2 & M2 & H).
  apply run_done in H. inversion H; subst. split; [reflexivity|].
  rewrite (mst_finish _ _ _ _ _ _ _ _ E2). cbn. destruct fg, ff, fb. reflexivity.
Qed.

Lemma run_file s ok s' t fg : mst s = (t, [I; fg; I; T; T]) ->
  ex o (code File) s (ok, s') -> ok = true /\ mst s' = (t, [I; fg; T; T; T]).
Proof.
  destruct fg as [g1 g2]. intros E H. flags E. cbn [code] in H.
  apply run_blocked in H; [|assumption]. apply run_blocked in H; [|assumption].
  apply run_side in H; [|reflexivity|assumption]. destruct H as (s2 & E2 & M2 & H).
  apply run_done in H. inversion H; subst. split; [reflexivity|].
  rewrite E in E2. rewrite (mst_finish _ _ _ _ _ _ _ _ E2). reflexivity.
Qed.

Lemma run_global s ok s' t : mst s = (t, [I; I; U; T; T]) ->
  ex o (code Global) s (ok, s') -> ok = true /\ mst s' = (t, [I; T; T; T; T]).
Proof.
  intros E H. cbn [code] in H.
  apply run_blocked in H; [|flags E; assumption]. apply run_open in H; [|flags E; assumption|reflexivity].
  destruct H as (ok2 & s2 & H1 & H2 & H3).
  apply (run_file _ _ _ t I) in H1; [|rewrite (mst_touch _ _ _ _ _ _ _ _ E); reflexivity].
  destruct H1 as [-> E2]. specialize (H2 eq_refl). apply run_done in H2. inversion H2; subst.
  split; [reflexivity|]. rewrite (mst_finish _ _ _ _ _ _ _ _ E2). reflexivity.
Qed.

Lemma run_mmap s ok s' : mst s = ([], [I; U; U; U; U]) ->
  ex o (code Mmap) s (ok, s') -> ok = true /\ mst s' = (right_order, [T; T; T; T; T]).
Proof.
  intros E H. assert (M : touched s Mmap = true) by (flags E; assumption).
  cbn [code] in H.
  apply (run_ev EIndex _ _ _ _ _ _ eq_refl E M) in H. destruct H as (s1 & E1 & M1 & H). cbn [app] in E1.
  apply (run_ev EScan _ _ _ _ _ _ eq_refl E1 M1) in H. destruct H as (s2 & E2 & M2 & H). cbn [app] in E2.
  apply run_side in H; [|reflexivity|assumption]. destruct H as (s3 & E3 & M3 & H). rewrite E2 in E3.
  assert (F3 : touched s3 Brk = false) by (flags E3; assumption).
  apply run_open in H; [|exact F3|reflexivity]. destruct H as (ok4 & s4 & H1 & H2 & H3).
  eapply run_brk in H1; [|rewrite (mst_touch _ _ _ _ _ _ _ _ E3); reflexivity].
  destruct H1 as [-> E4]. specialize (H2 eq_refl). clear H3. cbn [app] in E4.
  assert (F4 : touched s4 RuntFiles = false) by (flags E4; assumption).
  apply run_open in H2; [|exact F4|reflexivity]. destruct H2 as (ok5 & s5 & H1 & H & H3).
  eapply run_files in H1; [|rewrite (mst_touch _ _ _ _ _ _ _ _ E4); reflexivity].
  destruct H1 as [-> E5]. specialize (H eq_refl). clear H3. cbn [app] in E5.
  assert (M5 : touched s5 Mmap = true) by (flags E5; assumption).
  apply (run_ev ETrap _ _ _ _ _ _ eq_refl E5 M5) in H. destruct H as (s6 & E6 & M6 & H). cbn [app] in E6.
  apply (run_ev EBrkCheck _ _ _ _ _ _ eq_refl E6 M6) in H. destruct H as (s7 & E7 & M7 & H). cbn [app] in E7.
  apply (run_ev EMeta _ _ _ _ _ _ eq_refl E7 M7) in H. destruct H as (s8 & E8 & M8 & H). cbn [app] in E8.
  assert (F8 : touched s8 Brk = true) by (flags E8; assumption).
  apply run_blocked in H; [|exact F8].
  apply (run_ev EBind _ _ _ _ _ _ eq_refl E8 M8) in H. destruct H as (s9 & E9 & M9 & H). cbn [app] in E9.
  assert (F9 : touched s9 Global = false) by (flags E9; assumption).
  apply run_open in H; [|exact F9|reflexivity]. destruct H as (ok10 & s10 & H1 & H2 & H3).
  eapply run_global in H1; [|rewrite (mst_touch _ _ _ _ _ _ _ _ E9); reflexivity].
  destruct H1 as [-> E10]. specialize (H2 eq_refl). apply run_done in H2. inversion H2; subst.
  split; [reflexivity|]. rewrite (mst_finish _ _ _ _ _ _ _ _ E10). reflexivity.
Qed.

Definition isfresh s := mst s = ([], [U; U; U; U; U]).
Definition isdone s := mst s = (right_order, [T; T; T; T; T]).

(* quiet calls before the mmap allocator's initialiser has been entered *)
Lemma quiet_fresh : forall l s r, ex o l s r -> forallb quiet_act l = true -> isfresh s ->
  fst r = true /\ (isfresh (snd r) \/ isdone (snd r)).
Proof.
  induction 1 as [s|x l s t1 sub t2 r E1 H1 IH1 H2 IH2|x l s t1 sub t2 E1 H1 IH1|x l s E1];
    intros QL F; cbn [snd fst] in *; unfold isfresh, isdone in *.
  - auto.
  - cbn [forallb] in QL. apply andb_true_iff in QL. destruct QL as [QX QL].
    assert (B : mst t2 = ([], [U; U; U; U; U]) \/ mst t2 = (right_order, [T; T; T; T; T])).
    { clear IH2 H2. destruct x as [[c|]|e|c]; cbn in QX; try discriminate.
      - destruct c; try discriminate; cbn [act1] in E1; injection E1 as E1; unfold enter in E1.
        + assert (M : touched s Mmap = false) by (flags F; assumption). rewrite M in E1. cbn in E1.
          injection E1 as <- <-. right.
          destruct (run_mmap (touch Mmap s) true t2) as [_ R]; [rewrite (mst_touch _ _ _ _ _ _ _ _ F); reflexivity|exact H1|exact R].
        + destruct (touched s Section_); injection E1 as <- <-; apply IH1; auto;
            cbn [early]; rewrite (mst_touch _ _ _ _ _ _ _ _ F); reflexivity.
        + destruct (touched s Auxv); injection E1 as <- <-; apply IH1; auto;
            cbn [early]; rewrite (mst_touch _ _ _ _ _ _ _ _ F); reflexivity.
        + destruct (touched s Stack); injection E1 as <- <-; apply IH1; auto;
            cbn [early]; rewrite (mst_touch _ _ _ _ _ _ _ _ F); reflexivity.
        + destruct (touched s Frame); injection E1 as <- <-; apply IH1; auto;
            cbn [early]; rewrite (mst_touch _ _ _ _ _ _ _ _ F); reflexivity.
      - injection E1 as <- <-. apply IH1; [apply quiet_map, Q|].
        apply mst_flags in F. destruct F as (C & F1 & F2 & F3 & F4 & F5).
        unfold mst. unfold core in *. cbn. rewrite filter_app. cbn. rewrite C, QX. cbn.
        rewrite F1, F2, F3, F4, F5. reflexivity.
      - injection E1 as <- <-. apply IH1; [reflexivity|].
        rewrite (mst_finish _ _ _ _ _ _ _ _ F). destruct c; try discriminate; reflexivity. }
    destruct B as [B|B]; [apply IH2; assumption|].
    assert (M : touched t2 Mmap = true) by (flags B; assumption).
    destruct (quiet_same o Q _ _ _ H2 QL M) as [K1 K2]. split; [exact K1|]. right.
    rewrite (same_mst _ _ K2). exact B.
  - exfalso. cbn [forallb] in QL. apply andb_true_iff in QL. destruct QL as [QX QL].
    destruct x as [[c|]|e|c]; cbn in QX; try discriminate.
    + destruct c; try discriminate; cbn [act1] in E1; injection E1 as E1; unfold enter in E1.
      * assert (M : touched s Mmap = false) by (flags F; assumption). rewrite M in E1. cbn in E1.
        injection E1 as <- <-.
        destruct (run_mmap (touch Mmap s) false t2) as [R _]; [rewrite (mst_touch _ _ _ _ _ _ _ _ F); reflexivity|exact H1|discriminate].
      * destruct (touched s Section_); injection E1 as <- <-; destruct IH1 as [R _]; auto; try discriminate;
          cbn [early]; rewrite (mst_touch _ _ _ _ _ _ _ _ F); reflexivity.
      * destruct (touched s Auxv); injection E1 as <- <-; destruct IH1 as [R _]; auto; try discriminate;
          cbn [early]; rewrite (mst_touch _ _ _ _ _ _ _ _ F); reflexivity.
      * destruct (touched s Stack); injection E1 as <- <-; destruct IH1 as [R _]; auto; try discriminate;
          cbn [early]; rewrite (mst_touch _ _ _ _ _ _ _ _ F); reflexivity.
      * destruct (touched s Frame); injection E1 as <- <-; destruct IH1 as [R _]; auto; try discriminate;
          cbn [early]; rewrite (mst_touch _ _ _ _ _ _ _ _ F); reflexivity.
    + injection E1 as <- <-. destruct IH1 as [R _]; [apply quiet_map, Q| |discriminate].
      apply mst_flags in F. destruct F as (C & F1 & F2 & F3 & F4 & F5).
      unfold mst. unfold core in *. cbn. rewrite filter_app. cbn. rewrite C, QX. cbn.
      rewrite F1, F2, F3, F4, F5. reflexivity.
    + injection E1 as <- <-. inversion H1.
  - exfalso. cbn [forallb] in QL. apply andb_true_iff in QL. destruct QL as [QX QL].
    destruct x as [[c|]|e|c]; cbn in QX, E1; discriminate.
Qed.

(* afterwards nothing can change what matters *)
Definition late_act (a : act) : bool :=
  match a with
  | Call _ => true
  | Ev e => alone e
  | Done _ => true
  end.
Lemma late_done : forall l s r, ex o l s r -> forallb late_act l = true -> isdone s ->
  fst r = true /\ isdone (snd r).
Proof.
  assert (LM : forall ks, forallb late_act (map Call ks) = true) by (induction ks; cbn; auto).
  assert (STEP : forall a s s1 sub, act1 o a s = Some (s1, sub) -> late_act a = true -> isdone s ->
             isdone s1 /\ forallb late_act sub = true).
  { intros a s s1 sub E A D. unfold isdone in *. destruct a as [[c|]|e|c]; cbn [act1] in E.
    - injection E as E. unfold enter in E. destruct (touched s c) eqn:TC; injection E as <- <-; [auto|].
      flags D. destruct c; try congruence; (split; [|reflexivity]); cbn [early]; auto;
        rewrite (mst_touch _ _ _ _ _ _ _ _ D); reflexivity.
    - flags D. match goal with K : inited s Global = true |- _ => rewrite K in E end. injection E as <- <-. auto.
    - injection E as <- <-. split; [|apply LM]. apply mst_flags in D. destruct D as (C & F1 & F2 & F3 & F4 & F5).
      cbn in A. unfold mst, core in *. cbn. rewrite filter_app. cbn. rewrite C, A. cbn. rewrite F1, F2, F3, F4, F5. reflexivity.
    - injection E as <- <-. split; [|reflexivity]. rewrite (mst_finish _ _ _ _ _ _ _ _ D). destruct c; reflexivity. }
  induction 1 as [s|x l s t1 sub t2 r E1 H1 IH1 H2 IH2|x l s t1 sub t2 E1 H1 IH1|x l s E1];
    intros QL F; cbn [snd fst] in *.
  - auto.
  - cbn [forallb] in QL. apply andb_true_iff in QL. destruct QL as [QX QL].
    destruct (STEP _ _ _ _ E1 QX F) as [A B]. destruct (IH1 B A) as [_ C]. auto.
  - cbn [forallb] in QL. apply andb_true_iff in QL. destruct QL as [QX QL].
    destruct (STEP _ _ _ _ E1 QX F) as [A B]. destruct (IH1 B A) as [C _]. discriminate.
  - exfalso. cbn [forallb] in QL. apply andb_true_iff in QL. destruct QL as [QX QL].
    unfold isdone in F. flags F. destruct x as [[c|]|e|c]; cbn in E1; try discriminate.
    match goal with K : inited s Global = true |- _ => rewrite K in E1 end. discriminate.
Qed.

End Order.

(* If the first initialiser to be entered, but for those that stand alone, is
   the mmap allocator's, and during the pieces of work only it and those that
   stand alone are entered again, then: no assertion fails; the work that
   matters is done exactly in the right order; and the parts that the rest build
   on are initialised.  What comes in afterwards is any sequence of calls. *)
Theorem start_order : forall o l1 l2 ok s,
  (forall n, forallb quiet_call (o n) = true) -> forallb free_call l1 = true ->
  start o (l1 ++ CInit Mmap :: l2) (ok, s) ->
  ok = true /\ filter (fun e => negb (alone e)) (trace s) = right_order /\
  (forall c, In c [Mmap; Global; File; RuntFiles; Brk] -> inited s c = true).
Proof.
  intros o l1 l2 ok s Q L1 H. unfold start in H. rewrite map_app in H. cbn [map] in H.
  assert (QF : forallb quiet_act (map Call l1) = true).
  { apply quiet_map. rewrite forallb_forall in *. intros k K. specialize (L1 k K).
    destruct k as [[]|]; cbn in *; auto. }
  assert (LM : forall ks, forallb late_act (map Call ks) = true) by (induction ks; cbn; auto).
  assert (END : ok = true /\ isdone s).
  { apply ex_app_inv in H. destruct H as [(s1 & H1 & H2)|(s1 & H1 & H2)];
      destruct (quiet_fresh o Q _ _ _ H1 QF eq_refl) as [K1 K2]; cbn [fst snd] in *; [|discriminate].
    change (Call (CInit Mmap) :: map Call l2) with ([Call (CInit Mmap)] ++ map Call l2) in H2.
    apply ex_app_inv in H2. destruct H2 as [(s2 & H2 & H3)|(s2 & H2 & H3)].
    - assert (D2 : isdone s2).
      { destruct K2 as [K2|K2].
        - inversion H2 as [|? ? ? t1 sub t2 ? E1 E2 E3|? ? ? ? ? t2 E1 E2|? ? ? E1]; subst.
          cbn [act1] in E1. injection E1 as E1. unfold enter in E1.
          assert (M : touched s1 Mmap = false) by (destruct (mst_flags _ _ _ _ _ _ _ K2) as (_ & A & _); injection A; auto).
          rewrite M in E1. injection E1 as <- <-. inversion E3; subst. cbn [early] in E2.
          destruct (run_mmap o Q (touch Mmap s1) true s2) as [_ R];
            [rewrite (mst_touch _ _ _ _ _ _ _ _ K2); reflexivity|exact E2|exact R].
        - apply (late_done o _ _ _ H2 eq_refl K2). }
      apply (late_done o _ _ _ H3 (LM l2) D2).
    - exfalso. destruct K2 as [K2|K2].
      + inversion H2 as [|? ? ? t1 sub t2 ? E1 E2 E3|? ? ? ? ? t2 E1 E2|? ? ? E1]; subst; try discriminate.
        * inversion E3.
        * cbn [act1] in E1. injection E1 as E1. unfold enter in E1.
          assert (M : touched s1 Mmap = false) by (destruct (mst_flags _ _ _ _ _ _ _ K2) as (_ & A & _); injection A; auto).
          rewrite M in E1. injection E1 as <- <-. cbn [early] in E2.
          destruct (run_mmap o Q (touch Mmap s1) false s2) as [R _];
            [rewrite (mst_touch _ _ _ _ _ _ _ _ K2); reflexivity|exact E2|discriminate].
      + destruct (late_done o _ _ _ H2 eq_refl K2) as [K _]. discriminate. }
  destruct END as [-> D]. split; [reflexivity|].
  destruct (mst_flags _ _ _ _ _ _ _ D) as (C & F1 & F2 & F3 & F4 & F5).
  split; [exact C|]. intros c [<-|[<-|[<-|[<-|[<-|[]]]]]]; congruence.
Qed.

Module SuEx.

(* the constructors in one order their priorities allow; the mmap allocator's
   initialiser is entered again while the index is made, the stack's while the
   mappings are read *)
Definition ctors : list call :=
  [CInit Stack; CInit Auxv; CInit Mmap; CInit Frame;
   CInit Symbol; CInit File; CInit Brk; CInit Segment; CInit Section_; CInit Global; CEnsure].
Definition re : oracle :=
  fun n => match n with 2 => [CInit Mmap; CInit Frame] | 3 => [CInit Stack; CInit Section_] | _ => [] end.

Example re_quiet : (forall n, forallb quiet_call (re n) = true) /\ forallb free_call [CInit Stack; CInit Auxv] = true.
Proof. split; [intros [|[|[|[|n]]]]; reflexivity|reflexivity]. Qed.

Definition fin (o : oracle) (l : list call) : bool * st :=
  match exec 40 o (map Call l) st0 with Some r => r | None => (false, st0) end.

Lemma fin_start o l : (match exec 40 o (map Call l) st0 with Some _ => true | None => false end) = true ->
  start o l (fin o l).
Proof.
  unfold fin, start. destruct (exec 40 o (map Call l) st0) as [r|] eqn:E; [|discriminate]. intros _.
  eapply exec_sound; exact E.
Qed.

Example start_once_ex :
  start re ctors (fin re ctors) /\ fst (fin re ctors) = true /\
  trace (snd (fin re ctors)) =
    [EStack; EAux; EIndex; EFrame; EScan; EBrk; EFiles; ETrap; EBrkCheck; EMeta; EBind].
Proof. split; [apply fin_start; vm_compute; reflexivity|]. split; vm_compute; reflexivity. Qed.

Example start_done_ex :
  map (inited (snd (fin re ctors))) comps = map (fun _ => true) comps.
Proof. vm_compute; reflexivity. Qed.

Example start_order_ex :
  ctors = [CInit Stack; CInit Auxv] ++ CInit Mmap :: skipn 3 ctors.
Proof. reflexivity. Qed.

(* a query from within start-up, when start-up was itself begun by a query: *)
Definition query_in : oracle := fun n => match n with 4 => [CEnsure] | _ => [] end.
Definition query_first : oracle := fun n => match n with 0 => [CEnsure] | _ => [] end.

Example start_ends_ex : exists r, start query_in [CEnsure] r /\ fst r = false /\
  trace (snd r) = [EIndex; EScan; EAux; EBrk; EFiles].
Proof.
  exists (fin query_in [CEnsure]). split; [apply fin_start; vm_compute; reflexivity|].
  split; vm_compute; reflexivity.
Qed.

(* "A query made before start-up is over is answered or waits": it fails the
   assertion in __liballocs_ensure_init, because __liballocs_global_init tests
   `tried` before `trying` (init.c:66-71) and so answers -1, not 0. *)
Theorem start_query_refuted :
  exists o l s, (forall n, Forall (fun k => k = CEnsure) (o n)) /\ Forall (fun k => k = CEnsure) l /\
    start o l (false, s).
Proof.
  exists query_in, [CEnsure], (snd (fin query_in [CEnsure])).
  split; [intros [|[|[|[|[|n]]]]]; cbn; repeat constructor|]. split; [repeat constructor|].
  assert (E : fin query_in [CEnsure] = (false, snd (fin query_in [CEnsure]))) by (vm_compute; reflexivity).
  rewrite <- E. apply fin_start. vm_compute; reflexivity.
Qed.

(* "The order is right whatever is entered during start-up": a query during the
   first piece of work runs the global initialiser to its end, and with it the
   set-up of the files, before the mappings have been read. *)
Theorem start_overtaken_refuted :
  exists o s, (forall n, Forall (fun k => k = CEnsure) (o n)) /\ start o [CInit Mmap] (true, s) /\
    filter (fun e => negb (alone e)) (trace s) =
      [EIndex; EFiles; EScan; EBrk; ETrap; EBrkCheck; EMeta; EBind].
Proof.
  exists query_first, (snd (fin query_first [CInit Mmap])).
  split; [intros [|n]; cbn; repeat constructor|]. split.
  - assert (E : fin query_first [CInit Mmap] = (true, snd (fin query_first [CInit Mmap]))) by (vm_compute; reflexivity).
    rewrite <- E. apply fin_start. vm_compute; reflexivity.
  - vm_compute; reflexivity.
Qed.

End SuEx.

Print Assumptions start_once.
Print Assumptions start_ends.
Print Assumptions start_done.
Print Assumptions start_order.
Print Assumptions SuEx.start_query_refuted.
Print Assumptions SuEx.start_overtaken_refuted.
