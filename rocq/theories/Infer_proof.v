(* Lemmas about Infer_model. *)
From Verif Require Import Base Infer_model Infer_spec.

Lemma decay_decay t : decay (decay t) = decay t.
Proof. induction t; cbn; auto. Qed.

Section P.
Variable fields : bool -> Z -> list field.
Notation get_size := (get_size fields).
Notation acc_instr := (acc_instr fields).
Notation acc_stmt := (acc_stmt fields).
Notation acc_stmts := (acc_stmts fields).

(* ---- flattening *)
Definition go1 : env -> list stmt -> env :=
  fix go (E : env) (l : list stmt) : env := match l with [] => E | s :: l => go (acc_stmt E s) l end.
Definition fl1 : list stmt -> list instr :=
  fix go (l : list stmt) : list instr := match l with [] => [] | s :: l => flat s ++ go l end.
Lemma fl1_map l : fl1 l = flat_map flat l.
Proof. induction l; cbn; [reflexivity|]. now rewrite IHl. Qed.

Lemma acc_flat : forall s E, acc_stmt E s = fold_left acc_instr (flat s) E.
Proof.
  fix IH 1.
  assert (GO : forall l E, (fix ok (l : list stmt) : Prop := match l with [] => True | s :: l => (forall E, acc_stmt E s = fold_left acc_instr (flat s) E) /\ ok l end) l ->
               go1 E l = fold_left acc_instr (fl1 l) E).
  { induction l as [|s l IHl]; intros E H; cbn; [reflexivity|].
    destruct H as [H1 H2]. rewrite H1. rewrite fold_left_app. apply IHl, H2. }
  assert (ALL : forall l, (fix ok (l : list stmt) : Prop := match l with [] => True | s :: l => (forall E, acc_stmt E s = fold_left acc_instr (flat s) E) /\ ok l end) l).
  { fix IHl 1. intros [|s l]; [exact I|]. split; [intros E; apply IH | apply IHl]. }
  intros [l|b|b1 b2|b ss|b|] E.
  - reflexivity.
  - apply (GO b E (ALL b)).
  - change (go1 (go1 E b2) b1 = fold_left acc_instr (fl1 b2 ++ fl1 b1) E).
    rewrite fold_left_app, (GO b2 E (ALL b2)). apply (GO b1 _ (ALL b1)).
  - change (go1 (go1 E ss) b = fold_left acc_instr (fl1 ss ++ fl1 b) E).
    rewrite fold_left_app, (GO ss E (ALL ss)). apply (GO b _ (ALL b)).
  - apply (GO b E (ALL b)).
  - reflexivity.
Qed.
Lemma acc_flats sts E : acc_stmts E sts = fold_left acc_instr (flats sts) E.
Proof.
  unfold Infer_model.acc_stmts, flats. revert E. induction sts as [|s l IH]; intros E; cbn; [reflexivity|].
  rewrite fold_left_app, <- acc_flat. apply IH.
Qed.

(* ---- environments *)
Definition keys (E : env) : list Z := map fst E.
Definition del (v : Z) (E : env) : env := filter (fun p => negb (fst p =? v)) E.
Definition put (v : Z) (s : sz) (E : env) : env := (v, s) :: remove_assoc v E.
Lemma remove_notin v E : ~ In v (keys E) -> del v E = E.
Proof.
  induction E as [|[u s] E IH]; cbn; intros H; [reflexivity|].
  destruct (Z.eqb_spec u v) as [->|]; [tauto|]. cbn. f_equal. apply IH. tauto.
Qed.
Lemma remove_del v E : NoDup (keys E) -> remove_assoc v E = del v E.
Proof.
  induction E as [|[u s] E IH]; cbn; intros H; [reflexivity|]. inversion H; subst.
  destruct (Z.eqb_spec u v) as [->|]; cbn; [symmetry; now apply remove_notin|].
  f_equal. now apply IH.
Qed.
Lemma keys_del v E x : In x (keys (del v E)) <-> In x (keys E) /\ x <> v.
Proof.
  unfold keys, del. rewrite !in_map_iff. split.
  - intros (p & <- & H). apply filter_In in H. destruct H as [H1 H2].
    split; [exists p; auto|]. destruct (Z.eqb_spec (fst p) v); [discriminate|auto].
  - intros [(p & <- & H) N]. exists p. split; [reflexivity|]. apply filter_In. split; [exact H|].
    destruct (Z.eqb_spec (fst p) v); [tauto|reflexivity].
Qed.
Lemma nodup_del v E : NoDup (keys E) -> NoDup (keys (del v E)).
Proof.
  induction E as [|p E IH]; cbn; intros H; [constructor|]. inversion H; subst.
  destruct (negb (fst p =? v)); cbn; [|auto]. constructor; [|auto].
  intros C. apply keys_del in C. tauto.
Qed.
Lemma nodup_put v s E : NoDup (keys E) -> NoDup (keys (put v s E)).
Proof.
  intros H. unfold put. rewrite remove_del by exact H. cbn. constructor; [|now apply nodup_del].
  intros C. apply keys_del in C. tauto.
Qed.
Lemma assoc_del v E u : assoc u (del v E) = if u =? v then None else assoc u E.
Proof.
  induction E as [|[w s] E IH]; cbn; [now destruct (u =? v)|].
  destruct (Z.eqb_spec w v) as [->|N]; cbn.
  - fold (del v E). rewrite IH. rewrite (Z.eqb_sym v u). now destruct (u =? v).
  - fold (del v E). rewrite IH. destruct (Z.eqb_spec w u) as [->|]; [|reflexivity].
    destruct (Z.eqb_spec u v); [tauto|reflexivity].
Qed.
Lemma assoc_put v s E u : NoDup (keys E) -> assoc u (put v s E) = if u =? v then Some s else assoc u E.
Proof.
  intros H. unfold put. rewrite remove_del by exact H. cbn. rewrite (Z.eqb_sym v u).
  destruct (u =? v) eqn:E1; [reflexivity|]. rewrite assoc_del, E1. reflexivity.
Qed.
Lemma acc_put E i : acc_instr E i =
  match i with Set_ false v _ e => match get_size e E with Undet => E | s => put v s E end | _ => E end.
Proof. reflexivity. Qed.
Lemma nodup_acc E i : NoDup (keys E) -> NoDup (keys (acc_instr E i)).
Proof.
  intros H. rewrite acc_put. destruct i as [[|] v p e|]; try exact H.
  destruct (get_size e E); try exact H; now apply nodup_put.
Qed.
Lemma nodup_fold l E : NoDup (keys E) -> NoDup (keys (fold_left acc_instr l E)).
Proof. revert E. induction l; intros E H; cbn; [exact H|]. apply IHl, nodup_acc, H. Qed.

(* ---- what an expression's answer depends on *)
Lemma get_size_agree e E E' : (forall v, In v (reads e) -> assoc v E = assoc v E') -> get_size e E = get_size e E'.
Proof.
  induction e; cbn; intros H; try reflexivity.
  - destruct glob; [reflexivity|]. rewrite (H v); [reflexivity|now left].
  - destruct o; try reflexivity; rewrite IHe1, IHe2; auto; intros; apply H, in_or_app; auto.
  - apply IHe, H.
Qed.

(* ---- passes *)
Definition det (E : env) (i : instr) : option (Z * sz) :=
  match i with Set_ false v _ e => match get_size e E with Undet => None | s => Some (v, s) end | _ => None end.
Definition ap1 (E : env) (o : option (Z * sz)) : env := match o with Some (v, s) => put v s E | None => E end.
Lemma acc_det E i : acc_instr E i = ap1 E (det E i).
Proof. rewrite acc_put. destruct i as [[|] v p e|]; try reflexivity. cbn. now destruct (get_size e E). Qed.
Fixpoint trace (E : env) (l : list instr) : list (option (Z * sz)) :=
  match l with [] => [] | i :: l => det E i :: trace (acc_instr E i) l end.
Lemma fold_trace l E : fold_left acc_instr l E = fold_left ap1 (trace E l) E.
Proof. revert E. induction l as [|i l IH]; intros E; cbn; [reflexivity|]. rewrite <- acc_det. apply IH. Qed.

Definition ap1f (E : env) (o : option (Z * sz)) : env := match o with Some (v, s) => (v, s) :: del v E | None => E end.
Lemma ap_apf D E : NoDup (keys E) -> fold_left ap1 D E = fold_left ap1f D E.
Proof.
  revert E. induction D as [|o D IH]; intros E H; cbn; [reflexivity|].
  destruct o as [[v s]|]; cbn; [|now apply IH].
  unfold put at 1. rewrite remove_del by exact H. apply IH.
  pose proof (nodup_put v s E H) as K. unfold put in K. now rewrite remove_del in K.
Qed.
Definition dkeys (D : list (option (Z * sz))) : list Z := flat_map (fun o => match o with Some (v, _) => [v] | None => [] end) D.
Definition notin (K : list Z) (p : Z * sz) : bool := negb (existsb (Z.eqb (fst p)) K).
Lemma filter_filter {A} (f g : A -> bool) l : filter f (filter g l) = filter (fun x => g x && f x) l.
Proof. induction l as [|x l IH]; cbn; [reflexivity|]. destruct (g x); cbn; [destruct (f x); cbn; now rewrite IH|exact IH]. Qed.
Lemma filter_ext_ {A} (f g : A -> bool) l : (forall x, f x = g x) -> filter f l = filter g l.
Proof. intros H. induction l as [|x l IH]; cbn; [reflexivity|]. now rewrite H, IH. Qed.
Lemma apf_split D E : fold_left ap1f D E = fold_left ap1f D [] ++ filter (notin (dkeys D)) E.
Proof.
  revert E. induction D as [|o D IH] using rev_ind; intros E.
  - cbn. induction E; cbn; [reflexivity|]. now f_equal.
  - rewrite !fold_left_app. cbn. rewrite (IH E). unfold dkeys. rewrite flat_map_app. cbn.
    destruct o as [[v s]|]; cbn.
    + f_equal. unfold del. rewrite filter_app. f_equal. rewrite filter_filter. apply filter_ext_.
      intros p. unfold notin. rewrite existsb_app. cbn. rewrite orb_false_r, negb_orb. reflexivity.
    + rewrite app_nil_r. reflexivity.
Qed.
Lemma apf_keys D E x : In x (keys (fold_left ap1f D E)) -> In x (dkeys D) \/ In x (keys E).
Proof.
  revert E. induction D as [|o D IH]; intros E H; cbn in *; [auto|].
  apply IH in H. destruct H as [H|H]; [left; apply in_or_app; auto|].
  destruct o as [[v s]|]; cbn in *; [|auto].
  destruct H as [->|H]; [left; now left|]. apply keys_del in H. tauto.
Qed.
Lemma apf_twice D E : fold_left ap1f D (fold_left ap1f D E) = fold_left ap1f D E.
Proof.
  rewrite (apf_split D (fold_left ap1f D E)), (apf_split D E). f_equal. rewrite filter_app.
  assert (N : filter (notin (dkeys D)) (fold_left ap1f D []) = []).
  { assert (K : forall l, (forall x, In x (keys l) -> In x (dkeys D)) -> filter (notin (dkeys D)) l = []).
    { induction l as [|p l IHl]; cbn; intros K; [reflexivity|].
      assert (H : notin (dkeys D) p = false).
      { unfold notin. apply negb_false_iff, existsb_exists. exists (fst p). split; [apply K; now left|apply Z.eqb_refl]. }
      rewrite H. apply IHl. intros x Hx. apply K. now right. }
    apply K. intros x Hx. apply apf_keys in Hx. destruct Hx as [Hx|[]]. exact Hx. }
  rewrite N. cbn. rewrite filter_filter. apply filter_ext_. intros p. now destruct (notin _ p).
Qed.
Lemma pass_twice l E : NoDup (keys E) ->
  trace E l = trace (fold_left acc_instr l E) l ->
  fold_left acc_instr l (fold_left acc_instr l E) = fold_left acc_instr l E.
Proof.
  intros N H. rewrite (fold_trace l (fold_left acc_instr l E)), <- H.
  rewrite (ap_apf _ (fold_left acc_instr l E)) by now apply nodup_fold.
  rewrite fold_trace. rewrite ap_apf by exact N. apply apf_twice.
Qed.

(* ---- ending, when no local is computed from itself *)
Section Rank.
Variables (rank : Z -> nat) (l : list instr).
Hypothesis A : acyclic rank l.
Definition agree (r : nat) (E E' : env) : Prop := forall v, (rank v < r)%nat -> assoc v E = assoc v E'.
(* a trace without the locals of rank r or more *)
Definition low (r : nat) (o : option (Z * sz)) : option (Z * sz) :=
  match o with Some (v, s) => if (rank v <? r)%nat then o else None | None => None end.
Lemma agree_put r v s s' E E' : NoDup (keys E) -> NoDup (keys E') -> agree r E E' ->
  ((rank v < r)%nat -> s = s') -> agree r (put v s E) (put v s' E').
Proof.
  intros N N' H Hs u Hu. rewrite !assoc_put by assumption.
  destruct (Z.eqb_spec u v) as [->|]; [now rewrite Hs|now apply H].
Qed.
Lemma agree_put1 r v s E E' : NoDup (keys E) -> agree r E E' -> (r <= rank v)%nat -> agree r (put v s E) E'.
Proof.
  intros N H L u Hu. rewrite assoc_put by assumption.
  destruct (Z.eqb_spec u v) as [->|]; [lia|now apply H].
Qed.
Lemma agree_sym r E E' : agree r E E' -> agree r E' E.
Proof. intros H v Hv. symmetry. now apply H. Qed.
Lemma trace_low r : forall k E E', (forall i, In i k -> In i l) -> NoDup (keys E) -> NoDup (keys E') -> agree r E E' ->
  map (low (S r)) (trace E k) = map (low (S r)) (trace E' k).
Proof.
  induction k as [|i k IH]; intros E E' I N N' H; cbn; [reflexivity|].
  assert (I1 : forall j, In j k -> In j l) by (intros; apply I; now right).
  assert (I0 : In i l) by (apply I; now left).
  destruct i as [[|] v p e|].
  - cbn. f_equal. now apply IH.
  - rewrite !acc_put. cbn [det].
    destruct (Nat.lt_ge_cases (rank v) (S r)) as [L|L].
    + assert (S1 : get_size e E = get_size e E').
      { apply get_size_agree. intros u Hu. apply H. pose proof (A v p e I0 u Hu). lia. }
      rewrite S1. destruct (get_size e E') eqn:G; f_equal; try (apply IH; auto; try now apply nodup_put);
        try (apply agree_put; auto).
    + f_equal.
      * assert (F : (rank v <? S r)%nat = false) by (apply Nat.ltb_ge; lia).
        destruct (get_size e E), (get_size e E'); cbn [low]; rewrite ?F; reflexivity.
      * apply IH; [exact I1| | |].
        -- destruct (get_size e E); try exact N; now apply nodup_put.
        -- destruct (get_size e E'); try exact N'; now apply nodup_put.
        -- assert (L' : (r <= rank v)%nat) by lia.
           assert (H1 : forall s, agree r (put v s E) E') by (intros; apply agree_put1; auto).
           assert (H2 : forall s s', agree r (put v s E) (put v s' E')).
           { intros s s'. apply agree_put; auto. lia. }
           assert (H3 : forall s, agree r E (put v s E')).
           { intros s. apply agree_sym, agree_put1; auto. now apply agree_sym. }
           destruct (get_size e E), (get_size e E'); auto.
  - cbn. f_equal. now apply IH.
Qed.
Fixpoint lastof (v : Z) (D : list (option (Z * sz))) : option sz :=
  match D with
  | [] => None
  | o :: D => match lastof v D with
              | Some s => Some s
              | None => match o with Some (u, s) => if u =? v then Some s else None | None => None end
              end
  end.
Lemma assoc_fold v D E : NoDup (keys E) ->
  assoc v (fold_left ap1 D E) = match lastof v D with Some s => Some s | None => assoc v E end.
Proof.
  revert E. induction D as [|o D IH]; intros E N; cbn; [reflexivity|].
  destruct o as [[u s]|]; cbn [ap1].
  - rewrite IH by now apply nodup_put. destruct (lastof v D); [reflexivity|].
    rewrite assoc_put by exact N. rewrite (Z.eqb_sym u v). now destruct (v =? u).
  - rewrite IH by exact N. now destruct (lastof v D).
Qed.
Lemma lastof_low r v D : (rank v < r)%nat -> lastof v (map (low r) D) = lastof v D.
Proof.
  intros H. induction D as [|o D IH]; [reflexivity|]. cbn [lastof map]. rewrite IH. destruct (lastof v D); [reflexivity|].
  destruct o as [[u s]|]; cbn [low]; [|reflexivity].
  destruct (Z.eqb_spec u v) as [->|N].
  - apply Nat.ltb_lt in H. rewrite H. now rewrite Z.eqb_refl.
  - destruct (rank u <? r)%nat; [|reflexivity]. now destruct (Z.eqb_spec u v).
Qed.
Definition pass (E : env) : env := fold_left acc_instr l E.
Fixpoint passes (n : nat) (E : env) : env := match n with O => E | S n => pass (passes n E) end.
Lemma nodup_passes n E : NoDup (keys E) -> NoDup (keys (passes n E)).
Proof. intros H. induction n; cbn; [exact H|]. now apply nodup_fold. Qed.
Lemma stable r : forall k E, NoDup (keys E) -> (r <= k)%nat -> agree r (passes k E) (passes (S k) E).
Proof.
  induction r as [|r IH]; intros k E N L; [intros v Hv; lia|].
  destruct k as [|k]; [lia|].
  pose proof (IH k E N ltac:(lia)) as H0.
  intros v Hv. cbn [passes]. unfold pass at 1 2. rewrite !fold_trace.
  rewrite !assoc_fold by (try apply nodup_fold; apply nodup_passes, N).
  rewrite <- (lastof_low (S r) v (trace (passes k E) l)) by exact Hv.
  rewrite <- (lastof_low (S r) v (trace (pass (passes k E)) l)) by exact Hv.
  rewrite (trace_low r l (passes k E) (pass (passes k E))); auto.
  - destruct (lastof v _) eqn:G; [reflexivity|].
    unfold pass at 1. rewrite fold_trace, assoc_fold by apply nodup_passes, N.
    rewrite <- (lastof_low (S r) v (trace (passes k E) l)) by exact Hv.
    rewrite (trace_low r l (passes k E) (pass (passes k E))); auto.
    + unfold pass in G |- *. rewrite G. reflexivity.
    + now apply nodup_passes.
    + now apply (nodup_passes (S k)).
  - now apply nodup_passes.
  - now apply (nodup_passes (S k)).
Qed.
Lemma low_all R D : (forall v, (rank v < R)%nat) -> map (low R) D = D.
Proof.
  intros B. induction D as [|o D IH]; [reflexivity|]. cbn [map]. rewrite IH. f_equal.
  destruct o as [[v s]|]; cbn [low]; [|reflexivity]. specialize (B v). apply Nat.ltb_lt in B. now rewrite B.
Qed.
Lemma settled R E : NoDup (keys E) -> (forall v, (rank v < R)%nat) -> passes (S (S R)) E = passes (S R) E.
Proof.
  intros N B. cbn [passes]. unfold pass at 1 2. apply pass_twice; [now apply nodup_passes|].
  change (fold_left acc_instr l (passes R E)) with (passes (S R) E).
  rewrite <- (low_all (S R) (trace (passes R E) l)) by (intros v; specialize (B v); lia).
  rewrite <- (low_all (S R) (trace (passes (S R) E) l)) by (intros v; specialize (B v); lia).
  apply trace_low; auto; try now apply nodup_passes.
  apply stable; auto.
Qed.
End Rank.

Lemma passes_in n l E : pass l (passes l n E) = passes l n (pass l E).
Proof. induction n; cbn; [reflexivity|]. now rewrite IHn. Qed.
Lemma until_ends sts : forall n E, passes (flats sts) (S n) E = passes (flats sts) n E ->
  exists E', until fields (S n) sts E = Ok E' /\ pass (flats sts) E' = E'.
Proof.
  induction n as [|n IH]; intros E H.
  - cbn [until]. rewrite acc_flats. cbn in H. unfold pass in H. destruct (env_eq _ _) as [e|e]; [|tauto].
    exists E. split; [reflexivity|exact e].
  - cbn [until]. rewrite acc_flats. destruct (env_eq _ _) as [e|e]; [exists E; split; [reflexivity|exact e]|].
    change (exists E', until fields (S n) sts (pass (flats sts) E) = Ok E' /\ pass (flats sts) E' = E').
    apply IH. cbn in H |- *. now rewrite <- !passes_in.
Qed.
Lemma until_fix sts : forall n E E', until fields n sts E = Ok E' -> exists k, E' = passes (flats sts) k E /\ pass (flats sts) E' = E'.
Proof.
  induction n as [|n IH]; intros E E' H; [discriminate H|]. cbn [until] in H. rewrite acc_flats in H.
  destruct (env_eq _ _) as [e|e].
  - injection H as <-. exists O. split; [reflexivity|exact e].
  - apply IH in H. destruct H as (k & -> & H). exists (S k). split; [|exact H].
    cbn. rewrite passes_in. reflexivity.
Qed.

(* ---- functions which keep to one type for each local *)
Section Keep.
Variable T : Z -> option tsig.
Definition okE (E : env) : Prop := NoDup (keys E) /\
  forall v s, assoc v E = Some s -> exists ts, s = Existing ts true /\ T v = Some (decay ts).
Lemma size_kinds E : okE E ->
  (forall e, plain T e -> get_size e E = Undet) /\
  (forall t e, whole T t e ->
     (get_size e E = Undet \/ exists ts, get_size e E = Existing ts true /\ decay ts = t) /\
     ((forall v, In v (reads e) -> T v <> None -> assoc v E <> None) ->
      exists ts, get_size e E = Existing ts true /\ decay ts = t)).
Proof.
  intros [N O]. apply kinds_ind; cbn [Infer_model.get_size reads]; try reflexivity.
  - intros v p H. destruct (assoc v E) eqn:G; [|reflexivity]. destruct (O v s G) as (ts & -> & K). congruence.
  - intros o a b _ Ha _ Hb. destruct o; rewrite ?Ha, ?Hb; reflexivity.
  - intros e _ He. exact He.
  - intros t a b _ [Ha _] _ [_ Hb] R. rewrite R in Hb. destruct Hb as (tb & -> & Db); [intros v []|].
    destruct Ha as [-> | (ta & -> & Da)]; cbn; [reflexivity|]. rewrite Da, Db. now destruct (tsig_eq t t).
  - intros t u H. split; [right|intros _]; eauto.
  - intros t n ->. split; [right|intros _]; exists (TSInt IChar); auto.
  - intros t v p Tv. destruct (assoc v E) eqn:G.
    + destruct (O v s G) as (ts & -> & K). split; [right|intros _]; exists ts; split; congruence.
    + split; [now left|]. intros P. exfalso. apply (P v); [now left|congruence|exact G].
  - intros t a b _ [H1 H2] _ Hb. rewrite Hb. split.
    + destruct H1 as [-> | (ts & -> & K)]; cbn; [now left|right; eauto].
    + intros P. destruct H2 as (ts & -> & K); [intros; apply P; auto; apply in_or_app; auto|]. cbn. eauto.
  - intros t a b _ Ha _ [H1 H2]. rewrite Ha. cbn. split; [exact H1|].
    intros P. apply H2. intros; apply P; auto; apply in_or_app; auto.
  - intros t a b _ [H1 H2] _ [H3 H4]. split.
    + destruct H1 as [-> | (t1 & -> & K1)], H3 as [-> | (t2 & -> & K2)]; cbn; eauto.
      right. rewrite K1, K2. destruct (tsig_eq t t); [|tauto].
      exists t. split; [reflexivity|]. rewrite <- K1. apply decay_decay.
    + intros P. destruct H2 as (t1 & -> & K1); [intros; apply P; auto; apply in_or_app; auto|].
      destruct H4 as (t2 & -> & K2); [intros; apply P; auto; apply in_or_app; auto|]. cbn.
      rewrite K1, K2. destruct (tsig_eq t t); [|tauto].
      exists t. split; [reflexivity|]. rewrite <- K1. apply decay_decay.
  - intros t e _ H. exact H.
Qed.
Lemma size_plain e E : okE E -> plain T e -> get_size e E = Undet.
Proof. intros O. apply (size_kinds E O). Qed.
Lemma size_whole t e E : okE E -> whole T t e ->
  get_size e E = Undet \/ exists ts, get_size e E = Existing ts true /\ decay ts = t.
Proof. intros O W. now apply (size_kinds E O). Qed.
Lemma size_found t e E : okE E -> whole T t e -> (forall v, In v (reads e) -> T v <> None -> assoc v E <> None) ->
  exists ts, get_size e E = Existing ts true /\ decay ts = t.
Proof. intros O W. now apply (size_kinds E O). Qed.
Lemma okE_acc l E i : keeps T l -> In i l -> okE E -> okE (acc_instr E i).
Proof.
  intros K I O. rewrite acc_put. destruct i as [[|] v p e|]; try exact O.
  specialize (K v p e I). destruct (T v) as [t|] eqn:Tv.
  - destruct (size_whole t e E O K) as [-> | (ts & -> & D)]; [exact O|].
    destruct O as [N O]. split; [now apply nodup_put|].
    intros u s Hu. rewrite assoc_put in Hu by exact N.
    destruct (Z.eqb_spec u v) as [->|]; [|now apply O].
    injection Hu as <-. exists ts. split; [reflexivity|]. congruence.
  - rewrite (size_plain e E O K). exact O.
Qed.
Lemma okE_fold l : keeps T l -> forall k E, (forall i, In i k -> In i l) -> okE E -> okE (fold_left acc_instr k E).
Proof.
  intros K. induction k as [|i k IH]; intros E I O; cbn; [exact O|].
  apply IH; [intros; apply I; now right|]. apply (okE_acc l); auto. apply I. now left.
Qed.
Lemma okE_passes l n : keeps T l -> okE (passes l n []).
Proof.
  intros K. induction n; cbn.
  - split; [constructor|]. intros v s H. discriminate H.
  - now apply (okE_fold l).
Qed.
Lemma keys_grow k E v : NoDup (keys E) -> assoc v E <> None -> assoc v (fold_left acc_instr k E) <> None.
Proof.
  intros N H. rewrite fold_trace, assoc_fold by exact N. destruct (lastof v _); [discriminate|exact H].
Qed.
Lemma present rank l E : acyclic rank l -> keeps T l -> okE E -> pass l E = E ->
  (forall v p e, In (Set_ false v p e) l -> grounded T l e) ->
  forall r v, (rank v < r)%nat -> T v <> None -> assigns l v -> assoc v E <> None.
Proof.
  intros A K O F G. induction r as [|r IH]; intros v L Tv (p & e & I); [lia|].
  destruct (in_split _ _ I) as (l1 & l2 & El).
  rewrite <- F. unfold pass. rewrite El at 1. rewrite fold_left_app. cbn [fold_left].
  assert (O1 : okE (fold_left acc_instr l1 E)).
  { apply (okE_fold l); auto. intros i Hi. rewrite El. apply in_or_app. now left. }
  set (E1 := fold_left acc_instr l1 E) in *.
  assert (P1 : forall u, assoc u E <> None -> assoc u E1 <> None) by (intros; apply keys_grow; [apply O|auto]).
  pose proof (K v p e I) as W. destruct (T v) as [t|] eqn:Tv'; [|tauto].
  destruct (size_found t e E1 O1 W) as (ts & S1 & D).
  { intros u Hu Tu. apply P1. apply IH; auto.
    - pose proof (A v p e I u Hu). lia.
    - apply (G v p e I u Hu Tu). }
  apply keys_grow; [apply nodup_acc, O1|]. rewrite acc_put, S1. rewrite assoc_put by apply O1.
  rewrite Z.eqb_refl. discriminate.
Qed.
End Keep.
End P.
