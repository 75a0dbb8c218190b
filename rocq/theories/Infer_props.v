(* C77-C79: the types given at compile time to allocation sites. *)
From Verif Require Import Base Infer_model Infer_spec Infer_proof.

(* ==== C78: the analysis ends *)
Lemma until_more fields sts : forall n E E' k, until fields n sts E = Ok E' -> until fields (n + k) sts E = Ok E'.
Proof.
  induction n as [|n IH]; intros E E' k H; [discriminate H|]. cbn [until Nat.add] in *.
  destruct (env_eq _ _); [exact H|]. now apply IH.
Qed.

(* If no local is computed from itself the analysis ends, after as many passes as the longest
   chain of locals computed from one another, and two more.  Missing: locals computed from
   themselves, for which see the next and infer_endless_refuted. *)
Theorem infer_ends_partial : forall fields sts rank R,
  acyclic rank (flats sts) -> (forall v, (rank v < R)%nat) ->
  exists E, forall fuel, (R + 2 <= fuel)%nat -> analyse fields fuel sts = Ok E.
Proof.
  intros fields sts rank R A B.
  destruct (until_ends fields sts (S R) []) as (E & H & _).
  { apply (settled fields rank); auto. constructor. }
  exists E. intros fuel L. unfold analyse. replace fuel with (S (S R) + (fuel - S (S R)))%nat by lia.
  now apply until_more.
Qed.

(* Sizes of one type only, none an array: the analysis ends, however locals are computed. *)
Section Steady.
Variables (fields : bool -> Z -> list field) (T : Z -> option tsig) (l : list instr).
Hypothesis K : keeps T l.
Hypothesis HT : forall v t, T v = Some t -> decay t = t.
Hypothesis Hd : forall v p e t, In (Set_ false v p e) l -> In t (taken e) -> decay t = t.
Definition okX (E : env) : Prop := NoDup (keys E) /\ forall v s, assoc v E = Some s -> exists t, T v = Some t /\ s = Existing t true.
Lemma okX_okE E : okX E -> okE T E.
Proof.
  intros [N O]. split; [exact N|]. intros v s H. destruct (O v s H) as (t & Tv & ->).
  exists t. split; [reflexivity|]. rewrite (HT v t Tv). exact Tv.
Qed.
Lemma size_exact t e E : okX E -> whole T t e -> (forall u, In u (taken e) -> decay u = u) ->
  get_size fields e E = Undet \/ get_size fields e E = Existing t true.
Proof.
  intros O W D. pose proof (okX_okE E O) as O'.
  induction W; cbn in *.
  - right. f_equal. rewrite <- H. symmetry. apply D. now left.
  - right. now subst.
  - destruct (assoc v E) eqn:G; [|now left]. destruct O as [_ O]. destruct (O v s G) as (t' & Tv & ->).
    right. congruence.
  - rewrite (size_plain fields T b E O' H). destruct IHW as [-> | ->]; cbn; auto.
    intros; apply D, in_or_app; auto.
  - rewrite (size_plain fields T a E O' H). cbn. apply IHW. intros; apply D, in_or_app; auto.
  - assert (C : decay t = t).
    { destruct (size_whole fields T t _ E O' W1) as [G | (ts & _ & D1)].
      - clear - W1 D HT. induction W1; cbn in D.
        + rewrite <- H. apply decay_decay.
        + now subst.
        + now apply (HT v).
        + apply IHW1. intros u Hu. apply D. cbn in Hu. apply in_app_iff in Hu. rewrite !in_app_iff in *. tauto.
        + apply IHW1. intros u Hu. apply D. rewrite !in_app_iff in *. tauto.
        + apply IHW1_1. intros u Hu. apply D. rewrite !in_app_iff in *. tauto.
        + apply IHW1. exact D.
      - rewrite <- D1. apply decay_decay. }
    destruct IHW1 as [-> | ->]; [intros; apply D, in_or_app; auto| |];
    (destruct IHW2 as [-> | ->]; [intros; apply D, in_or_app; auto| |]); cbn; auto.
    right. rewrite C. destruct (tsig_eq t t); [reflexivity|tauto].
  - apply IHW, D.
Qed.
Lemma okX_acc E i : In i l -> okX E -> okX (acc_instr fields E i).
Proof.
  intros I O. rewrite acc_put. destruct i as [[|] v p e|]; try exact O.
  pose proof (K v p e I) as W. destruct (T v) as [t|] eqn:Tv.
  - destruct (size_exact t e E O W) as [-> | ->]; [intros; eapply Hd; eauto|exact O|].
    destruct O as [N O]. split; [now apply nodup_put|].
    intros u s Hu. rewrite assoc_put in Hu by exact N.
    destruct (Z.eqb_spec u v) as [->|]; [|now apply O].
    injection Hu as <-. eauto.
  - rewrite (size_plain fields T e E (okX_okE E O) W). exact O.
Qed.
Lemma okX_fold k E : (forall i, In i k -> In i l) -> okX E -> okX (fold_left (acc_instr fields) k E).
Proof.
  revert E. induction k as [|i k IH]; intros E I O; cbn; [exact O|].
  apply IH; [intros; apply I; now right|]. apply okX_acc; auto. apply I. now left.
Qed.
Lemma okX_passes n : okX (passes fields l n []).
Proof.
  induction n; cbn; [split; [constructor|intros v s H; discriminate H]|]. now apply okX_fold.
Qed.
Lemma assoc_keys v E : assoc v E <> None <-> In v (keys E).
Proof.
  induction E as [|[u s] E IH]; cbn; [tauto|]. destruct (Z.eqb_spec u v) as [->|N].
  - split; [now left|discriminate].
  - rewrite IH. split; [now right|intros [C|C]; [congruence|exact C]].
Qed.
Lemma trace_same E E' k : (forall v, assoc v E = assoc v E') -> NoDup (keys E) -> NoDup (keys E') ->
  trace fields E k = trace fields E' k.
Proof.
  revert E E'. induction k as [|i k IH]; intros E E' H N N'; cbn; [reflexivity|].
  assert (D : det fields E i = det fields E' i).
  { destruct i as [[|] v p e|]; try reflexivity. cbn. now rewrite (get_size_agree fields e E E'). }
  rewrite !acc_det, D. f_equal. apply IH.
  - intros v. destruct (det fields E' i) as [[u s]|]; cbn [ap1]; [|apply H].
    rewrite !assoc_put by assumption. now rewrite H.
  - destruct (det fields E' i) as [[u s]|]; cbn [ap1]; [now apply nodup_put|exact N].
  - destruct (det fields E' i) as [[u s]|]; cbn [ap1]; [now apply nodup_put|exact N'].
Qed.
Definition targets : list Z := flat_map (fun i => match i with Set_ false v _ _ => [v] | _ => [] end) l.
Lemma keys_targets k E : (forall i, In i k -> In i l) -> incl (keys E) targets -> NoDup (keys E) ->
  incl (keys (fold_left (acc_instr fields) k E)) targets.
Proof.
  revert E. induction k as [|i k IH]; intros E I H N; cbn; [exact H|].
  apply IH; [intros; apply I; now right| |now apply nodup_acc].
  rewrite acc_put. destruct i as [[|] v p e|]; try exact H.
  assert (P : forall s, incl (keys (put v s E)) targets).
  { intros s x Hx. unfold put in Hx. rewrite remove_del in Hx by exact N. destruct Hx as [<- | Hx].
    - unfold targets. apply in_flat_map. exists (Set_ false v p e). split; [apply I; now left|now left].
    - fold (keys (del v E)) in Hx. apply keys_del in Hx. now apply H. }
  destruct (get_size fields e E); auto.
Qed.
Lemma targets_passes n : incl (keys (passes fields l n [])) targets.
Proof.
  induction n; cbn; [intros x []|]. apply keys_targets; auto. apply okX_passes.
Qed.
Lemma keys_mono n : incl (keys (passes fields l n [])) (keys (passes fields l (S n) [])).
Proof.
  intros v Hv. apply assoc_keys. apply assoc_keys in Hv. cbn. apply keys_grow; [apply okX_passes|exact Hv].
Qed.
Lemma grow_or_settle n : (exists k, (k < n)%nat /\ incl (keys (passes fields l (S k) [])) (keys (passes fields l k []))) \/
  (n <= length (keys (passes fields l n [])))%nat.
Proof.
  induction n as [|n IH]; [right; cbn; lia|].
  destruct IH as [(k & L & H)|L]; [left; exists k; split; [lia|exact H]|].
  destruct (Nat.le_gt_cases (length (keys (passes fields l (S n) []))) (length (keys (passes fields l n [])))) as [G|G].
  - left. exists n. split; [lia|]. apply NoDup_length_incl; [apply okX_passes|exact G|apply keys_mono].
  - right. lia.
Qed.
Lemma settle_steady k : incl (keys (passes fields l (S k) [])) (keys (passes fields l k [])) ->
  passes fields l (S (S k)) [] = passes fields l (S k) [].
Proof.
  intros H. cbn [passes]. unfold pass at 1 2. apply pass_twice; [apply okX_passes|].
  apply trace_same; try apply okX_passes.
  - intros v. change (assoc v (passes fields l k []) = assoc v (passes fields l (S k) [])).
    destruct (okX_passes k) as [_ O1], (okX_passes (S k)) as [_ O2].
    destruct (assoc v (passes fields l k [])) eqn:G1, (assoc v (passes fields l (S k) [])) eqn:G2; auto.
    + destruct (O1 v _ G1) as (t1 & T1 & ->), (O2 v _ G2) as (t2 & T2 & ->). congruence.
    + exfalso. assert (C : In v (keys (passes fields l k []))) by (apply assoc_keys; congruence).
      apply (keys_mono k) in C. apply assoc_keys in C. congruence.
    + exfalso. assert (C : In v (keys (passes fields l (S k) []))) by (apply assoc_keys; congruence).
      apply H in C. apply assoc_keys in C. congruence.
  - apply (okX_passes (S k)).
Qed.
End Steady.

Theorem infer_ends_steady_partial : forall fields sts T,
  keeps T (flats sts) -> (forall v t, T v = Some t -> decay t = t) ->
  (forall v p e t, In (Set_ false v p e) (flats sts) -> In t (taken e) -> decay t = t) ->
  exists E, forall fuel, (length (flats sts) + 3 <= fuel)%nat -> analyse fields fuel sts = Ok E.
Proof.
  intros fields sts T K HT Hd. set (l := flats sts) in *.
  assert (B : (length (targets l) <= length l)%nat).
  { unfold targets. clear. induction l as [|i k IH]; [auto|]. cbn [flat_map length]. rewrite app_length.
    destruct i as [[|] v p e|]; cbn [length]; lia. }
  destruct (grow_or_settle fields T l K HT Hd (S (length l))) as [(k & L & H)|L].
  - pose proof (settle_steady fields T l K HT Hd k H) as S1.
    destruct (until_ends fields sts (S k) []) as (E & U & _); [exact S1|].
    exists E. intros fuel F. unfold analyse. replace fuel with (S (S k) + (fuel - S (S k)))%nat by lia.
    now apply until_more.
  - exfalso. pose proof (targets_passes fields T l K HT Hd (S (length l))) as I.
    apply NoDup_incl_length in I; [|apply (okX_passes fields T l K HT Hd (S (length l)))]. lia.
Qed.

(* ==== C77: the type given is the one whose size is counted *)
(* A function whose locals hold sizes of one type each, none computed from itself: the analysis
   ends, and gives each argument that counts t's the type t, or an array of them, as complete. *)
Theorem infer_type_partial : forall fields sts T rank R,
  keeps T (flats sts) -> acyclic rank (flats sts) -> (forall v, (rank v < R)%nat) ->
  (forall v p e, In (Set_ false v p e) (flats sts) -> grounded T (flats sts) e) ->
  exists E, (forall fuel, (R + 2 <= fuel)%nat -> analyse fields fuel sts = Ok E) /\
    forall t e, whole T t e -> grounded T (flats sts) e ->
      exists ts, get_size fields e E = Existing ts true /\ decay ts = t.
Proof.
  intros fields sts T rank R K A B G.
  destruct (infer_ends_partial fields sts rank R A B) as (E & H). exists E. split; [exact H|].
  intros t e W Ge. specialize (H (R + 2)%nat (Nat.le_refl _)).
  apply until_fix in H. destruct H as (k & -> & F).
  pose proof (okE_passes fields T (flats sts) k K) as O.
  apply (size_found fields T); auto.
  intros v Hv Tv. apply (present fields T rank (flats sts)) with (r := S (rank v)); auto.
Qed.

(* An argument of plain numbers is never given a type. *)
Theorem infer_plain : forall fields sts T fuel E,
  keeps T (flats sts) -> analyse fields fuel sts = Ok E ->
  forall e, plain T e -> get_size fields e E = Undet /\ recorded (get_size fields e E) = (RawBytes, true).
Proof.
  intros fields sts T fuel E K H e P. apply until_fix in H. destruct H as (k & -> & F).
  rewrite (size_plain fields T e _ (okE_passes fields T (flats sts) k K) P). auto.
Qed.

(* and whatever path is taken to the call, what is asked for is then a number of whole t's *)
Theorem infer_whole_number : forall sizeof offsetof globs mem oth othop T l path s,
  (forall t b, (sizeof t | sizeof (TSArray t b))) ->
  keeps T l -> (forall i, In i path -> In i l) ->
  (forall v p t, T v = Some t -> (sizeof t | s v p)) ->
  forall t e, whole T t e ->
    (sizeof t | eval sizeof offsetof globs mem oth othop e (exec sizeof offsetof globs mem oth othop s path)).
Proof.
  intros sizeof offsetof globs mem oth othop T l path s SA K.
  assert (D : forall t, (sizeof (decay t) | sizeof t)).
  { induction t; cbn; try apply Z.divide_refl. eapply Z.divide_trans; [exact IHt|apply SA]. }
  assert (V : forall s, (forall v p t, T v = Some t -> (sizeof t | s v p)) -> forall t e, whole T t e ->
              (sizeof t | eval sizeof offsetof globs mem oth othop e s)).
  { intros s1 O t e W. induction W; cbn.
    - rewrite <- H. apply D.
    - subst. apply Z.divide_factor_r.
    - now apply O.
    - now apply Z.divide_mul_l.
    - now apply Z.divide_mul_r.
    - now apply Z.divide_add_r.
    - exact IHW. }
  revert s. induction path as [|i path IH]; intros s I O t e W; cbn; [now apply V|].
  apply IH; auto; [intros; apply I; now right|].
  destruct i as [[|] v p e'|]; cbn; auto.
  intros u q t' Tu. destruct ((u =? v) && (q =? p)) eqn:G; [|now apply O].
  apply andb_true_iff in G. destruct G as [G _]. apply Z.eqb_eq in G. subst u.
  pose proof (K v p e' (I _ (or_introl eq_refl))) as W'. rewrite Tu in W'. now apply V.
Qed.

(* No type comes from nowhere: of any function, at any call, the type given to an argument is one
   whose size the function takes, there or in an assignment, or what that is an array of. *)
Definition fromw (l : list tsig) (s : sz) : Prop :=
  match s with
  | Existing t _ => within t l
  | Synthetic ts => forall x, In x ts -> exists y, within y l /\ (x = y \/ x = TSArray y None)
  | _ => True
  end.
Lemma within_decay t l : within t l -> within (decay t) l.
Proof. intros (u & I & [-> | ->]); exists u; split; auto; [now right|right; apply decay_decay]. Qed.
Lemma within_incl t l l' : incl l l' -> within t l -> within t l'.
Proof. intros H (u & I & E). exists u. split; [now apply H|exact E]. Qed.
Lemma fromw_incl s l l' : incl l l' -> fromw l s -> fromw l' s.
Proof.
  intros H. destruct s; cbn; auto.
  - now apply within_incl.
  - intros K x Hx. destruct (K x Hx) as (y & W & E). exists y. split; [now apply (within_incl y l)|exact E].
Qed.
Lemma from_mult l a b : fromw l a -> fromw l b -> fromw l (mult_sz a b).
Proof. destruct a; cbn; auto. Qed.
Lemma from_plus l a b : fromw l a -> fromw l b -> fromw l (plus_sz a b).
Proof.
  unfold plus_sz. generalize complexity_threshold. intros m.
  destruct a as [|s1 c1|l1|], b as [|s2 c2|l2|]; cbn [fromw]; auto; intros H1 H2.
  - destruct (tsig_eq _ _); cbn; [now apply within_decay|].
    intros x [<- | [<- | []]]; [exists s1; auto|exists s2; auto].
  - destruct ((m <=? length l2)%nat); cbn; [exact I|]. intros x [<- | Hx]; [exists s1; auto|auto].
  - destruct ((m <=? length l1)%nat); cbn; [exact I|]. intros x Hx. apply in_app_iff in Hx.
    destruct Hx as [Hx | [<- | []]]; [auto|exists s2; auto].
  - destruct (list_eq_dec _ _ _); [exact H1|]. destruct ((m <? length l1 + length l2)%nat); cbn; [exact I|].
    intros x Hx. apply in_app_iff in Hx. destruct Hx; auto.
Qed.
Lemma from_div l a b : fromw l a -> fromw l (div_sz a b).
Proof.
  unfold div_sz. destruct a as [|s1 c1|l1|]; cbn; auto. intros H. apply within_decay in H.
  destruct b as [|s2 c2|l2|]; cbn; auto. destruct (tsig_eq _ _); cbn; auto.
Qed.
Lemma from_minus fields l a b : fromw l a -> fromw l (minus_sz fields a b).
Proof.
  unfold minus_sz. destruct a as [|s1 c1|l1|]; cbn; auto. destruct s1; cbn; auto. destruct is_struct; cbn; auto.
  destruct c1; cbn; auto. intros H. destruct b as [|s2 [|]|l2|]; cbn; auto.
  destruct (fields true name); cbn; auto. now destruct (_ && _).
Qed.
Lemma from_size fields l E e : (forall v s, assoc v E = Some s -> fromw l s) -> incl (taken e) l -> fromw l (get_size fields e E).
Proof.
  intros O. induction e; cbn; intros I; try exact Logic.I.
  - exists t. split; [apply I; now left|now left].
  - exists (TSInt IChar). split; [apply I; now left|now left].
  - destruct glob; cbn; [exact Logic.I|]. destruct (assoc v E) eqn:G; [now apply (O v)|exact Logic.I].
  - assert (I1 : incl (taken e1) l) by (intros x Hx; apply I, in_or_app; auto).
    assert (I2 : incl (taken e2) l) by (intros x Hx; apply I, in_or_app; auto).
    specialize (IHe1 I1). specialize (IHe2 I2).
    destruct o; [now apply from_mult|now apply from_plus|now apply from_minus|now apply from_div|exact Logic.I].
  - now apply IHe.
  - destruct (trailing fields o); cbn; [|exact Logic.I]. exists t. split; [apply I; now left|now left].
Qed.
Definition taken_in (l : list instr) : list tsig :=
  flat_map (fun i => match i with Set_ false _ _ e => taken e | _ => [] end) l.
Theorem infer_taken : forall fields sts fuel E, analyse fields fuel sts = Ok E ->
  forall e, fromw (taken e ++ taken_in (flats sts)) (get_size fields e E).
Proof.
  intros fields sts fuel E H e. apply until_fix in H. destruct H as (k & -> & _).
  set (l := flats sts).
  assert (O : forall n, NoDup (keys (passes fields l n [])) /\ forall v s, assoc v (passes fields l n []) = Some s -> fromw (taken_in l) s).
  { induction n as [|n [N O]]; cbn; [split; [constructor|intros v s C; discriminate C]|].
    unfold pass. assert (Q : forall j E, (forall i, In i j -> In i l) -> NoDup (keys E) -> (forall v s, assoc v E = Some s -> fromw (taken_in l) s) ->
      NoDup (keys (fold_left (acc_instr fields) j E)) /\ forall v s, assoc v (fold_left (acc_instr fields) j E) = Some s -> fromw (taken_in l) s).
    { induction j as [|i j IH]; intros E0 I N0 O0; cbn; [auto|].
      apply IH; [intros; apply I; now right|now apply nodup_acc|].
      rewrite acc_put. destruct i as [[|] v p a|]; auto.
      assert (W : fromw (taken_in l) (get_size fields a E0)).
      { apply from_size; auto. intros x Hx. unfold taken_in. apply in_flat_map. exists (Set_ false v p a).
        split; [apply I; now left|exact Hx]. }
      intros u s Hu. destruct (get_size fields a E0) eqn:G; try (now apply (O0 u));
      (rewrite assoc_put in Hu by exact N0; destruct (u =? v); [injection Hu as <-; exact W|now apply (O0 u)]). }
    now apply Q. }
  apply from_size; [|intros x Hx; apply in_or_app; now left].
  intros v s Hv. apply (fromw_incl _ (taken_in l)); [intros x Hx; apply in_or_app; now right|].
  now apply (proj2 (O k) v).
Qed.

(* Two types, one after the other: a composite, of which the second part is an array. *)
Theorem infer_composite_partial : forall fields sts T rank R,
  keeps T (flats sts) -> acyclic rank (flats sts) -> (forall v, (rank v < R)%nat) ->
  (forall v p e, In (Set_ false v p e) (flats sts) -> grounded T (flats sts) e) ->
  exists E, (forall fuel, (R + 2 <= fuel)%nat -> analyse fields fuel sts = Ok E) /\
    forall a b s t, whole T s a -> whole T t b -> s <> t -> grounded T (flats sts) (BinOp PlusA a b) ->
      exists sa tb, decay sa = s /\ decay tb = t /\
        recorded (get_size fields (BinOp PlusA a b) E) = (Composite [sa; TSArray tb None], false).
Proof.
  intros fields sts T rank R K A B G.
  destruct (infer_type_partial fields sts T rank R K A B G) as (E & H & Q). exists E. split; [exact H|].
  intros a b s t Wa Wb N Gr.
  destruct (Q s a Wa) as (sa & Sa & Da); [intros v Hv; apply Gr; cbn; apply in_or_app; auto|].
  destruct (Q t b Wb) as (tb & Sb & Db); [intros v Hv; apply Gr; cbn; apply in_or_app; auto|].
  exists sa, tb. split; [exact Da|]. split; [exact Db|].
  cbn [get_size]. rewrite Sa, Sb. cbn. rewrite Da, Db. destruct (tsig_eq s t); [tauto|reflexivity].
Qed.
(* A struct less its last field: the struct, with something else at its end. *)
Theorem infer_less_last : forall fields E n fs f u, fields true n = fs ++ [f] -> f_bits f = false ->
  f_type f = u \/ f_type f = TSArray u (Some 1) ->
  get_size fields (BinOp MinusA (SizeOf (TSComp true n)) (SizeOf u)) E = Existing (TSComp true n) false.
Proof.
  intros fields E n fs f u F B U. cbn. rewrite F.
  assert (M : forall t, ts_match t t = true).
  { intros t. destruct t; cbn [ts_match]; unfold tseqb;
    match goal with |- context [tsig_eq ?a ?a] => destruct (tsig_eq a a); [reflexivity|tauto] end. }
  destruct (fs ++ [f]) as [|f0 r] eqn:G; [destruct fs; discriminate G|].
  assert (L : last r f0 = f).
  { assert (Q : last (f0 :: r) f0 = f) by (rewrite <- G; apply last_last).
    destruct r; [exact Q|exact Q]. }
  rewrite L, B. cbn [negb andb].
  destruct U as [-> | ->].
  - now rewrite M.
  - rewrite M. cbn. now rewrite orb_true_r.
Qed.

(* an offset of a field which ends the type is told from others, if not nested in another field *)
Theorem infer_offset_partial : forall fields t E s c i,
  get_size fields (AddrNull t (Fld s c i NoOff)) E = Existing t false <-> at_end fields (Fld s c i NoOff).
Proof.
  intros. cbn [get_size trailing at_end]. destruct (Nat.eqb_spec (S i) (length (fields s c))) as [L|L].
  - split; [intros _; split; [exact L|exact I]|reflexivity].
  - split; [discriminate|intros [H _]; contradiction].
Qed.
Theorem infer_offset_found : forall fields t E o,
  at_end fields o -> to_field o -> get_size fields (AddrNull t o) E = Existing t false.
Proof.
  intros fields t E o A N. cbn [get_size].
  assert (Q : trailing fields o = true); [|now rewrite Q].
  induction o as [|s0 c0 i0 o IH|o IH]; cbn [at_end to_field trailing] in *; [tauto| |now apply IH].
  destruct A as [L A]. destruct o; [now apply Nat.eqb_eq|now apply IH|now apply IH].
Qed.

(* ==== C79: which calls, and which argument *)
Lemma span_all p a c b : (forall x, In x a -> p x = true) -> p c = false -> span p (a ++ c :: b) = a.
Proof.
  intros H C. induction a as [|x a IH]; cbn; [now rewrite C|].
  rewrite (H x) by now left. f_equal. apply IH. intros; apply H. now right.
Qed.
Lemma parse_render d : wf_sig d -> parse_sig (render d) = Ok (Some (s_name d), s_args d).
Proof.
  intros (Hn & H1 & H2 & H3 & H4 & H5). unfold parse_sig, render.
  rewrite span_all; [| |reflexivity].
  2:{ intros x Hx. destruct (Z.eqb_spec x LP); [subst; tauto|]. destruct (Z.eqb_spec x BS); [subst; tauto|]. reflexivity. }
  destruct (s_name d) as [|n0 nm] eqn:En; [tauto|].
  assert (L : (length ((n0 :: nm) ++ LP :: s_args d ++ RP :: s_tail d) <? S (length (n0 :: nm)))%nat = false).
  { apply Nat.ltb_ge. rewrite app_length. cbn [length]. lia. }
  rewrite L. f_equal. f_equal.
  change (LP :: s_args d ++ RP :: s_tail d) with ([LP] ++ s_args d ++ RP :: s_tail d).
  rewrite app_assoc.
  replace (S (length (n0 :: nm))) with (length ((n0 :: nm) ++ [LP]) + 0)%nat by (rewrite app_length; cbn [length]; lia).
  rewrite skipn_app, Nat.add_0_r, skipn_all, Nat.sub_diag. cbn [app skipn].
  apply span_all; [|reflexivity].
  intros x Hx. destruct (Z.eqb_spec x RP); [subst; tauto|]. destruct (Z.eqb_spec x BS); [subst; tauto|]. reflexivity.
Qed.
Lemma upto_none s : ~ In RP s -> upto_last_rp s = None.
Proof.
  induction s as [|c s IH]; cbn; intros H; [reflexivity|]. rewrite IH by tauto.
  destruct (Z.eqb_spec c RP); [tauto|reflexivity].
Qed.
Lemma upto_at a t : ~ In RP t -> upto_last_rp (a ++ RP :: t) = Some (a ++ [RP]).
Proof.
  intros H. induction a as [|c a IH]; cbn; [now rewrite upto_none|]. now rewrite IH.
Qed.
Lemma spec_render d : wf_sig d -> arg_spec (render d) = LP :: s_args d ++ [RP].
Proof.
  intros (Hn & H1 & H2 & H3 & H4 & H5). unfold render. clear Hn H2.
  induction (s_name d) as [|c n IH]; cbn.
  - now rewrite upto_at.
  - destruct (Z.eqb_spec c LP) as [->|]; [exfalso; apply H1; now left|]. apply IH. intros C. apply H1. now right.
Qed.
Lemma first_capital_at s k : forall i j, first_capital (s ++ [RP]) k = Some (k + i)%nat /\ j = i <-> capital_at s i /\ j = i.
Proof.
  revert k. induction s as [|c s IH]; intros k i j; cbn [app first_capital].
  - cbn. split; [intros [C _]; discriminate|intros [C _]; inversion C].
  - unfold is_capital. destruct ((65 <=? c) && (c <=? 90)) eqn:Ec.
    + split; intros [H ->]; split; auto.
      * injection H as H. replace i with O by lia. constructor. lia.
      * inversion H; subst; [f_equal; lia|lia].
    + destruct i as [|i].
      * split; intros [H ->]; split; auto.
        -- exfalso. assert (Q : forall s k n, first_capital s k = Some n -> (k <= n)%nat).
           { induction s0 as [|x s0 IHs]; cbn; intros k0 n Hn; [discriminate|].
             destruct (is_capital x); [injection Hn; lia|]. apply IHs in Hn. lia. }
           apply Q in H. lia.
        -- inversion H; subst. lia.
      * replace (k + S i)%nat with (S k + i)%nat by lia.
        split; intros [H ->]; split; auto.
        -- constructor; [lia|]. now apply (IH (S k) i i).
        -- inversion H; subst. now apply (IH (S k) i i).
Qed.
Lemma size_arg_at d i : wf_sig d -> size_arg (render d) = Some (Z.of_nat i) <-> capital_at (s_args d) i.
Proof.
  intros W. unfold size_arg. rewrite spec_render by exact W. cbn [first_capital is_capital].
  change (is_capital LP) with false. cbn iota.
  split; intros H.
  - destruct (first_capital (s_args d ++ [RP]) 1) as [n|] eqn:F; [|discriminate]. injection H as H.
    apply (first_capital_at (s_args d) 1 i i). split; [|reflexivity]. rewrite F. f_equal. lia.
  - destruct (proj2 (first_capital_at (s_args d) 1 i i) (conj H eq_refl)) as [F _]. rewrite F. f_equal. lia.
Qed.
Lemma size_arg_none d : wf_sig d -> (forall i, ~ capital_at (s_args d) i) -> size_arg (render d) = None.
Proof.
  intros W H. unfold size_arg. rewrite spec_render by exact W. cbn [first_capital].
  change (is_capital LP) with false. cbn iota.
  destruct (first_capital (s_args d ++ [RP]) 1) as [n|] eqn:F; [|reflexivity].
  exfalso. apply (H (n - 1)%nat). apply (first_capital_at (s_args d) 1 (n - 1) (n - 1)). split; [|reflexivity].
  rewrite F. f_equal.
  assert (Q : forall s k n, first_capital s k = Some n -> (k <= n)%nat).
  { induction s as [|x s IHs]; cbn; intros k0 m Hn; [discriminate|].
    destruct (is_capital x); [injection Hn; lia|]. apply IHs in Hn. lia. }
  apply Q in F. lia.
Qed.
Lemma beq_eq a b : beq a b = true <-> a = b.
Proof.
  revert b. induction a as [|x a IH]; intros [|y b]; cbn; try (split; (discriminate || reflexivity)).
  rewrite andb_true_iff, IH, Z.eqb_eq. split; [intros [-> ->]; reflexivity|intros [= -> ->]; auto].
Qed.

(* A direct call is listed just when some signature has its name and number of arguments, and
   then as the first of them says: by the argument with the first capital letter, or, if it has
   none, by what the function returns a pointer to. *)
Definition calls_for (f : bytes) (n : nat) (d : sigd) : Prop := s_name d = f /\ length (s_args d) = n.
Theorem infer_direct : forall fields f args E ret ds, Forall wf_sig ds ->
  (Forall (fun d => ~ calls_for f (length args) d) ds ->
     alloc_expr fields (Some f) args E ret (map render ds) = Ok None) /\
  (forall before d after, ds = before ++ d :: after -> Forall (fun d => ~ calls_for f (length args) d) before ->
     calls_for f (length args) d ->
     (forall i, capital_at (s_args d) i -> exists e, nth_error args i = Some e /\
        alloc_expr fields (Some f) args E ret (map render ds) = Ok (Some (get_size fields e E))) /\
     ((forall i, ~ capital_at (s_args d) i) ->
        alloc_expr fields (Some f) args E ret (map render ds) =
        Ok (Some (match ret with TSPtr t => Existing t true | _ => Undet end)))).
Proof.
  intros fields f args E ret ds W.
  assert (No : forall d, wf_sig d -> ~ calls_for f (length args) d ->
             beq f (s_name d) && Nat.eqb (length args) (length (s_args d)) = false).
  { intros d Wd N. destruct (beq f (s_name d)) eqn:B; [|reflexivity]. apply beq_eq in B.
    destruct (Nat.eqb_spec (length args) (length (s_args d))); [|reflexivity]. exfalso. apply N. split; auto. }
  assert (Skip : forall before rest, Forall wf_sig before -> Forall (fun d => ~ calls_for f (length args) d) before ->
     alloc_expr fields (Some f) args E ret (map render before ++ rest) = alloc_expr fields (Some f) args E ret rest).
  { induction before as [|d before IH]; intros rest Wb Nb; cbn [map app alloc_expr]; [reflexivity|].
    inversion Wb; inversion Nb; subst. rewrite parse_render by assumption. cbn [bind].
    rewrite No by assumption. now apply IH. }
  split.
  - intros N. rewrite <- (app_nil_r (map render ds)). now rewrite Skip.
  - intros before d after -> N C. rewrite map_app. cbn [map].
    apply Forall_app in W. destruct W as [Wb Wd]. inversion Wd; subst.
    rewrite Skip by assumption. cbn [alloc_expr]. rewrite parse_render by assumption. cbn [bind].
    destruct C as [<- L].
    assert (B : beq (s_name d) (s_name d) = true) by now apply beq_eq. rewrite B, L, Nat.eqb_refl. cbn [andb].
    unfold match_args. split.
    + intros i Ci. rewrite (proj2 (size_arg_at d i H1) Ci). rewrite Nat2Z.id.
      assert (Li : (i < length args)%nat).
      { rewrite <- L. clear - Ci. induction Ci; cbn; lia. }
      destruct (nth_error args i) as [e|] eqn:Ne; [|apply nth_error_None in Ne; lia].
      exists e. auto.
    + intros Nc. now rewrite size_arg_none.
Qed.
Lemma recorded_written t : exists st, written t st /\ recorded (Existing t true) = (st, true).
Proof.
  destruct (tsig_eq t (TSPtr TSVoid)) as [-> |N1]; [exists GenericPtr; split; [constructor|reflexivity]|].
  destruct (tsig_eq t (TSPtr (TSInt IChar))) as [-> |N2]; [exists GenericPtr; split; [constructor|reflexivity]|].
  exists (Named t). split; [now constructor|]. destruct t; try reflexivity.
  destruct t; try reflexivity; try congruence. destruct k; try reflexivity; congruence.
Qed.
(* A call whose signature marks no argument is written with what it returns a pointer to. *)
Theorem infer_returned : forall fields f args E t ds before d after, Forall wf_sig ds ->
  ds = before ++ d :: after -> Forall (fun d => ~ calls_for f (length args) d) before ->
  calls_for f (length args) d -> (forall i, ~ capital_at (s_args d) i) ->
  exists st, written t st /\ alloc_call fields (Some f) args E (TSPtr t) (map render ds) = Ok (Some (st, true)).
Proof.
  intros fields f args E t ds before d after W Eq N C Nc.
  destruct (infer_direct fields f args E (TSPtr t) ds W) as [_ Dir]. destruct (Dir before d after Eq N C) as [_ Di].
  destruct (recorded_written t) as (st & Wr & Er). exists st. split; [exact Wr|].
  unfold alloc_call. rewrite (Di Nc). cbn [bind]. now rewrite Er.
Qed.
(* the two together: from a function's text to what is written for a call in it *)
Theorem infer_site_partial : forall fields sts T rank R,
  keeps T (flats sts) -> acyclic rank (flats sts) -> (forall v, (rank v < R)%nat) ->
  (forall v p e, In (Set_ false v p e) (flats sts) -> grounded T (flats sts) e) ->
  exists E, (forall fuel, (R + 2 <= fuel)%nat -> analyse fields fuel sts = Ok E) /\
    forall args ret before d after i t e, Forall wf_sig (before ++ d :: after) ->
      length (s_args d) = length args ->
      Forall (fun d' => ~ calls_for (s_name d) (length args) d') before ->
      capital_at (s_args d) i -> nth_error args i = Some e ->
      whole T t e -> grounded T (flats sts) e ->
      exists ts st, decay ts = t /\ written ts st /\
        alloc_call fields (Some (s_name d)) args E ret (map render (before ++ d :: after)) = Ok (Some (st, true)).
Proof.
  intros fields sts T rank R K A B G.
  destruct (infer_type_partial fields sts T rank R K A B G) as (E & H & Q). exists E. split; [exact H|].
  intros args ret before d after i t e W L N C Ne Wh Gr.
  destruct (Q t e Wh Gr) as (ts & S1 & D). destruct (recorded_written ts) as (st & Wr & Er).
  exists ts, st. split; [exact D|]. split; [exact Wr|].
  destruct (infer_direct fields (s_name d) args E ret _ W) as [_ Dir].
  destruct (Dir before d after eq_refl N (conj eq_refl L)) as [Di _].
  destruct (Di i C) as (e' & Ne' & Ha). assert (e' = e) by congruence. subst e'.
  unfold alloc_call. rewrite Ha. cbn [bind]. now rewrite S1, Er.
Qed.
