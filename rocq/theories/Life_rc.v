(* Reference counting as a lifetime policy: the counts are exact. *)
From Verif Require Import Base Life_model Life_spec Life_proof Life_props Life_rcspec.

Lemma points_spec v o : points v o = true <-> v = Some o.
Proof. destruct v as [p|]; cbn; [rewrite Nat.eqb_eq|]; split; congruence. Qed.
Lemma objs_in l o : In o (objs l) <-> allocated l o.
Proof.
  unfold objs, allocated. rewrite in_flat_map. split.
  - intros (e & Ie & Io). destruct e as [x|i x|i x|x|x]; cbn in Io; try contradiction. destruct Io as [<-|[]]. exact Ie.
  - intro H. exists (ENew o). cbn. auto.
Qed.

Lemma flt_ext {A} (f h : A -> bool) l : (forall x, In x l -> f x = h x) -> filter f l = filter h l.
Proof. intro H. induction l as [|x l IH]; [reflexivity|]. cbn. rewrite (H x (or_introl eq_refl)), IH; [reflexivity|]. intros y Iy. apply H. right. exact Iy. Qed.
Lemma flt_drop {A} (f h : A -> bool) (dec : forall x y : A, {x = y} + {x <> y}) s l : NoDup l -> In s l -> f s = true -> h s = false -> (forall x, In x l -> x <> s -> f x = h x) ->
  length (filter f l) = S (length (filter h l)).
Proof.
  intros ND I F H E. induction l as [|x l IH]; [destruct I|]. inversion ND as [|? ? N1 N2]; subst. cbn. destruct (dec x s) as [->|Ne].
  - rewrite F, H. cbn. f_equal. f_equal. apply flt_ext. intros y Iy. apply E; [right; exact Iy|]. intros ->. contradiction.
  - destruct I as [->|I]; [congruence|]. rewrite (E x (or_introl eq_refl) Ne). specialize (IH N2 I (fun y Iy => E y (or_intror Iy))). destruct (h x); cbn; lia.
Qed.
Lemma nodup_app {A} (a b : list A) : NoDup (a ++ b) <-> NoDup a /\ NoDup b /\ (forall x, In x a -> In x b -> False).
Proof.
  induction a as [|x a IH]; cbn; [split; [intro H; repeat split; [constructor|exact H|tauto]|tauto]|].
  split.
  - intro H. inversion H as [|? ? N1 N2]; subst. apply IH in N2. destruct N2 as (P1 & P2 & P3). rewrite in_app_iff in N1. split; [constructor; tauto|]. split; [exact P2|].
    intros y [->|Iy] Jy; [tauto|eauto].
  - intros (H1 & H2 & H3). inversion H1 as [|? ? N1 N2]; subst. constructor; [rewrite in_app_iff; intros [X|X]; [contradiction|exact (H3 x (or_introl eq_refl) X)]|].
    apply IH. split; [exact N2|]. split; [exact H2|]. intros y Iy. apply H3. right. exact Iy.
Qed.

Section RC.
Variables (LP : Z) (dbg : bool) (roots : list nat).
Hypothesis HLP : 1 <= LP <= 4.
Notation cnt := (Z -> nat -> nat).
Notation world := (Life_model.world cnt).
Notation J := (J LP).
Notation detach_with := (detach_with dbg cnt).
Notation del_loop := (del_loop cnt del1).
Notation notify_old := (notify_old LP cnt del1).
Notation each := (each cnt).
Notation do_free := (do_free LP dbg cnt del1).
Notation active := (active roots).
Notation refs := (refs roots).

(* every slot in use belongs to one object, or to none *)
Definition tidy (g : gst) : Prop := NoDup (active g).

Lemma flat_live_sub g l x : In x (flat_map (fun o => if o_live (g_obj g o) then o_slots (g_obj g o) else []) l) -> exists o, In o l /\ o_live (g_obj g o) = true /\ In x (o_slots (g_obj g o)).
Proof. rewrite in_flat_map. intros (o & Io & X). exists o. destruct (o_live (g_obj g o)); [auto|destruct X]. Qed.
Lemma active_in g x : In x (active g) <-> In x roots \/ exists o, allocated (g_log g) o /\ o_live (g_obj g o) = true /\ In x (o_slots (g_obj g o)).
Proof.
  unfold Life_rcspec.active. rewrite in_app_iff. split; (intros [X|X]; [left; exact X|right]).
  - apply flat_live_sub in X. destruct X as (o & Io & X). exists o. split; [apply objs_in, Io|exact X].
  - destruct X as (o & Ao & Lo & X). rewrite in_flat_map. exists o. split; [apply objs_in, Ao|]. rewrite Lo. exact X.
Qed.
(* fewer objects, fewer slots *)
Lemma tidy_sub g g' : tidy g -> objs (g_log g') = objs (g_log g) -> (forall o, o_slots (g_obj g' o) = o_slots (g_obj g o)) ->
  (forall o, o_live (g_obj g' o) = true -> o_live (g_obj g o) = true) -> tidy g'.
Proof.
  unfold tidy, Life_rcspec.active. intros T Eo Es El. rewrite Eo. rewrite nodup_app in *. destruct T as (H1 & H2 & H3). split; [exact H1|].
  assert (Sub : forall l x, In x (flat_map (fun o => if o_live (g_obj g' o) then o_slots (g_obj g' o) else []) l) -> In x (flat_map (fun o => if o_live (g_obj g o) then o_slots (g_obj g o) else []) l)).
  { intros l x. rewrite !in_flat_map. intros (o & Io & X). exists o. split; [exact Io|]. destruct (o_live (g_obj g' o)) eqn:L; [|destruct X]. rewrite (El o L), <- Es. exact X. }
  split.
  - clear H3 Eo. induction (objs (g_log g)) as [|o l IH]; cbn in *; [auto|]. rewrite !nodup_app in *. destruct H2 as (P1 & P2 & P3).
    split; [destruct (o_live (g_obj g' o)) eqn:L; [rewrite (El o L) in P1; rewrite Es; exact P1|constructor]|]. split; [exact (IH P2)|].
    intros x Ix Jx. apply Sub in Jx. apply (P3 x); [|exact Jx]. destruct (o_live (g_obj g' o)) eqn:L; [|destruct Ix]. rewrite (El o L), <- Es. exact Ix.
  - intros x Ix Jx. apply Sub in Jx. eauto.
Qed.
Lemma tidy_one g s o p : tidy g -> o_live (g_obj g o) = true -> o_live (g_obj g p) = true -> allocated (g_log g) o -> allocated (g_log g) p -> In s (o_slots (g_obj g o)) -> In s (o_slots (g_obj g p)) -> o = p.
Proof.
  unfold tidy, Life_rcspec.active. rewrite nodup_app. intros (_ & H & _) Lo Lp Ao Ap So Sp. apply objs_in in Ao. apply objs_in in Ap. revert H Ao Ap. induction (objs (g_log g)) as [|x l IH]; [intros _ []|].
  cbn. rewrite nodup_app. intros (P1 & P2 & P3) [->|Io] [->|Ip]; auto.
  - exfalso. rewrite Lo in P3. apply (P3 s So). rewrite in_flat_map. exists p. rewrite Lp. auto.
  - exfalso. rewrite Lp in P3. apply (P3 s Sp). rewrite in_flat_map. exists o. rewrite Lo. auto.
Qed.
Lemma tidy_root g s o : tidy g -> In s roots -> o_live (g_obj g o) = true -> allocated (g_log g) o -> ~ In s (o_slots (g_obj g o)).
Proof.
  unfold tidy, Life_rcspec.active. rewrite nodup_app. intros (_ & _ & H) Ir Lo Ao X. apply (H s Ir). rewrite in_flat_map. exists o. rewrite Lo. split; [apply objs_in, Ao|exact X].
Qed.
Lemma tidy_slots g o : tidy g -> o_live (g_obj g o) = true -> allocated (g_log g) o -> NoDup (o_slots (g_obj g o)).
Proof.
  unfold tidy, Life_rcspec.active. rewrite nodup_app. intros (_ & H & _) Lo Ao. apply objs_in in Ao. revert H Ao. induction (objs (g_log g)) as [|x l IH]; [intros _ []|]. cbn. rewrite nodup_app.
  intros (P1 & P2 & P3) [->|Io]; auto. rewrite Lo in P1. exact P1.
Qed.

(* references not yet dropped *)
Definition refsd (done : nat -> bool) (g : gst) (o : nat) : nat := length (filter (fun s => negb (done s) && points (g_mem g s) o) (active g)).
Definition mark (done : nat -> bool) (s : nat) : nat -> bool := fun x => if Nat.eqb x s then true else done x.

Variable g0 : gst.        (* where the operation began dropping references *)
Variable sw : option nat. (* the slot being overwritten, if any *)
Hypothesis T0 : tidy g0.

(* While the policies of object t are being told of a lost reference, those in ex have yet to be. *)
Record RCx (t : nat) (ex : list Z) (u : cnt) (g : gst) (done : nat -> bool) (Dy : list nat) : Prop := {
  rc_J : J g Dy;
  rc_mem : g_mem g = g_mem g0;
  rc_slots : forall o, o_slots (g_obj g o) = o_slots (g_obj g0 o);
  rc_objs : objs (g_log g) = objs (g_log g0);
  rc_live : forall o, o_live (g_obj g o) = true -> o_live (g_obj g0 o) = true;
  rc_n : forall o i, 1 <= i -> ~ (o = t /\ In i ex) -> att (g_log g) o i = true -> u i o = refsd done g o;
  rc_keep : forall o i, 1 <= i -> att (g_log g0) o i = true -> (refsd done g o > 0)%nat \/ refs g0 o = 0%nat -> att (g_log g) o i = true;
  rc_att0 : forall o i, 1 <= i -> att (g_log g) o i = true -> att (g_log g0) o i = true;
  rc_att : forall o i, 1 <= i -> ~ (o = t /\ In i ex) -> att (g_log g) o i = true -> refs g0 o = 0%nat \/ (refsd done g o > 0)%nat;
  rc_mono : forall o, (refsd done g o <= refs g0 o)%nat;
  rc_fresh : forall o s, o_live (g_obj g o) = true -> ~ In o Dy -> In s (o_slots (g_obj g o)) -> done s = true -> sw = Some s;
  rc_roots : forall r, In r roots -> done r = true -> sw = Some r }.
Notation RC := (RCx 0 []).
(* the slot being overwritten no longer matters *)
Definition rc_w (g : gst) (done : nat -> bool) : Prop := forall s, sw = Some s -> done s = true /\ forall t i, g_mem g s = Some t -> 1 <= i -> att (g_log g) t i = false.
Definition att_le (g' g : gst) : Prop := forall o i, att (g_log g') o i = true -> att (g_log g) o i = true.

Lemma tidy_g t ex u g done Dy : RCx t ex u g done Dy -> tidy g.
Proof. intro I. apply (tidy_sub g0 g T0); apply I. Qed.

Lemma refsd_mark done g s t o : tidy g -> In s (active g) -> done s = false -> g_mem g s = Some t ->
  refsd done g o = (if Nat.eqb t o then S (refsd (mark done s) g o) else refsd (mark done s) g o).
Proof.
  intros T I D M. unfold refsd. destruct (Nat.eqb_spec t o) as [->|Ne].
  - apply flt_drop with (s := s).
    + decide equality.
    + exact T.
    + exact I.
    + rewrite D, M. cbn. apply Nat.eqb_refl.
    + unfold mark. rewrite Nat.eqb_refl. reflexivity.
    + intros x _ Nx. unfold mark. destruct (Nat.eqb_spec x s); [contradiction|reflexivity].
  - f_equal. apply flt_ext. intros x _. unfold mark. destruct (Nat.eqb_spec x s) as [->|]; [|reflexivity]. rewrite D, M. cbn. destruct (Nat.eqb_spec t o); [contradiction|reflexivity].
Qed.
Lemma refsd_mark_none done g s : g_mem g s = None -> forall o, refsd (mark done s) g o = refsd done g o.
Proof.
  intros M o. unfold refsd. f_equal. apply flt_ext. intros x _. unfold mark. destruct (Nat.eqb_spec x s) as [->|]; [|reflexivity]. rewrite M. cbn. rewrite andb_false_r. reflexivity.
Qed.
Lemma refsd_pol done g o p e : (forall x, e <> ENew x) -> forall t, refsd done (log_ (set_pol g o p) e) t = refsd done g t.
Proof.
  intros E t. unfold refsd, Life_rcspec.active. f_equal. f_equal. f_equal. cbn [log_ set_pol g_obj g_log].
  assert (X : objs (e :: g_log g) = objs (g_log g)) by (destruct e; try reflexivity; destruct (E o0); reflexivity). rewrite X.
  apply flat_map_ext. intro x. destruct (Nat.eq_dec x o) as [->|N]; [rewrite upd_same; reflexivity|rewrite upd_other by exact N; reflexivity].
Qed.
Lemma refsd_kill done g o : (forall s, In s (o_slots (g_obj g o)) -> done s = true) -> forall t, refsd done (log_ (kill g o) (ERelease o)) t = refsd done g t.
Proof.
  intros D t. unfold refsd, Life_rcspec.active. cbn [log_ kill g_obj g_log g_mem]. change (objs (ERelease o :: g_log g)) with (objs (g_log g)).
  rewrite !filter_app, !app_length. f_equal. induction (objs (g_log g)) as [|x l IH]; [reflexivity|]. cbn [flat_map]. rewrite !filter_app, !app_length, IH. f_equal.
  destruct (Nat.eq_dec x o) as [->|N]; [|rewrite upd_other by exact N; reflexivity]. rewrite upd_same. cbn [o_live]. destruct (o_live (g_obj g o)); [|reflexivity].
  cbn. clear IH. revert D. induction (o_slots (g_obj g o)) as [|s r IHr]; intro D; [reflexivity|]. cbn. rewrite (D s (or_introl eq_refl)). cbn. exact (IHr (fun y Iy => D y (or_intror Iy))).
Qed.

Lemma ids_iff i : In i (ids LP) <-> 1 <= i < LP. Proof. apply (ids_in LP cnt add1 del1); exact HLP. Qed.
Lemma ids_nd : NoDup (ids LP). Proof. exact (ids_nodup LP cnt add1 del1). Qed.
Lemma att_det l i o x j : att (EDetach i o :: l) x j = true -> att l x j = true.
Proof. rewrite detach_att. destruct (_ && _); [discriminate|auto]. Qed.

(* what the allocator's free must preserve *)
Definition rfrees (fr : world -> nat -> res world) : Prop := forall u g o Dy done w', RC u g done (o :: Dy) -> rc_w g done -> ~ In o Dy -> o_live (g_obj g o) = true ->
  (forall s, In s (o_slots (g_obj g o)) -> done s = true -> sw = Some s) -> fr (u, g) o = Ok w' ->
  exists done', RC (fst w') (snd w') done' Dy /\ att_le (snd w') g /\ rc_w (snd w') done' /\
    (forall x, done x = true -> done' x = true) /\
    (forall p s, In p Dy -> o_live (g_obj g p) = true -> In s (o_slots (g_obj g p)) -> done' s = true -> done s = true).


Lemma RC_ex t u g done Dy : RCx t [] u g done Dy -> RC u g done Dy.
Proof. intros [A1 A2 A3 A4 Al A5 A6 A7 A8 A9 A10 A11]. constructor; try assumption; intros o i H _; [apply A5|apply A8]; auto; intros [_ []]. Qed.

(* the references that remain keep every policy: nothing is detached *)
Lemma del_many fr saved t s : forall is_ u g, NoDup is_ -> (forall i, In i is_ -> Z.testbit saved i = true -> i < g_next g /\ (2 <= u i t)%nat) ->
  exists u', del_loop (detach_with fr) saved t s is_ (u, g) = Ok (u', g) /\
    forall j o, u' j o = (if Nat.eqb o t && existsb (Z.eqb j) is_ && Z.testbit saved j then pred (u j o) else u j o).
Proof.
  intro is_. induction is_ as [|i r IH]; intros u g ND H; [exists u; split; [reflexivity|]; intros; rewrite andb_false_r; reflexivity|].
  inversion ND as [|? ? N1 N2]; subst. cbn [Life_model.del_loop]. destruct (Z.testbit saved i) eqn:T.
  - destruct (H i (or_introl eq_refl) T) as [Lt Ge]. cbn [snd fst]. destruct (Z.leb_spec (g_next g) i); [lia|]. cbn [del1].
    destruct (Nat.eqb_spec (pred (u i t)) 0) as [X|_]; [lia|]. cbn [bind]. set (u1 := fun j p => if (j =? i) && Nat.eqb p t then pred (u j p) else u j p).
    destruct (IH u1 g N2) as (u' & E & V).
    + intros k Ik Tk. destruct (H k (or_intror Ik) Tk). split; [assumption|]. unfold u1. destruct (Z.eqb_spec k i); [subst; contradiction|assumption].
    + exists u'. split; [exact E|]. intros j o. rewrite V. unfold u1. cbn [existsb]. destruct (Z.eqb_spec j i) as [->|Nj].
      * cbn [orb andb]. rewrite T. destruct (existsb (Z.eqb i) r) eqn:X; [exfalso; apply N1; apply existsb_exists in X; destruct X as (y & Iy & Ey); apply Z.eqb_eq in Ey; subst; exact Iy|].
        rewrite andb_false_r. cbn [andb]. destruct (Nat.eqb o t); reflexivity.
      * cbn [orb andb]. reflexivity.
  - destruct (IH u g N2) as (u' & E & V); [intros k Ik; apply H; right; exact Ik|]. exists u'. split; [exact E|]. intros j o. rewrite V. cbn [existsb].
    destruct (Z.eqb_spec j i) as [->|Nj]; [|reflexivity]. rewrite T, !andb_false_r. reflexivity.
Qed.
Lemma del_none dt saved t s : forall is_ (w : world), (forall i, In i is_ -> Z.testbit saved i = false) -> del_loop dt saved t s is_ w = Ok w.
Proof. intro is_. induction is_ as [|i r IH]; intros w H; [reflexivity|]. cbn [Life_model.del_loop]. rewrite (H i (or_introl eq_refl)). apply IH. intros k Ik. apply H. right. exact Ik. Qed.

(* a change of one object's policies by an event that makes no object *)
Lemma RC_step t ex ex' u u' g done Dy Dy' i o p : RCx t ex u g done Dy -> J (log_ (set_pol g o p) (EDetach i o)) Dy' -> o = t -> ~ In t Dy -> 1 <= i ->
  refsd done g t = 0%nat -> (refs g0 t > 0)%nat -> (forall j, j <> i -> In j ex -> In j ex' \/ att (g_log g) t j = false) ->
  (forall j x, x <> t -> u' j x = u j x) -> (forall j, ~ In j ex -> u' j t = u j t) ->
  (forall x, x <> o -> In x Dy -> In x Dy') ->
  RCx t ex' u' (log_ (set_pol g o p) (EDetach i o)) done Dy'.
Proof.
  intros I J' -> Nt Hi Z0 P0 Ex U1 U2 Ds. constructor.
  - exact J'.
  - exact (rc_mem _ _ _ _ _ _ I).
  - intro x. cbn. destruct (Nat.eq_dec x t) as [->|N]; [rewrite upd_same|rewrite upd_other by exact N]; apply I.
  - apply I.
  - intros x L. apply (rc_live _ _ _ _ _ _ I). cbn in L. destruct (Nat.eq_dec x t) as [->|N]; [rewrite upd_same in L; exact L|rewrite upd_other in L by exact N; exact L].
  - intros x j Hj Nx A. rewrite refsd_pol by discriminate. cbn [g_log log_ set_pol] in A. destruct (Nat.eq_dec x t) as [->|N].
    + rewrite detach_att, Nat.eqb_refl in A. cbn [andb] in A. destruct (Z.eqb_spec i j) as [->|Nj]; [discriminate|].
      assert (Nj' : ~ In j ex). { intro Ij. destruct (Ex j ltac:(congruence) Ij) as [X|X]; [apply Nx; auto|congruence]. }
      rewrite U2 by exact Nj'. apply (rc_n _ _ _ _ _ _ I); auto. intros [_ X]. contradiction.
    + rewrite U1 by exact N. apply att_det in A. apply (rc_n _ _ _ _ _ _ I); auto. intros [X _]. contradiction.
  - intros x j Hj A H. rewrite refsd_pol in H by discriminate. destruct (Nat.eq_dec x t) as [->|N]; [lia|].
    cbn [g_log log_ set_pol]. rewrite detach_att. destruct (Nat.eqb_spec t x); [congruence|]. cbn [andb]. exact (rc_keep _ _ _ _ _ _ I x j Hj A H).
  - intros x j Hj A. apply att_det in A. exact (rc_att0 _ _ _ _ _ _ I x j Hj A).
  - intros x j Hj Nx A. rewrite refsd_pol by discriminate. cbn [g_log log_ set_pol] in A. destruct (Nat.eq_dec x t) as [->|N].
    + rewrite detach_att, Nat.eqb_refl in A. cbn [andb] in A. destruct (Z.eqb_spec i j) as [->|Nj]; [discriminate|].
      assert (Nj' : ~ In j ex). { intro Ij. destruct (Ex j ltac:(congruence) Ij) as [X|X]; [apply Nx; auto|congruence]. }
      apply (rc_att _ _ _ _ _ _ I t j); auto. intros [_ X]. contradiction.
    + apply att_det in A. apply (rc_att _ _ _ _ _ _ I x j); auto. intros [X _]. contradiction.
  - intro x. rewrite refsd_pol by discriminate. apply I.
  - intros x s L Nd Is D. cbn [log_ set_pol g_obj] in L, Is. destruct (Nat.eq_dec x t) as [->|N].
    + rewrite upd_same in L, Is. cbn in L, Is. apply (rc_fresh _ _ _ _ _ _ I t s); auto.
    + rewrite upd_other in L, Is by exact N. apply (rc_fresh _ _ _ _ _ _ I x s); auto.
  - apply I.
Qed.

(* no reference remains: every policy detaches itself, and the object may go *)
Lemma del_last fr saved t s Dy (Hf : rfrees fr) : forall is_ u g done w', RCx t is_ u g done Dy -> ~ In t Dy -> NoDup is_ -> (forall i, In i is_ -> 1 <= i < LP) ->
  (forall i, 1 <= i < LP -> In i is_ \/ att (g_log g) t i = false) ->
  g_mem g s = Some t -> o_live (g_obj g t) = true -> refsd done g t = 0%nat -> (refs g0 t > 0)%nat ->
  (forall i, In i is_ -> Z.testbit saved i = att (g_log g) t i) -> (forall i, In i is_ -> att (g_log g) t i = true -> u i t = 1%nat) ->
  (forall x, sw = Some x -> done x = true) -> (sw <> Some s -> rc_w g done) ->
  del_loop (detach_with fr) saved t s is_ (u, g) = Ok w' ->
  exists done', RC (fst w') (snd w') done' Dy /\ att_le (snd w') g /\ rc_w (snd w') done' /\
    (forall x, done x = true -> done' x = true) /\
    (forall p x, In p Dy -> o_live (g_obj g p) = true -> In x (o_slots (g_obj g p)) -> done' x = true -> done x = true).
Proof.
  intro is_. induction is_ as [|i r IH]; intros u g done w' I Nt ND Hi Al M L Z0 P0 Sv Un Sd Sw E.
  - cbn in E. injection E as <-. exists done. cbn [fst snd]. split; [exact (RC_ex _ _ _ _ _ I)|]. split; [intros x j A; exact A|]. split; [|auto].
    intros x Ex. split; [exact (Sd x Ex)|]. intros y j My Hj. destruct (Nat.eq_dec x s) as [->|N].
    + rewrite M in My. injection My as <-. destruct (att (g_log g) t j) eqn:A; [|reflexivity]. destruct (j_reg _ _ _ (rc_J _ _ _ _ _ _ I) t j A). destruct (Al j ltac:(lia)) as [[]|X]. congruence.
    + refine (proj2 (Sw _ x Ex) y j My Hj). congruence.
  - inversion ND as [|? ? N1 N2]; subst. cbn [Life_model.del_loop] in E. assert (Hi1 := Hi i (or_introl eq_refl)).
    destruct (j_live _ _ _ (rc_J _ _ _ _ _ _ I) t L) as (A0 & Bt & Rl & Dz & Rp).
    rewrite (Sv i (or_introl eq_refl)) in E. destruct (att (g_log g) t i) eqn:At.
    + destruct (j_reg _ _ _ (rc_J _ _ _ _ _ _ I) t i At) as [_ [X|Rg]]; [lia|]. cbn [snd fst] in E. destruct (Z.leb_spec (g_next g) i); [lia|].
      unfold del1 in E at 1. rewrite (Un i (or_introl eq_refl) At) in E. cbn [pred Nat.eqb] in E.
      set (u1 := fun j p => if (j =? i) && Nat.eqb p t then pred (u j p) else u j p) in E.
      unfold Life_model.detach_with in E at 1. destruct (Z.ltb_spec i 0); [lia|]. rewrite L in E. unfold flag in E.
      destruct (Z.leb_spec 0 i); [|lia]. destruct (Z.ltb_spec i 31); [|lia]. cbn [andb bind] in E.
      set (p := Z.ldiff (o_pol (g_obj g t)) (2 ^ i)) in E. set (g1 := log_ (set_pol g t p) (EDetach i t)) in E.
      assert (Bp : forall j, Z.testbit p j = att (EDetach i t :: g_log g) t j).
      { intro j. unfold p. rewrite detach_bits by lia. rewrite detach_att, Nat.eqb_refl. cbn [andb]. destruct (i =? j); [reflexivity|apply Bt]. }
      assert (J1 : J g1 (if p =? 0 then t :: Dy else Dy)).
      { apply (J_set LP HLP g Dy).
        - apply I. - exact L. - exact Logic.I.
        - intros x N. destruct (p =? 0); cbn; intuition congruence.
        - destruct (Z.eqb_spec p 0); cbn; tauto.
        - apply ldiff_range, Rp.
        - exact Bp.
        - intros x j N. rewrite detach_att. destruct (Nat.eqb_spec t x); [congruence|reflexivity].
        - intros j T. rewrite Bp in T. apply att_det in T. exact (j_reg _ _ _ (rc_J _ _ _ _ _ _ I) t j T). }
      assert (U1 : forall j x, x <> t -> u1 j x = u j x) by (intros j x N; unfold u1; destruct (Nat.eqb_spec x t); [contradiction|rewrite andb_false_r; reflexivity]).
      assert (U2 : forall j, j <> i -> u1 j t = u j t) by (intros j N; unfold u1; destruct (Z.eqb_spec j i); [contradiction|reflexivity]).
      assert (Le1 : att_le g1 g) by (intros x j; apply att_det).
      destruct (Z.eqb_spec p 0) as [Pz|Pn].
      * assert (No : forall j, 1 <= j -> j <> i -> att (g_log g) t j = false).
        { intros j Hj N. assert (T := Bp j). rewrite Pz, Z.bits_0, detach_att, Nat.eqb_refl in T. cbn [andb] in T. destruct (Z.eqb_spec i j); [congruence|auto]. }
        assert (I1 : RCx t [] u1 g1 done (t :: Dy)).
        { apply (RC_step t (i :: r) [] u u1 g done Dy (t :: Dy) i t p I J1 eq_refl Nt ltac:(lia) Z0 P0).
          - intros j N Ij. right. apply No; [specialize (Hi j Ij); lia|exact N].
          - exact U1.
          - intros j N. apply U2. intros ->. apply N. left. reflexivity.
          - intros x _ X. right. exact X. }
        destruct (fr (u1, g1) t) as [w1| | |] eqn:F; cbn [bind] in E; try discriminate.
        destruct (Hf u1 g1 t Dy done w1 (RC_ex _ _ _ _ _ I1)) as (done' & R1 & R2 & R3 & R4 & R5).
        -- intros x Ex. split; [exact (Sd x Ex)|]. intros y j My Hj. destruct (Nat.eq_dec x s) as [->|N].
           ++ change (g_mem g1) with (g_mem g) in My. rewrite M in My. injection My as <-. cbn [g1 g_log log_]. rewrite <- Bp, Pz. apply Z.bits_0.
           ++ destruct (att (g_log g1) y j) eqn:A; [|reflexivity]. apply Le1 in A. rewrite (proj2 (Sw ltac:(congruence) x Ex) y j My Hj) in A. discriminate.
        -- exact Nt.
        -- cbn. rewrite upd_same. exact L.
        -- intros x Ix Dx. cbn in Ix. rewrite upd_same in Ix. cbn in Ix. exact (rc_fresh _ _ _ _ _ _ I t x L Nt Ix Dx).
        -- exact F.
        -- rewrite del_none in E.
           ++ injection E as <-. exists done'. split; [exact R1|]. split; [intros x j A; apply Le1, R2, A|]. split; [exact R3|]. split; [exact R4|].
              intros q x Iq Lq Xq Dx. assert (Nq : q <> t) by (intros ->; contradiction). apply (R5 q x Iq); auto; cbn; rewrite upd_other by exact Nq; assumption.
           ++ intros k Ik. rewrite (Sv k (or_intror Ik)). apply No; [specialize (Hi k (or_intror Ik)); lia|]. intros ->. contradiction.
      * cbn [bind] in E.
        assert (I1 : RCx t r u1 g1 done Dy).
        { apply (RC_step t (i :: r) r u u1 g done Dy Dy i t p I J1 eq_refl Nt ltac:(lia) Z0 P0).
          - intros j N [->|Ij]; [congruence|left; exact Ij].
          - exact U1.
          - intros j N. apply U2. intros ->. apply N. left. reflexivity.
          - auto. }
        assert (Oth : forall k, In k r -> att (g_log g1) t k = att (g_log g) t k).
        { intros k Ik. cbn [g1 g_log log_ set_pol]. rewrite detach_att, Nat.eqb_refl. cbn [andb]. destruct (Z.eqb_spec i k) as [->|]; [contradiction|reflexivity]. }
        destruct (IH u1 g1 done w' I1 Nt N2) as (done' & R1 & R2 & R3 & R4 & R5).
        -- intros k Ik. apply Hi. right. exact Ik.
        -- intros k Hk. destruct (Z.eq_dec k i) as [->|Nk]; [right; cbn [g1 g_log log_ set_pol]; rewrite detach_att, Nat.eqb_refl, Z.eqb_refl; reflexivity|].
           destruct (Al k Hk) as [[X|X]|X]; [congruence|left; exact X|]. right. destruct (att (g_log g1) t k) eqn:A; [apply Le1 in A; congruence|reflexivity].
        -- exact M.
        -- cbn. rewrite upd_same. exact L.
        -- unfold g1. rewrite refsd_pol by discriminate. exact Z0.
        -- exact P0.
        -- intros k Ik. rewrite Oth by exact Ik. apply Sv. right. exact Ik.
        -- intros k Ik A. rewrite Oth in A by exact Ik. rewrite U2 by (intros ->; contradiction). apply Un; [right; exact Ik|exact A].
        -- exact Sd.
        -- intros N x Ex. destruct (Sw N x Ex) as [W1 W2]. split; [exact W1|]. intros y j My Hj. destruct (att (g_log g1) y j) eqn:A; [|reflexivity]. apply Le1 in A. rewrite (W2 y j My Hj) in A. discriminate.
        -- exact E.
        -- exists done'. split; [exact R1|]. split; [intros x j A; apply Le1, R2, A|]. split; [exact R3|]. split; [exact R4|].
           intros q x Iq Lq Xq Dx. assert (Nq : q <> t) by (intros ->; contradiction). apply (R5 q x Iq); auto; cbn; rewrite upd_other by exact Nq; assumption.
    + destruct (IH u g done w') as (done' & R); auto.
      * destruct I as [I1 I2 I3 I4 Il I5 I6 I7 I8 I9 I10 I11]. constructor; auto.
        -- intros x j Hj Nx A. apply I5; auto. intros [-> [->|Ij]]; [congruence|]. apply Nx. auto.
        -- intros x j Hj Nx A. apply (I8 x j); auto. intros [-> [->|Ij]]; [congruence|]. apply Nx. auto.
      * intros k Ik. apply Hi. right. exact Ik.
      * intros k Hk. destruct (Al k Hk) as [[->|X]|X]; auto.
      * intros k Ik. apply Sv. right. exact Ik.
      * intros k Ik. apply Un. right. exact Ik.
      * exists done'. exact R.
Qed.

(* marking a slot whose target is not counted *)
Lemma mark_plain u g done Dy s : RC u g done Dy -> In s (active g) -> done s = false ->
  (sw = Some s \/ exists o, In o Dy /\ o_live (g_obj g o) = true /\ In s (o_slots (g_obj g o))) ->
  (forall t i, g_mem g s = Some t -> 1 <= i -> att (g_log g) t i = false) -> RC u g (mark done s) Dy.
Proof.
  intros I Is Ds Ow Na. assert (T := tidy_g _ _ _ _ _ _ I).
  assert (Eq : forall o, (refsd (mark done s) g o <= refsd done g o)%nat /\ ((exists i, 1 <= i /\ att (g_log g) o i = true) -> refsd (mark done s) g o = refsd done g o)).
  { intro o. destruct (g_mem g s) as [t|] eqn:M; [|rewrite refsd_mark_none by exact M; auto].
    rewrite (refsd_mark done g s t o T Is Ds M). destruct (Nat.eqb_spec t o) as [->|]; [|auto]. split; [lia|]. intros (i & Hi & A). rewrite (Na o i eq_refl Hi) in A. discriminate. }
  assert (Own : forall o, o_live (g_obj g o) = true -> ~ In o Dy -> In s (o_slots (g_obj g o)) -> sw = Some s).
  { intros o L Nd So. destruct Ow as [X|(q & Iq & Lq & Sq)]; [exact X|]. exfalso. apply Nd.
    replace o with q; [exact Iq|]. apply (tidy_one g s q o T); auto; [apply (j_live _ _ _ (rc_J _ _ _ _ _ _ I) q Lq)|apply (j_live _ _ _ (rc_J _ _ _ _ _ _ I) o L)]. }
  destruct I as [I1 I2 I3 I4 Il I5 I6 I7 I8 I9 I10 I11]. constructor; auto.
  - intros o i Hi Nx A. rewrite (proj2 (Eq o)) by eauto. auto.
  - intros o i Hi A [H|H]; [|auto]. apply I6; auto. left. destruct (Eq o). lia.
  - intros o i Hi Nx A. rewrite (proj2 (Eq o)) by eauto. exact (I8 o i Hi Nx A).
  - intro o. destruct (Eq o). specialize (I9 o). lia.
  - intros o x L Nd Ix D. unfold mark in D. destruct (Nat.eqb_spec x s) as [->|]; [eauto|eauto].
  - intros x Ix D. unfold mark in D. destruct (Nat.eqb_spec x s) as [->|]; [|auto]. destruct Ow as [X|(q & Iq & Lq & Sq)]; [exact X|]. exfalso.
    apply (tidy_root g s q T Ix); auto. apply (j_live _ _ _ I1 q Lq).
Qed.

(* one slot's reference is dropped *)
Lemma slot_ok fr u g done Dy s w' (Hf : rfrees fr) : RC u g done Dy -> In s (active g) -> done s = false ->
  (sw = Some s \/ (exists o, In o Dy /\ o_live (g_obj g o) = true /\ In s (o_slots (g_obj g o))) /\ rc_w g done) ->
  notify_old (detach_with fr) s (u, g) = Ok w' ->
  exists done', RC (fst w') (snd w') done' Dy /\ att_le (snd w') g /\ (sw <> Some s -> rc_w (snd w') done') /\
    (forall x, mark done s x = true -> done' x = true) /\
    (forall p x, In p Dy -> o_live (g_obj g p) = true -> In x (o_slots (g_obj g p)) -> done' x = true -> mark done s x = true).
Proof.
  intros I Is Ds Ow E. assert (T := tidy_g _ _ _ _ _ _ I).
  assert (Ow' : sw = Some s \/ exists o, In o Dy /\ o_live (g_obj g o) = true /\ In s (o_slots (g_obj g o))) by tauto.
  unfold Life_model.notify_old in E. cbn [snd] in E.
  assert (Plain : (forall t i, g_mem g s = Some t -> 1 <= i -> att (g_log g) t i = false) -> w' = (u, g) ->
    exists done', RC (fst w') (snd w') done' Dy /\ att_le (snd w') g /\ (sw <> Some s -> rc_w (snd w') done') /\
    (forall x, mark done s x = true -> done' x = true) /\
    (forall p x, In p Dy -> o_live (g_obj g p) = true -> In x (o_slots (g_obj g p)) -> done' x = true -> mark done s x = true)).
  { intros Na ->. exists (mark done s). cbn [fst snd]. split; [apply mark_plain; auto|]. split; [intros x j A; exact A|]. split; [|auto].
    intros N x Ex. destruct Ow as [X|[_ W]]; [congruence|]. destruct (W x Ex) as [W1 W2]. split; [unfold mark; destruct (Nat.eqb x s); auto|exact W2]. }
  destruct (g_mem g s) as [t|] eqn:M; [|apply Plain; [discriminate|congruence]].
  destruct (o_live (g_obj g t)) eqn:L; cbn [andb] in E.
  2:{ apply Plain; [|congruence]. intros t' i X _. injection X as <-. apply (j_dead _ _ _ (rc_J _ _ _ _ _ _ I) t L). }
  destruct (j_live _ _ _ (rc_J _ _ _ _ _ _ I) t L) as (A0 & Bt & Rl & Dz & Rp).
  destruct (Z.eqb_spec (Z.ldiff (o_pol (g_obj g t)) 1) 0) as [Pz|Pn]; cbn [negb] in E.
  { apply Plain; [|congruence]. intros t' i X Hi. injection X as <-. rewrite <- Bt. assert (Y := detach_bits (o_pol (g_obj g t)) 0 i ltac:(lia)). change (2 ^ 0) with 1 in Y.
    rewrite Pz, Z.bits_0 in Y. destruct (Z.eqb_spec 0 i); [lia|congruence]. }
  assert (Nt : ~ In t Dy) by (rewrite <- Dz; intro X; apply Pn; rewrite X; reflexivity).
  assert (Rf : forall o, refsd done g o = (if Nat.eqb t o then S (refsd (mark done s) g o) else refsd (mark done s) g o)) by (intro o; apply refsd_mark; auto).
  assert (Rt := Rf t). rewrite Nat.eqb_refl in Rt.
  assert (Ft := rc_mono _ _ _ _ _ _ I t).
  (* the invariant with this slot marked, the policies of t still to be told *)
  assert (Own : forall o, o_live (g_obj g o) = true -> ~ In o Dy -> In s (o_slots (g_obj g o)) -> sw = Some s).
  { intros o L1 Nd So. destruct Ow' as [X|(q & Iq & Lq & Sq)]; [exact X|]. exfalso. apply Nd.
    replace o with q; [exact Iq|]. apply (tidy_one g s q o T); auto; [apply (j_live _ _ _ (rc_J _ _ _ _ _ _ I) q Lq)|apply (j_live _ _ _ (rc_J _ _ _ _ _ _ I) o L1)]. }
  assert (Im : forall u' ex, (forall j x, x <> t -> u' j x = u j x) -> (forall i, 1 <= i -> ~ In i ex -> att (g_log g) t i = true -> u' i t = refsd (mark done s) g t /\ (refsd (mark done s) g t > 0)%nat) ->
    RCx t ex u' g (mark done s) Dy).
  { intros u' ex U1 U2. destruct I as [I1 I2 I3 I4 Il I5 I6 I7 I8 I9 I10 I11]. constructor; auto.
    - intros o i Hi Nx A. destruct (Nat.eq_dec o t) as [->|N]; [apply U2; auto|]. rewrite U1 by exact N. rewrite (I5 o i Hi ltac:(intros [_ []]) A), Rf. destruct (Nat.eqb_spec t o); [congruence|reflexivity].
    - intros o i Hi A H. apply I6; auto. rewrite Rf. destruct H as [H|H]; [left; destruct (Nat.eqb t o); lia|right; exact H].
    - intros o i Hi Nx A. destruct (Nat.eq_dec o t) as [->|N]; [right; apply (U2 i); auto|]. destruct (I8 o i Hi ltac:(intros [_ []]) A) as [X|X]; [left; exact X|right].
      rewrite Rf in X. destruct (Nat.eqb_spec t o); [congruence|exact X].
    - intro o. specialize (I9 o). rewrite Rf in I9. destruct (Nat.eqb t o); lia.
    - intros o x L1 Nd Ix D. unfold mark in D. destruct (Nat.eqb_spec x s) as [->|]; [eauto|eauto].
    - intros x Ix D. unfold mark in D. destruct (Nat.eqb_spec x s) as [->|]; [|auto]. destruct Ow' as [X|(q & Iq & Lq & Sq)]; [exact X|]. exfalso.
      apply (tidy_root g s q T Ix); auto. apply (j_live _ _ _ I1 q Lq). }
  assert (Hu : forall i, 1 <= i -> att (g_log g) t i = true -> u i t = S (refsd (mark done s) g t)).
  { intros i Hi A. rewrite (rc_n _ _ _ _ _ _ I t i Hi ltac:(intros [_ []]) A). exact Rt. }
  destruct (refsd (mark done s) g t) as [|n] eqn:Rn.
  - destruct (del_last fr (o_pol (g_obj g t)) t s Dy Hf (ids LP) u g (mark done s) w') as (done' & R1 & R2 & R3 & R4 & R5).
    + apply Im; auto. intros i Hi Ni A. exfalso. apply Ni. apply ids_iff. destruct (j_reg _ _ _ (rc_J _ _ _ _ _ _ I) t i A). lia.
    + exact Nt.
    + apply ids_nd.
    + intros i Ii. apply ids_iff in Ii; auto.
    + intros i Hi. left. apply ids_iff; auto.
    + exact M.
    + exact L.
    + exact Rn.
    + lia.
    + intros i _. apply Bt.
    + intros i Ii A. apply ids_iff in Ii. apply Hu; [lia|exact A].
    + intros x Ex. unfold mark. destruct (Nat.eqb_spec x s); [reflexivity|]. destruct Ow as [X|[_ W]]; [congruence|]. apply (W x Ex).
    + intros N x Ex. destruct Ow as [X|[_ W]]; [congruence|]. destruct (W x Ex) as [W1 W2]. split; [unfold mark; destruct (Nat.eqb x s); auto|exact W2].
    + exact E.
    + exists done'. auto.
  - destruct (del_many fr (o_pol (g_obj g t)) t s (ids LP) u g (ids_nd)) as (u' & E' & V).
    + intros i Ii Ti. apply ids_iff in Ii. rewrite Bt in Ti. destruct (j_reg _ _ _ (rc_J _ _ _ _ _ _ I) t i Ti) as [_ [X|X]]; [lia|]. split; [exact X|].
      rewrite (Hu i ltac:(lia) Ti). lia.
    + rewrite E' in E. injection E as <-. exists (mark done s). cbn [fst snd]. split; [|split; [intros x j A; exact A|split; [|auto]]].
      * apply (RC_ex t). apply Im.
        -- intros j x N. rewrite V. destruct (Nat.eqb_spec x t); [contradiction|reflexivity].
        -- intros i Hi _ A. rewrite V, Nat.eqb_refl, Bt, A. replace (existsb (Z.eqb i) (ids LP)) with true; [cbn [andb]; rewrite (Hu i Hi A); cbn; lia|].
           symmetry. apply existsb_exists. exists i. split; [|apply Z.eqb_refl]. apply ids_iff. destruct (j_reg _ _ _ (rc_J _ _ _ _ _ _ I) t i A). lia.
      * intros N x Ex. destruct Ow as [X|[_ W]]; [congruence|]. destruct (W x Ex) as [W1 W2]. split; [unfold mark; destruct (Nat.eqb x s); auto|exact W2].
Qed.

Lemma each_rc fr o Dy (Hf : rfrees fr) : forall l u g done w', RC u g done (o :: Dy) -> rc_w g done -> ~ In o Dy -> NoDup l -> (forall s, In s l -> In s (o_slots (g_obj g o))) ->
  (forall s, In s l -> done s = true -> sw = Some s) -> each (notify_old (detach_with fr)) l (u, g) = Ok w' ->
  exists done', RC (fst w') (snd w') done' (o :: Dy) /\ att_le (snd w') g /\ rc_w (snd w') done' /\ (forall x, done x = true -> done' x = true) /\ (forall s, In s l -> done' s = true) /\
    (forall p x, In p Dy -> o_live (g_obj g p) = true -> In x (o_slots (g_obj g p)) -> done' x = true -> done x = true).
Proof.
  intro l. induction l as [|s l IH]; intros u g done w' I W Nd ND Sub Fr E.
  - cbn in E. injection E as <-. exists done. cbn [fst snd]. split; [exact I|]. split; [intros x j A; exact A|]. split; [exact W|]. split; [auto|]. split; [intros s []|auto].
  - inversion ND as [|? ? N1 N2]; subst. cbn [Life_model.each] in E. destruct (notify_old (detach_with fr) s (u, g)) as [[u1 g1]| | |] eqn:En; cbn [bind] in E; try discriminate.
    assert (Lo : o_live (g_obj g o) = true). { destruct (o_live (g_obj g o)) eqn:X; [reflexivity|]. exfalso. apply (proj1 (j_dead _ _ _ (rc_J _ _ _ _ _ _ I) o X)). left. reflexivity. }
    assert (Ao : allocated (g_log g) o) by apply (j_live _ _ _ (rc_J _ _ _ _ _ _ I) o Lo).
    assert (T := tidy_g _ _ _ _ _ _ I).
    assert (Step : exists done1, RC u1 g1 done1 (o :: Dy) /\ att_le g1 g /\ rc_w g1 done1 /\ (forall x, mark done s x = true -> done1 x = true) /\
      (forall p x, In p (o :: Dy) -> o_live (g_obj g p) = true -> In x (o_slots (g_obj g p)) -> done1 x = true -> mark done s x = true)).
    { destruct (done s) eqn:Ds.
      - assert (Es := Fr s (or_introl eq_refl) Ds). destruct (W s Es) as [_ W2].
        assert (Hn : notify_old (detach_with fr) s (u, g) = Ok (u, g)).
        { unfold Life_model.notify_old. cbn [snd]. destruct (g_mem g s) as [t|] eqn:M; [|reflexivity]. destruct (o_live (g_obj g t)) eqn:L; cbn [andb]; [|reflexivity].
          destruct (j_live _ _ _ (rc_J _ _ _ _ _ _ I) t L) as (_ & Bt & _ & _ & Rp). replace (Z.ldiff (o_pol (g_obj g t)) 1) with 0; [reflexivity|]. symmetry.
          apply pol_zero; [apply ldiff_range, Rp|]. intro i. change 1 with (2 ^ 0). rewrite detach_bits by lia. destruct (Z.eqb_spec 0 i); [reflexivity|].
          destruct (Z.ltb_spec i 0); [apply Z.testbit_neg_r; lia|]. rewrite Bt. apply (W2 t i eq_refl). lia. }
        rewrite Hn in En. injection En as <- <-. exists done. split; [exact I|]. split; [intros x j A; exact A|]. split; [exact W|].
        split; [intros x; unfold mark; destruct (Nat.eqb_spec x s) as [->|]; auto|]. intros p x _ _ _ X. unfold mark. destruct (Nat.eqb x s); auto.
      - destruct (slot_ok fr u g done (o :: Dy) s (u1, g1) Hf I) as (done1 & R1 & R2 & R3 & R4 & R5).
        + apply active_in. right. exists o. split; [exact Ao|]. split; [exact Lo|]. apply Sub. left. reflexivity.
        + exact Ds.
        + right. split; [|exact W]. exists o. split; [left; reflexivity|]. split; [exact Lo|]. apply Sub. left. reflexivity.
        + exact En.
        + exists done1. cbn [fst snd] in *. split; [exact R1|]. split; [exact R2|]. split; [|auto]. apply R3. intro X. destruct (W s X). congruence. }
    destruct Step as (done1 & R1 & R2 & R3 & R4 & R5).
    assert (Sl : forall q, o_slots (g_obj g1 q) = o_slots (g_obj g q)) by (intro q; rewrite (rc_slots _ _ _ _ _ _ R1), (rc_slots _ _ _ _ _ _ I); reflexivity).
    destruct (IH u1 g1 done1 w' R1 R3 Nd N2) as (done' & Q1 & Q2 & Q3 & Q4 & Q5 & Q6).
    + intros x Ix. rewrite Sl. apply Sub. right. exact Ix.
    + intros x Ix Dx. apply (R5 o x (or_introl eq_refl) Lo) in Dx; [|apply Sub; right; exact Ix]. unfold mark in Dx. destruct (Nat.eqb_spec x s) as [->|]; [contradiction|].
      apply Fr; [right; exact Ix|exact Dx].
    + exact E.
    + exists done'. split; [exact Q1|]. split; [intros x j A; apply R2, Q2, A|]. split; [exact Q3|]. split; [|split].
      * intros x Dx. apply Q4, R4. unfold mark. destruct (Nat.eqb x s); auto.
      * intros x [<-|Ix]; [|auto]. apply Q4, R4. unfold mark. rewrite Nat.eqb_refl. reflexivity.
      * intros p x Ip Lp Xp Dx. assert (Lp1 : o_live (g_obj g1 p) = true).
        { destruct (o_live (g_obj g1 p)) eqn:X; [reflexivity|]. exfalso. apply (proj1 (j_dead _ _ _ (rc_J _ _ _ _ _ _ R1) p X)). right. exact Ip. }
        apply (Q6 p x Ip Lp1) in Dx; [|rewrite Sl; exact Xp]. apply (R5 p x (or_intror Ip) Lp Xp) in Dx. unfold mark in Dx. destruct (Nat.eqb_spec x s) as [->|]; [|exact Dx].
        exfalso. assert (p = o); [|subst; contradiction]. apply (tidy_one g s p o T); auto; [apply (j_live _ _ _ (rc_J _ _ _ _ _ _ I) p Lp)|apply Sub; left; reflexivity].
Qed.

(* the body of free(), once the object is condemned *)
Lemma body_rc fr o Dy u g done w' (Hf : rfrees fr) : RC u g done (o :: Dy) -> rc_w g done -> ~ In o Dy -> o_live (g_obj g o) = true ->
  (forall s, In s (o_slots (g_obj g o)) -> done s = true -> sw = Some s) ->
  (do ' (u2, g2) <- each (notify_old (detach_with fr)) (o_slots (g_obj g o)) (u, g) ;
   if negb (o_live (g_obj g2 o)) then UB else Ok (u2, log_ (kill g2 o) (ERelease o))) = Ok w' ->
  exists done', RC (fst w') (snd w') done' Dy /\ att_le (snd w') g /\ rc_w (snd w') done' /\ (forall x, done x = true -> done' x = true) /\
    (forall p s, In p Dy -> o_live (g_obj g p) = true -> In s (o_slots (g_obj g p)) -> done' s = true -> done s = true).
Proof.
  intros I W Nd L Fr E. assert (T := tidy_g _ _ _ _ _ _ I). assert (Ao : allocated (g_log g) o) by apply (j_live _ _ _ (rc_J _ _ _ _ _ _ I) o L).
  destruct (each (notify_old (detach_with fr)) (o_slots (g_obj g o)) (u, g)) as [[u2 g2]| | |] eqn:Ee; cbn [bind] in E; try discriminate.
  destruct (each_rc fr o Dy Hf _ u g done _ I W Nd (tidy_slots g o T L Ao) (fun s X => X) Fr Ee) as (done' & Q1 & Q2 & Q3 & Q4 & Q5 & Q6). cbn [fst snd] in *.
  destruct (o_live (g_obj g2 o)) eqn:L2; cbn [negb] in E; [|discriminate]. injection E as <-. exists done'. cbn [fst snd].
  assert (Dn : forall s, In s (o_slots (g_obj g2 o)) -> done' s = true) by (intros s X; apply Q5; rewrite (rc_slots _ _ _ _ _ _ Q1) in X; rewrite (rc_slots _ _ _ _ _ _ I); exact X).
  split; [|auto]. assert (J2 := release_ok LP HLP g2 o Dy (rc_J _ _ _ _ _ _ Q1) Nd L2). destruct Q1 as [I1 I2 I3 I4 Il I5 I6 I7 I8 I9 I10 I11]. constructor; auto.
  - intro q. cbn. destruct (Nat.eq_dec q o) as [->|N]; [rewrite upd_same; apply I3|rewrite upd_other by exact N; apply I3].
  - intros q Lq. cbn in Lq. destruct (Nat.eq_dec q o) as [->|N]; [rewrite upd_same in Lq; discriminate|rewrite upd_other in Lq by exact N; auto].
  - intros q i Hi Nx A. rewrite refsd_kill by exact Dn. apply I5; auto.
  - intros q i Hi A H. rewrite refsd_kill in H by exact Dn. exact (I6 q i Hi A H).
  - intros q i Hi Nx A. rewrite refsd_kill by exact Dn. exact (I8 q i Hi Nx A).
  - intro q. rewrite refsd_kill by exact Dn. apply I9.
  - intros q s Lq Nq Is Ds. cbn in Lq, Is. destruct (Nat.eq_dec q o) as [->|N]; [rewrite upd_same in Lq; discriminate|]. rewrite upd_other in Lq, Is by exact N.
    apply (I10 q s Lq); auto. intros [X|X]; [congruence|contradiction].
Qed.

Lemma free_rc k : rfrees (do_free k).
Proof.
  induction k as [|k IH]; intros u g o Dy done w' I W Nd L Fr E; [discriminate|]. cbn [Life_model.do_free] in E. rewrite L in E. cbn [negb] in E.
  destruct (j_live _ _ _ (rc_J _ _ _ _ _ _ I) o L) as (A0 & Bt & Rl & Dz & Rp). assert (P0 : o_pol (g_obj g o) = 0) by (apply Dz; left; reflexivity).
  rewrite P0 in E. change (Z.ldiff 0 1) with 0 in E. cbn [Z.eqb negb] in E.
  assert (At : forall q i, att (EFree o :: g_log g) q i = att (g_log g) q i).
  { intros q i. rewrite free_att. destruct (Nat.eqb_spec o q) as [<-|]; [|reflexivity]. destruct (Z.eqb_spec i 0) as [->|]; [|reflexivity]. cbn. rewrite <- Bt, P0. reflexivity. }
  assert (Sl : forall q, o_slots (g_obj (log_ (set_pol g o 0) (EFree o)) q) = o_slots (g_obj g q)).
  { intro q. cbn. destruct (Nat.eq_dec q o) as [->|N]; [rewrite upd_same; reflexivity|rewrite upd_other by exact N; reflexivity]. }
  assert (Lv : forall q, o_live (g_obj (log_ (set_pol g o 0) (EFree o)) q) = o_live (g_obj g q)).
  { intro q. cbn. destruct (Nat.eq_dec q o) as [->|N]; [rewrite upd_same; reflexivity|rewrite upd_other by exact N; reflexivity]. }
  assert (I1 : RC u (log_ (set_pol g o 0) (EFree o)) done (o :: Dy)).
  { destruct (free_enter LP cnt add1 del1 HLP g o Dy (o :: Dy) (rc_J _ _ _ _ _ _ I) L Nd (or_intror eq_refl)) as (J1 & _). rewrite P0 in J1. change (Z.ldiff 0 1) with 0 in J1. cbn [Z.eqb] in J1.
    destruct I as [I1 I2 I3 I4 Il I5 I6 I7 I8 I9 I10 I11]. constructor.
    - exact J1.
    - exact I2.
    - intro q. rewrite Sl. apply I3.
    - exact I4.
    - intros q Lq. rewrite Lv in Lq. auto.
    - intros q i Hi Nx A. cbn [g_log log_] in A. change (g_log (set_pol g o 0)) with (g_log g) in A. rewrite At in A. rewrite refsd_pol by discriminate. apply I5; auto.
    - intros q i Hi A H. rewrite refsd_pol in H by discriminate. cbn [g_log log_]. change (g_log (set_pol g o 0)) with (g_log g). rewrite At. apply I6; auto.
    - intros q i Hi A. cbn [g_log log_] in A. change (g_log (set_pol g o 0)) with (g_log g) in A. rewrite At in A. exact (I7 q i Hi A).
    - intros q i Hi Nx A. cbn [g_log log_] in A. change (g_log (set_pol g o 0)) with (g_log g) in A. rewrite At in A. rewrite refsd_pol by discriminate. exact (I8 q i Hi Nx A).
    - intro q. rewrite refsd_pol by discriminate. apply I9.
    - intros q s Lq Nq Is Ds. rewrite Lv in Lq. rewrite Sl in Is. eauto.
    - exact I11. }
  rewrite <- (Sl o) in E.
  destruct (body_rc (do_free k) o Dy u _ done w' IH I1) as (done' & Q1 & Q2 & Q3 & Q4 & Q5); auto.
  - intros x Ex. destruct (W x Ex) as [W1 W2]. split; [exact W1|]. intros t i M Hi. cbn [g_log log_]. change (g_log (set_pol g o 0)) with (g_log g). rewrite At. exact (W2 t i M Hi).
  - rewrite Lv. exact L.
  - intros s X. rewrite Sl in X. auto.
  - exists done'. split; [exact Q1|]. split; [intros q i A; apply Q2 in A; cbn [g_log log_] in A; change (g_log (set_pol g o 0)) with (g_log g) in A; rewrite At in A; exact A|].
    split; [exact Q3|]. split; [exact Q4|]. intros p s Ip Lp Xp Dp. apply (Q5 p s Ip); auto; [rewrite Lv; exact Lp|rewrite Sl; exact Xp].
Qed.
End RC.

(* ---- whole operations ---- *)
Section Top.
Variables (LP : Z) (dbg : bool) (roots : list nat).
Hypothesis HLP : 1 <= LP <= 4.
Notation cnt := (Z -> nat -> nat).
Notation world := (Life_model.world cnt).
Notation J := (J LP).
Notation detach_with := (detach_with dbg cnt).
Notation do_free := (do_free LP dbg cnt del1).
Notation notify_old := (notify_old LP cnt del1).
Notation notify_new := (notify_new LP cnt add1).
Notation add_loop := (add_loop cnt add1).
Notation lstep := (lstep LP dbg cnt add1 del1).
Notation active := (active roots).
Notation refs := (refs roots).
Notation tidy := (tidy roots).
Notation refsd := (refsd roots).
Notation RC g0 sw := (RCx LP roots g0 sw 0%nat []).
Definition none : nat -> bool := fun _ => false.

Lemma refs_none g o : refsd none g o = refs g o.
Proof. reflexivity. Qed.

(* between operations *)
Record Q (u : cnt) (g : gst) : Prop := {
  q_J : J g [];
  q_T : tidy g;
  q_n : forall o i, 1 <= i -> att (g_log g) o i = true -> u i o = refs g o }.
(* what dropping references does to the policies, from g to g' *)
Definition fair (g g' : gst) : Prop := forall o i, 1 <= i ->
  (att (g_log g) o i = true -> (refs g' o > 0)%nat \/ refs g o = 0%nat -> att (g_log g') o i = true) /\
  (att (g_log g) o i = true -> att (g_log g') o i = true -> refs g o = 0%nat \/ (refs g' o > 0)%nat).

Lemma fair_same g g' : (forall o i, 1 <= i -> att (g_log g) o i = true -> att (g_log g') o i = true) -> (forall o, refs g' o = refs g o) -> fair g g'.
Proof. intros A R o i Hi. rewrite R. split; [auto|]. intros _ _. lia. Qed.

Lemma Q_pol u g o p e : Q u g -> J (log_ (set_pol g o p) e) [] -> (forall x, e <> ENew x) ->
  (forall x i, 1 <= i -> att (e :: g_log g) x i = true -> att (g_log g) x i = true \/ u i x = refs g x) -> Q u (log_ (set_pol g o p) e).
Proof.
  intros [I T N] J1 En A. constructor.
  - exact J1.
  - apply (tidy_sub roots g); auto.
    + cbn. destruct e; try reflexivity. destruct (En o0). reflexivity.
    + intro x. cbn. destruct (Nat.eq_dec x o) as [->|Ne]; [rewrite upd_same|rewrite upd_other by exact Ne]; reflexivity.
    + intros x. cbn. destruct (Nat.eq_dec x o) as [->|Ne]; [rewrite upd_same|rewrite upd_other by exact Ne]; auto.
  - intros x i Hi At. rewrite <- refs_none, refsd_pol, refs_none by exact En. destruct (A x i Hi At) as [X|X]; auto.
Qed.

(* the state when an object is condemned *)
Lemma RC_begin u g sw Dy : J g Dy -> (forall o i, 1 <= i -> att (g_log g) o i = true -> u i o = refs g o) -> RC g sw u g none Dy.
Proof.
  intros I N. constructor; auto.
  - intros o i Hi _ A. rewrite refs_none. auto.
  - intros o i Hi _ A. rewrite refs_none. lia.
  - intros o s _ _ _ X. discriminate.
  - intros r _ X. discriminate.
Qed.
(* the end, when no slot was being overwritten *)
Lemma done_none u g0 g done : RC g0 None u g done [] -> forall o, refsd done g o = refs g o.
Proof.
  intros I o. unfold Life_rc.refsd, Life_rcspec.refs. f_equal. apply flt_ext. intros s Is. destruct (done s) eqn:D; [|reflexivity]. exfalso.
  apply active_in in Is. destruct Is as [X|(p & Ap & Lp & X)].
  - assert (Y := rc_roots _ _ _ _ _ _ _ _ _ _ I s X D). discriminate.
  - assert (Y := rc_fresh _ _ _ _ _ _ _ _ _ _ I p s Lp (fun z => z) X D). discriminate.
Qed.
Lemma Q_end u g0 g done : tidy g0 -> RC g0 None u g done [] -> Q u g /\ fair g0 g.
Proof.
  intros T I. split.
  - constructor; [apply I|exact (tidy_g LP roots g0 None T _ _ _ _ _ _ I)|]. intros o i Hi A. rewrite <- (done_none _ _ _ _ I o). apply (rc_n _ _ _ _ _ _ _ _ _ _ I); auto. intros [_ []].
  - intros o i Hi. rewrite <- (done_none _ _ _ _ I o). split.
    + intros A H. exact (rc_keep _ _ _ _ _ _ _ _ _ _ I o i Hi A H).
    + intros _ A. apply (rc_att _ _ _ _ _ _ _ _ _ _ I o i); auto. intros [_ []].
Qed.
Lemma fair_pre g g1 g' : (forall o, refs g1 o = refs g o) -> (forall o i, 1 <= i -> att (g_log g1) o i = att (g_log g) o i) -> fair g1 g' -> fair g g'.
Proof. intros R A F o i Hi. specialize (F o i Hi). rewrite R, A in F by exact Hi. exact F. Qed.
(* apart from one policy of one object *)
Definition fair_but (x : nat) (j : Z) (g g' : gst) : Prop := forall o i, 1 <= i -> ~ (o = x /\ i = j) ->
  (att (g_log g) o i = true -> (refs g' o > 0)%nat \/ refs g o = 0%nat -> att (g_log g') o i = true) /\
  (att (g_log g) o i = true -> att (g_log g') o i = true -> refs g o = 0%nat \/ (refs g' o > 0)%nat).

Lemma free_top k u g o w' : Q u g -> o_live (g_obj g o) = true -> do_free k (u, g) o = Ok w' -> Q (fst w') (snd w') /\ fair g (snd w') /\ att_le (snd w') g /\ objs (g_log (snd w')) = objs (g_log g).
Proof.
  intros Iq L E. destruct k as [|k]; [discriminate|]. cbn [Life_model.do_free] in E. rewrite L in E. cbn [negb] in E.
  destruct (free_enter LP cnt add1 del1 HLP g o [] [] (q_J _ _ Iq) L (fun x => x) (or_introl eq_refl)) as (J1 & _).
  set (p := Z.ldiff (o_pol (g_obj g o)) 1) in *. set (g1 := log_ (set_pol g o p) (EFree o)) in *.
  assert (R : forall x, refs g1 x = refs g x) by (intro x; rewrite <- !refs_none; apply refsd_pol; discriminate).
  assert (A : forall x i, 1 <= i -> att (g_log g1) x i = att (g_log g) x i).
  { intros x i Hi. cbn [g1 g_log log_ set_pol]. rewrite free_att. destruct (Z.eqb_spec i 0); [lia|]. rewrite andb_false_r. reflexivity. }
  assert (A0 : forall x i, att (g_log g1) x i = true -> att (g_log g) x i = true).
  { intros x i. cbn [g1 g_log log_ set_pol]. rewrite free_att. destruct (_ && _); [discriminate|auto]. }
  assert (Sl : o_slots (g_obj g1 o) = o_slots (g_obj g o)) by (cbn; rewrite upd_same; reflexivity).
  assert (Ll : o_live (g_obj g1 o) = true) by (cbn; rewrite upd_same; exact L).
  assert (T1 : tidy g1).
  { apply (tidy_sub roots g); [apply Iq|reflexivity|..]; intro x; cbn; (destruct (Nat.eq_dec x o) as [Ex|N]; [rewrite Ex, upd_same|rewrite upd_other by exact N]); auto. }
  destruct (Z.eqb_spec p 0) as [Pz|Pn]; cbn [negb] in E.
  - rewrite <- Sl in E. destruct (body_rc LP dbg roots HLP g1 None T1 (do_free k) o [] u g1 none w') as (done' & R1 & R2 & _).
    + apply free_rc; assumption.
    + apply RC_begin; [exact J1|]. intros x i Hi At. rewrite R. apply (q_n _ _ Iq x i Hi). rewrite <- A by exact Hi. exact At.
    + intros s X. discriminate.
    + intros [].
    + exact Ll.
    + intros s _ X. discriminate.
    + exact E.
    + destruct (Q_end _ _ _ _ T1 R1) as [X Y]. split; [exact X|]. split; [exact (fair_pre g g1 _ R A Y)|]. split; [intros x i At; apply R2 in At; apply A0, At|]. exact (rc_objs _ _ _ _ _ _ _ _ _ _ R1).
  - injection E as <-. cbn [fst snd]. split; [|split; [apply fair_same; [intros x i Hi; rewrite A by exact Hi; auto|exact R]|split; [exact A0|reflexivity]]].
    apply Q_pol; [exact Iq|exact J1|discriminate|]. intros x i Hi At. left. rewrite <- A by exact Hi. exact At.
Qed.

Lemma detach_top k u g j o w' : Q u g -> 0 <= j < 31 -> detach_with (do_free k) (u, g) j o = Ok w' -> Q (fst w') (snd w') /\ fair_but o j g (snd w') /\ att_le (snd w') g /\ objs (g_log (snd w')) = objs (g_log g).
Proof.
  intros Iq Hj E. unfold Life_model.detach_with in E. destruct (Z.ltb_spec j 0); [lia|]. destruct (o_live (g_obj g o)) eqn:L.
  2:{ injection E as <-. split; [exact Iq|]. split; [|split; [intros x i At; exact At|reflexivity]]. intros x i Hi _. split; [auto|]. intros _ _. cbn [snd]. lia. }
  unfold flag in E. destruct (Z.leb_spec 0 j); [|lia]. destruct (Z.ltb_spec j 31); [|lia]. cbn [andb bind] in E.
  set (p := Z.ldiff (o_pol (g_obj g o)) (2 ^ j)) in *. set (g1 := log_ (set_pol g o p) (EDetach j o)) in *.
  destruct (j_live _ _ _ (q_J _ _ Iq) o L) as (A0 & Bt & Rl & Dz & Rp).
  assert (J1 : J g1 (if p =? 0 then [o] else [])).
  { assert (Bp : forall i, Z.testbit p i = att (EDetach j o :: g_log g) o i).
    { intro i. unfold p. rewrite detach_bits by lia. rewrite detach_att, Nat.eqb_refl. cbn [andb]. destruct (j =? i); [reflexivity|apply Bt]. }
    apply (J_set LP HLP g []).
    - apply Iq. - exact L. - exact Logic.I.
    - intros x N. destruct (p =? 0); cbn; intuition congruence.
    - destruct (Z.eqb_spec p 0); cbn; tauto.
    - apply ldiff_range, Rp.
    - exact Bp.
    - intros x i N. rewrite detach_att. destruct (Nat.eqb_spec o x); [congruence|reflexivity].
    - intros i T. rewrite Bp in T. apply att_det in T. exact (j_reg _ _ _ (q_J _ _ Iq) o i T). }
  assert (R : forall x, refs g1 x = refs g x) by (intro x; rewrite <- !refs_none; apply refsd_pol; discriminate).
  assert (A : forall x i, att (g_log g1) x i = true -> att (g_log g) x i = true) by (intros x i; apply att_det).
  assert (A' : forall x i, ~ (x = o /\ i = j) -> att (g_log g1) x i = att (g_log g) x i).
  { intros x i N. cbn [g1 g_log log_ set_pol]. rewrite detach_att. destruct (Nat.eqb_spec o x), (Z.eqb_spec j i); cbn [andb]; try reflexivity. destruct N. auto. }
  assert (T1 : tidy g1).
  { apply (tidy_sub roots g); [apply Iq|reflexivity|..]; intro x; cbn; (destruct (Nat.eq_dec x o) as [Ex|N]; [rewrite Ex, upd_same|rewrite upd_other by exact N]); auto. }
  destruct (Z.eqb_spec p 0) as [Pz|Pn].
  - destruct (free_rc LP dbg roots HLP g1 None T1 k u g1 o [] none w') as (done' & R1 & R2 & _).
    + apply RC_begin; [exact J1|]. intros x i Hi At. rewrite R. apply (q_n _ _ Iq x i Hi). apply A, At.
    + intros s X. discriminate.
    + intros [].
    + cbn. rewrite upd_same. exact L.
    + intros s _ X. discriminate.
    + exact E.
    + destruct (Q_end _ _ _ _ T1 R1) as [X Y]. split; [exact X|]. split; [|split; [intros x i At; apply A, R2, At|exact (rc_objs _ _ _ _ _ _ _ _ _ _ R1)]]. intros x i Hi N. specialize (Y x i Hi). rewrite R, A' in Y by exact N. exact Y.
  - injection E as <-. cbn [fst snd]. split; [|split; [|split; [exact A|reflexivity]]].
    + apply Q_pol; [exact Iq|exact J1|discriminate|]. intros x i Hi At. left. apply A, At.
    + intros x i Hi N. rewrite R, A' by exact N. split; [auto|]. intros _ _. lia.
Qed.

(* telling the policies of a new reference *)
Lemma add_counts o s : forall is_ u g w', NoDup is_ -> add_loop o s is_ (u, g) = Ok w' ->
  snd w' = g /\ forall i x, fst w' i x = (if Nat.eqb x o && existsb (Z.eqb i) is_ && Z.testbit (o_pol (g_obj g o)) i then S (u i x) else u i x).
Proof.
  intro is_. induction is_ as [|k r IH]; intros u g w' ND E.
  - cbn in E. injection E as <-. split; [reflexivity|]. intros. rewrite andb_false_r. reflexivity.
  - inversion ND as [|? ? N1 N2]; subst. cbn [Life_model.add_loop snd fst] in E. destruct (Z.testbit (o_pol (g_obj g o)) k) eqn:T.
    + destruct (g_next g <=? k); [discriminate|]. apply (IH _ _ _ N2) in E. destruct E as [E1 E2]. split; [exact E1|]. intros i x. rewrite E2. cbn [existsb]. unfold add1.
      destruct (Z.eqb_spec i k) as [->|Ni].
      * destruct (existsb (Z.eqb k) r) eqn:X; [exfalso; apply N1; apply existsb_exists in X; destruct X as (y & Iy & Ey); apply Z.eqb_eq in Ey; subst; exact Iy|].
        rewrite T, andb_false_r. cbn [orb andb]. rewrite !andb_true_r. destruct (Nat.eqb x o); reflexivity.
      * reflexivity.
    + apply (IH _ _ _ N2) in E. destruct E as [E1 E2]. split; [exact E1|]. intros i x. rewrite E2. cbn [existsb]. destruct (Z.eqb_spec i k) as [->|]; [rewrite T, !andb_false_r; reflexivity|reflexivity].
Qed.

(* overwriting a slot *)
Lemma refs_store g s v o : tidy g -> In s (active g) ->
  refs (store g s v) o = ((if points v o then 1 else 0) + length (filter (fun x => negb (Nat.eqb x s) && points (g_mem g x) o) (active g)))%nat.
Proof.
  intros T I. unfold Life_rcspec.refs. change (active (store g s v)) with (active g). cbn [store g_mem]. destruct (points v o) eqn:P.
  - apply (flt_drop _ _ Nat.eq_dec s); auto.
    + rewrite upd_same. exact P.
    + rewrite Nat.eqb_refl. reflexivity.
    + intros x _ N. rewrite upd_other by exact N. destruct (Nat.eqb_spec x s); [contradiction|reflexivity].
  - cbn. f_equal. apply flt_ext. intros x _. destruct (Nat.eqb_spec x s) as [->|N]; [rewrite upd_same; exact P|rewrite upd_other by exact N; reflexivity].
Qed.

Lemma write_top k u g s v w' : Q u g -> In s (active g) -> In s (active (snd w')) -> write LP dbg cnt add1 del1 k (u, g) s v = Ok w' ->
  Q (fst w') (snd w') /\
  (forall o i, 1 <= i -> att (g_log g) o i = true -> att (g_log (snd w')) o i = true -> refs g o = 0%nat \/ (refs (snd w') o > 0)%nat) /\
  (forall o i, 1 <= i -> att (g_log g) o i = true -> (refs (snd w') o > 0)%nat ->
     (v = Some o -> refs g o = 0%nat \/ exists r, In r roots /\ r <> s /\ g_mem g r = Some o) -> att (g_log (snd w')) o i = true) /\
  (forall o i, 1 <= i -> att (g_log g) o i = true -> refs g o = 0%nat -> att (g_log (snd w')) o i = true) /\ att_le (snd w') g /\ objs (g_log (snd w')) = objs (g_log g).
Proof.
  intros Iq Is Ia E. unfold write in E. destruct (notify_old (detach LP dbg cnt del1 k) s (u, g)) as [[u2 g2]| | |] eqn:Eo; cbn [bind] in E; try discriminate.
  destruct (notify_new s v (u2, g2)) as [[u3 g3]| | |] eqn:En; cbn [bind] in E; try discriminate. injection E as <-. cbn [fst snd] in *.
  assert (E3 : g3 = g2 /\ forall i x, 1 <= i -> att (g_log g2) x i = true -> J g2 [] -> u3 i x = (if points v x then S (u2 i x) else u2 i x)).
  { unfold Life_model.notify_new in En. destruct v as [o|]; [|injection En as <- <-; auto]. cbn [snd] in En.
    destruct (o_live (g_obj g2 o)) eqn:L; cbn [andb] in En.
    2:{ injection En as <- <-. split; [reflexivity|]. intros i x Hi A I. cbn [points]. destruct (Nat.eqb_spec o x) as [<-|]; [|reflexivity]. destruct (j_dead _ _ _ I o L) as (_ & X & _). congruence. }
    destruct (Z.eqb_spec (Z.ldiff (o_pol (g_obj g2 o)) 1) 0) as [Pz|Pn]; cbn [negb] in En.
    - injection En as <- <-. split; [reflexivity|]. intros i x Hi A I. cbn [points]. destruct (Nat.eqb_spec o x) as [<-|]; [|reflexivity]. exfalso. destruct (j_live _ _ _ I o L) as (_ & B & _).
      rewrite <- B in A. assert (Y := detach_bits (o_pol (g_obj g2 o)) 0 i ltac:(lia)). change (2 ^ 0) with 1 in Y. rewrite Pz, Z.bits_0 in Y. destruct (Z.eqb_spec 0 i); [lia|congruence].
    - apply add_counts in En; [|exact (ids_nd LP)]. cbn [fst snd] in En. destruct En as [<- En]. split; [reflexivity|]. intros i x Hi A I. rewrite En. cbn [points]. rewrite (Nat.eqb_sym o x).
      destruct (Nat.eqb_spec x o) as [->|]; [|reflexivity]. destruct (j_live _ _ _ I o L) as (_ & B & _). rewrite B, A.
      replace (existsb (Z.eqb i) (ids LP)) with true; [reflexivity|]. symmetry. apply existsb_exists. exists i. split; [|apply Z.eqb_refl]. apply ids_iff; [exact HLP|].
      destruct (j_reg _ _ _ I o i A). lia. }
  destruct E3 as [-> U3]. change (active (store g2 s v)) with (active g2) in Ia.
  assert (Rb : RC g (Some s) u g none []) by (apply RC_begin; [apply Iq|apply (q_n _ _ Iq)]).
  destruct (slot_ok LP dbg roots HLP g (Some s) (q_T _ _ Iq) (do_free k) u g none [] s (u2, g2)) as (done' & R1 & R2 & _ & R4 & _); auto; [apply free_rc; auto; apply Iq|].
  cbn [fst snd] in R1, R2.
  assert (T2 : tidy g2) by (apply (tidy_g LP roots g (Some s) (q_T _ _ Iq) _ _ _ _ _ _ R1)).
  assert (Rd : forall o, refsd done' g2 o = length (filter (fun x => negb (Nat.eqb x s) && points (g_mem g2 x) o) (active g2))).
  { intro o. unfold Life_rc.refsd. f_equal. apply flt_ext. intros x Ix. f_equal. f_equal. destruct (Nat.eqb_spec x s) as [->|N]; [apply R4; unfold mark; rewrite Nat.eqb_refl; reflexivity|].
    destruct (done' x) eqn:D; [|reflexivity]. exfalso. apply active_in in Ix. destruct Ix as [X|(p & Ap & Lp & X)].
    - assert (Y := rc_roots _ _ _ _ _ _ _ _ _ _ R1 x X D). congruence.
    - assert (Y := rc_fresh _ _ _ _ _ _ _ _ _ _ R1 p x Lp (fun z => z) X D). congruence. }
  assert (Rs : forall o, refs (store g2 s v) o = ((if points v o then 1 else 0) + refsd done' g2 o)%nat) by (intro o; rewrite Rd; apply refs_store; assumption).
  split; [|split; [|split; [|split]]].
  - constructor; [apply J_store, R1|exact T2|]. intros o i Hi A. cbn [store g_log] in A. rewrite Rs, (U3 i o Hi A (rc_J _ _ _ _ _ _ _ _ _ _ R1)).
    rewrite (rc_n _ _ _ _ _ _ _ _ _ _ R1 o i Hi ltac:(intros [_ []]) A). destruct (points v o); lia.
  - intros o i Hi A0 A. cbn [store g_log] in A. rewrite Rs. destruct (rc_att _ _ _ _ _ _ _ _ _ _ R1 o i Hi ltac:(intros [_ []]) A); [left; assumption|right; lia].
  - intros o i Hi A0 R Hv. cbn [store g_log]. apply (rc_keep _ _ _ _ _ _ _ _ _ _ R1 o i Hi A0). rewrite Rs in R. destruct (points v o) eqn:P; [|left; lia].
    apply points_spec in P. destruct (Hv P) as [X|(r & Ir & Nr & Mr)]; [right; exact X|left].
    rewrite Rd. assert (X : In r (filter (fun x => negb (Nat.eqb x s) && points (g_mem g2 x) o) (active g2))).
    { apply filter_In. split; [apply active_in; left; exact Ir|]. destruct (Nat.eqb_spec r s); [contradiction|]. cbn. rewrite (rc_mem _ _ _ _ _ _ _ _ _ _ R1), Mr. cbn. apply Nat.eqb_refl. }
    destruct (filter _ _); [destruct X|cbn; lia].
  - intros o i Hi A0 R. cbn [store g_log]. apply (rc_keep _ _ _ _ _ _ _ _ _ _ R1 o i Hi A0). auto.
  - split; [exact R2|exact (rc_objs _ _ _ _ _ _ _ _ _ _ R1)].
Qed.
End Top.
