(* Recording of loaded files: histories of loads, unloads and other operations. *)
From Verif Require Import Base Big_model Big_set Big_spec Big_inv Big_lookup Big_links Big_field Big_create Big_delete Big_range Big_hist Big_props
  Map_model File_model File_spec File_proof File_load File_main File_more File_unload.

(* A file that is loaded: what it is, where it lies, and its records. *)
Record entry := mkEnt { en_o : obj; en_low : Z; en_lim : Z; en_data : Z; en_b : Z; en_m : nat; en_f : nat; en_ls : list nat; en_lc : list nat }.
Definition ids (x : entry) : list nat := en_f x :: en_ls x ++ en_lc x.
Definition en_end (x : entry) : Z := o_base (en_o x) + en_lim x.
Definition held_e (s : st) (x : entry) : Prop :=
  held s (en_o x) (en_data x) (en_b x) (en_m x) (en_end x) (en_f x) (en_ls x) (en_lc x).

Section P.
Variables (nb : nat) (biggest : Z) (dbg : bool) (al : nat -> Z) (cur max : Z) (name : nat -> Z) (handle : nat -> bool).
Notation R := (reach nb biggest dbg al cur max).

(* Histories.  Loads and unloads are the calls modelled; anything else done to the forest may happen
   between them so long as it leaves alone the records of files and what holds them, puts nothing
   inside them, and makes no file record. *)
Inductive fhist : st -> list entry -> Prop :=
| fh_start s : R s -> (forall n, live s n -> b_alloc (bigs s n) <> FILE) -> fhist s []
| fh_load s L o low lim data brkmap brk kernel m s' f ls lc :
    fhist s L -> fits_file nb biggest s o low lim data m -> m <> brkmap -> o_meta o <> 0%nat ->
    load nb biggest dbg s o data brkmap brk kernel = Ok s' -> recorded s s' o data m (o_base o + lim) f ls lc ->
    (forall n, ~ In n (f :: ls ++ lc) -> view s' n = view s n) ->
    fhist s' (mkEnt o low lim data (b_begin (bigs s m)) m f ls lc :: L)
| fh_unload s L nm s' :
    fhist s L -> (forall f, named name s nm f -> handle (b_priv (bigs s f)) = true) ->
    unload nb biggest dbg name handle s nm = Ok s' ->
    fhist s' (filter (fun x => negb (name (o_meta (en_o x)) =? nm)) L)
| fh_other s L s' :
    fhist s L -> R s' -> (forall x n, In x L -> In n (ids x) -> view s' n = view s n) ->
    (forall x, In x L -> toplevel s' (en_m x) /\ b_alloc (bigs s' (en_m x)) = MMAP) ->
    (forall n, live s' n -> (forall x, In x L -> ~ In n (ids x)) -> b_alloc (bigs s' n) <> FILE /\ forall x, In x L -> ~ In (b_parent (bigs s' n)) (ids x)) ->
    fhist s' L.

Record tracks (s : st) (L : list entry) : Prop := {
  tk_R : R s;
  tk_held : forall x, In x L -> held_e s x;
  tk_file : forall x, In x L -> file_ok (en_o x) (en_low x) (en_lim x) /\ en_b x <= o_base (en_o x) + en_low x /\ o_meta (en_o x) <> 0%nat;
  tk_map : forall x, In x L -> toplevel s (en_m x) /\ b_alloc (bigs s (en_m x)) = MMAP;
  tk_nd : ForallOrdPairs (fun x y => forall n, In n (ids x) -> ~ In n (ids y)) L;
  tk_all : forall n, live s n -> b_alloc (bigs s n) = FILE -> exists x, In x L /\ n = en_f x;
  tk_sub : forall n x, live s n -> In x L -> In (b_parent (bigs s n)) (ids x) -> In n (ids x) }.

Lemma held_ids s x n : held_e s x -> In n (ids x) -> exists t, view s n = Some t /\
  ((n = en_f x /\ a_alloc t = FILE /\ a_parent t = en_m x /\ a_priv t = o_meta (en_o x)) \/
   (In n (en_ls x) /\ a_alloc t = SEGM /\ a_parent t = en_f x) \/
   (In n (en_lc x) /\ a_alloc t = SECT /\ In (a_parent t) (en_ls x))).
Proof.
  intros [H1 H2 H3] [<-|Hi]; [eexists; split; [exact H1|]; left; auto|]. apply in_app_or in Hi. destruct Hi as [Hi|Hi].
  - destruct (forall2_in_r _ _ _ _ H2 Hi) as (g & _ & V). eexists. split; [exact V|]. right. left. auto.
  - destruct (forall2_in_r _ _ _ _ H3 Hi) as (c & _ & g & k & Hk & _ & V). eexists. split; [exact V|]. right. right. split; auto. split; auto.
    cbn. eapply in_combine_r. eauto.
Qed.
Lemma held_same s s' x : held_e s x -> (forall n, In n (ids x) -> view s' n = view s n) -> held_e s' x.
Proof.
  intros [H1 H2 H3] HV. constructor.
  - rewrite HV; auto. left. auto.
  - assert (HV2 : forall n, In n (en_ls x) -> view s' n = view s n) by (intros n Hi; apply HV; right; apply in_or_app; auto).
    clear - H2 HV2. induction H2 as [|g n l1 l2 V F IH]; constructor; [rewrite HV2; auto; left; auto|apply IH; intros; apply HV2; right; auto].
  - assert (HV2 : forall n, In n (en_lc x) -> view s' n = view s n) by (intros n Hi; apply HV; right; apply in_or_app; auto).
    clear - H3 HV2. induction H3 as [|c n l1 l2 (g & k & V1 & V2 & V3) F IH]; constructor; [|apply IH; intros; apply HV2; right; auto].
    exists g, k. rewrite HV2; auto. left. auto.
Qed.

Lemma held_live s x n : held_e s x -> In n (ids x) -> live s n.
Proof. intros H Hi. destruct (held_ids s x n H Hi) as (t & V & _). apply view_live. congruence. Qed.
Lemma map_not_in s L x y : tracks s L -> In x L -> In y L -> ~ In (en_m x) (ids y).
Proof.
  intros T Hx Hy Hi. destruct (held_ids s y _ (tk_held _ _ T y Hy) Hi) as (t & V & H). destruct (view_fields _ _ _ V) as (_ & _ & _ & P & A & _).
  destruct (tk_map _ _ T x Hx) as [_ E]. rewrite E in A. unfold MMAP in A. destruct H as [(_ & X & _)|[(_ & X & _)|(_ & X & _)]]; rewrite X in A; discriminate.
Qed.

(* what lies under a file record is the file's records *)
Lemma under_file s L x n : tracks s L -> In x L -> live s n -> (anc s (en_f x) n <-> In n (ids x)).
Proof.
  intros T Hx Ln. destruct (big_forest_always nb biggest dbg al cur max s (tk_R _ _ T)) as [FO _]. split.
  - intro H. induction H as [|n Hp H IH]; [left; auto|]. apply (tk_sub _ _ T n x Ln Hx). apply IH.
    destruct (fo_parent _ FO n Ln); [congruence|auto].
  - intro Hi. pose proof (tk_held _ _ T x Hx) as HH. destruct (held_ids s x n HH Hi) as (t & V & [(-> & _)|[(_ & _ & P)|(_ & _ & P)]]).
    + constructor.
    + destruct (view_fields _ _ _ V) as (_ & _ & _ & E & _). assert (Lf : live s (en_f x)) by (apply (held_live s x); auto; left; auto).
      apply anc_up; rewrite E, P; [apply Lf|constructor].
    + destruct (view_fields _ _ _ V) as (_ & _ & _ & E & _). assert (Hk : In (a_parent t) (ids x)) by (right; apply in_or_app; auto).
      pose proof (held_live s x _ HH Hk) as Lk. destruct (forall2_in_r _ _ _ _ (hd_segs _ _ _ _ _ _ _ _ _ HH) P) as (g & _ & Vk).
      destruct (view_fields _ _ _ Vk) as (_ & _ & _ & Ek & _). cbn in Ek.
      assert (Lf : live s (en_f x)) by (apply (held_live s x); auto; left; auto).
      apply anc_up; rewrite E; [apply Lk|]. apply anc_up; rewrite Ek; [apply Lf|constructor].
Qed.

Lemma tracks_files_ok s L : tracks s L -> files_ok s.
Proof.
  intros T n Ln An. destruct (tk_all _ _ T n Ln An) as (x & Hx & ->). destruct (view_fields _ _ _ (hd_file _ _ _ _ _ _ _ _ _ (tk_held _ _ T x Hx))) as (_ & _ & _ & P & _ & _ & Q & _).
  cbn in P, Q. destruct (tk_map _ _ T x Hx) as [[Lm Pm] Am]. destruct (tk_file _ _ T x Hx) as (_ & _ & Hmeta). rewrite P, Q.
  split; auto. split; [apply Lm|]. split; auto. rewrite Am. discriminate.
Qed.

Lemma tracks_still s L x : tracks s L -> In x L -> still s (en_o x) (en_data x) (en_b x) (en_m x) (en_end x) (en_f x) (en_ls x) (en_lc x).
Proof.
  intros T Hx. split; [apply (tk_held _ _ T x Hx)|]. intros y a Ly Cy Ha.
  destruct (reach_good _ _ _ _ _ _ _ (tk_R _ _ T)) as [(K & rk & HI) _].
  pose proof (tk_held _ _ T x Hx) as HH. destruct (view_fields _ _ _ (hd_file _ _ _ _ _ _ _ _ _ HH)) as (Lf & F1 & F2 & P & _). cbn in F1, F2, P.
  destruct (chain _ _ _ _ HI y (en_f x) a Ly Lf Cy) as [H|H]; [unfold covers; clear - F1 F2 Ha; lia| |].
  - destruct (tk_map _ _ T x Hx) as [[Lm Pm] _]. inversion H as [|n Hp H2 E]; [right; left; auto|]. left. rewrite P in H2. apply anc_of_root in H2; auto.
  - right. apply (under_file s L x y T Hx Ly). auto.
Qed.

Lemma named_entry s L nm f : tracks s L -> (named name s nm f <-> exists x, In x L /\ f = en_f x /\ name (o_meta (en_o x)) = nm).
Proof.
  intro T. split.
  - intros (Lf & Af & Nf). destruct (tk_all _ _ T f Lf Af) as (x & Hx & ->). exists x. split; auto. split; auto.
    destruct (view_fields _ _ _ (hd_file _ _ _ _ _ _ _ _ _ (tk_held _ _ T x Hx))) as (_ & _ & _ & _ & _ & _ & Q & _). cbn in Q. congruence.
  - intros (x & Hx & -> & Hn). destruct (view_fields _ _ _ (hd_file _ _ _ _ _ _ _ _ _ (tk_held _ _ T x Hx))) as (Lf & _ & _ & _ & A & _ & Q & _). cbn in A, Q.
    split; auto. split; auto. congruence.
Qed.

(* unloading, in terms of the files that are loaded *)
Lemma unload_tracks s L nm : tracks s L -> (forall f, named name s nm f -> handle (b_priv (bigs s f)) = true) ->
  exists s', unload nb biggest dbg name handle s nm = Ok s' /\ tracks s' (filter (fun x => negb (name (o_meta (en_o x)) =? nm)) L) /\
    (forall n, view s' n = view s n \/ view s' n = None) /\
    (forall n, view s n <> None -> (view s' n = None <-> exists x, In x L /\ name (o_meta (en_o x)) = nm /\ In n (ids x))).
Proof.
  intros T HH. pose proof (tk_R _ _ T) as HR. destruct (unload_ok nb biggest dbg al cur max name handle s nm HR (tracks_files_ok s L T) HH) as (s' & D & E & R' & F' & G & HD).
  exists s'. split; auto.
  assert (HD2 : forall n, In n D <-> live s n /\ exists x, In x L /\ name (o_meta (en_o x)) = nm /\ In n (ids x)).
  { intro n. rewrite HD. split.
    - intros (Ln & f & Nf & Af). split; auto. apply (named_entry s L nm f T) in Nf. destruct Nf as (x & Hx & -> & Hn). exists x. split; auto. split; auto.
      apply (under_file s L x n T Hx Ln). auto.
    - intros (Ln & x & Hx & Hn & Hi). split; auto. exists (en_f x). split; [apply (named_entry s L nm _ T); eauto|]. apply (under_file s L x n T Hx Ln). auto. }
  assert (Hkeep : forall x n, In x L -> name (o_meta (en_o x)) <> nm -> In n (ids x) -> ~ In n D).
  { intros x n Hx Hn Hi Hd. apply HD2 in Hd. destruct Hd as (_ & y & Hy & Hny & Hiy).
    destruct (ForallOrdPairs_In (tk_nd _ _ T) x y Hx Hy) as [->|[X|X]]; [congruence| |]; apply (X n); auto. }
  assert (HVD : forall n, ~ In n D -> view s' n = view s n).
  { intros n Hn. rewrite (go_view _ _ _ G). destruct (existsb (Nat.eqb n) D) eqn:Ed; auto. exfalso. apply existsb_exists in Ed.
    destruct Ed as (y & Hy & Ey). apply Nat.eqb_eq in Ey. congruence. }
  assert (HVD2 : forall n, In n D -> view s' n = None).
  { intros n Hn. rewrite (go_view _ _ _ G). replace (existsb (Nat.eqb n) D) with true; auto. symmetry. apply existsb_exists. exists n. split; auto. apply Nat.eqb_refl. }
  split; [constructor; auto|split].
  - intros x Hx. apply filter_In in Hx. destruct Hx as [Hx Hn]. apply negb_true_iff, Z.eqb_neq in Hn.
    apply (held_same s); [apply (tk_held _ _ T x Hx)|]. intros n Hi. apply HVD. eapply Hkeep; eauto.
  - intros x Hx. apply filter_In in Hx. apply (tk_file _ _ T). tauto.
  - intros x Hx. apply filter_In in Hx. destruct Hx as [Hx Hn]. destruct (tk_map _ _ T x Hx) as [[Lm Pm] Am].
    assert (Hnd : ~ In (en_m x) D). { intro Hd. apply HD2 in Hd. destruct Hd as (_ & y & Hy & _ & Hiy). apply (map_not_in s L x y T Hx Hy Hiy). }
    destruct (attrs_same s s' _ Lm (HVD _ Hnd)) as [Ea La]. injection Ea; intros. repeat split; try congruence; apply La.
  - pose proof (tk_nd _ _ T) as P. clear - P. induction P as [|x L Fx P IH]; cbn; [constructor|].
    destruct (negb (name (o_meta (en_o x)) =? nm)); auto. constructor; auto. rewrite Forall_forall in *. intros y Hy. apply filter_In in Hy. apply Fx. tauto.
  - intros n Ln An. pose proof (gone_attrs _ _ _ _ G Ln) as Ea. injection Ea; intros A7 A6 A5 A4 A3 A2 A1.
    apply (gone_live _ _ _ _ G) in Ln. destruct Ln as [Ln Hnd]. rewrite A4 in An. destruct (tk_all _ _ T n Ln An) as (x & Hx & ->). exists x. split; auto.
    apply filter_In. split; auto. apply negb_true_iff, Z.eqb_neq. intro Hn. apply Hnd. apply HD2. split; auto. exists x. split; auto. split; auto. left. auto.
  - intros n x Ln Hx Hp. pose proof (gone_attrs _ _ _ _ G Ln) as Ea. injection Ea; intros A7 A6 A5 A4 A3 A2 A1.
    apply (gone_live _ _ _ _ G) in Ln. destruct Ln as [Ln Hnd]. rewrite A3 in Hp. apply filter_In in Hx. apply (tk_sub _ _ T n x Ln); tauto.
  - intro n. destruct (in_dec Nat.eq_dec n D) as [Hi|Hi]; auto.
  - intros n Vn. assert (Ln : live s n) by (apply view_live; auto). split.
    + intro V. destruct (in_dec Nat.eq_dec n D) as [Hi|Hi]; [apply HD2 in Hi; tauto|]. rewrite HVD in V by auto. congruence.
    + intros H. apply HVD2, HD2. auto.
Qed.

Lemma load_tracks s L o low lim data m s' f ls lc : tracks s L -> fits_file nb biggest s o low lim data m -> o_meta o <> 0%nat ->
  R s' -> recorded s s' o data m (o_base o + lim) f ls lc -> (forall n, ~ In n (f :: ls ++ lc) -> view s' n = view s n) ->
  tracks s' (mkEnt o low lim data (b_begin (bigs s m)) m f ls lc :: L).
Proof.
  intros T (FK & HC & HB & _) Hmeta R' [[ND Hnew] HH] HV. set (x0 := mkEnt o low lim data (b_begin (bigs s m)) m f ls lc).
  pose proof (tk_R _ _ T) as HR. destruct (big_forest_always nb biggest dbg al cur max s HR) as [FO _].
  assert (HH0 : held_e s' x0) by exact HH.
  assert (Hold : forall n, live s n -> ~ In n (ids x0)).
  { intros n Ln Hi. destruct (Hnew n Hi) as [_ V]. apply view_live in Ln. congruence. }
  assert (Hidold : forall x n, In x L -> In n (ids x) -> ~ In n (ids x0)).
  { intros x n Hx Hi. apply Hold. apply (held_live s x n); auto. apply (tk_held _ _ T x Hx). }
  assert (Hback : forall n, live s' n -> ~ In n (ids x0) -> live s n /\ attrs_of (bigs s' n) = attrs_of (bigs s n)).
  { intros n Ln Hn. assert (L0 : live s n) by (apply view_live; rewrite <- (HV n Hn); apply view_live; auto). split; auto.
    apply (attrs_same s s' n L0 (HV n Hn)). }
  assert (Hm0 : toplevel s' m /\ b_alloc (bigs s' m) = MMAP).
  { destruct HC as (Lm & Pm & Am & _). destruct (attrs_same s s' m Lm (HV m (Hold m Lm))) as [E L']. injection E; intros. repeat split; try congruence; apply L'. }
  constructor; auto.
  - intros x [<-|Hx]; auto. apply (held_same s); [apply (tk_held _ _ T x Hx)|]. intros n Hi. apply HV. eapply Hidold; eauto.
  - intros x [<-|Hx]; [cbn; auto|apply (tk_file _ _ T x Hx)].
  - intros x [<-|Hx]; auto. destruct (tk_map _ _ T x Hx) as [[Lm Pm] Am].
    destruct (attrs_same s s' _ Lm (HV _ (Hold _ Lm))) as [E L']. injection E; intros. repeat split; try congruence; apply L'.
  - constructor; [|apply (tk_nd _ _ T)]. apply Forall_forall. intros y Hy n Hi Hi2. apply (Hidold y n Hy Hi2 Hi).
  - intros n Ln An. destruct (in_dec Nat.eq_dec n (ids x0)) as [Hi|Hi].
    + exists x0. split; [left; auto|]. destruct (held_ids s' x0 n HH0 Hi) as (t & V & H). destruct (view_fields _ _ _ V) as (_ & _ & _ & _ & A & _). rewrite An in A.
      destruct H as [(X & _)|[(_ & X & _)|(_ & X & _)]]; auto; rewrite X in A; discriminate.
    + destruct (Hback n Ln Hi) as [L0 E]. injection E; intros A7 A6 A5 A4 A3 A2 A1. rewrite A4 in An. destruct (tk_all _ _ T n L0 An) as (x & Hx & ->).
      exists x. split; auto. right. auto.
  - intros n x Ln Hx Hp. destruct (in_dec Nat.eq_dec n (ids x0)) as [Hi|Hi].
    + destruct Hx as [<-|Hx]; auto. exfalso. destruct (held_ids s' x0 n HH0 Hi) as (t & V & H). destruct (view_fields _ _ _ V) as (_ & _ & _ & P & _). rewrite P in Hp.
      destruct H as [(_ & _ & X & _)|[(_ & _ & X)|(_ & _ & X)]].
      * rewrite X in Hp. cbn [en_m x0] in Hp. destruct HC as (Lm & _ & Am & _). destruct (held_ids s x m (tk_held _ _ T x Hx) Hp) as (u & Vu & Hu).
        destruct (view_fields _ _ _ Vu) as (_ & _ & _ & _ & A & _). rewrite Am in A.
        destruct Hu as [(_ & Y & _)|[(_ & Y & _)|(_ & Y & _)]]; rewrite Y in A; discriminate.
      * apply (Hidold x _ Hx Hp). rewrite X. left. auto.
      * apply (Hidold x _ Hx Hp). right. apply in_or_app. auto.
    + destruct (Hback n Ln Hi) as [L0 E]. injection E; intros A7 A6 A5 A4 A3 A2 A1. rewrite A3 in Hp. destruct Hx as [<-|Hx].
      * exfalso. destruct (fo_parent _ FO n L0) as [X|X]; [|apply (Hold _ X Hp)].
        rewrite X in Hp. destruct (Hnew 0%nat Hp) as [Y _]. congruence.
      * apply (tk_sub _ _ T n x L0 Hx Hp).
Qed.

Lemma hist_tracks s L : fhist s L -> tracks s L.
Proof.
  intro H. induction H as [s HR HN|s L o low lim data brkmap brk kernel m s' f ls lc H T HF Hm Hmeta E HRec HV|s L nm s' H T HH E|s L s' H T HR HV HM HN].
  - constructor; auto; try (intros x []; fail).
    + apply FOP_nil.
    + intros n Ln An. exfalso. apply (HN n); auto.
    + intros n x _ [].
  - destruct (load_ok nb biggest dbg al cur max s o low lim data brkmap brk kernel m (tk_R _ _ T) HF Hm) as (s2 & f2 & ls2 & lc2 & E2 & R2 & _).
    assert (s2 = s') by congruence. subst s2.
    apply load_tracks; auto.
  - destruct (unload_tracks s L nm T HH) as (s2 & E2 & T2 & _). congruence.
  - constructor; auto.
    + intros x Hx. apply (held_same s); [apply (tk_held _ _ T x Hx)|]. intros n Hi. eapply HV; eauto.
    + apply (tk_file _ _ T).
    + apply (tk_nd _ _ T).
    + intros n Ln An. destruct (Exists_dec (fun x => In n (ids x)) L (fun x => in_dec Nat.eq_dec n (ids x))) as [X|X].
      * apply Exists_exists in X. destruct X as (x & Hx & Hi). exists x. split; auto.
        destruct (held_ids s x n (tk_held _ _ T x Hx) Hi) as (t & V & Y). rewrite <- (HV x n Hx Hi) in V. destruct (view_fields _ _ _ V) as (_ & _ & _ & _ & A & _). rewrite An in A.
        destruct Y as [(Y & _)|[(_ & Y & _)|(_ & Y & _)]]; auto; rewrite Y in A; discriminate.
      * exfalso. apply (HN n Ln); auto. intros x Hx Hi. apply X. apply Exists_exists. eauto.
    + intros n x Ln Hx Hp. destruct (Exists_dec (fun x => In n (ids x)) L (fun x => in_dec Nat.eq_dec n (ids x))) as [X|X].
      * apply Exists_exists in X. destruct X as (y & Hy & Hi). destruct (held_ids s y n (tk_held _ _ T y Hy) Hi) as (t & V & _).
        pose proof (view_fields _ _ _ V) as (L0 & _ & _ & P0 & _). rewrite <- (HV y n Hy Hi) in V. destruct (view_fields _ _ _ V) as (_ & _ & _ & P & _).
        apply (tk_sub _ _ T n x L0 Hx). rewrite P0, <- P. auto.
      * exfalso. destruct (HN n Ln) as [_ Z]; [intros y Hy Hi; apply X; apply Exists_exists; eauto|]. apply (Z x Hx Hp).
Qed.
End P.
