(* The list machine is a least-recently-used cache, its hits are fresh, and cached base
   queries agree with uncached ones. *)
From Verif Require Import Base.
From Verif Require Import Cache_model Cache_spec Cache_proof.
From Coq Require Import Permutation.

Lemma divides_mod d p : p <> 0 -> (d mod p =? 0) = true <-> (p | d).
Proof. intro H. rewrite Z.eqb_eq. apply Z.mod_divide, H. Qed.

Lemma hit_typed_ok obj t per r : hit_typed obj t per r = true <-> answers (Look obj t per) r.
Proof.
  unfold hit_typed, answers, inside, on_element.
  rewrite !andb_true_iff, !orb_true_iff, !andb_true_iff, negb_true_iff, !orb_true_iff.
  rewrite !Z.eqb_eq, Z.leb_le, Z.ltb_lt, Z.eqb_neq.
  destruct (Z.eq_dec (r_period r) 0) as [E|E].
  - split; intros (A & B); (split; [tauto|]) || idtac; intuition lia.
  - assert (D := divides_mod (obj - r_base r) (r_period r) E). rewrite Z.eqb_eq in D.
    rewrite D. intuition lia.
Qed.

Lemma hit_untyped_ok obj per r : hit_untyped obj per r = true <-> answers (LookAny obj per) r.
Proof.
  unfold hit_untyped, answers, inside, on_element.
  rewrite !andb_true_iff, !orb_true_iff, !andb_true_iff, negb_true_iff, !orb_true_iff.
  rewrite !Z.eqb_eq, Z.leb_le, Z.ltb_lt, Z.eqb_neq.
  destruct (Z.eq_dec (r_period r) 0) as [E|E].
  - intuition lia.
  - assert (D := divides_mod (obj - r_base r) (r_period r) E). rewrite Z.eqb_eq in D.
    rewrite D. intuition lia.
Qed.

Lemma uncache_test_ok p sz r : uncache_test p sz r = true <-> invalidates (Uncache p sz) r.
Proof. unfold uncache_test, invalidates. rewrite andb_true_iff, Z.leb_le, Z.ltb_lt. tauto. Qed.

Definition test_of (o : cop) : rcd -> bool :=
  match o with
  | Look obj t per => hit_typed obj t per
  | LookAny obj per => hit_untyped obj per
  | _ => fun _ => false
  end.
Lemma test_of_ok o r : test_of o r = true <-> answers o r.
Proof.
  destruct o; cbn [test_of].
  - cbn. intuition discriminate.
  - apply hit_typed_ok.
  - apply hit_untyped_ok.
  - cbn. intuition discriminate.
Qed.

(* stamps strictly decrease along the list *)
Fixpoint desc (k : content) : Prop :=
  match k with [] => True | x :: r => (forall y, In y r -> (fst y < fst x)%nat) /\ desc r end.

Lemma desc_app_l k1 k2 : desc (k1 ++ k2) -> desc k1.
Proof.
  induction k1 as [|x k1 IH]; [constructor|]. cbn. intros [A B]. split; [|auto].
  intros y Hy. apply A, in_or_app; auto.
Qed.
Lemma desc_last k x : desc (k ++ [x]) -> forall y, In y k -> (fst x < fst y)%nat.
Proof.
  induction k as [|z k IH]; intros H y Hy; [destruct Hy|].
  cbn in H. destruct H as [A B]. destruct Hy as [->|Hy]; [apply A, in_or_app; simpl; auto|auto].
Qed.

Lemma filter_perm {A} (f : A -> bool) (k : list A) :
  Permutation k (filter f k ++ filter (fun x => negb (f x)) k).
Proof.
  induction k as [|x k IH]; [constructor|]. cbn. destruct (f x); cbn.
  - constructor. exact IH.
  - transitivity (x :: filter f k ++ filter (fun y => negb (f y)) k); [constructor; exact IH|].
    apply Permutation_middle.
Qed.

Lemma filter_map_snd (f : rcd -> bool) (k : content) :
  map snd (filter (fun x => f (snd x)) k) = filter f (map snd k).
Proof. induction k as [|x k IH]; [reflexivity|]. cbn. destruct (f (snd x)); cbn; congruence. Qed.

Lemma desc_filter f k : desc k -> desc (filter f k).
Proof.
  induction k as [|x k IH]; [auto|]. cbn. intros [A B]. destruct (f x); [|auto].
  cbn. split; [|auto]. intros y Hy. apply filter_In in Hy. apply A; tauto.
Qed.

Lemma afind_stamped test (k : content) :
  match afind test (map snd k) with
  | None => forall x, In x k -> test (snd x) = false
  | Some (r, rest) => exists k1 s k2, k = k1 ++ (s, r) :: k2 /\ rest = map snd (k1 ++ k2) /\
      test r = true /\ (forall x, In x k1 -> test (snd x) = false)
  end.
Proof.
  induction k as [|[s r] k IH]; cbn [map afind snd].
  - intros x [].
  - destruct (test r) eqn:E.
    + exists [], s, k. split; [reflexivity|]. split; [reflexivity|]. split; [exact E|intros x []].
    + destruct (afind test (map snd k)) as [[r' rest]|].
      * destruct IH as (k1 & s' & k2 & A & B & C & D).
        exists ((s, r) :: k1), s', k2. split; [rewrite A; reflexivity|].
        split; [rewrite B; reflexivity|]. split; [exact C|].
        intros x [<-|Hx]; [exact E|auto].
      * intros x [<-|Hx]; [exact E|auto].
Qed.

Lemma desc_split k1 x k2 : desc (k1 ++ x :: k2) ->
  (forall y, In y k2 -> (fst y < fst x)%nat) /\ desc (k1 ++ k2).
Proof.
  induction k1 as [|z k1 IH]; cbn; [auto|]. intros [A B].
  destruct (IH B) as [C D]. split; [exact C|]. split; [|exact D].
  intros y Hy. apply A. apply in_app_or in Hy. apply in_or_app. simpl. tauto.
Qed.

Lemma alook_lru n t (k : content) o :
  (match o with Look _ _ _ | LookAny _ _ => True | _ => False end) ->
  desc k -> (forall x, In x k -> (fst x < t)%nat) ->
  exists k', map snd k' = fst (alook (test_of o) (map snd k)) /\ desc k' /\
    (forall x, In x k' -> (fst x < S t)%nat) /\
    lru n t k o k' (snd (alook (test_of o) (map snd k))).
Proof.
  intros Ho Hd Ht. unfold alook.
  assert (F := afind_stamped (test_of o) k).
  destruct (afind (test_of o) (map snd k)) as [[r rest]|].
  - destruct F as (k1 & s & k2 & A & B & C & D). cbn [fst snd].
    exists ((t, r) :: k1 ++ k2). split; [cbn; congruence|].
    assert (Hin : forall x, In x (k1 ++ k2) -> In x k).
    { intros x Hx. rewrite A. apply in_app_or in Hx. apply in_or_app. simpl. tauto. }
    rewrite A in Hd. destruct (desc_split _ _ _ Hd) as [E1 E2].
    split; [cbn; split; [intros y Hy; apply Ht, Hin, Hy|exact E2]|].
    split.
    { intros x [<-|Hx]; [cbn; lia|]. apply Hin, Ht in Hx. lia. }
    apply lru_hit with (rest := k1 ++ k2) (s := s).
    + rewrite A. symmetry. apply Permutation_middle.
    + apply test_of_ok, C.
    + intros x Hx Ha. apply test_of_ok in Ha. apply in_app_or in Hx. destruct Hx as [Hx|Hx].
      * rewrite (D x Hx) in Ha. discriminate.
      * apply (E1 x Hx).
    + reflexivity.
  - cbn [fst snd]. exists k. split; [reflexivity|]. split; [exact Hd|].
    split; [intros x Hx; apply Ht in Hx; lia|].
    apply lru_miss; [exact Ho|]. intros x Hx Ha. apply test_of_ok in Ha.
    rewrite (F x Hx) in Ha. discriminate.
Qed.

Lemma removelast_map {A B} (f : A -> B) l : map f (removelast l) = removelast (map f l).
Proof.
  induction l as [|x l IH]; [reflexivity|]. destruct l as [|y l]; [reflexivity|].
  change (removelast (x :: y :: l)) with (x :: removelast (y :: l)).
  cbn [map] in *. rewrite IH. reflexivity.
Qed.

Lemma astep_lru n t (k : content) o :
  (0 < n)%nat -> (length k <= n)%nat ->
  desc k -> (forall x, In x k -> (fst x < t)%nat) ->
  exists k', map snd k' = fst (astep n (map snd k) o) /\ desc k' /\ (length k' <= n)%nat /\
    (forall x, In x k' -> (fst x < S t)%nat) /\
    lru n t k o k' (snd (astep n (map snd k) o)).
Proof.
  intros Hn Hl Hd Ht.
  assert (Len : forall test, length (fst (alook test (map snd k))) = length k).
  { intro test. unfold alook. assert (F := afind_stamped test k).
    destruct (afind test (map snd k)) as [[r rest]|]; cbn [fst].
    - destruct F as (k1 & s & k2 & A & B & _). rewrite A, B. cbn. rewrite map_length, !app_length. cbn. lia.
    - apply map_length. }
  destruct o as [r|obj ty per|obj per|p sz]; cbn [astep].
  - unfold afill. rewrite map_length. destruct (Nat.ltb_spec (length k) n) as [L|L].
    + cbn [fst snd]. exists ((t, r) :: k). split; [reflexivity|].
      split; [cbn; auto|]. split; [cbn; lia|].
      split; [intros x [<-|Hx]; [cbn; lia|apply Ht in Hx; lia]|].
      apply lru_fill_room; [exact L|reflexivity].
    + assert (E : length k = n) by lia.
      destruct (@exists_last _ k) as (k0 & v & Ek); [intro; subst; cbn in *; lia|].
      cbn [fst snd]. exists ((t, r) :: k0). rewrite <- removelast_map, Ek, removelast_last.
      rewrite Ek in Hd.
      assert (Hin : forall x, In x k0 -> In x k) by (intros x Hx; rewrite Ek; apply in_or_app; auto).
      split; [reflexivity|].
      split; [cbn; split; [intros y Hy; apply Ht, Hin, Hy|apply desc_app_l in Hd; exact Hd]|].
      split; [rewrite Ek, app_length in E; cbn in *; lia|].
      split; [intros x [<-|Hx]; [cbn; lia|apply Hin, Ht in Hx; lia]|].
      rewrite Ek in E.
      apply lru_fill_evict with (v := v) (rest := k0).
      * exact E.
      * symmetry. apply Permutation_cons_append.
      * apply desc_last, Hd.
      * reflexivity.
  - destruct (alook_lru n t k (Look obj ty per) I Hd Ht) as (k' & A & B & C & D).
    exists k'. split; [exact A|]. split; [exact B|]. split; [|auto].
    rewrite <- (map_length snd), A. cbn [test_of]. rewrite Len. exact Hl.
  - destruct (alook_lru n t k (LookAny obj per) I Hd Ht) as (k' & A & B & C & D).
    exists k'. split; [exact A|]. split; [exact B|]. split; [|auto].
    rewrite <- (map_length snd), A. cbn [test_of]. rewrite Len. exact Hl.
  - cbn [fst snd]. exists (filter (fun x => negb (uncache_test p sz (snd x))) k).
    split; [apply (filter_map_snd (fun r => negb (uncache_test p sz r)))|].
    split; [apply desc_filter, Hd|].
    split. { assert (P := Permutation_length (filter_perm (fun x => uncache_test p sz (snd x)) k)).
             rewrite app_length in P. lia. }
    split; [intros x Hx; apply filter_In in Hx; assert (fst x < t)%nat by (apply Ht; tauto); lia|].
    apply lru_drop with (gone := filter (fun x => uncache_test p sz (snd x)) k).
    + apply (filter_perm (fun x => uncache_test p sz (snd x))).
    + intros x Hx. apply filter_In in Hx. apply uncache_test_ok. tauto.
    + intros x Hx Hi. apply filter_In in Hx. apply uncache_test_ok in Hi.
      destruct Hx as [_ Hx]. rewrite Hi in Hx. discriminate.
Qed.

Lemma arun_lru n h : forall t (k : content),
  (0 < n)%nat -> (length k <= n)%nat ->
  desc k -> (forall x, In x k -> (fst x < t)%nat) ->
  exists k', map snd k' = fst (arun n (map snd k) h) /\ (length k' <= n)%nat /\
    lru_run n t k h k' (snd (arun n (map snd k) h)).
Proof.
  induction h as [|o h IH]; intros t k Hn Hl Hd Ht; cbn [arun].
  - exists k. cbn. split; [reflexivity|]. split; [exact Hl|constructor].
  - destruct (astep_lru n t k o Hn Hl Hd Ht) as (k1 & A & B & C & D & E).
    destruct (astep n (map snd k) o) as [m a]. cbn [fst snd] in *.
    destruct (IH (S t) k1 Hn C B D) as (k2 & F & G & H). rewrite A in *.
    destruct (arun n m h) as [m2 outs]. cbn [fst snd] in *.
    exists k2. split; [exact F|]. split; [exact G|]. apply lru_cons with k1; assumption.
Qed.

(* every listed record was stored and not invalidated since *)
Lemma arun_app n l h1 h2 :
  arun n l (h1 ++ h2) =
  (fst (arun n (fst (arun n l h1)) h2), snd (arun n l h1) ++ snd (arun n (fst (arun n l h1)) h2)).
Proof.
  revert l. induction h1 as [|o h1 IH]; intro l; cbn [app arun].
  - cbn. destruct (arun n l h2); reflexivity.
  - destruct (astep n l o) as [m a]. rewrite IH. destruct (arun n m h1) as [m1 o1]. reflexivity.
Qed.

Lemma in_removelast {A} (x : A) l : In x (removelast l) -> In x l.
Proof.
  induction l as [|y l IH]; [auto|]. destruct l as [|z l]; [intros []|].
  change (removelast (y :: z :: l)) with (y :: removelast (z :: l)).
  intros [->|H]; [simpl; auto|right; auto].
Qed.

Lemma alook_in test l : (forall r, In r (fst (alook test l)) -> In r l) /\
  (forall r, snd (alook test l) = Some r -> In r l /\ test r = true).
Proof.
  unfold alook.
  assert (F : match afind test l with None => True | Some (r, rest) =>
    In r l /\ test r = true /\ (forall x, In x rest -> In x l) end).
  { induction l as [|x l IH]; cbn [afind]; [exact I|].
    destruct (test x) eqn:E; [split; [simpl; auto|split; [exact E|intros y Hy; right; exact Hy]]|].
    destruct (afind test l) as [[r rest]|]; [|exact I].
    destruct IH as (A & B & C). split; [right; exact A|]. split; [exact B|].
    intros y [->|Hy]; [simpl; auto|right; auto]. }
  destruct (afind test l) as [[r rest]|]; cbn [fst snd].
  - destruct F as (A & B & C). split; [intros x [->|Hx]; auto|]. intros x E. injection E as <-. auto.
  - split; [auto|discriminate].
Qed.

Lemma fresh_snoc h o r : stored_fresh h r -> ~ invalidates o r -> stored_fresh (h ++ [o]) r.
Proof.
  intros (h1 & h2 & E & F) H. exists h1, (h2 ++ [o]). split.
  - rewrite E, <- app_assoc. reflexivity.
  - intros x Hx. apply in_app_or in Hx. destruct Hx as [Hx|[<-|[]]]; auto.
Qed.

Lemma arun_fresh n h : forall r, In r (fst (arun n [] h)) -> stored_fresh h r.
Proof.
  induction h as [|o h IH] using rev_ind; intros r; [intros []|].
  rewrite arun_app. cbn [fst arun].
  set (l := fst (arun n [] h)) in *.
  destruct (astep n l o) as [m a] eqn:E. cbn [fst]. intro Hr.
  destruct o as [q|obj ty per|obj per|p sz]; cbn [astep] in E.
  - injection E as E1 E2. unfold afill in E1.
    assert (Hc : r = q \/ In r l).
    { rewrite <- E1 in Hr. destruct (Nat.ltb _ _); destruct Hr as [->|Hr]; auto.
      right. apply in_removelast, Hr. }
    destruct Hc as [->|Hc].
    + exists h, []. split; [reflexivity|intros x []].
    + apply fresh_snoc; [apply IH, Hc|cbn; tauto].
  - apply fresh_snoc; [|cbn; tauto]. apply IH.
    apply (proj1 (alook_in (hit_typed obj ty per) l)). rewrite E. exact Hr.
  - apply fresh_snoc; [|cbn; tauto]. apply IH.
    apply (proj1 (alook_in (hit_untyped obj per) l)). rewrite E. exact Hr.
  - injection E as E1 E2. rewrite <- E1 in Hr. apply filter_In in Hr. destruct Hr as [Hr Ht].
    apply fresh_snoc; [apply IH, Hr|]. intro Hi. apply uncache_test_ok in Hi.
    rewrite Hi in Ht. discriminate.
Qed.

Lemma astep_hit n l o r : snd (astep n l o) = Some r -> In r l /\ answers o r.
Proof.
  destruct o as [q|obj ty per|obj per|p sz]; cbn [astep].
  - discriminate.
  - intro E. destruct (proj2 (alook_in (hit_typed obj ty per) l) r E) as [A B].
    split; [exact A|apply hit_typed_ok, B].
  - intro E. destruct (proj2 (alook_in (hit_untyped obj per) l) r E) as [A B].
    split; [exact A|apply hit_untyped_ok, B].
  - discriminate.
Qed.

(* ---- base queries ---- *)

Definition coherent (w : list obj) (r : rcd) : Prop :=
  r_depth r = 0 -> exists o, In o w /\ o_cacheable o = true /\ r_base r = o_base o /\
    r_limit r = o_base o + o_size o.
Definition disjoint_world (w : list obj) : Prop :=
  (forall o, In o w -> 0 < o_size o) /\
  (forall o a, holds w a o -> find (contains a) w = Some o).

Lemma contains_ok a o : contains a o = true <-> o_base o <= a < o_base o + o_size o.
Proof. unfold contains. rewrite andb_true_iff, Z.leb_le, Z.ltb_lt. tauto. Qed.

Lemma disjoint_create w o :
  disjoint_world w -> allowed w (ECreate o) -> disjoint_world (o :: w).
Proof.
  intros [P F] [Ho Hd]. split; [intros x [<-|Hx]; auto|].
  intros x a [[<-|Hx] Ha]; cbn [find].
  - rewrite (proj2 (contains_ok a o) Ha). reflexivity.
  - destruct (contains a o) eqn:E.
    + apply contains_ok in E. exfalso. specialize (P x Hx). destruct (Hd x Hx); lia.
    + apply F. split; [exact Hx|exact Ha].
Qed.

Lemma disjoint_drop w b : disjoint_world w -> disjoint_world (drop_at b w).
Proof.
  intros [P F]. split.
  - intros o Ho. unfold drop_at in Ho. apply filter_In in Ho. apply P; tauto.
  - intros o a [Ho Ha]. unfold drop_at in *. apply filter_In in Ho. destruct Ho as [Ho Hb].
    assert (E : find (contains a) w = Some o) by (apply F; split; assumption).
    clear F P. induction w as [|x w IH]; [destruct Ho|].
    cbn [filter find] in *. destruct (contains a x) eqn:Ex.
    + injection E as ->. rewrite Hb. cbn. rewrite Ex. reflexivity.
    + destruct Ho as [->|Ho]; [apply find_some in E; destruct E as [_ E]; congruence|].
      destruct (negb (o_base x =? b)); [cbn; rewrite Ex|]; auto.
Qed.

Definition CInv (n : nat) (cw : cache * list obj) : Prop :=
  exists l, Rep (fst cw) l /\ c_size (fst cw) = n /\ disjoint_world (snd cw) /\
    (forall r, In r (recs (fst cw) l) -> coherent (snd cw) r).

Lemma world_info_some w a b sz ca :
  world_info w a = Some (b, sz, ca) ->
  exists o, holds w a o /\ o_base o = b /\ o_size o = sz /\ o_cacheable o = ca.
Proof.
  unfold world_info. destruct (find (contains a) w) as [o|] eqn:E; [|discriminate].
  intro H. injection H as <- <- <-. apply find_some in E. destruct E as [E1 E2].
  apply contains_ok in E2. exists o. unfold holds. auto.
Qed.

Lemma get_base_ok n c w a :
  (0 < n < 32)%nat -> CInv n (c, w) ->
  exists c', get_base c (world_info w) a =
      Ok (c', match world_info w a with Some (b, _, _) => Some b | None => None end) /\
    CInv n (c', w).
Proof.
  intros Hn (l & R & Hs & HD & HC). cbn [fst snd] in *. unfold get_base.
  destruct (lookup_ok c l (hit_untyped a 0) R) as (c1 & l1 & A & B & C & D).
  rewrite A. cbn [bind].
  destruct (alook_in (hit_untyped a 0) (recs c l)) as [I1 I2].
  assert (HC1 : forall r, In r (recs c1 l1) -> coherent w r).
  { intros r Hr. rewrite D in Hr. apply HC, I1, Hr. }
  assert (Full : exists c', match world_info w a with
    | Some (b, sz, ca) => if ca : bool then do c2 <- cache_with_type c1 (mkR b (b + sz) BYTE 1 0); Ok (c2, Some b)
                          else Ok (c1, Some b)
    | None => Ok (c1, None) end =
      Ok (c', match world_info w a with Some (b, _, _) => Some b | None => None end) /\ CInv n (c', w)).
  { destruct (world_info w a) as [[[b sz] ca]|] eqn:E.
    - apply world_info_some in E. destruct E as (o & Ho & Eb & Es & Eca).
      destruct ca.
      + destruct (fill_ok c1 l1 (mkR b (b + sz) BYTE 1 0) B ltac:(lia)) as (c2 & l2 & A2 & B2 & C2 & D2).
        rewrite A2. cbn [bind]. exists c2. split; [reflexivity|].
        exists l2. cbn [fst snd]. split; [exact B2|]. split; [congruence|]. split; [exact HD|].
        intros r Hr. rewrite D2 in Hr. unfold afill in Hr.
        assert (Hc : r = mkR b (b + sz) BYTE 1 0 \/ In r (recs c1 l1)).
        { destruct (Nat.ltb _ _); destruct Hr as [<-|Hr]; auto. right. apply in_removelast, Hr. }
        destruct Hc as [->|Hc]; [|apply HC1, Hc].
        intros _. exists o. destruct Ho as [Ho _]. cbn. split; [exact Ho|]. split; [exact Eca|].
        split; congruence.
      + exists c1. split; [reflexivity|]. exists l1. cbn [fst snd].
        split; [exact B|]. split; [congruence|]. split; [exact HD|exact HC1].
    - exists c1. split; [reflexivity|]. exists l1. cbn [fst snd].
      split; [exact B|]. split; [congruence|]. split; [exact HD|exact HC1]. }
  destruct (snd (alook (hit_untyped a 0) (recs c l))) as [r|] eqn:E; [|exact Full].
  destruct (Z.eqb_spec (r_depth r) 0) as [Ed|Ed]; [|exact Full].
  destruct (I2 r eq_refl) as [Hin Ht]. apply hit_untyped_ok in Ht. destruct Ht as [[Hi1 Hi2] _].
  destruct (HC r Hin Ed) as (o & Ho & Hca & Hb & Hli).
  assert (F : find (contains a) w = Some o).
  { apply (proj2 HD). split; [exact Ho|]. lia. }
  exists c1. split.
  - unfold world_info. rewrite F. congruence.
  - exists l1. cbn [fst snd]. split; [exact B|]. split; [congruence|]. split; [exact HD|exact HC1].
Qed.

Lemma drop_at_in b w o : In o (drop_at b w) <-> In o w /\ o_base o <> b.
Proof. unfold drop_at. rewrite filter_In, negb_true_iff, Z.eqb_neq. tauto. Qed.

Lemma estep_inv n cw e :
  (0 < n < 32)%nat -> CInv n cw -> allowed (snd cw) e ->
  exists cw' a, estep cw e = Ok (cw', a) /\ CInv n cw'.
Proof.
  intros Hn HC Ha. destruct cw as [c w].
  destruct e as [o|b u|b|a|o]; cbn [estep].
  - destruct HC as (l & R & Hs & HD & HC). eexists; eexists; split; [reflexivity|].
    exists l. cbn [fst snd] in *. split; [exact R|]. split; [exact Hs|].
    split; [apply disjoint_create; assumption|].
    intros r Hr Hd. destruct (HC r Hr Hd) as (x & A & B). exists x. split; [right; exact A|exact B].
  - destruct HC as (l & R & Hs & HD & HC). cbn [fst snd allowed] in *.
    eexists; eexists; split; [reflexivity|].
    destruct (uncache_ok c l b u R) as (l' & A & B & C).
    exists l'. cbn [fst snd]. split; [exact A|]. split; [congruence|].
    split; [apply disjoint_drop, HD|].
    intros r Hr Hd. rewrite C in Hr. apply filter_In in Hr. destruct Hr as [Hr Ht].
    destruct (HC r Hr Hd) as (x & A1 & A2 & A3 & A4). exists x.
    split; [|auto]. apply drop_at_in. split; [exact A1|].
    intro E. assert (T : uncache_test b u r = true) by (apply uncache_test_ok; cbn; lia).
    rewrite T in Ht. discriminate.
  - destruct HC as (l & R & Hs & HD & HC). cbn [fst snd allowed] in *.
    eexists; eexists; split; [reflexivity|].
    exists l. cbn [fst snd]. split; [exact R|]. split; [exact Hs|]. split; [apply disjoint_drop, HD|].
    intros r Hr Hd. destruct (HC r Hr Hd) as (x & A1 & A2 & A3 & A4). exists x.
    split; [|auto]. apply drop_at_in. split; [exact A1|].
    intro E. rewrite (Ha x A1 E) in A2. discriminate.
  - destruct (get_base_ok n c w a Hn HC) as (c' & A & B). rewrite A. cbn [bind].
    eexists; eexists; split; [reflexivity|exact B].
  - destruct HC as (l & R & Hs & HD & HC). cbn [fst snd] in *.
    destruct (cstep_ok c l o R ltac:(lia)) as (c' & l' & A & B & C & D).
    rewrite A. cbn [bind]. eexists; eexists; split; [reflexivity|].
    exists l'. cbn [fst snd]. split; [exact B|]. split; [congruence|]. split; [exact HD|].
    intros r Hr. rewrite D in Hr.
    destruct o as [q|obj ty per|obj per|p sz]; cbn [astep fst] in Hr.
    + unfold afill in Hr.
      assert (Hc : r = q \/ In r (recs c l)).
      { destruct (Nat.ltb _ _); destruct Hr as [<-|Hr]; auto. right. apply in_removelast, Hr. }
      destruct Hc as [->|Hc]; [|apply HC, Hc]. intro E. exfalso. apply Ha, E.
    + apply HC. apply (proj1 (alook_in (hit_typed obj ty per) (recs c l))), Hr.
    + apply HC. apply (proj1 (alook_in (hit_untyped obj per) (recs c l))), Hr.
    + apply filter_In in Hr. apply HC. tauto.
Qed.

Lemma history_inv n es cw : (0 < n < 32)%nat -> history n es cw -> CInv n cw.
Proof.
  intros Hn H. induction H as [|es cw e cw' a H IH Ha Hs].
  - exists []. cbn. split; [apply init_Rep|]. split; [reflexivity|]. split; [|intros r []].
    split; [intros o []|intros o a [[] _]].
  - destruct (estep_inv n cw e Hn IH Ha) as (cw2 & a2 & E & HC). congruence.
Qed.
