(* Recording of loaded files: lemmas. *)
From Verif Require Import Base Big_model Big_set Big_spec Big_inv Big_lookup Big_links Big_field Big_create Big_delete Big_hist Big_props Map_model File_model File_spec.

(* ------------------------------------------------------------ bounds *)
Lemma bounds_ok l : forall lo0 lim0, let '(lo, lim) := bounds l lo0 lim0 in
  (lo = lo0 \/ In lo (map fst l)) /\ lo <= lo0 /\ (forall g, In g l -> lo <= fst g) /\
  (lim = lim0 \/ In lim (map (fun g => fst g + snd g) l)) /\ lim0 <= lim /\ (forall g, In g l -> fst g + snd g <= lim).
Proof.
  induction l as [|[v sz] l IH]; intros lo0 lim0; cbn [bounds map].
  - split; [left; auto|]. split; [lia|]. split; [intros g []|]. split; [left; auto|]. split; [lia|]. intros g [].
  - specialize (IH (if v <? lo0 then v else lo0) (if lim0 <? v + sz then v + sz else lim0)).
    destruct (bounds l _ _) as [lo lim]. destruct IH as (A & B & C & D & E & F). cbn [fst snd].
    destruct (Z.ltb_spec v lo0), (Z.ltb_spec lim0 (v + sz)).
    all: (split; [destruct A as [A|A]; [first [left; auto; lia|right; left; auto]|right; right; auto]|]).
    all: (split; [lia|]).
    all: (split; [intros g [<-|Hg]; [cbn [fst]; lia|auto]|]).
    all: (split; [destruct D as [D|D]; [first [left; auto; lia|right; left; auto]|right; right; auto]|]).
    all: (split; [lia|]).
    all: intros g [<-|Hg]; [cbn [fst snd]; lia|auto].
Qed.
Lemma bounds_eq o low lim : file_ok o low lim -> bounds (o_segs o) NOLOW 0 = (low, lim).
Proof.
  intros [[L1 L2] [M1 M2] (P1 & P2 & P3 & P4) S _ _ _]. pose proof (bounds_ok (o_segs o) NOLOW 0) as B.
  destruct (bounds (o_segs o) NOLOW 0) as [a b]. destruct B as (A & B & C & D & E & F).
  assert (low < NOLOW). { apply in_map_iff in L1. destruct L1 as (g & E1 & Hg). specialize (M2 g Hg). specialize (S g Hg). unfold NOLOW. lia. }
  assert (a = low).
  { apply in_map_iff in L1. destruct L1 as (g & E1 & Hg). pose proof (C g Hg). destruct A as [A|A]; [lia|].
    apply in_map_iff in A. destruct A as (g2 & E2 & Hg2). specialize (L2 g2 Hg2). lia. }
  assert (b = lim).
  { apply in_map_iff in M1. destruct M1 as (g & E1 & Hg). pose proof (F g Hg). destruct D as [D|D]; [lia|].
    apply in_map_iff in D. destruct D as (g2 & E2 & Hg2). specialize (M2 g2 Hg2). lia. }
  congruence.
Qed.

(* ------------------------------------------------------------ free records *)
Lemma spare_free nb s k : spare nb s (S k) -> has_free nb s.
Proof. intros (l & _ & E & H). destruct l as [|n l]; [discriminate|]. exists n. apply H. left. auto. Qed.
Lemma in_use_view s n : n <> 0%nat -> in_use (bigs s n) = match view s n with Some _ => true | None => false end.
Proof. intro H. unfold view. destruct (Nat.eqb_spec n 0); [congruence|]. cbn. destruct (in_use (bigs s n)); auto. Qed.
Lemma nodup_app_l {A} (a b : list A) : NoDup (a ++ b) -> NoDup a.
Proof. induction a as [|x a IH]; cbn; intro H; [constructor|]. inversion H; subst. constructor; auto. intro; apply H2, in_or_app; auto. Qed.
Lemma spare_less nb s s' k n : spare nb s (S k) -> (forall m, m <> n -> view s' m = view s m) -> spare nb s' k.
Proof.
  intros (l & ND & E & H) HV. exists (firstn k (remove Nat.eq_dec n l)).
  assert (Hlen : (k <= length (remove Nat.eq_dec n l))%nat).
  { clear - ND E. assert (X : (length l <= S (length (remove Nat.eq_dec n l)))%nat); [|lia]. clear E. induction ND as [|x l Hx ND IH]; cbn; [lia|].
    destruct (Nat.eq_dec n x) as [->|]; cbn [length]; [|lia]. rewrite notin_remove by auto. lia. }
  assert (Hin : forall x, In x (firstn k (remove Nat.eq_dec n l)) -> In x l /\ x <> n).
  { intros x Hx. apply in_remove with (eq_dec := Nat.eq_dec). rewrite <- (firstn_skipn k). apply in_or_app. auto. }
  split; [|split].
  - assert (NoDup (remove Nat.eq_dec n l)).
    { clear - ND. induction ND as [|x l Hx ND IH]; cbn; [constructor|]. destruct (Nat.eq_dec n x); auto. constructor; auto.
      intro Hi. apply in_remove in Hi. tauto. }
    rewrite <- (firstn_skipn k) in H0. apply nodup_app_l in H0. auto.
  - rewrite firstn_length. lia.
  - intros x Hx. destruct (Hin x Hx) as [A B]. destruct (H x A) as [C D]. split; auto.
    rewrite in_use_view in * by lia. rewrite HV by auto. auto.
Qed.
Lemma spare_same nb s s' k : spare nb s k -> (forall m, view s' m = None <-> view s m = None) -> spare nb s' k.
Proof.
  intros (l & ND & E & H) HV. exists l. split; auto. split; auto. intros n Hn. destruct (H n Hn) as [A B]. split; auto.
  rewrite in_use_view in * by lia. destruct (view s n) eqn:V; [discriminate|]. destruct (HV n) as [_ X]. rewrite X; auto.
Qed.

Lemma view_fields s n t : view s n = Some t -> live s n /\ b_begin (bigs s n) = a_begin t /\ b_end (bigs s n) = a_end t /\
  b_parent (bigs s n) = a_parent t /\ b_alloc (bigs s n) = a_alloc t /\ b_sub (bigs s n) = a_sub t /\ b_priv (bigs s n) = a_priv t /\ b_subpriv (bigs s n) = a_subpriv t.
Proof.
  intro H. assert (L : live s n) by (apply view_live; congruence). split; auto. rewrite live_view in H by auto. injection H as <-. cbn. tauto.
Qed.

Section P.
Variables (nb : nat) (biggest : Z) (dbg : bool) (al : nat -> Z) (cur max : Z).
Notation R := (reach nb biggest dbg al cur max).

(* nothing but the mapping is in a range its children leave clear *)
Lemma only_root s m e : R s -> clear_for s m e ->
  forall x a, live s x -> covers s x a -> b_begin (bigs s m) <= a < e -> x = m.
Proof.
  intros HR (Lm & Pm & _ & _ & He & Hk) x a Lx Cx Ha. destruct (reach_good _ _ _ _ _ _ _ HR) as [(K & rk & HI) _].
  assert (Hanc : anc s m x).
  { apply (root_anc _ _ _ _ HI m a x); auto. unfold covers. lia. }
  destruct (Nat.eq_dec x m) as [|Hne]; auto. exfalso.
  assert (Hc : forall y, anc s m y -> live s y -> y <> m -> exists c, live s c /\ b_parent (bigs s c) = m /\ anc s c y).
  { intros y Hy. induction Hy as [|y Hp Hy IH]; intros Ly Hn; [congruence|].
    destruct (I_par _ _ _ _ HI y Ly) as [|Lp]; [congruence|].
    destruct (Nat.eq_dec (b_parent (bigs s y)) m) as [E|E].
    - exists y. split; [auto|]. split; [auto|]. constructor.
    - destruct (IH Lp E) as (c & A & B & C). exists c. split; auto. split; auto. apply anc_up; auto. }
  destruct (Hc x Hanc Lx Hne) as (c & Lc & Pc & Ac). specialize (Hk c Lc Pc).
  assert (Hin : forall y, anc s c y -> live s y -> b_begin (bigs s c) <= b_begin (bigs s y)).
  { intros y Hy. induction Hy as [|y Hp Hy IH]; intros Ly; [lia|].
    destruct (I_par _ _ _ _ HI y Ly) as [|Lp]; [congruence|]. specialize (IH Lp). pose proof (I_in _ _ _ _ HI y Ly Hp). lia. }
  specialize (Hin x Ac Lx). unfold covers in Cx. lia.
Qed.

(* ------------------------------------------------------------ records added *)
Record added (s0 s : st) (l : list (nat * attrs)) : Prop := {
  ad_R : R s;
  ad_nd : NoDup (map fst l);
  ad_new : forall n t, In (n, t) l -> n <> 0%nat /\ view s0 n = None /\ view s n = Some t;
  ad_old : forall n, ~ In n (map fst l) -> view s n = view s0 n;
  ad_start : start s = start s0;
  ad_log : log s = log s0 }.

Lemma added_nil s : R s -> added s s [].
Proof. intro H. constructor; auto; [constructor|intros n t []]. Qed.

Lemma added_live s0 s l x : added s0 s l -> live s x ->
  (exists t, In (x, t) l /\ view s x = Some t) \/ (~ In x (map fst l) /\ live s0 x /\ view s x = view s0 x).
Proof.
  intros A L. destruct (in_dec Nat.eq_dec x (map fst l)) as [Hi|Hn].
  - left. apply in_map_iff in Hi. destruct Hi as ([n t] & <- & Hi). exists t. split; auto. apply (ad_new _ _ _ A n t Hi).
  - right. pose proof (ad_old _ _ _ A x Hn) as E. split; auto. split; auto. apply view_live. rewrite <- E. apply view_live; auto.
Qed.

Lemma added_create s0 s l p ptr size alloc : added s0 s l -> has_free nb s -> size <= biggest -> p <> 0%nat -> fits s p ptr (ptr + size) ->
  exists s' n, new_bigalloc nb biggest dbg s ptr size 0 p alloc = Ok (s', n) /\
    added s0 s' (l ++ [(n, mkAttrs ptr (ptr + size) p alloc 0 0 0)]) /\ view s n = None /\ (forall m, m <> n -> view s' m = view s m).
Proof.
  intros A Hf Hs Hp Hfit.
  destruct (big_create_exact nb biggest dbg al cur max s ptr size 0 p alloc p (ad_R _ _ _ A) Hf Hs Hfit) as (s' & n & E & HR & Hn & Vn & HV & Hst & Hlog).
  { unfold parent_choice. destruct (Nat.eqb_spec p 0); congruence. }
  exists s', n. split; [exact E|]. assert (HV2 : forall m, m <> n -> view s' m = view s m).
  { intros m Hm. rewrite HV. destruct (Nat.eqb_spec m n); congruence. }
  split; [|split; auto]. constructor; auto.
  - rewrite map_app. cbn [map fst]. 
    assert (Hnotin : ~ In n (map fst l)).
    { intro Hi. apply in_map_iff in Hi. destruct Hi as ([n' t] & <- & Hi). pose proof (proj2 (proj2 (ad_new _ _ _ A n' t Hi))). cbn [fst] in *. congruence. }
    pose proof (ad_nd _ _ _ A) as ND. clear - Hnotin ND. induction (map fst l) as [|x r IH]; cbn; [constructor; auto|].
    inversion ND; subst. constructor; [|apply IH; auto; intro; apply Hnotin; simpl; auto].
    intro Hi. apply in_app_or in Hi. destruct Hi as [Hi|[<-|[]]]; auto. apply Hnotin. simpl; auto.
  - intros m t Hi. apply in_app_or in Hi. destruct Hi as [Hi|[Hi|[]]].
    + destruct (ad_new _ _ _ A m t Hi) as (B & C & D). split; auto. split; auto. rewrite HV2; auto. intros ->. congruence.
    + injection Hi as <- <-. split; auto. split; [|rewrite HV, Nat.eqb_refl; auto].
      destruct (in_dec Nat.eq_dec n (map fst l)) as [Hi|Hi].
      * exfalso. apply in_map_iff in Hi. destruct Hi as ([n' t] & <- & Hi). pose proof (proj2 (proj2 (ad_new _ _ _ A n' t Hi))). cbn [fst] in *. congruence.
      * rewrite <- (ad_old _ _ _ A n Hi). auto.
  - intros m Hm. rewrite map_app in Hm. rewrite HV2; [apply (ad_old _ _ _ A)|]; intro; apply Hm; apply in_or_app; [left; auto|right; left; auto].
  - rewrite Hst. apply (ad_start _ _ _ A).
  - rewrite Hlog. apply (ad_log _ _ _ A).
Qed.

Definition upd (n : nat) (t' : attrs) (x : nat * attrs) : nat * attrs := if Nat.eqb (fst x) n then (n, t') else x.
Lemma upd_fst n t' l : map fst (map (upd n t') l) = map fst l.
Proof. rewrite map_map. apply map_ext. intros [m t]. unfold upd. cbn. destruct (Nat.eqb_spec m n); auto. Qed.
Lemma upd_in n t' l m t : NoDup (map fst l) -> In (m, t) (map (upd n t') l) -> (m = n /\ t = t' /\ In n (map fst l)) \/ (m <> n /\ In (m, t) l).
Proof.
  intros _ Hi. apply in_map_iff in Hi. destruct Hi as ([m2 t2] & E & Hi). unfold upd in E. cbn [fst] in E.
  destruct (Nat.eqb_spec m2 n) as [->|Hne].
  - injection E as <- <-. left. split; auto. split; auto. apply in_map_iff. exists (n, t2). auto.
  - injection E as <- <-. right. auto.
Qed.
Lemma upd_last l n t t' : ~ In n (map fst l) -> map (upd n t') (l ++ [(n, t)]) = l ++ [(n, t')].
Proof.
  intro H. rewrite map_app. cbn [map]. unfold upd at 2. cbn [fst]. rewrite Nat.eqb_refl. f_equal.
  clear - H. induction l as [|[m u] l IH]; cbn; auto. rewrite IH; [|intro; apply H; simpl; auto].
  f_equal. unfold upd. cbn [fst]. destruct (Nat.eqb_spec m n) as [->|]; auto. exfalso. apply H. simpl; auto.
Qed.
Lemma upd_head l n t t' : ~ In n (map fst l) -> map (upd n t') ((n, t) :: l) = (n, t') :: l.
Proof.
  intro H. cbn [map]. unfold upd at 1. cbn [fst]. rewrite Nat.eqb_refl. f_equal.
  clear - H. induction l as [|[m u] l IH]; cbn; auto. rewrite IH; [|intro; apply H; simpl; auto].
  f_equal. unfold upd. cbn [fst]. destruct (Nat.eqb_spec m n) as [->|]; auto. exfalso. apply H. simpl; auto.
Qed.

Lemma added_change s0 s l n t t' o s' : added s0 s l -> In (n, t) l -> legal nb biggest al s o -> step nb biggest dbg al cur max s o = Ok s' ->
  (forall m, view s' m = if Nat.eqb m n then Some t' else view s m) -> start s' = start s -> log s' = log s ->
  added s0 s' (map (upd n t') l).
Proof.
  intros A Hi HL E HV Hs Hl. constructor.
  - exact (reach_step _ _ _ _ _ _ _ _ _ (ad_R _ _ _ A) HL E).
  - rewrite upd_fst. apply (ad_nd _ _ _ A).
  - intros m u Hm. apply upd_in in Hm; [|apply (ad_nd _ _ _ A)]. destruct Hm as [(-> & -> & _)|[Hne Hm]].
    + destruct (ad_new _ _ _ A n t Hi) as (B & C & _). split; auto. split; auto. rewrite HV, Nat.eqb_refl. auto.
    + destruct (ad_new _ _ _ A m u Hm) as (B & C & D). split; auto. split; auto. rewrite HV. destruct (Nat.eqb_spec m n); congruence.
  - intros m Hm. rewrite upd_fst in Hm. rewrite HV. destruct (Nat.eqb_spec m n) as [->|].
    + exfalso. apply Hm. apply in_map_iff. exists (n, t). auto.
    + apply (ad_old _ _ _ A m Hm).
  - rewrite Hs. apply (ad_start _ _ _ A).
  - rewrite Hl. apply (ad_log _ _ _ A).
Qed.

Lemma added_sub s0 s l n t sub : added s0 s l -> In (n, t) l ->
  added s0 (set_sub s n sub (b_subpriv (bigs s n)))
    (map (upd n (mkAttrs (a_begin t) (a_end t) (a_parent t) (a_alloc t) sub (a_priv t) (a_subpriv t))) l).
Proof.
  intros A Hi. destruct (ad_new _ _ _ A n t Hi) as (_ & _ & V). destruct (view_fields _ _ _ V) as (L & E1 & E2 & E3 & E4 & E5 & E6 & E7).
  destruct (reach_good _ _ _ _ _ _ _ (ad_R _ _ _ A)) as [(K & rk & HI) _].
  apply (added_change s0 s l n t _ (SetSub n sub (b_subpriv (bigs s n)))); auto.
  intro m. destruct (set_sub_ok nb al s K rk n sub (b_subpriv (bigs s n)) HI L) as [_ HV]. rewrite HV. rewrite E1, E2, E3, E4, E6, E7. auto.
Qed.
Lemma added_priv s0 s l n t pr : added s0 s l -> In (n, t) l ->
  added s0 (set_priv s n pr)
    (map (upd n (mkAttrs (a_begin t) (a_end t) (a_parent t) (a_alloc t) (a_sub t) pr (a_subpriv t))) l).
Proof.
  intros A Hi. destruct (ad_new _ _ _ A n t Hi) as (_ & _ & V). destruct (view_fields _ _ _ V) as (L & E1 & E2 & E3 & E4 & E5 & E6 & E7).
  destruct (reach_good _ _ _ _ _ _ _ (ad_R _ _ _ A)) as [(K & rk & HI) _].
  apply (added_change s0 s l n t _ (SetPriv n pr)); auto.
  intro m. destruct (set_priv_ok nb al s K rk n pr HI L) as [_ HV]. rewrite HV. rewrite E1, E2, E3, E4, E5, E7. auto.
Qed.
End P.
