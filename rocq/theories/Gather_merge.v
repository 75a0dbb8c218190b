(* Sorting, merging, and the table. *)
From Coq Require Import Permutation.
From Verif Require Import Base Meta_model Meta_proof Allocsites_model Allocsites_props Gather_model Gather_spec Gather_awk.

(* ---- the order of strings ---- *)
Lemma str_cmp_refl a : str_cmp a a = Eq.
Proof. induction a as [|x a IH]; [reflexivity|]. cbn. rewrite Z.compare_refl. exact IH. Qed.
Lemma str_cmp_eq : forall a b, str_cmp a b = Eq -> a = b.
Proof.
  induction a as [|x a IH]; intros [|y b] H; cbn in H; try discriminate; [reflexivity|].
  destruct (x ?= y) eqn:E; try discriminate. apply Z.compare_eq in E. subst. f_equal. apply IH; exact H.
Qed.
Lemma str_cmp_opp : forall a b, str_cmp b a = CompOpp (str_cmp a b).
Proof.
  induction a as [|x a IH]; intros [|y b]; try reflexivity. cbn. rewrite (Z.compare_antisym x y).
  destruct (x ?= y); cbn; [apply IH|reflexivity|reflexivity].
Qed.
Lemma str_lt_trans : forall a b c, str_cmp a b = Lt -> str_cmp b c = Lt -> str_cmp a c = Lt.
Proof.
  induction a as [|x a IH]; intros [|y b] [|z c] H1 H2; cbn in *; try discriminate; try reflexivity.
  destruct (x ?= y) eqn:E1; try discriminate; destruct (y ?= z) eqn:E2; try discriminate.
  - apply Z.compare_eq in E1, E2. subst. rewrite Z.compare_refl. apply (IH b); assumption.
  - apply Z.compare_eq in E1. subst. rewrite E2. reflexivity.
  - apply Z.compare_eq in E2. subst. rewrite E1. reflexivity.
  - rewrite Z.compare_lt_iff in E1, E2. replace (x ?= z) with Lt; [reflexivity|]. symmetry. rewrite Z.compare_lt_iff. lia.
Qed.

(* ---- padded numbers ---- *)
Lemma cmp_snoc : forall a b x y, length a = length b ->
  str_cmp (a ++ [x]) (b ++ [y]) = match str_cmp a b with Eq => x ?= y | c => c end.
Proof.
  induction a as [|p a IH]; intros [|q b] x y L; try discriminate.
  - cbn. destruct (x ?= y); reflexivity.
  - cbn in *. destruct (p ?= q); try reflexivity. apply IH. lia.
Qed.
Lemma digits_length k : forall n, length (digits k n) = k.
Proof. induction k as [|k IH]; intros n; [reflexivity|]. cbn [digits]. rewrite app_length, IH. cbn. lia. Qed.
Lemma digits_cmp : forall k a b, 0 <= a < 10 ^ Z.of_nat k -> 0 <= b < 10 ^ Z.of_nat k ->
  str_cmp (digits k a) (digits k b) = (a ?= b).
Proof.
  induction k as [|k IH]; intros a b Ha Hb.
  - change (10 ^ Z.of_nat 0) with 1 in *. replace a with 0 by lia. replace b with 0 by lia. reflexivity.
  - rewrite Nat2Z.inj_succ, Z.pow_succ_r in Ha, Hb by lia. cbn [digits]. rewrite cmp_snoc by (rewrite !digits_length; reflexivity).
    pose proof (Z.div_mod a 10 ltac:(lia)) as Da. pose proof (Z.div_mod b 10 ltac:(lia)) as Db.
    pose proof (Z.mod_pos_bound a 10 ltac:(lia)). pose proof (Z.mod_pos_bound b 10 ltac:(lia)).
    rewrite IH; [| split; [apply Z.div_pos; lia | apply Z.div_lt_upper_bound; lia] | split; [apply Z.div_pos; lia | apply Z.div_lt_upper_bound; lia]].
    set (qa := a / 10) in *. set (qb := b / 10) in *. set (ra := a mod 10) in *. set (rb := b mod 10) in *. clearbody qa qb ra rb.
    destruct (qa ?= qb) eqn:E.
    + apply Z.compare_eq in E. subst qb. destruct (48 + ra ?= 48 + rb) eqn:F; symmetry.
      * apply Z.compare_eq in F. rewrite Z.compare_eq_iff. lia.
      * rewrite Z.compare_lt_iff in *. lia.
      * rewrite Z.compare_gt_iff in *. lia.
    + rewrite Z.compare_lt_iff in E. symmetry. rewrite Z.compare_lt_iff. lia.
    + rewrite Z.compare_gt_iff in E. symmetry. rewrite Z.compare_gt_iff. lia.
Qed.
Lemma width_le : forall k f n, 0 <= n < 10 ^ Z.of_nat k -> (0 < k)%nat -> (width f n <= k)%nat.
Proof.
  induction k as [|k IH]; intros f n Hn Hk; [lia|]. destruct f as [|f]; cbn [width]; [lia|].
  destruct (n <? 10) eqn:E; [lia|]. destruct k as [|k]; [change (10 ^ Z.of_nat 1) with 10 in Hn; lia|].
  rewrite Nat2Z.inj_succ, Z.pow_succ_r in Hn by lia.
  apply le_n_S, IH; [|lia]. split; [apply Z.div_pos; lia | apply Z.div_lt_upper_bound; lia].
Qed.
Lemma pad_short n : short n -> pad n = digits 6 n.
Proof. intros H. unfold pad. rewrite Nat.max_l; [reflexivity|]. apply width_le; [exact H | lia]. Qed.
Lemma line_short a b : short a -> short b -> line_cmp a b = (a ?= b).
Proof. intros Ha Hb. unfold line_cmp. rewrite !pad_short by assumption. apply digits_cmp; assumption. Qed.

(* ---- sorting ---- *)
Section Sort.
Context {A : Type}.
Variable le : A -> A -> bool.
Variable P : A -> Prop.
Variable R : A -> A -> Prop.
Hypothesis yes : forall x y, P x -> P y -> le x y = true -> R x y.
Hypothesis no : forall x y, P x -> P y -> le x y = false -> R y x.
Hypothesis tr : forall x y z, P x -> P y -> P z -> R x y -> R y z -> R x z.
Lemma ins_perm x l : Permutation (ins le x l) (x :: l).
Proof. induction l as [|y r IH]; cbn; [reflexivity|]. destruct (le x y); [reflexivity|]. rewrite IH. apply perm_swap. Qed.
Lemma isort_perm l : Permutation (isort le l) l.
Proof. induction l as [|x r IH]; cbn; [reflexivity|]. rewrite ins_perm. apply perm_skip, IH. Qed.
Lemma ins_sorted x l : P x -> Forall P l -> ForallOrdPairs R l -> ForallOrdPairs R (ins le x l).
Proof.
  intros Hx Hl H. induction H as [|y r Hy Hr IH]; cbn.
  - apply FOP_cons; [apply Forall_nil | apply FOP_nil].
  - inversion Hl as [|? ? Py Pr]; subst. destruct (le x y) eqn:E.
    + apply FOP_cons; [|apply FOP_cons; assumption]. pose proof (yes x y Hx Py E) as Q.
      apply Forall_cons; [exact Q|]. rewrite Forall_forall in *. intros z Hz. apply (tr x y z); auto.
    + apply FOP_cons; [|apply IH; exact Pr]. pose proof (no x y Hx Py E) as Q. rewrite Forall_forall in *. intros z Hz.
      apply (Permutation_in _ (ins_perm x r)) in Hz. destruct Hz as [<-|Hz]; auto.
Qed.
Lemma isort_sorted l : Forall P l -> ForallOrdPairs R (isort le l).
Proof.
  induction 1 as [|x r Hx Hr IH]; cbn; [apply FOP_nil|]. apply ins_sorted; auto.
  rewrite Forall_forall in *. intros z Hz. apply Hr. apply (Permutation_in _ (isort_perm r)). exact Hz.
Qed.
End Sort.

(* calls in the order of files and first lines *)
Definition obefore (a b : obj) : Prop := str_cmp (o_file a) (o_file b) = Lt \/ (o_file a = o_file b /\ o_lo a <= o_lo b).
Definition oshort (o : obj) : Prop := short (o_lo o) /\ short (o_hi o).
Lemma objs_sorted l : Forall oshort l -> ForallOrdPairs obefore (isort obj_le l).
Proof.
  apply isort_sorted.
  - intros x y (X1 & X2) (Y1 & Y2). unfold obj_le, obefore. rewrite line_short by assumption.
    destruct (str_cmp (o_file x) (o_file y)) eqn:E; auto; [|discriminate].
    apply str_cmp_eq in E. intros H. right. split; [exact E|].
    destruct (o_lo x ?= o_lo y) eqn:F; [apply Z.compare_eq in F; lia | rewrite Z.compare_lt_iff in F; lia | discriminate].
  - intros x y (X1 & X2) (Y1 & Y2). unfold obj_le, obefore. rewrite line_short by assumption.
    rewrite (str_cmp_opp (o_file x)).
    destruct (str_cmp (o_file x) (o_file y)) eqn:E; auto; [|discriminate].
    apply str_cmp_eq in E. intros H. right. split; [auto|].
    destruct (o_lo x ?= o_lo y) eqn:F; [apply Z.compare_eq in F; lia | discriminate | rewrite Z.compare_gt_iff in F; lia].
  - intros x y z _ _ _ [A|(A1 & A2)] [B|(B1 & B2)]; unfold obefore.
    + left. apply (str_lt_trans _ _ _ A B).
    + left. rewrite <- B1. exact A.
    + left. rewrite A1. exact B.
    + right. split; [congruence | lia].
Qed.
Definition sshort (s : src) : Prop := short (s_line s).
Lemma srcs_sorted l : Forall sshort l -> in_order (sources str_cmp l).
Proof.
  unfold in_order, sources. apply isort_sorted.
  - intros x y X Y. unfold src_le, before. fold (line_cmp (s_line x) (s_line y)). rewrite line_short by assumption.
    destruct (str_cmp (s_file x) (s_file y)) eqn:E; auto; [|discriminate].
    apply str_cmp_eq in E. intros H. right. split; [exact E|].
    destruct (s_line x ?= s_line y) eqn:F; [apply Z.compare_eq in F; lia | rewrite Z.compare_lt_iff in F; lia | discriminate].
  - intros x y X Y. unfold src_le, before. fold (line_cmp (s_line x) (s_line y)). rewrite line_short by assumption.
    rewrite (str_cmp_opp (s_file x)).
    destruct (str_cmp (s_file x) (s_file y)) eqn:E; auto; [|discriminate].
    apply str_cmp_eq in E. intros H. right. split; [auto|].
    destruct (s_line x ?= s_line y) eqn:F; [apply Z.compare_eq in F; lia | discriminate | rewrite Z.compare_gt_iff in F; lia].
  - intros x y z _ _ _ [A|(A1 & A2)] [B|(B1 & B2)]; unfold before.
    + left. apply (str_lt_trans _ _ _ A B).
    + left. rewrite <- B1. exact A.
    + left. rewrite A1. exact B.
    + right. split; [congruence | lia].
Qed.

(* ---- merging ---- *)
Lemma matches_iff s o : sshort s -> oshort o -> (matches s o = true <-> on_lines o s).
Proof.
  intros Hs (H1 & H2). unfold matches, on_lines. rewrite !andb_true_iff, !line_short by assumption.
  rewrite str_eqb_eq. split.
  - intros ((A & B) & C). split; [exact A|]. split.
    + destruct (o_lo o ?= s_line s) eqn:F; [apply Z.compare_eq in F; lia | rewrite Z.compare_lt_iff in F; lia | discriminate].
    + destruct (s_line s ?= o_hi o) eqn:F; [discriminate | rewrite Z.compare_lt_iff in F; lia | discriminate].
  - intros (A & B & C). repeat split; auto.
    + destruct (o_lo o ?= s_line s) eqn:F; try reflexivity. rewrite Z.compare_gt_iff in F; lia.
    + rewrite (proj2 (Z.compare_lt_iff _ _) C). reflexivity.
Qed.
(* passed over for good *)
Definition below (s : src) (o : obj) : Prop := str_cmp (s_file s) (o_file o) = Lt \/ (s_file s = o_file o /\ s_line s < o_lo o).
Lemma skips_below s o : sshort s -> oshort o -> matches s o = false -> skips s o = true -> below s o.
Proof.
  intros Hs Ho Hm H. unfold skips in H. apply orb_prop in H. destruct H as [H|H].
  - left. destruct (str_cmp (s_file s) (o_file o)); try discriminate. reflexivity.
  - apply andb_prop in H. destruct H as (H1 & H2). right. apply str_eqb_eq in H1. split; [exact H1|].
    destruct Ho as (O1 & O2). rewrite line_short in H2 by assumption.
    destruct (Z_lt_ge_dec (s_line s) (o_lo o)) as [|G]; [assumption|]. exfalso.
    assert (M : matches s o = true).
    { apply (proj2 (matches_iff s o Hs (conj O1 O2))). split; [exact H1|]. split; [lia|].
      destruct (s_line s ?= o_hi o) eqn:F; try discriminate. rewrite Z.compare_lt_iff in F. exact F. }
    congruence.
Qed.
Lemma stays_above s o : sshort s -> oshort o -> skips s o = false -> 
  str_cmp (o_file o) (s_file s) = Lt \/ (s_file s = o_file o /\ o_hi o <= s_line s).
Proof.
  intros Hs (O1 & O2) H. unfold skips in H. apply orb_false_elim in H. destruct H as (H1 & H2).
  rewrite (str_cmp_opp (s_file s)). destruct (str_cmp (s_file s) (o_file o)) eqn:E; cbn; [|discriminate|auto].
  apply str_cmp_eq in E. right. split; [exact E|]. replace (str_eqb (s_file s) (o_file o)) with true in H2.
  - cbn [andb] in H2. rewrite line_short in H2 by assumption.
    destruct (s_line s ?= o_hi o) eqn:F; [apply Z.compare_eq in F; lia | discriminate | rewrite Z.compare_gt_iff in F; lia].
  - symmetry. apply str_eqb_eq. exact E.
Qed.
Lemma below_off s o : below s o -> ~ on_lines o s.
Proof. intros [H|(H & H')] (E & L); [rewrite E, str_cmp_refl in H; discriminate | lia]. Qed.
Lemma below_next s o o' : below s o -> obefore o o' -> below s o'.
Proof.
  intros [H|(H & H')] [A|(A & B)]; unfold below.
  - left. apply (str_lt_trans _ _ _ H A).
  - left. rewrite <- A. exact H.
  - left. rewrite H. exact A.
  - right. split; [congruence | lia].
Qed.

Lemma merge1_ok o : oshort o -> forall ss, Forall sshort ss -> in_order ss ->
  exists d ss', snd (merge1 o ss) = ss' /\ ss = d ++ ss' /\ (forall s, In s d -> below s o) /\ first_on ss o (fst (merge1 o ss)).
Proof.
  intros Ho. induction ss as [|s r IH]; intros Hs Hi.
  - exists [], []. cbn. split; [reflexivity|]. split; [reflexivity|]. split; intros ? [].
  - inversion Hs as [|? ? S1 S2]; subst. inversion Hi as [|? ? I1 I2]; subst. cbn [merge1].
    destruct (matches s o) eqn:M.
    + exists [], (s :: r). cbn [fst snd]. split; [reflexivity|]. split; [reflexivity|]. split; [contradiction|].
      exists [], r. split; [reflexivity|]. split; [apply (matches_iff s o S1 Ho); exact M | contradiction].
    + destruct (skips s o) eqn:K.
      * destruct (IH S2 I2) as (d & ss' & E1 & E2 & E3 & E4).
        pose proof (skips_below s o S1 Ho M K) as B.
        exists (s :: d), ss'. split; [exact E1|]. split; [cbn; f_equal; exact E2|]. split.
        -- intros x [<-|Hx]; [exact B | apply E3; exact Hx].
        -- destruct (fst (merge1 o r)) as [t|]; cbn in E4 |- *.
           ++ destruct E4 as (a & b & -> & T1 & T2). exists (s :: a), b. split; [reflexivity|]. split; [exact T1|].
              intros x [<-|Hx]; [apply below_off; exact B | apply T2; exact Hx].
           ++ intros x [<-|Hx]; [apply below_off; exact B | apply E4; exact Hx].
      * exists [], (s :: r). cbn [fst snd]. split; [reflexivity|]. split; [reflexivity|]. split; [contradiction|].
        pose proof (stays_above s o S1 Ho K) as U. cbn. intros x Hx (X1 & X2).
        destruct Hx as [<-|Hx].
        -- destruct U as [U|(U1 & U2)]; [rewrite X1, str_cmp_refl in U; discriminate | lia].
        -- rewrite Forall_forall in I1. destruct (I1 x Hx) as [L|(L1 & L2)]; destruct U as [U|(U1 & U2)].
           ++ pose proof (str_lt_trans _ _ _ U L) as Q. rewrite X1, str_cmp_refl in Q. discriminate.
           ++ rewrite U1, X1, str_cmp_refl in L. discriminate.
           ++ rewrite L1, X1, str_cmp_refl in U. discriminate.
           ++ lia.
Qed.

Lemma first_on_app d ss o m : (forall s, In s d -> ~ on_lines o s) -> first_on ss o m -> first_on (d ++ ss) o m.
Proof.
  intros Hd. destruct m as [s|]; cbn.
  - intros (a & b & -> & H1 & H2). exists (d ++ a), b. split; [apply app_assoc|]. split; [exact H1|].
    intros x Hx. apply in_app_or in Hx. destruct Hx; auto.
  - intros H s Hs. apply in_app_or in Hs. destruct Hs; auto.
Qed.

Lemma FOP_app_r {A} (R : A -> A -> Prop) d l : ForallOrdPairs R (d ++ l) -> ForallOrdPairs R l.
Proof. induction d as [|x d IH]; cbn; [auto|]. intros H. inversion H; subst. auto. Qed.
Lemma Forall_app_r {A} (P : A -> Prop) d l : Forall P (d ++ l) -> Forall P l.
Proof. intros H. apply Forall_app in H. apply H. Qed.

Theorem merge_ok : forall os all, Forall oshort os -> ForallOrdPairs obefore os -> Forall sshort all -> in_order all ->
  forall d ss, all = d ++ ss -> (forall o s, In o os -> In s d -> below s o) ->
  map fst (merge os ss) = os /\ (forall o m, In (o, m) (merge os ss) -> first_on all o m).
Proof.
  induction os as [|o r IH]; intros all Ho Hi Hs Hall d ss E Hd; [split; [reflexivity | contradiction]|].
  inversion Ho as [|? ? O1 O2]; subst. inversion Hi as [|? ? I1 I2]; subst.
  destruct (merge1_ok o O1 ss (Forall_app_r _ _ _ Hs) (FOP_app_r _ _ _ Hall)) as (d' & ss' & E1 & E2 & E3 & E4).
  cbn [merge]. destruct (merge1 o ss) as (m, ss1). cbn [fst snd] in *. subst ss1 ss.
  destruct (IH (d ++ d' ++ ss') O2 I2 Hs Hall (d ++ d') ss' (app_assoc _ _ _)) as (A & B).
  { intros o' s Ho' Hs'. apply in_app_or in Hs'. destruct Hs' as [Hs'|Hs'].
    - apply Hd; [right|]; assumption.
    - rewrite Forall_forall in I1. apply (below_next s o); [apply E3; exact Hs' | apply I1; exact Ho']. }
  cbn [map fst]. split; [f_equal; exact A|].
  intros o' m' [Q|Q]; [|apply B; exact Q]. injection Q as <- <-. apply first_on_app; [|exact E4].
  intros s Hs'. apply below_off. apply Hd; [left; reflexivity | exact Hs'].
Qed.

(* ---- the table ---- *)
Definition entry_of (resolve : str -> option Z) (am : Z * option src) : list (Z * Z) :=
  let '(a, m) := am in
  match m with None => [] | Some s => match resolve (s_type s) with Some t => [(a, t)] | None => [] end end.
Lemma table_eq resolve l : table resolve l =
  flat_map (entry_of resolve) (isort (fun x y => fst x <=? fst y) (map (fun '(o, m) => (o_addr o, m)) l)).
Proof. unfold table. apply flat_map_ext2. intros (a, m). reflexivity. Qed.

Lemma table_in resolve l a t : In (a, t) (table resolve l) <->
  exists o s, In (o, Some s) l /\ o_addr o = a /\ resolve (s_type s) = Some t.
Proof.
  rewrite table_eq, in_flat_map. split.
  - intros ((a', m) & H1 & H2). apply (Permutation_in _ (isort_perm _ _)) in H1. apply in_map_iff in H1.
    destruct H1 as ((o, m') & E & H1). injection E as <- <-. cbn in H2. destruct m' as [s|]; [|contradiction].
    destruct (resolve (s_type s)) eqn:R; [|contradiction]. destruct H2 as [H2|[]]. injection H2 as <- <-. exists o, s. auto.
  - intros (o, (s & H1 & <- & H2)). exists (o_addr o, Some s). split.
    + apply (Permutation_in _ (Permutation_sym (isort_perm _ _))). apply in_map_iff. exists (o, Some s). auto.
    + cbn. rewrite H2. left. reflexivity.
Qed.

Lemma flat_increasing resolve : forall l, ForallOrdPairs (fun x y : Z * option src => fst x < fst y) l ->
  ForallOrdPairs Z.lt (map fst (flat_map (entry_of resolve) l)).
Proof.
  induction 1 as [|x l Hx Hl IH]; [apply FOP_nil|]. cbn [flat_map]. rewrite map_app.
  assert (Q : Forall (Z.lt (fst x)) (map fst (flat_map (entry_of resolve) l))).
  { rewrite Forall_forall in *. intros y Hy. apply in_map_iff in Hy. destruct Hy as ((a, t) & <- & Hy). apply in_flat_map in Hy.
    destruct Hy as ((a', m) & H1 & H2). specialize (Hx _ H1). cbn in H2 |- *. destruct m as [s|]; [|contradiction].
    destruct (resolve (s_type s)); [|contradiction]. destruct H2 as [H2|[]]. injection H2 as <- <-. exact Hx. }
  destruct x as (a, m). cbn [entry_of]. destruct m as [s|]; [|exact IH]. destruct (resolve (s_type s)); [|exact IH].
  cbn [map app fst]. apply FOP_cons; [exact Q | exact IH].
Qed.
Lemma table_increasing resolve l : NoDup (map (fun om => o_addr (fst om)) l) -> ForallOrdPairs Z.lt (map fst (table resolve l)).
Proof.
  intros N. rewrite table_eq. apply flat_increasing.
  set (k := map (fun '(o, m) => (o_addr o, m)) l : list (Z * option src)).
  assert (N' : NoDup (map fst k)).
  { unfold k. rewrite map_map. erewrite map_ext; [exact N|]. intros (o, m). reflexivity. }
  clearbody k. clear N l.
  assert (S : ForallOrdPairs (fun x y : Z * option src => fst x <= fst y) (isort (fun x y => fst x <=? fst y) k)).
  { apply isort_sorted with (P := fun _ => True).
    - intros x y _ _ H. lia.
    - intros x y _ _ H. lia.
    - intros; lia.
    - apply Forall_forall. auto. }
  assert (N2 : NoDup (map fst (isort (fun x y : Z * option src => fst x <=? fst y) k))).
  { apply (Permutation_NoDup (l := map fst k)); [|exact N']. apply Permutation_map, Permutation_sym, isort_perm. }
  revert N2. induction S as [|x r Hx Hr IH]; intros N2; [apply FOP_nil|]. cbn [map] in N2. inversion N2 as [|? ? D1 D2]; subst.
  apply FOP_cons; [|apply IH; exact D2]. rewrite Forall_forall in *. intros y Hy. specialize (Hx y Hy).
  assert (fst x <> fst y) by (intros Q; apply D1; rewrite Q; apply in_map; exact Hy). lia.
Qed.
Lemma increasing_of l : ForallOrdPairs Z.lt l -> increasing l.
Proof.
  induction 1 as [|x l Hx Hl IH]; [exact I|]. destruct l as [|y l]; cbn in *; auto.
  split; [|exact IH]. inversion Hx; assumption.
Qed.
