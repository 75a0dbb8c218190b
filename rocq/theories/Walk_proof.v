(* Proofs about the depth-first walk. *)
From Verif Require Import Base Type_model Type_spec Type_proof Walk_model Walk_spec.
From Coq Require Import Sorting.Sorted.

Lemma number_in {A} (xs : list A) : forall i j x,
  In (j, x) (number i xs) <-> exists n, j = i + Z.of_nat n /\ nth_error xs n = Some x.
Proof.
  induction xs as [|y xs IH]; intros i j x; cbn [number In].
  - split; [intros []|]. intros (n & _ & H). destruct n; discriminate.
  - rewrite IH. split.
    + intros [E|(n & -> & H)].
      * injection E as <- <-. exists O. split; [lia|reflexivity].
      * exists (S n). split; [lia|exact H].
    + intros ([|n] & -> & H).
      * left. injection H as <-. f_equal. lia.
      * right. exists n. split; [lia|exact H].
Qed.

Lemma number_sorted {A} (xs : list A) : forall i, StronglySorted Z.lt (map fst (number i xs)).
Proof.
  induction xs as [|y xs IH]; intro i; cbn; constructor; [apply IH|].
  apply Forall_forall. intros j H. apply in_map_iff in H. destruct H as ((j' & x) & <- & H).
  apply number_in in H. destruct H as (n & -> & _). cbn. lia.
Qed.

Lemma sorted_filter_fst {A} (p : Z * A -> bool) (l : list (Z * A)) :
  StronglySorted Z.lt (map fst l) -> StronglySorted Z.lt (map fst (filter p l)).
Proof.
  induction l as [|x l IH]; cbn; intro H; [constructor|].
  apply StronglySorted_inv in H. destruct H as [H F]. destruct (p x); [|auto]. cbn. constructor; [auto|].
  rewrite Forall_forall in *. intros y Hy. apply F. apply in_map_iff in Hy. destruct Hy as (z & <- & Hz).
  apply in_map. apply filter_In in Hz. tauto.
Qed.

(* a strictly sorted association list is determined by its membership *)
Lemma sorted_unique {A} : forall (l l' : list (Z * A)),
  StronglySorted Z.lt (map fst l) -> StronglySorted Z.lt (map fst l') ->
  (forall i x, In (i, x) l <-> In (i, x) l') -> l = l'.
Proof.
  induction l as [|[i x] l IH]; intros [|[j y] l'] S S' H.
  - reflexivity.
  - exfalso. apply (proj2 (H j y)). left. reflexivity.
  - exfalso. apply (proj1 (H i x)). left. reflexivity.
  - cbn in S, S'. apply StronglySorted_inv in S. apply StronglySorted_inv in S'.
    destruct S as [S F], S' as [S' F']. rewrite Forall_forall in F, F'.
    assert (E : (i, x) = (j, y)).
    { destruct (proj1 (H i x) (or_introl eq_refl)) as [E|E]; [congruence|].
      destruct (proj2 (H j y) (or_introl eq_refl)) as [E'|E']; [congruence|].
      assert (i < j) by (apply F; apply in_map_iff; exists (j, y); auto).
      assert (j < i) by (apply F'; apply in_map_iff; exists (i, x); auto). lia. }
    injection E as -> ->. f_equal. apply IH; auto. intros k z. split; intro K.
    + destruct (proj1 (H k z) (or_intror K)) as [E|E]; [|exact E]. injection E as -> ->.
      assert (k < k) by (apply F; apply in_map_iff; exists (k, z); auto). lia.
    + destruct (proj2 (H k z) (or_intror K)) as [E|E]; [|exact E]. injection E as -> ->.
      assert (k < k) by (apply F'; apply in_map_iff; exists (k, z); auto). lia.
Qed.

Lemma lists_unique base sc its its' : lists base sc its -> lists base sc its' -> its = its'.
Proof.
  intros (_ & ps & <- & S & H) (_ & ps' & <- & S' & H'). f_equal.
  apply sorted_unique; auto. intros i x. rewrite H, H'. tauto.
Qed.

Lemma find_first {A} (p : A -> bool) l c : find p l = Some c ->
  exists j, nth_error l j = Some c /\ p c = true /\
    forall j' c', (j' < j)%nat -> nth_error l j' = Some c' -> p c' = false.
Proof.
  induction l as [|x l IH]; cbn; [discriminate|]. destruct (p x) eqn:E.
  - intro H. injection H as <-. exists O. split; [reflexivity|]. split; [exact E|]. lia.
  - intro H. destruct (IH H) as (j & N & P & Q). exists (S j). split; [exact N|]. split; [exact P|].
    intros [|j'] c' L N'; [cbn in N'; congruence|]. apply (Q j'); [lia|exact N'].
Qed.

(* the big allocation walk_one_df_cb settles on *)
Definition the_of (a : args) : option big :=
  match a_type a, a_scope a with
  | Some _, SBig b =>
      match find (fun c => b_begin c =? a_obj a) (b_children b) with
      | Some c => Some c
      | None => a_big a
      end
  | _, _ => a_big a
  end.

Definition fits (base : Z) (sc : scope) (a : args) (it : item) : Prop :=
  i_obj it = a_obj a /\ i_type it = a_type a /\ i_site it = a_site a /\
  i_big it = option_map b_id (the_of a) /\ a_link a = mkLink base (place sc) (i_coord it) /\
  i_in it = match the_of a, a_type a with
            | Some c, _ => Some (SBig c)
            | None, Some t => Some (STy t)
            | None, None => None
            end.

Definition chunk_args (b : big) (p : Z * chunk) : args :=
  mkArgs None (k_obj (snd p)) (k_type (snd p)) (k_site (snd p)) (mkLink (b_begin b) (InBig (b_id b)) (fst p)) (SBig b).
Definition item_of (a : args) : item :=
  mkItem (option_map b_id (the_of a)) (a_obj a) (a_type a) (a_site a) (k_coord (a_link a))
    match the_of a, a_type a with
    | Some c, _ => Some (SBig c)
    | None, Some t => Some (STy t)
    | None, None => None
    end.
Definition sub_args (base : Z) (t : ty) (p : Z * (Z * ty)) : args :=
  mkArgs None (base + fst (snd p)) (Some (snd (snd p))) 0 (mkLink base (InTy (tid t)) (fst p + 1)) (STy t).

Lemma each_map {A B St} (f : St -> B -> res (St * Z)) (g : A -> B) xs : forall s,
  each (fun s x => f s (g x)) xs s = each f (map g xs) s.
Proof.
  induction xs as [|x xs IH]; intro s; cbn; [reflexivity|].
  destruct (f s (g x)) as [[s1 r]| | |]; cbn; auto. destruct (r =? 0); auto.
Qed.
Lemma each_ext {A St} (f g : St -> A -> res (St * Z)) xs :
  (forall s x, f s x = g s x) -> forall s, each f xs s = each g xs s.
Proof.
  intros E. induction xs as [|x xs IH]; intro s; cbn; [reflexivity|]. rewrite E.
  destruct (g s x) as [[s1 r]| | |]; cbn; auto. destruct (r =? 0); auto.
Qed.

Lemma arr_nth len (e : ty) n : nth_error (map (fun i => (Z.of_nat i * tsize e, e)) (seq 0 (Z.to_nat len))) n =
  if Z.of_nat n <? len then Some (Z.of_nat n * tsize e, e) else None.
Proof.
  destruct (Z.ltb_spec (Z.of_nat n) len) as [L|L].
  - assert (E : nth_error (seq 0 (Z.to_nat len)) n = Some n).
    { rewrite (nth_error_nth' _ O) by (rewrite seq_length; lia). rewrite seq_nth by lia. reflexivity. }
    rewrite (map_nth_error _ _ _ E). reflexivity.
  - apply nth_error_None. rewrite map_length, seq_length. lia.
Qed.

(* One level of the walk is a list of calls matching the specification's list of items. *)
Lemma level_items base sc : walkable sc -> (forall b, sc = SBig b -> base = b_begin b) ->
  exists al its, Forall2 (fits base sc) al its /\ lists base sc its /\
    forall St (g : St -> args -> res (St * Z)) s,
      walk_level g base sc false None None s = each g al s.
Proof.
  intros W B. destruct sc as [b|t].
  - destruct W as (aid & ks & W). specialize (B b eq_refl). subst base.
    set (ps := filter (fun p => (b_begin b <=? k_obj (snd p)) && (k_obj (snd p) <? b_end b)) (number 1 ks)).
    assert (FF : forall p, In p (map (chunk_args b) ps) -> fits (b_begin b) (SBig b) p (item_of p)).
    { intros p Hp. apply in_map_iff in Hp. destruct Hp as (q & <- & Hq).
      unfold fits, item_of. cbn. auto 10. }
    exists (map (chunk_args b) ps), (map item_of (map (chunk_args b) ps)). split; [|split].
    + revert FF. generalize (map (chunk_args b) ps). intro l. induction l as [|p l IH]; intro FF; cbn; constructor.
      * apply FF. left. reflexivity.
      * apply IH. intros q Hq. apply FF. right. exact Hq.
    + split; [cbn; eauto|].
      exists (map (fun p => (fst p - 1, item_of (chunk_args b p))) ps). split; [|split].
      * rewrite !map_map. apply map_ext. reflexivity.
      * rewrite map_map. cbn [fst].
        assert (S0 : StronglySorted Z.lt (map fst ps)) by (apply sorted_filter_fst, number_sorted).
        revert S0. generalize ps. intro l. induction l as [|x l IH]; cbn; intro H; [constructor|].
        apply StronglySorted_inv in H. destruct H as [H F]. constructor; [auto|].
        rewrite Forall_forall in *. intros y Hy. apply in_map_iff in Hy. destruct Hy as (z & <- & Hz).
        assert (fst x < fst z) by (apply F, in_map, Hz). lia.
      * intros i it. rewrite in_map_iff. split.
        -- intros ((j & k) & E & H). apply filter_In in H. destruct H as [H R].
           apply andb_prop in R. destruct R as [R1 R2]. apply Z.leb_le in R1. apply Z.ltb_lt in R2. cbn [snd] in R1, R2.
           apply number_in in H. destruct H as (n & -> & N). assert (E1 := f_equal fst E). assert (E2 := f_equal snd E). cbn [fst snd] in E1, E2. subst i it.
           replace (1 + Z.of_nat n - 1) with (Z.of_nat n) by lia.
           unfold item_of, the_of, chunk_args. cbn [a_type a_obj a_site a_scope a_big a_link k_coord fst snd].
           replace (1 + Z.of_nat n) with (Z.of_nat n + 1) by lia.
           destruct (k_type k) as [t|] eqn:T; [|cbn [option_map]; eapply holds_plain; eauto].
           destruct (find _ (b_children b)) as [c|] eqn:Fd; cbn [option_map].
           ++ apply find_first in Fd. destruct Fd as (jj & N1 & P & Q). apply Z.eqb_eq in P.
              eapply holds_big; eauto. intros j' c' L N'. specialize (Q j' c' L N'). apply Z.eqb_neq in Q. exact Q.
           ++ eapply holds_typed; eauto. intros c Hc. apply Z.eqb_neq. exact (find_none _ _ Fd c Hc).
        -- intro H. inversion H as [b0 ? aid' ks' n k W' N T R|b0 ? aid' ks' n k t W' N T NC R
                                   |b0 ? aid' ks' n k t j c W' N T NC BE FS R| |]; subst.
           all: rewrite W in W'; injection W' as <- <-.
           all: exists (1 + Z.of_nat n, k); split;
             [|apply filter_In; split; [apply number_in; exists n; auto
                                       |cbn [snd]; apply andb_true_intro; split; [apply Z.leb_le|apply Z.ltb_lt]; lia]].
           all: cbn [fst]; replace (1 + Z.of_nat n - 1) with (Z.of_nat n) by lia; f_equal;
             unfold item_of, the_of, chunk_args; cbn [a_type a_obj a_site a_scope a_big a_link k_coord fst snd];
             replace (1 + Z.of_nat n) with (Z.of_nat n + 1) by lia; rewrite T.
           ++ reflexivity.
           ++ destruct (find _ (b_children b)) as [c|] eqn:Fd; [|reflexivity].
              apply find_some in Fd. destruct Fd as [Hc P]. apply Z.eqb_eq in P. exfalso. exact (NC c Hc P).
           ++ destruct (find _ (b_children b)) as [c'|] eqn:Fd.
              ** apply find_first in Fd. destruct Fd as (jj & N1 & P & Q). apply Z.eqb_eq in P.
                 assert (jj = j).
                 { destruct (Nat.lt_trichotomy jj j) as [L|[L|L]]; [|exact L|].
                   - exfalso. exact (FS jj c' L N1 P).
                   - specialize (Q j c L NC). apply Z.eqb_neq in Q. congruence. }
                 subst jj. rewrite NC in N1. injection N1 as <-. reflexivity.
              ** exfalso. assert (X := find_none _ _ Fd c (nth_error_In _ _ NC)). apply Z.eqb_neq in X. congruence.
    + intros St g s. cbn. unfold sub_walk. rewrite W. rewrite <- each_map. apply each_ext. intros s' [i k]. reflexivity.
  - set (ps := subobjects t).
    exists (map (sub_args base t) ps), (map item_of (map (sub_args base t) ps)). split; [|split].
    + generalize ps. intro l. induction l as [|p l IH]; cbn; constructor; [|exact IH].
      unfold fits, item_of. cbn. auto 10.
    + split; [exact I|]. exists (map (fun p => (fst p, item_of (sub_args base t p))) ps). split; [|split].
      * rewrite !map_map. reflexivity.
      * rewrite map_map. cbn [fst]. subst ps. destruct t; cbn; [constructor|apply number_sorted|apply number_sorted].
      * intros i it. rewrite in_map_iff. split.
        -- intros ((j & off & m) & E & H). cbn [fst] in E. injection E as <- <-. subst ps.
           destruct t as [|id size len e|id size ms]; cbn [subobjects] in H; [destruct H| |].
           ++ apply number_in in H. destruct H as (n & -> & N). rewrite arr_nth in N.
              destruct (Z.ltb_spec (Z.of_nat n) len); [|discriminate]. injection N as <- <-.
              unfold item_of, the_of, sub_args; cbn. apply holds_elem. lia.
           ++ apply number_in in H. destruct H as (n & -> & N). cbn [Z.add].
              unfold item_of, the_of, sub_args; cbn. apply holds_memb. exact N.
        -- intro H. inversion H as [| | |? id size len e i0 R|? id size ms n off m N]; subst.
           ++ exists (i, (i * tsize e, e)). split; [reflexivity|]. subst ps. cbn. apply number_in.
              exists (Z.to_nat i). split; [lia|]. rewrite arr_nth. replace (Z.of_nat (Z.to_nat i)) with i by lia.
              destruct (Z.ltb_spec i len); [reflexivity|lia].
           ++ exists (Z.of_nat n, (off, m)). split; [reflexivity|]. subst ps. cbn. apply number_in.
              exists n. split; [lia|exact N].
    + intros St g s. cbn. rewrite <- each_map. apply each_ext. intros s' [i [off m]]. reflexivity.
Qed.

(* unfolded scopes are based where their big allocation begins *)
Definition based (base : Z) (sc : scope) : Prop := forall b, sc = SBig b -> base = b_begin b.

Lemma fits_based base sc a it sc' : fits base sc a it -> a_big a = None -> i_in it = Some sc' -> based (i_obj it) sc'.
Proof.
  intros (O & _ & _ & _ & _ & I) Na E b ->. rewrite E in I. rewrite O.
  unfold the_of in I. destruct (a_type a) as [t|].
  - destruct (a_scope a) as [b'|]; [|rewrite Na in I; discriminate].
    destruct (find _ _) as [c|] eqn:Fd; [|rewrite Na in I; discriminate].
    injection I as <-. apply find_some in Fd. destruct Fd as [_ P]. apply Z.eqb_eq in P. lia.
  - rewrite Na in I. discriminate.
Qed.

Lemma holds_based base sc i it sc' : holds base sc i it -> i_in it = Some sc' -> based (i_obj it) sc'.
Proof. destruct 1; cbn; intros E b' Eb; congruence. Qed.

Lemma visit_node_eq {St} (cb : St -> label -> St * Z) s l kids :
  visit_node cb s (Node l kids) =
  (let '(s1, r) := cb s l in if r =? 0 then traverse cb s1 kids else if r =? -1 then (s1, 0) else (s1, r)).
Proof.
  cbn [visit_node]. destruct (cb s l) as [s1 r]. destruct (r =? 0); [|reflexivity].
  revert s1. induction kids as [|n kids IH]; intro s1; [reflexivity|].
  cbn [traverse]. destruct (visit_node cb s1 n) as [s2 r2]. destruct (r2 =? 0); [apply IH|reflexivity].
Qed.

Lemma df_S {St} f (cb : St -> label -> St * Z) path s a : df (S f) cb path s a =
  (let path' := a_link a :: path in
   let '(s1, r) := cb s (mkLab (option_map b_id (the_of a)) (a_obj a) (a_type a) (a_site a) path') in
   if r =? -1 then Ok (s1, 0) else
   if negb (r =? 0) then Ok (s1, r) else
   match the_of a, a_type a with
   | Some c, _ => walk_level (df f cb path') (a_obj a) (SBig c) false None None s1
   | None, Some t => walk_level (df f cb path') (a_obj a) (STy t) false None None s1
   | None, None => Ok (s1, 0)
   end).
Proof. reflexivity. Qed.

Lemma df_unfold :
  (forall base sc path ns, unfolds base sc path ns -> based base sc ->
     exists n, forall fuel, (n <= fuel)%nat -> forall St (cb : St -> label -> St * Z) s,
       walk_level (df fuel cb path) base sc false None None s = Ok (traverse cb s ns)) /\
  (forall base sc path its ns, unfold_all base sc path its ns ->
     (forall it, In it its -> exists i, holds base sc i it) ->
     exists n, forall fuel, (n <= fuel)%nat -> forall St (cb : St -> label -> St * Z) al s,
       Forall2 (fits base sc) al its -> each (df fuel cb path) al s = Ok (traverse cb s ns)).
Proof.
  apply unfolds_ind2.
  - intros base sc path its ns L _ IH B.
    destruct IH as (n & IH).
    { destruct L as (_ & ps & <- & _ & H). intros it Hi. apply in_map_iff in Hi.
      destruct Hi as ((i & it') & <- & Hi). exists i. apply H, Hi. }
    exists n. intros fuel F St cb s.
    destruct (level_items base sc (proj1 L) B) as (al & its' & F2 & L' & E).
    rewrite E. apply IH; [exact F|]. rewrite (lists_unique _ _ _ _ L L'). exact F2.
  - intros base sc path _. exists O. intros fuel _ St cb al s F. inversion F. reflexivity.
  - intros base sc path it its ns I _ IH Hh.
    destruct IH as (n & IH). { intros it' H'. apply Hh. right. exact H'. }
    exists (S n). intros fuel F St cb al s F2. destruct fuel as [|f]; [lia|].
    inversion F2 as [|a it' al' its' Ft F2']; subst. destruct Ft as (O & T & Si & Bg & Ln & Ii).
    cbn [each traverse]. rewrite df_S. cbv zeta. rewrite visit_node_eq. unfold lab. rewrite Bg, T, Si, O, <- Ln.
    destruct (cb s _) as [s1 r]. destruct (Z.eqb_spec r (-1)) as [->|R].
    + cbn [bind]. replace (0 =? 0) with true by reflexivity. replace (-1 =? 0) with false by reflexivity.
      replace (0 =? 0) with true by reflexivity. apply IH; [lia|exact F2'].
    + destruct (Z.eqb_spec r 0) as [->|R0]; cbn [negb].
      * rewrite I in Ii. destruct (the_of a); [discriminate|]. destruct (a_type a); [discriminate|].
        cbn [bind traverse]. replace (0 =? 0) with true by reflexivity. apply IH; [lia|exact F2'].
      * cbn [bind]. destruct (Z.eqb_spec r 0); [congruence|]. reflexivity.
  - intros base sc path it sc' kids its ns I _ IHk _ IH Hh.
    destruct (Hh it (or_introl eq_refl)) as (i & Hi).
    destruct (IHk (holds_based _ _ _ _ _ Hi I)) as (n1 & IH1).
    destruct IH as (n2 & IH2). { intros it' H'. apply Hh. right. exact H'. }
    exists (S (n1 + n2)). intros fuel F St cb al s F2. destruct fuel as [|f]; [lia|].
    inversion F2 as [|a it' al' its' Ft F2']; subst. destruct Ft as (O & T & Si & Bg & Ln & Ii).
    cbn [each traverse]. rewrite df_S. cbv zeta. rewrite visit_node_eq. unfold lab. rewrite Bg, T, Si, O, <- Ln.
    destruct (cb s _) as [s1 r]. destruct (Z.eqb_spec r (-1)) as [->|R].
    + cbn [bind]. replace (0 =? 0) with true by reflexivity. replace (-1 =? 0) with false by reflexivity.
      replace (0 =? 0) with true by reflexivity. apply IH2; [lia|exact F2'].
    + destruct (Z.eqb_spec r 0) as [->|R0]; cbn [negb].
      * rewrite I in Ii. rewrite <- Ln, O in IH1.
        assert (X : match the_of a, a_type a with
          | Some c, _ => walk_level (df f cb (a_link a :: path)) (a_obj a) (SBig c) false None None s1
          | None, Some t => walk_level (df f cb (a_link a :: path)) (a_obj a) (STy t) false None None s1
          | None, None => Ok (s1, 0) end = Ok (traverse cb s1 kids)).
        { destruct (the_of a) as [c|].
          - injection Ii as ->. apply IH1. lia.
          - destruct (a_type a) as [t|]; [|discriminate]. injection Ii as ->. apply IH1. lia. }
        rewrite X. cbn [bind]. destruct (traverse cb s1 kids) as [s2 r2].
        destruct (Z.eqb_spec r2 0); [|reflexivity]. apply IH2; [lia|exact F2'].
      * cbn [bind]. destruct (Z.eqb_spec r 0); [congruence|]. reflexivity.
Qed.

(* existence of the forest *)
Lemma unfold_all_exists base sc path its :
  (forall it sc', In it its -> i_in it = Some sc' -> forall p, exists kids, unfolds (i_obj it) sc' p kids) ->
  exists ns, unfold_all base sc path its ns.
Proof.
  induction its as [|it its IH]; intro H; [exists []; constructor|].
  destruct IH as (ns & N). { intros it' sc' Hi. apply H. right. exact Hi. }
  destruct (i_in it) as [sc'|] eqn:E.
  - destruct (H it sc' (or_introl eq_refl) E (mkLink base (place sc) (i_coord it) :: path)) as (kids & K).
    exists (Node (lab base sc path it) kids :: ns). eapply ua_node; eauto.
  - exists (Node (lab base sc path it) [] :: ns). apply ua_leaf; auto.
Qed.

Lemma unfold_scope base sc path : walkable sc -> based base sc ->
  (forall i it sc', holds base sc i it -> i_in it = Some sc' -> forall p, exists kids, unfolds (i_obj it) sc' p kids) ->
  exists ns, unfolds base sc path ns.
Proof.
  intros W B H. destruct (level_items base sc W B) as (al & its & _ & L & _).
  destruct (unfold_all_exists base sc path its) as (ns & N).
  - intros it sc' Hi E p. destruct L as (_ & ps & <- & _ & Hp). apply in_map_iff in Hi.
    destruct Hi as ((i & it') & <- & Hi). apply Hp in Hi. eapply H; eauto.
  - exists ns. eapply unf; eauto.
Qed.

Lemma types_unfold n : forall t base path, (height t <= n)%nat -> exists ns, unfolds base (STy t) path ns.
Proof.
  induction n as [|n IH]; intros t base path Hn; [assert (X := height_pos t); lia|].
  apply unfold_scope; [exact I|intros b E; discriminate|].
  intros i it sc' Hh E p. inversion Hh as [| | |? id size len e i0 R|? id size ms k off m N]; subst; cbn in E.
  - injection E as <-. apply IH. cbn in Hn. lia.
  - injection E as <-. apply IH. cbn [height] in Hn.
    assert (X := height_memb id size ms off m (nth_error_In _ _ N)). cbn [height] in X. lia.
Qed.

Lemma big_unfold b : openable b -> forall path, exists ns, unfolds (b_begin b) (SBig b) path ns.
Proof.
  induction 1 as [b aid ks W H IH]. intro path.
  apply unfold_scope; [cbn; eauto|intros b' E; congruence|].
  intros i it sc' Hh E p.
  inversion Hh as [? ? aid' ks' n k W' N T R|? ? aid' ks' n k t W' N T NC R
                  |? ? aid' ks' n k t j c W' N T NC BE FS R| |]; subst; cbn in E.
  - discriminate.
  - injection E as <-. cbn. eapply types_unfold. reflexivity.
  - injection E as <-. cbn. rewrite <- BE. rewrite W in W'. injection W' as <- <-.
    apply (IH k t c); auto; eapply nth_error_In; eauto.
Qed.

Lemma unfolds_det :
  (forall base sc path ns, unfolds base sc path ns -> forall ns', unfolds base sc path ns' -> ns = ns') /\
  (forall base sc path its ns, unfold_all base sc path its ns ->
     forall ns', unfold_all base sc path its ns' -> ns = ns').
Proof.
  apply unfolds_ind2.
  - intros base sc path its ns L _ IH ns' U. inversion U as [? ? ? its' ? L' A]; subst.
    apply IH. rewrite (lists_unique _ _ _ _ L L'). exact A.
  - intros base sc path ns' U. inversion U. reflexivity.
  - intros base sc path it its ns I _ IH ns' U.
    inversion U as [|? ? ? ? ? ? I' U'|? ? ? ? ? ? ? ? I' K' U']; subst; [|congruence].
    f_equal. apply IH, U'.
  - intros base sc path it sc' kids its ns I _ IHk _ IH ns' U.
    inversion U as [|? ? ? ? ? ? I' U'|? ? ? ? ? ? ? ? I' K' U']; subst; [congruence|].
    rewrite I in I'. injection I' as <-. f_equal; [f_equal; apply IHk, K'|apply IH, U'].
Qed.
