From Verif Require Import Base Type_model Type_spec Type_proof.
From Coq Require Import Sorting.Sorted.

Lemma call_back_app (St : Type) (cb : St -> visit -> St * Z) a : forall s b,
  call_back cb s (a ++ b) =
  (let '(s1, r) := call_back cb s a in if r =? 0 then call_back cb s1 b else (s1, r)).
Proof.
  induction a as [|v a IH]; intros s b; cbn [app call_back]; [reflexivity|].
  destruct (cb s v) as [s1 r]. destruct (Z.eqb_spec r 0) as [E|E]; [apply IH|].
  destruct (Z.eqb_spec r 0); [congruence|reflexivity].
Qed.

Lemma SS_map_cons (i : nat) (ps : list (list nat)) :
  StronglySorted before ps -> StronglySorted before (map (cons i) ps).
Proof.
  induction 1 as [|p ps H IH F]; cbn [map]; constructor; [exact IH|].
  rewrite Forall_forall in *. intros q Hq. apply in_map_iff in Hq. destruct Hq as (q' & <- & Hq).
  cbn. right. split; [reflexivity|apply F, Hq].
Qed.

Lemma SS_app (ps qs : list (list nat)) :
  StronglySorted before ps -> StronglySorted before qs ->
  (forall p q, In p ps -> In q qs -> before p q) -> StronglySorted before (ps ++ qs).
Proof.
  induction 1 as [|p ps H IH F]; intros Q X; cbn [app]; [exact Q|].
  constructor; [apply IH; [exact Q|]|].
  - intros p' q Hp Hq. apply X; [right; exact Hp|exact Hq].
  - apply Forall_app. split; [exact F|]. apply Forall_forall. intros q Hq. apply X; [left; reflexivity|exact Hq].
Qed.

(* the visits of one contained position: the object itself, then what is inside it *)
Definition under (i : nat) (v : visit) (vs : list (list nat * visit)) : list (list nat * visit) :=
  ([i], v) :: map (fun pv => (i :: fst pv, snd pv)) vs.

Lemma under_in i v vs p w :
  In (p, w) (under i v vs) <->
  (p = [i] /\ w = v) \/ exists p', p = i :: p' /\ In (p', w) vs.
Proof.
  unfold under. cbn [In]. rewrite in_map_iff. split.
  - intros [E|((p' & w') & E & H)]; [left; injection E as <- <-; auto|].
    right. cbn in E. injection E as <- <-. exists p'. auto.
  - intros [[-> ->]|(p' & -> & H)]; [left; reflexivity|]. right. exists (p', w). auto.
Qed.
Lemma under_snd i v vs : map snd (under i v vs) = v :: map snd vs.
Proof. unfold under. cbn. rewrite map_map. reflexivity. Qed.
Lemma under_fst i v vs : map fst (under i v vs) = [i] :: map (cons i) (map fst vs).
Proof. unfold under. cbn. rewrite !map_map. reflexivity. Qed.
Lemma under_sorted i v vs :
  (forall p w, In (p, w) vs -> p <> []) ->
  StronglySorted before (map fst vs) -> StronglySorted before (map fst (under i v vs)).
Proof.
  intros NE S. rewrite under_fst. constructor; [apply SS_map_cons, S|].
  apply Forall_forall. intros q Hq. apply in_map_iff in Hq. destruct Hq as (q' & <- & Hq).
  apply in_map_iff in Hq. destruct Hq as ((p & w) & <- & Hp). cbn [fst].
  specialize (NE p w Hp). cbn. right. split; [reflexivity|]. destruct p; [congruence|exact I].
Qed.

Lemma reach_ne t o a d p v : reach t o a d p v -> p <> [].
Proof. destruct 1; discriminate. Qed.

Lemma reach_comp_inv id size ms o a d p v : reach (TComp id size ms) o a d p v ->
  exists i off m, nth_error ms i = Some (off, m) /\ off <= o < size /\
    (forall off' m', In (off', m') ms -> off' <= o -> off' <= off) /\
    ((p = [i] /\ v = mkV m (a + off) (d + 1) i a) \/
     exists p', p = i :: p' /\ reach m (o - off) (a + off) (d + 1) p' v).
Proof. intro H. inversion H; subst; do 3 eexists; (split; [eassumption|]); (split; [assumption|]); (split; [assumption|]); eauto. Qed.

Section Group.
  Context (off target size accum depth : Z).
  Context (f : nat).
  Hypothesis Htar : target < size.
  Hypothesis Hoff : 0 <= off <= target.
  Hypothesis Hacc : 0 <= accum /\ accum + target < 2 ^ 32.
  Hypothesis Hdep : 0 <= depth /\ depth + 1 < 2 ^ 32.
  Variable good : ty -> Prop.
  Hypothesis Hrec : forall m, good m -> exists vs,
      (forall p v, In (p, v) vs <-> reach m (target - off) (accum + off) (depth + 1) p v) /\
      StronglySorted before (map fst vs) /\
      (forall St (cb : St -> visit -> St * Z) s,
         walk_spanning f cb m (target - off) (accum + off) (depth + 1) s =
         Ok (call_back cb s (map snd vs))).

  Lemma walk_all_spec : forall ms i,
    sorted ms -> (forall o m, In (o, m) ms -> off <= o) ->
    (forall m, In (off, m) ms -> good m) ->
    exists vs,
      (forall p v, In (p, v) vs <->
         exists k m, nth_error ms k = Some (off, m) /\
           ((p = [(i + k)%nat] /\ v = mkV m (accum + off) (depth + 1) (i + k) accum) \/
            exists p', p = (i + k)%nat :: p' /\ reach m (target - off) (accum + off) (depth + 1) p' v)) /\
      StronglySorted before (map fst vs) /\
      (forall St (cb : St -> visit -> St * Z) s,
         walk_all cb (fun m o a d s => walk_spanning f cb m o a d s) ms i off target size accum depth s =
         Ok (call_back cb s (map snd vs))).
  Proof.
    induction ms as [|[o m] ms IH]; intros i S Hmin Hg.
    - exists []. split; [|split; [constructor|reflexivity]].
      intros p v. split; [intros []|]. intros ([|k] & m & E & _); discriminate.
    - assert (S' : sorted ms) by (destruct ms as [|[? ?] ?]; [exact I|]; destruct S as [_ S]; exact S).
      destruct (Z.eq_dec o off) as [->|N].
      + destruct (IH (Datatypes.S i) S') as (vs & A & B & C).
        { intros o' m' H. apply (Hmin o' m'). right. exact H. }
        { intros m' H. apply Hg. right. exact H. }
        destruct (Hrec m (Hg m (or_introl eq_refl))) as (ws & A1 & B1 & C1).
        exists (under i (mkV m (accum + off) (depth + 1) i accum) ws ++ vs).
        split; [|split].
        * intros p v. rewrite in_app_iff, under_in, A. split.
          -- intros [[[-> ->]|(p' & -> & H)]|(k & m' & E & H)].
             ++ exists 0%nat, m. rewrite Nat.add_0_r. split; [reflexivity|]. left. auto.
             ++ exists 0%nat, m. rewrite Nat.add_0_r. split; [reflexivity|]. right.
                exists p'. split; [reflexivity|apply A1, H].
             ++ exists (Datatypes.S k), m'. split; [exact E|]. rewrite Nat.add_succ_r. exact H.
          -- intros ([|k] & m' & E & H); cbn [nth_error] in E.
             ++ injection E as <-. left. rewrite Nat.add_0_r in H.
                destruct H as [H|(p' & -> & H)]; [left; exact H|].
                right. exists p'. split; [reflexivity|apply A1, H].
             ++ right. exists k, m'. split; [exact E|]. rewrite Nat.add_succ_r in H. exact H.
        * rewrite map_app. apply SS_app; [|exact B|].
          -- apply under_sorted; [|exact B1]. intros p w H. apply A1 in H. apply (reach_ne _ _ _ _ _ _ H).
          -- intros p q Hp Hq.
             assert (Q : exists k q', q = (i + Datatypes.S k)%nat :: q').
             { apply in_map_iff in Hq. destruct Hq as ((q1 & w) & <- & H). cbn [fst].
               apply A in H. destruct H as (k & m' & _ & H). exists k. rewrite Nat.add_succ_r.
               destruct H as [[-> _]|(p' & -> & _)]; eauto. }
             destruct Q as (k & q' & ->).
             rewrite under_fst in Hp. destruct Hp as [<-|Hp].
             ++ cbn. left. lia.
             ++ apply in_map_iff in Hp. destruct Hp as (p' & <- & _). cbn. left. lia.
        * intros St cb s. cbn [walk_all]. rewrite Z.eqb_refl.
          replace (target <? size) with true by (symmetry; apply Z.ltb_lt; exact Htar).
          rewrite map_app, call_back_app, under_snd. cbn [call_back].
          rewrite !u32_small by lia.
          destruct (cb s _) as [s1 r1]. destruct (Z.eqb_spec r1 0) as [->|N].
          -- rewrite C1. cbn [bind]. destruct (call_back cb s1 (map snd ws)) as [s2 r2].
             destruct (r2 =? 0); [apply C|reflexivity].
          -- apply Z.eqb_neq in N. rewrite N. reflexivity.
      + assert (X : off < o) by (assert (Q := Hmin o m (or_introl eq_refl)); lia).
        exists []. split; [|split; [constructor|]].
        * intros p v. split; [intros []|]. intros (k & m' & E & _).
          destruct (nth_off _ _ _ _ E) as [Ok Lk].
          assert (P := sorted_le _ S 0%nat k ltac:(lia)). unfold offat in P at 1. cbn [nth fst] in P. lia.
        * intros St cb s. cbn [walk_all]. replace (o =? off) with false; [reflexivity|].
          symmetry. apply Z.eqb_neq. exact N.
  Qed.
End Group.

Lemma walk_all_out (St : Type) (cb : St -> visit -> St * Z) rec ms : forall i off target size accum depth s,
  size <= target -> walk_all cb rec ms i off target size accum depth s = Ok (s, 0).
Proof.
  induction ms as [|[o m] ms IH]; intros i off target size accum depth s H; cbn [walk_all]; [reflexivity|].
  destruct (o =? off); [|reflexivity].
  replace (target <? size) with false by (symmetry; apply Z.ltb_ge; exact H). apply IH, H.
Qed.

Lemma un_size t : unsigned t -> 0 <= tsize t.
Proof. destruct 1; cbn; assumption. Qed.

Lemma walk_spec fuel : forall t target accum depth,
  unsigned t -> members_sorted t -> no_empty_elems t -> (height t <= fuel)%nat ->
  0 <= target -> 0 <= accum -> accum + target < 2 ^ 32 ->
  0 <= depth -> depth + Z.of_nat (height t) < 2 ^ 32 ->
  exists vs,
    (forall p v, In (p, v) vs <-> reach t target accum depth p v) /\
    StronglySorted before (map fst vs) /\
    (forall St (cb : St -> visit -> St * Z) s,
       walk_spanning fuel cb t target accum depth s = Ok (call_back cb s (map snd vs))).
Proof.
  induction fuel as [|f IH]; intros t target accum depth U S N F HT HA HAT HD HDH;
    [assert (X := height_pos t); lia|].
  destruct t as [id size|id size len e|id size ms].
  - exists []. split; [|split; [constructor|]].
    + intros p v. split; [intros []|]. intro H. inversion H.
    + intros St cb s. cbn [walk_spanning members]. reflexivity.
  - inversion U as [|? ? ? ? U1 U2 U3|]; subst. inversion S as [|? ? ? ? S1|]; subst.
    inversion N as [|? ? ? ? N1 N2|]; subst. cbn [height] in F, HDH.
    assert (D := Z.div_mod target (tsize e) ltac:(lia)).
    assert (M := Z.mod_pos_bound target (tsize e) N1).
    assert (Dp : 0 <= target / tsize e) by (apply Z.div_pos; lia).
    assert (Dq : 0 <= target / tsize e * tsize e) by nia.
    destruct (Z.ltb_spec (target / tsize e) len) as [L|L].
    + destruct (IH e (target mod tsize e) (accum + target / tsize e * tsize e) (depth + 1))
        as (vs & A & B & C); auto; try lia.
      exists (under 0 (mkV e (accum + target / tsize e * tsize e) (depth + 1) 0 accum) vs).
      split; [|split].
      * intros p v. rewrite under_in. split.
        -- intros [[-> ->]|(p' & -> & H)]; [apply reach_elem; exact L|].
           apply reach_elem_in; [exact L|apply A, H].
        -- intro H. inversion H; subst; [left; auto|]. right. eexists. split; [reflexivity|]. apply A. assumption.
      * apply under_sorted; [|exact B]. intros p w H. apply A in H. apply (reach_ne _ _ _ _ _ _ H).
      * intros St cb s. cbn [walk_spanning].
        replace (tsize e =? 0) with false by (symmetry; apply Z.eqb_neq; lia).
        rewrite Z.gtb_ltb. replace (target / tsize e <? len) with true by (symmetry; apply Z.ltb_lt; exact L).
        rewrite under_snd. cbn [call_back].
        rewrite (u32_small (target / tsize e * tsize e)) by lia. rewrite !u32_small by lia.
        destruct (cb s _) as [s1 r1]. destruct (r1 =? 0); [apply C|reflexivity].
    + exists []. split; [|split; [constructor|]].
      * intros p v. split; [intros []|]. intro H. inversion H; subst; lia.
      * intros St cb s. cbn [walk_spanning].
        replace (tsize e =? 0) with false by (symmetry; apply Z.eqb_neq; lia).
        rewrite Z.gtb_ltb. replace (target / tsize e <? len) with false by (symmetry; apply Z.ltb_ge; exact L).
        reflexivity.
  - inversion U as [| |? ? ? U1 U2]; subst. inversion S as [| |? ? ? S1 S2]; subst.
    inversion N as [| |? ? ? N1]; subst.
    destruct (nearest_sorted ms target S1) as (r & E & Hr).
    destruct r as [[i off]|].
    + destruct Hr as (Li & Oi & Le & Lo & Hi).
      destruct (off_nth ms i Li) as (mi & Ei). rewrite Oi in Ei.
      destruct (U2 _ _ (nth_error_In _ _ Ei)) as [Po _].
      destruct (Z.ltb_spec target size) as [L|L].
      * destruct (walk_all_spec off target size accum depth f L ltac:(lia) ltac:(lia)
                   ltac:(cbn in HDH; lia) (fun m => In (off, m) ms)) with (ms := skipn i ms) (i := i)
          as (vs & A & B & C).
        -- intros m Hm. destruct (U2 _ _ Hm) as [_ Um].
           assert (Hh := height_memb id size ms _ _ Hm).
           apply IH; auto; try lia; [apply (S2 _ _ Hm)|apply (N1 _ _ Hm)].
        -- apply sorted_skipn, S1.
        -- intros o m Hm. destruct (in_skipn_nth _ _ _ Hm) as (j & Ej).
           destruct (nth_off _ _ _ _ Ej) as [Oj Lj]. assert (P := Hi (i + j)%nat ltac:(lia)). lia.
        -- intros m Hm. apply (skipn_in _ i ms), Hm.
        -- exists vs. split; [|split; [exact B|]].
           ++ assert (Hmax : forall off' m', In (off', m') ms -> off' <= target -> off' <= off).
              { intros off' m' H1 H2. destruct (In_nth_error _ _ H1) as (j & Ej).
                destruct (nth_off _ _ _ _ Ej) as [Oj Lj].
                destruct (Nat.lt_ge_cases j i) as [J|J]; [specialize (Lo j J); lia|].
                specialize (Hi j ltac:(lia)). lia. }
              assert (Nth : forall k x, nth_error (skipn i ms) k = x <-> nth_error ms (i + k) = x).
              { intros k x. clear. revert i. induction ms as [|p ms IHm]; intros [|i]; cbn; try tauto.
                - destruct k; tauto.
                - apply IHm. }
              intros p v. rewrite A. split.
              ** intros (k & m & En & [[-> ->]|(p' & -> & H)]); apply Nth in En.
                 --- apply (reach_memb id size ms target accum depth (i + k) off m); auto; lia.
                 --- apply (reach_memb_in id size ms target accum depth (i + k) off m); auto; lia.
              ** assert (G : forall j o m, nth_error ms j = Some (o, m) -> o <= target ->
                         (forall off' m', In (off', m') ms -> off' <= target -> off' <= o) ->
                         o = off /\ exists k, j = (i + k)%nat).
                 { intros j o m Ej Ho Hm. assert (o <= off) by (apply (Hmax o m); [apply (nth_error_In _ _ Ej)|exact Ho]).
                   assert (off <= o) by (apply (Hm off mi); [apply (nth_error_In _ _ Ei)|exact Le]).
                   split; [lia|]. destruct (nth_off _ _ _ _ Ej) as [Oj Lj].
                   destruct (Nat.lt_ge_cases j i) as [J|J]; [specialize (Lo j J); lia|].
                   exists (j - i)%nat. lia. }
                 intro H. apply reach_comp_inv in H. destruct H as (j & o & m & Ej & Ro & Mx & H).
                 destruct (G _ _ _ Ej ltac:(lia) Mx) as [-> (k & ->)].
                 exists k, m. split; [apply Nth; exact Ej|exact H].
           ++ intros St cb s. cbn [walk_spanning members tsize]. rewrite E. cbn [bind]. apply C.
      * exists []. split; [|split; [constructor|]].
        -- intros p v. split; [intros []|]. intro H. inversion H; subst; lia.
        -- intros St cb s. cbn [walk_spanning members tsize]. rewrite E. cbn [bind].
           apply walk_all_out. exact L.
    + exists []. split; [|split; [constructor|]].
      * intros p v. split; [intros []|]. intro H.
        apply reach_comp_inv in H. destruct H as (j & o & m & Ej & Ro & _).
        assert (Q := Hr _ _ (nth_error_In _ _ Ej)). lia.
      * intros St cb s. cbn [walk_spanning members]. rewrite E. reflexivity.
Qed.

(* ---- every subobject that spans the offset is reached ---- *)
Lemma inside_bounds t a d p v : inside t a d p v -> laid_out t ->
  a <= v_start v /\ v_start v + tsize (v_type v) <= a + tsize t.
Proof.
  induction 1 as [id size len e a d i Hi|id size len e a d i p v Hi _ IH
                 |id size ms a d i off m En|id size ms a d i off m p v En _ IH]; intro L.
  - destruct (laid_arr _ _ _ _ L) as (L1 & L2 & L3). assert (P := laid_size e L3). cbn. nia.
  - destruct (laid_arr _ _ _ _ L) as (L1 & L2 & L3). assert (P := laid_size e L3).
    destruct (IH L3) as [A B]. cbn [tsize]. nia.
  - destruct (laid_comp _ _ _ L) as (_ & _ & L1 & _).
    destruct (L1 _ _ (nth_error_In _ _ En)) as (A & B & C). cbn. lia.
  - destruct (laid_comp _ _ _ L) as (_ & _ & L1 & _).
    destruct (L1 _ _ (nth_error_In _ _ En)) as (A & B & C). destruct (IH C) as [D E]. cbn [tsize]. lia.
Qed.

Lemma spanning_reached t a d p v : inside t a d p v -> laid_out t ->
  forall o, v_start v <= a + o < v_start v + tsize (v_type v) -> reach t o a d p v.
Proof.
  induction 1 as [id size len e a d i Hi|id size len e a d i p v Hi In0 IH
                 |id size ms a d i off m En|id size ms a d i off m p v En In0 IH]; intros L o Ho.
  - destruct (laid_arr _ _ _ _ L) as (L1 & L2 & L3). cbn [v_start v_type] in Ho.
    assert (D : o / tsize e = i) by (symmetry; apply (Z.div_unique _ _ _ (o - i * tsize e)); nia).
    rewrite <- D. apply reach_elem. lia.
  - destruct (laid_arr _ _ _ _ L) as (L1 & L2 & L3).
    destruct (inside_bounds _ _ _ _ _ In0 L3) as [A B].
    assert (D : o / tsize e = i) by (symmetry; apply (Z.div_unique _ _ _ (o - i * tsize e)); nia).
    assert (M : o mod tsize e = o - i * tsize e) by (symmetry; apply (Z.mod_unique _ _ i); nia).
    apply reach_elem_in; [lia|]. rewrite D, M. apply IH; [exact L3|]. lia.
  - destruct (laid_comp _ _ _ L) as (_ & _ & L1 & L2).
    destruct (L1 _ _ (nth_error_In _ _ En)) as (A & B & C). cbn [v_start v_type] in Ho.
    apply reach_memb; [exact En|lia|]. intros off' m' Hin Hle.
    destruct (Z.le_gt_cases off' off) as [|G]; [assumption|].
    assert (Q := L2 _ _ _ _ (nth_error_In _ _ En) Hin). lia.
  - destruct (laid_comp _ _ _ L) as (_ & _ & L1 & L2).
    destruct (L1 _ _ (nth_error_In _ _ En)) as (A & B & C).
    destruct (inside_bounds _ _ _ _ _ In0 C) as [D E].
    apply (reach_memb_in id size ms o a d i off m); [exact En|lia| |].
    + intros off' m' Hin Hle.
      destruct (Z.le_gt_cases off' off) as [|G]; [assumption|].
      assert (Q := L2 _ _ _ _ (nth_error_In _ _ En) Hin). lia.
    + apply IH; [exact C|]. lia.
Qed.

(* ---- the descent loop ---- *)
Lemma descend_spec fuel : forall t target cont,
  unsigned t -> 0 <= target < 2 ^ 32 -> (height t <= fuel)%nat ->
  exists t' o' c', descend fuel t target cont = Ok (t', o', c') /\
    0 <= o' <= target /\ sub t (target - o') t' /\ first_spanning t' o' = Ok None.
Proof.
  induction fuel as [|f IH]; intros t target cont U T F; [assert (X := height_pos t); lia|].
  cbn [descend]. destruct (first_spanning_total t target) as (r & E & Hr). rewrite E. cbn [bind].
  destruct r as [[[i m] o]|].
  - destruct (first_spanning_sound t target i m o U T E) as (Um & To & Hs & Hc).
    specialize (Hr i m o eq_refl).
    destruct (IH m o (Some t) Um To ltac:(lia)) as (t' & o' & c' & E' & B & S & FS).
    exists t', o', c'. split; [exact E'|].
    assert (Lo : o <= target).
    { destruct t as [id size|id size len e|id size ms].
      - cbn in E. discriminate.
      - cbn [first_spanning] in E. destruct (Z.eqb_spec (tsize e) 0); cbn [negb andb] in E; [discriminate|].
        destruct (_ >? _); [|discriminate]. injection E as _ _ <-.
        inversion U as [|? ? ? ? ? ? Ue|]; subst. assert (P := un_size e Ue). apply Z.mod_le; lia.
      - destruct Hc as (off & _ & ? & ?). lia. }
    split; [lia|]. split; [|exact FS]. specialize (Hs (o - o') t' S).
    replace (target - o + (o - o')) with (target - o') in Hs by lia. exact Hs.
  - exists t, target, cont. split; [reflexivity|]. split; [lia|]. split; [|exact E].
    rewrite Z.sub_diag. constructor.
Qed.
