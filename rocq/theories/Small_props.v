(* Theorems about the small-object index: see properties.jsonl C32. *)
From Verif Require Import Base Small_model Small_proof.
From Coq Require Import Permutation.

Lemma drop_perm (l : list ent) pos e : nth_error l pos = Some e -> Permutation l (e :: drop l pos).
Proof.
  revert pos. induction l as [|x l IH]; intros [|p] E; cbn in E; try discriminate.
  - inversion E; subst. unfold drop. cbn. auto.
  - unfold drop in *. cbn [firstn skipn app]. rewrite (IH _ E) at 1. cbn [app]. apply perm_swap.
Qed.
Lemma drop_length (l : list ent) pos e : nth_error l pos = Some e -> length l = S (length (drop l pos)).
Proof. intros E. apply drop_perm in E. apply Permutation_length in E. exact E. Qed.
Lemma drop_nth (l : list ent) pos i : (i < pos)%nat -> (pos <= length l)%nat -> nth_error (drop l pos) i = nth_error l i.
Proof.
  intros L B. unfold drop. rewrite nth_error_app1 by (rewrite firstn_length; lia).
  revert pos i L B. induction l as [|x l IH]; intros [|p] [|i] L B; cbn in *; try lia; auto. apply IH; lia.
Qed.
Lemma drop_cont_none l : (forall e, In e l -> is_cont e = false) -> drop_cont l = l.
Proof. induction l as [|e t IH]; intros H; cbn; auto. rewrite H by (left; auto). f_equal. apply IH. intros; apply H; right; auto. Qed.
Lemma drop_cont_one l A x : is_cont x = true -> (forall e, In e A -> is_cont e = false) -> Permutation l (A ++ [x]) -> Permutation (drop_cont l) A.
Proof.
  intros X HA E.
  assert (G : forall l, (exists e, In e l /\ is_cont e = true) -> exists y, In y l /\ is_cont y = true /\ Permutation l (y :: drop_cont l)).
  { clear. induction l as [|e t IH]; intros (y & H & C); [easy|]. cbn [drop_cont]. destruct (is_cont e) eqn:Ce.
    - exists e. split; [left; auto|]. split; auto.
    - destruct H as [->|H]; [congruence|]. destruct IH as (z & H1 & H2 & H3); [exists y; auto|]. exists z. split; [right; auto|]. split; auto.
      rewrite H3 at 1. apply perm_swap. }
  destruct (G l) as (y & H1 & H2 & H3).
  { exists x. split; auto. apply (Permutation_in _ (Permutation_sym E)), in_or_app. right. left. auto. }
  assert (y = x). { apply (Permutation_in _ E) in H1. apply in_app_or in H1. destruct H1 as [H1|[H1|[]]]; auto. rewrite HA in H2; auto. easy. }
  subst y. apply (Permutation_cons_inv (a := x)). rewrite <- H3, E. symmetry. apply Permutation_cons_append.
Qed.
Lemma begins_not_spills c k o : wf c -> begins c k o = true -> spills c k o = false.
Proof.
  intros W B. destruct (spills c k o) eqn:E; auto. apply spills_begins in E. apply begins_nb in E, B; auto. lia.
Qed.
Lemma filter_none {A} (f : A -> bool) l : (forall x, In x l -> f x = false) -> filter f l = [].
Proof. induction l as [|x l IH]; intros H; cbn; auto. rewrite H by (left; auto). apply IH. intros; apply H; right; auto. Qed.
Lemma Inv_sub c l s l' b : Inv c l s -> (exists o, Permutation l (o :: l')) -> (forall k, Permutation (b k) (ents c l' k)) -> Inv c l' (mkS b (s_big s)).
Proof.
  intros I (o & Pm) E. apply (Inv_perm _ _ _ _ Pm) in I. destruct I as [A F _ R [Bg B]]. inversion A; inversion F; inversion B; subst. constructor; auto.
  intros k. specialize (R k). cbn [filter] in R. destruct (begins c k o), (spills c k o); cbn [length] in R; lia.
Qed.

Lemma unindex_ent_spec c o l s k pos : wf c -> Inv c (o :: l) s -> begins c k o = true -> nth_error (s_b s k) pos = Some (sent c o) ->
  exists s', unindex_ent c s (k, pos) = Ok s' /\ Inv c l s' /\ s_b s' k = drop (s_b s k) pos.
Proof.
  intros W I B N. assert (Io : In o (o :: l)) by (left; auto).
  pose proof (start_nonneg c W _ _ I o Io) as Nn. pose proof B as Bk. apply begins_nb in Bk; auto. rewrite Bk in Nn.
  unfold unindex_ent. rewrite N, (room_ok c _ _ I k). cbn [negb].
  assert (Ek : Permutation (drop (s_b s k) pos) (ents c l k)).
  { destruct I as [_ _ E _ _]. specialize (E k). rewrite (drop_perm _ _ _ N) in E. unfold ents in E. cbn [filter] in E.
    rewrite B, (begins_not_spills _ _ _ W B) in E. cbn [map app] in E. apply Permutation_cons_inv in E. exact E. }
  assert (Ej : forall j, j <> k -> j <> k + 1 -> Permutation (s_b s j) (ents c l j)).
  { intros j J1 J2. destruct I as [_ _ E _ _]. specialize (E j). unfold ents in E. cbn [filter] in E.
    replace (begins c j o) with false in E by (destruct (begins c j o) eqn:E1; auto; apply begins_nb in E1; auto; lia).
    replace (spills c j o) with false in E by (destruct (spills c j o) eqn:E1; auto; apply spills_begins in E1; apply begins_nb in E1; auto; lia). exact E. }
  assert (Bk1 : begins c (k + 1) o = false) by (destruct (begins c (k + 1) o) eqn:E1; auto; apply begins_nb in E1; auto; lia).
  destruct (spills c (k + 1) o) eqn:Sp.
  - (* its continuation goes *)
    replace (forallb _ _) with true.
    2:{ symmetry. apply forallb_forall. intros e He. apply (ent_in c _ _ I) in He. cbn [sent e_off]. destruct He as [(o' & A' & B' & ->)|(o' & A' & B' & ->)].
        - cbn [sent e_off]. apply Z.leb_le. destruct (Z.le_gt_cases (boffset c (o_start o')) (boffset c (o_start o))); auto.
          assert (o = o') by (apply (spills_last c W _ _ I (k + 1)); auto; [replace (k + 1 - 1) with k by lia; auto|lia]). subst. lia.
        - cbn [cent e_off]. pose proof (off_bound c W o). lia. }
    assert (Hn : (k + 1 =? c_nb c) = false).
    { apply Z.eqb_neq. intros E. apply spills_spec in Sp. pose proof (ok_in c _ _ I o Io) as (_ & K & _). rewrite E in Sp. unfold bbase in Sp. lia. }
    unfold next_of, set_next. rewrite Hn. unfold upd at 1 2 4. replace (k + 1 =? k) with false by lia. rewrite (room_ok c _ _ I (k + 1)). cbn [negb].
    eexists. split; [reflexivity|]. split; [|cbn [s_b]; unfold upd; rewrite (proj2 (Z.eqb_neq k (k + 1)) ltac:(lia)), Z.eqb_refl; reflexivity].
    eapply Inv_sub; [exact I|exists o; auto|]. intros j. unfold upd.
    destruct (j =? k + 1) eqn:E1; [|destruct (j =? k) eqn:E2].
    + assert (j = k + 1) by lia. subst j. assert (E : Permutation (s_b s (k + 1)) (ents c (o :: l) (k + 1))) by apply I.
      assert (Z0 : filter (spills c (k + 1)) l = []).
      { apply filter_none. intros x Hx. destruct (spills c (k + 1) x) eqn:Sx; auto. exfalso.
        assert (o = x) by (apply (spills_one c W _ _ I (k + 1)); auto; right; auto). subst x.
        pose proof (ok_in c _ _ I o Io) as (_ & _ & ? & _). destruct I as [_ F _ _ _]. inversion F as [|? ? Fo _]; subst. rewrite Forall_forall in Fo. specialize (Fo o Hx).
        unfold apart in Fo. lia. }
      unfold ents in E |- *. cbn [filter] in E. rewrite Bk1, Sp, Z0 in E. rewrite Z0. cbn [map] in *. rewrite app_nil_r.
      apply drop_cont_one with (x := cent c o); [apply cent_cont, (ok_in c _ _ I); auto| |exact E].
      intros e He. apply in_map_iff in He. destruct He as (x & <- & He). apply filter_In in He. apply sent_start, (ok_in c _ _ I). right. tauto.
    + assert (j = k) by lia. subst j. exact Ek.
    + apply Ej; lia.
  - (* no continuation of its own *)
    assert (Er : forall j, j <> k -> Permutation (s_b s j) (ents c l j)).
    { intros j J. destruct (Z.eq_dec j (k + 1)) as [->|]; [|apply Ej; auto]. destruct I as [_ _ E _ _]. specialize (E (k + 1)). unfold ents in E. cbn [filter] in E. rewrite Bk1, Sp in E. exact E. }
    destruct (forallb _ _) eqn:Fb.
    + rewrite forallb_forall in Fb.
      assert (Nc : forall e, In e (s_b s (k + 1)) -> is_cont e = false).
      { intros e He. apply (ent_in c _ _ I) in He. destruct He as [(x & A & Bx & ->)|(x & A & Bx & ->)]; [apply sent_start, (ok_in c _ _ I); auto|].
        exfalso. assert (In (sent c x) (s_b s k)). { apply (ent_in c _ _ I). left. exists x. apply spills_begins in Bx as Q. replace (k + 1 - 1) with k in Q by lia. auto. }
        specialize (Fb _ H). cbn [sent e_off] in Fb. assert (x = o). { apply (spills_last c W _ _ I (k + 1)); auto; [replace (k + 1 - 1) with k by lia; auto|lia]. } subst x. congruence. }
      assert (Nc0 : forall e, In e (s_b s 0) -> is_cont e = false).
      { intros e He. apply (ent_in c _ _ I) in He. destruct He as [(x & A & Bx & ->)|(x & A & Bx & ->)]; [apply sent_start, (ok_in c _ _ I); auto|].
        exfalso. apply spills_begins in Bx. apply begins_nb in Bx; auto. pose proof (start_nonneg c W _ _ I x A). lia. }
      set (b1 := upd (s_b s) k (drop (s_b s k) pos)).
      assert (Hd : forall e, In e (drop (s_b s k) pos) -> In e (s_b s k)) by (intros e He; eapply Permutation_in; [symmetry; apply drop_perm; eauto|right; auto]).
      assert (Hl : (length (drop (s_b s k) pos) <= length (s_b s k))%nat) by (rewrite (drop_length _ _ _ N); lia).
      assert (Hr : room c (next_of c b1 k) = true).
      { unfold next_of, room. destruct (k + 1 =? c_nb c) eqn:E.
        - unfold b1, upd. destruct (0 =? k) eqn:E0.
          + pose proof (len_room c _ _ I k). destruct (drop (s_b s k) pos); cbn [tl length] in *; lia.
          + pose proof (len_room c _ _ I 0). destruct (s_b s 0); cbn [tl length] in *; lia.
        - unfold b1, upd. replace (k + 1 =? k) with false by lia. pose proof (len_room c _ _ I (k + 1)). lia. }
      rewrite Hr. cbn [negb].
      assert (Hs : forall j, set_next c b1 k (drop_cont (next_of c b1 k)) j = b1 j).
      { intros j. unfold set_next, next_of. destruct (k + 1 =? c_nb c) eqn:E.
        - rewrite drop_cont_none.
          + unfold upd. destruct (j =? 0) eqn:E0; auto. replace j with 0 by lia. destruct (b1 0); auto.
          + intros e He. apply Nc0. assert (He' : In e (b1 0)) by (destruct (b1 0); [easy|right; auto]).
            unfold b1, upd in He'. destruct (0 =? k) eqn:E0; auto. replace 0 with k by lia. apply Hd. auto.
        - rewrite drop_cont_none.
          + unfold upd. destruct (j =? k + 1) eqn:E0; auto. replace j with (k + 1) by lia. auto.
          + intros e He. apply Nc. unfold b1, upd in He. replace (k + 1 =? k) with false in He by lia. auto. }
      eexists. split; [reflexivity|]. split.
      * eapply Inv_sub; [exact I|exists o; auto|]. intros j. rewrite Hs. unfold b1, upd. destruct (j =? k) eqn:E; [replace j with k by lia; auto|apply Er; lia].
      * cbn [s_b]. rewrite Hs. unfold b1, upd. rewrite Z.eqb_refl. auto.
    + eexists. split; [reflexivity|]. split.
      * eapply Inv_sub; [exact I|exists o; auto|]. intros j. unfold upd. destruct (j =? k) eqn:E; [replace j with k by lia; auto|apply Er; lia].
      * cbn [s_b]. unfold upd. rewrite Z.eqb_refl. auto.
Qed.
Lemma in_perm {A} (x : A) l : In x l -> exists l', Permutation l (x :: l').
Proof. intros H. apply in_split in H. destruct H as (a & b & ->). exists (a ++ b). symmetry. apply Permutation_middle. Qed.

Definition hits (c : chunk) (lo hi : Z) (o : obj) : Prop := o_start o < hi /\ lo < o_start o + first_part c o.
Lemma over_bucket_spec c lo hi k : wf c -> forall fuel l s pos, Inv c l s -> (pos <= length (s_b s k))%nat -> (length (s_b s k) - pos < fuel)%nat ->
  (forall i o, (i < pos)%nat -> nth_error (s_b s k) i = Some (sent c o) -> begins c k o = true -> In o l -> ~ hits c lo hi o) ->
  exists dead l' s', over_bucket c s k lo hi pos fuel = Ok s' /\ Permutation l (dead ++ l') /\ Inv c l' s' /\
    Forall (fun o => meets lo hi o = true) dead /\ (forall o, In o l' -> begins c k o = true -> ~ hits c lo hi o).
Proof.
  intros W. induction fuel as [|f IH]; intros l s pos I Lp Lf Hb; [lia|]. cbn [over_bucket].
  destruct (nth_error (s_b s k) pos) as [e|] eqn:N.
  - assert (Ll : (pos < length (s_b s k))%nat) by (apply nth_error_Some; congruence).
    pose proof (nth_error_In _ _ N) as He. apply (ent_in c _ _ I) in He.
    destruct (negb (is_cont e) && (bbase c k + e_off e <? hi) && (lo <? bbase c k + e_off e + e_tsz e)) eqn:T.
    + destruct He as [(o & A & B & ->)|(o & A & B & ->)]; [|rewrite cent_cont in T by (apply (ok_in c _ _ I); auto); easy].
      rewrite (sent_os c W k o B) in T. cbn [sent e_tsz] in T.
      destruct (in_perm o l A) as (l1 & P1). pose proof (Inv_perm _ _ _ _ P1 I) as I1.
      destruct (unindex_ent_spec c o l1 s k pos W I1 B N) as (s1 & -> & I2 & E2). cbn [bind].
      pose proof (drop_length _ _ _ N) as Dl.
      destruct (IH l1 s1 pos I2) as (dead & l' & s' & R & P2 & I' & F & H).
      * rewrite E2. lia.
      * rewrite E2. lia.
      * intros i x Li. rewrite E2, drop_nth by lia. intros Nx Bx Ix. apply (Hb i x); auto. eapply Permutation_in; [symmetry; exact P1|right; auto].
      * exists (o :: dead), l', s'. split; [exact R|]. split; [rewrite P1, P2; auto|]. split; [auto|]. split; [|auto]. constructor; [|auto].
        pose proof (sent_tsz c W k o B (ok_in c _ _ I o A)). unfold meets. lia.
    + apply IH; auto; try lia. intros i x Li Nx Bx Ix. destruct (Nat.eq_dec i pos) as [->|]; [|apply (Hb i x); auto; lia].
      assert (e = sent c x) by congruence. subst e. rewrite (sent_os c W k x Bx), sent_start in T by (apply (ok_in c _ _ I); auto). cbn [sent e_tsz] in T. unfold hits. lia.
  - apply nth_error_None in N. pose proof (len_room c _ _ I k). replace (Z.of_nat pos <? c_pitch c) with true by lia.
    exists [], l, s. split; [auto|]. split; [auto|]. split; [auto|]. split; [constructor|].
    intros o A B. assert (Ho : In (sent c o) (s_b s k)) by (apply (ent_in c _ _ I); left; exists o; auto).
    apply In_nth_error in Ho. destruct Ho as (i & Ni). apply (Hb i o); auto. assert (i < length (s_b s k))%nat by (apply nth_error_Some; congruence). lia.
Qed.
Lemma over_buckets_spec c lo hi : wf c -> forall n l s k, Inv c l s ->
  exists dead l' s', over_buckets c s k lo hi n = Ok s' /\ Permutation l (dead ++ l') /\ Inv c l' s' /\
    Forall (fun o => meets lo hi o = true) dead /\ (forall o, In o l' -> k <= nbucket c (o_start o) < k + Z.of_nat n -> ~ hits c lo hi o).
Proof.
  intros W. induction n as [|n IH]; intros l s k I; cbn [over_buckets].
  - exists [], l, s. split; [auto|]. split; [auto|]. split; [auto|]. split; [constructor|]. lia.
  - destruct (over_bucket_spec c lo hi k W (S (length (s_b s k))) l s 0 I) as (d1 & l1 & s1 & -> & P1 & I1 & F1 & H1); try lia. cbn [bind].
    destruct (IH l1 s1 (k + 1) I1) as (d2 & l2 & s2 & -> & P2 & I2 & F2 & H2).
    exists (d1 ++ d2), l2, s2. split; [auto|]. split; [rewrite P1, P2; apply Permutation_app_assoc with (l := d1) (m := d2) (n := l2) || rewrite app_assoc; auto|]. split; [auto|]. split; [apply Forall_app; auto|].
    intros o A L. destruct (Z.eq_dec (nbucket c (o_start o)) k) as [E|E].
    + apply H1; [|apply begins_nb; auto]. eapply Permutation_in; [symmetry; exact P2|]. apply in_or_app. auto.
    + apply H2; auto. lia.
Qed.
Lemma filter_dead lo hi dead l l' : Permutation l (dead ++ l') -> Forall (fun o => meets lo hi o = true) dead -> (forall o, In o l' -> meets lo hi o = false) ->
  Permutation l' (filter (fun x => negb (meets lo hi x)) l).
Proof.
  intros P1 F H. rewrite (filter_permutation _ _ _ P1), filter_app, filter_none.
  - cbn. clear P1 F. induction l' as [|x t IH]; cbn; auto. rewrite H by (left; auto). cbn. constructor. apply IH. intros; apply H; right; auto.
  - intros x Hx. rewrite Forall_forall in F. rewrite F; auto.
Qed.
Lemma overlapping_spec c l s lo hi : wf c -> Inv c l s -> c_base c <= lo < hi -> hi <= c_base c + c_nb c * c_pitch c ->
  exists s', unindex_overlapping c s lo hi = Ok s' /\ Inv c (filter (fun x => negb (meets lo hi x)) l) s'.
Proof.
  intros W I L Hh. unfold unindex_overlapping.
  assert (Bz : bbase c 0 = c_base c) by (unfold bbase; lia).
  assert (Lw : bbase c 0 <= lo < W64) by (destruct W as (_ & _ & Wh); lia).
  pose proof (lookup_spec c W l s I lo Lw) as Lk.
  assert (S1 : exists d1 l1 s1, (do r <- lookup c s lo ; match r with Some (loc, _, _) => unindex_ent c s loc | None => Ok s end) = Ok s1 /\
     Permutation l (d1 ++ l1) /\ Inv c l1 s1 /\ Forall (fun o => meets lo hi o = true) d1 /\ forall o, In o l1 -> covers lo o = false).
  { destruct (lookup c s lo) as [[[[[j p] os] sz]|]| | |]; try easy; cbn [bind].
    - destruct Lk as (o & A & C & N & B & _). destruct (in_perm o l A) as (l1 & P1). pose proof (Inv_perm _ _ _ _ P1 I) as I1.
      destruct (unindex_ent_spec c o l1 s j p W I1 B N) as (s1 & -> & I2 & _).
      exists [o], l1, s1. split; [auto|]. split; [auto|]. split; [auto|]. split; [constructor; auto; unfold meets, covers in *; lia|].
      intros x Hx. destruct I1 as [K F _ _ _]. inversion F as [|? ? Fo _]; subst. rewrite Forall_forall in Fo. specialize (Fo x Hx). unfold apart, covers in *. lia.
    - exists [], l, s. split; [auto|]. split; [auto|]. split; [auto|]. split; [constructor|auto]. }
  destruct S1 as (d1 & l1 & s1 & E1 & P1 & I1 & F1 & H1).
  destruct (lookup c s lo) as [r| | |]; try easy. cbn [bind] in E1 |- *.
  match goal with |- context [bind ?x _] => replace x with (@Ok st s1) by (symmetry; exact E1) end. cbn [bind].
  set (k := nbucket c lo). set (n := Z.to_nat _).
  destruct (over_buckets_spec c lo hi W n l1 s1 k I1) as (d2 & l2 & s2 & -> & P2 & I2 & F2 & H2).
  exists s2. split; [auto|]. eapply Inv_perm; [|exact I2].
  apply (filter_dead lo hi (d1 ++ d2)).
  - rewrite P1, P2, app_assoc. auto.
  - apply Forall_app; auto.
  - intros o A. destruct (meets lo hi o) eqn:M; auto. exfalso.
    assert (A1 : In o l1) by (eapply Permutation_in; [symmetry; exact P2|]; apply in_or_app; auto).
    specialize (H1 o A1). pose proof (nb_spec c W lo) as Nl. pose proof (nb_spec c W (o_start o)) as No.
    assert (Lo : lo < o_start o) by (unfold meets, covers in *; lia).
    assert (Kk : k <= nbucket c (o_start o)).
    { assert (bbase c k < bbase c (nbucket c (o_start o) + 1)) as Q by (rewrite bb_next; unfold k; lia). apply bb_lt in Q; auto. lia. }
    apply (H2 o A).
    + split; auto. set (j := nbucket c (o_start o)) in *. assert (bbase c j < hi) by (unfold meets in M; lia). destruct W as (Wp & _).
      assert (j - k + 1 <= (hi - bbase c k + (c_pitch c - 1)) / c_pitch c).
      { apply Z.div_le_lower_bound; [lia|]. unfold bbase in *. clear - H Wp Kk. nia. }
      unfold n. lia.
    + pose proof (sent_tsz c W _ o (proj2 (begins_nb c W _ o) eq_refl) (ok_in c _ _ I1 o A1)). unfold hits. unfold meets in M. lia.
Qed.
Lemma put_ok c b e : room c b = true -> e_discr e <> 0 -> put c b e = Ok (b ++ [e]).
Proof. intros R D. unfold put. rewrite R. replace (e_discr e =? 0) with false by lia. auto. Qed.
Lemma index_internal_spec c l s o : wf c -> Inv c l s -> okobj c o -> roomy c (o :: l) -> (forall x, In x l -> apart o x) ->
  exists s', index_internal c s (o_start o) (o_size o) (o_site o) = Ok s' /\ Inv c (o :: l) s'.
Proof.
  intros W I K R Ap. unfold index_internal. set (k := nbucket c (o_start o)).
  pose proof (nb_spec c W (o_start o)) as No. fold k in No. pose proof (off_bound c W o) as Ob.
  assert (B : begins c k o = true) by (apply begins_nb; auto).
  assert (Bk1 : forall j, j <> k -> begins c j o = false) by (intros j J; destruct (begins c j o) eqn:E1; auto; apply begins_nb in E1; auto; lia).
  assert (Sj : forall j, j <> k + 1 -> spills c j o = false) by (intros j J; destruct (spills c j o) eqn:E1; auto; apply spills_begins in E1; apply begins_nb in E1; auto; lia).
  pose proof (fp_spec c W o) as Fp. fold k in Fp. pose proof (bo_spec c W (o_start o)) as Bo. fold k in Bo.
  replace (if nbucket c (o_start o + o_size o) =? k then o_size o else c_pitch c - boffset c (o_start o)) with (first_part c o).
  2:{ pose proof (nb_spec c W (o_start o + o_size o)) as Ne. unfold okobj in K. destruct (nbucket c (o_start o + o_size o) =? k) eqn:E.
      - assert (E' : nbucket c (o_start o + o_size o) = k) by lia. rewrite E' in Ne. lia.
      - assert (~ o_start o + o_size o < bbase c k + c_pitch c). { intros Q. assert (nbucket c (o_start o + o_size o) = k) by (apply nb_uniq; auto; lia). lia. } lia. }
  assert (Es : start_ent (o_site o) (boffset c (o_start o)) (first_part c o) = sent c o).
  { unfold start_ent, sent. unfold okobj in K. pose proof (sent_tsz c W k o B K). rewrite !Z.mod_small by lia. auto. }
  rewrite Es, (put_ok c (s_b s k)); [|apply (room_ok c _ _ I)|unfold okobj, MINUSER in K; cbn; lia]. cbn [bind].
  assert (Hb : forall b, (forall j, Permutation (b j) (ents c (o :: l) j)) -> Inv c (o :: l) (mkS b (Z.max (s_big s) (o_size o)))).
  { intros b E. destruct I as [Ko F _ _ [Bg Bs]]. constructor; auto.
    - constructor; auto. rewrite Forall_forall. auto.
    - cbn [s_big]. unfold okobj in K. split; [lia|]. constructor; [lia|]. eapply Forall_impl; [|exact Bs]. cbn. intros; lia. }
  assert (Ek : Permutation (s_b s k ++ [sent c o]) (ents c (o :: l) k)).
  { unfold ents. cbn [filter]. rewrite B, (Sj k) by lia. cbn [map app]. rewrite <- Permutation_cons_append. constructor. apply I. }
  assert (Ej : forall j, j <> k -> j <> k + 1 -> Permutation (s_b s j) (ents c (o :: l) j)).
  { intros j J1 J2. unfold ents. cbn [filter]. rewrite Bk1, Sj by lia. apply I. }
  unfold bend. rewrite <- (bb_next c k). destruct (bbase c (k + 1) <? o_start o + o_size o) eqn:Sp.
  - assert (Spo : spills c (k + 1) o = true). { apply spills_spec. replace (k + 1 - 1) with k by lia. rewrite bb_next in *. lia. }
    unfold upd at 1. replace (k + 1 =? k) with false by lia.
    assert (Ec : cont_ent (o_size o) (if c_pitch c <? o_size o - first_part c o then 0 else o_size o - first_part c o) = cent c o).
    { unfold cont_ent, cent, after. f_equal. apply Z.mod_small. unfold okobj, MINUSER in K. change (2 ^ 22) with 4194304. lia. }
    rewrite Ec, (put_ok c (s_b s (k + 1))); [|apply (room_ok c _ _ I)|unfold okobj in K; cbn; lia]. cbn [bind].
    eexists. split; [reflexivity|]. apply Hb. intros j. unfold upd. destruct (j =? k + 1) eqn:E1; [|destruct (j =? k) eqn:E2].
    + replace j with (k + 1) by lia. unfold ents. cbn [filter]. rewrite (Bk1 (k + 1)), Spo by lia. cbn [map].
      etransitivity; [symmetry; apply Permutation_cons_append|]. etransitivity; [|apply Permutation_middle]. constructor. apply I.
    + replace j with k by lia. auto.
    + apply Ej; lia.
  - assert (Spo : spills c (k + 1) o = false). { destruct (spills c (k + 1) o) eqn:E; auto. apply spills_spec in E. lia. }
    cbn [bind]. eexists. split; [reflexivity|]. apply Hb. intros j. unfold upd. destruct (j =? k) eqn:E2; [replace j with k by lia; auto|].
    destruct (Z.eq_dec j (k + 1)) as [->|]; [|apply Ej; lia]. unfold ents. cbn [filter]. rewrite (Bk1 (k + 1)), Spo by lia. apply I.
Qed.
Lemma step_spec c l s o : wf c -> Inv c l s -> okop c l o -> exists s', sstep c s o = Ok s' /\ Inv c (alive1 l o) s'.
Proof.
  intros W I K. destruct o as [p sz site|p]; cbn [sstep okop alive1] in *.
  - destruct K as (K & R). pose proof K as (K1 & K2 & K3 & _). cbn [o_start o_size] in K1, K2, K3.
    destruct (overlapping_spec c l s p (p + sz) W I ltac:(lia) ltac:(lia)) as (s1 & -> & I1). cbn [bind].
    apply (index_internal_spec c _ s1 (mkO p sz site) W I1 K R).
    intros x Hx. apply filter_In in Hx. unfold meets, apart in *. cbn [o_start o_size]. lia.
  - destruct K as (x & Hx & Cx). pose proof (ok_in c _ _ I x Hx) as (K1 & K2 & K3 & _). pose proof W as (_ & W2 & W3). unfold unindex.
    assert (Bz : bbase c 0 = c_base c) by (unfold bbase; lia).
    pose proof (lookup_spec c W l s I p ltac:(rewrite Bz; unfold covers in Cx; lia)) as Lk.
    destruct (lookup c s p) as [[[[[j q] os] sz]|]| | |]; try easy; cbn [bind].
    + destruct Lk as (o & A & C & N & B & _). destruct (in_perm o l A) as (l1 & P1). pose proof (Inv_perm _ _ _ _ P1 I) as I1.
      destruct (unindex_ent_spec c o l1 s j q W I1 B N) as (s1 & -> & I2 & _). exists s1. split; auto.
      eapply Inv_perm; [|exact I2]. rewrite (filter_permutation _ _ _ P1). cbn [filter]. rewrite C. cbn [negb].
      destruct I1 as [_ F _ _ _]. inversion F as [|? ? Fo _]; subst. clear - Fo C. induction l1 as [|y t IH]; cbn; auto. inversion Fo; subst.
      replace (covers p y) with false by (unfold apart, covers in *; lia). cbn. constructor. auto.
    + rewrite Lk in Cx; auto. easy.
Qed.
Lemma run_spec c h : wf c -> forall l s, Inv c l s -> lawful c l h -> exists s', srun c s h = Ok s' /\ Inv c (alive l h) s'.
Proof.
  intros W. induction h as [|o t IH]; intros l s I L; cbn [srun alive fold_left lawful] in *; [eauto|].
  destruct L as (K & L). destruct (step_spec c l s o W I K) as (s1 & -> & I1). cbn [bind]. apply IH; auto.
Qed.
Lemma empty_inv c : wf c -> Inv c [] empty.
Proof.
  intros (P & _). constructor; [constructor|constructor|intros k; constructor|intros k; cbn; lia|]. cbn. split; [unfold MINUSER; lia|constructor].
Qed.
Lemma find_cover c l s p : Inv c l s -> match find (covers p) l with Some o => In o l /\ covers p o = true /\ forall x, In x l -> covers p x = true -> x = o | None => forall x, In x l -> covers p x = false end.
Proof.
  intros I. destruct (find (covers p) l) as [o|] eqn:E.
  - apply find_some in E. destruct E as (A & B). split; auto. split; auto. intros x Hx Cx. destruct I as [_ F _ _ _].
    destruct (FOP_in _ _ _ F Hx A) as [|D]; auto. unfold apart, covers in *. lia.
  - intros x Hx. apply (find_none _ _ E x Hx).
Qed.

(* C32, as far as it holds: after any history of recordings (each dropping what it overlaps) and
   removals, an address is attributed to the object that covers it, with the object's own start and
   allocation site, and to none if none covers it.  The size told is the object's when the object ends
   in the bucket where it starts.  Missing: the size of other objects (small_size_refuted,
   small_no_size_refuted), buckets that fill up (small_full_refuted, small_byte_refuted), objects with
   256 bytes in their first bucket (small_pitch_refuted), odd sites (small_site_refuted). *)
Theorem small_exact_partial : forall c h, wf c -> lawful c [] h ->
  exists s, srun c empty h = Ok s /\
  forall p, c_base c <= p < c_base c + c_nb c * c_pitch c ->
    match find (covers p) (alive [] h) with
    | Some o => exists sz, get_info c s p = Ok (Some (o_start o, sz, o_site o)) /\ (first_part c o = o_size o -> sz = Some (o_size o))
    | None => get_info c s p = Ok None
    end.
Proof.
  intros c h W L. destruct (run_spec c h W [] empty (empty_inv c W) L) as (s & R & I). exists s. split; auto. intros p Lp.
  pose proof W as (_ & _ & W3). assert (Bz : bbase c 0 = c_base c) by (unfold bbase; lia).
  pose proof (lookup_spec c W _ _ I p ltac:(lia)) as Lk. pose proof (find_cover c _ _ p I) as Fc. unfold get_info.
  destruct (lookup c s p) as [[[[[j q] os] sz]|]| | |]; try easy; cbn [bind].
  - destruct Lk as (o & A & C & N & B & -> & Sz). destruct (find (covers p) (alive [] h)) as [o'|].
    + destruct Fc as (_ & _ & U). rewrite <- (U o A C). rewrite N. exists sz. split; [auto|]. intros E. destruct Sz as [->|(_ & Sz)]; [congruence|lia].
    + rewrite Fc in C; auto. easy.
  - destruct (find (covers p) (alive [] h)) as [o'|]; auto. destruct Fc as (A & C & _). rewrite Lk in C; auto. easy.
Qed.
Print Assumptions small_exact_partial.

(* ---- objects of two bytes or more never fill a bucket ---- *)
Definition ok2 (c : chunk) (o : obj) : Prop := okobj c o /\ 2 <= o_size o.
Fixpoint lawful2 (c : chunk) (l : list obj) (h : list sop) : Prop :=
  match h with
  | [] => True
  | o :: t => match o with
              | SIndex p sz site => ok2 c (mkO p sz site)
              | SUnindex p => exists x, In x l /\ covers p x = true
              end /\ lawful2 c (alive1 l o) t
  end.
Lemma FOP_sub (f : obj -> bool) l : ForallOrdPairs apart l -> ForallOrdPairs apart (filter f l).
Proof.
  induction 1 as [|x l F H IH]; cbn; [constructor|]. destruct (f x); auto. constructor; auto.
  rewrite Forall_forall in *. intros y Hy. apply filter_In in Hy. apply F. tauto.
Qed.
Lemma half_nodup c k l : ForallOrdPairs apart l -> Forall (ok2 c) l -> NoDup (map (fun o => (o_start o - bbase c k) / 2) l).
Proof.
  induction 1 as [|x l F H IH]; intros K; cbn; [constructor|]. inversion K as [|? ? Kx Kl]; subst. constructor; auto.
  rewrite in_map_iff. intros (y & E & Hy). rewrite Forall_forall in F, Kl. specialize (F y Hy). specialize (Kl y Hy).
  destruct Kx as (_ & Kx), Kl as (_ & Kl). unfold apart in F. clear - E F Kx Kl. generalize dependent (bbase c k). intros b E. lia.
Qed.
Lemma one_spill c k l : ForallOrdPairs apart l -> (length (filter (spills c k) l) <= 1)%nat.
Proof.
  intros F. apply (FOP_sub (spills c k)) in F. pose proof (fun x => proj1 (filter_In (spills c k) x l)) as H.
  destruct (filter (spills c k) l) as [|x [|y t]]; cbn; try lia. exfalso.
  inversion F as [|? ? Fx _]; subst. inversion Fx as [|? ? A _]; subst.
  destruct (H x) as (_ & X); [left; auto|]. destruct (H y) as (_ & Y); [right; left; auto|]. apply spills_spec in X, Y. unfold apart in A. lia.
Qed.
Lemma roomy_two c l : wf c -> 4 <= c_pitch c -> ForallOrdPairs apart l -> Forall (ok2 c) l -> roomy c l.
Proof.
  intros W P4 F K k. pose proof (one_spill c k l F) as S1.
  set (q := filter (begins c k) l) in *.
  assert (Fq : ForallOrdPairs apart q) by (apply FOP_sub; auto).
  assert (Kq : Forall (ok2 c) q). { rewrite Forall_forall in *. intros x Hx. apply filter_In in Hx. apply K. tauto. }
  pose proof (half_nodup c k q Fq Kq) as Nd.
  assert (Ic : incl (map (fun o => (o_start o - bbase c k) / 2) q) (map Z.of_nat (seq 0 (Z.to_nat ((c_pitch c + 1) / 2))))).
  { intros z Hz. apply in_map_iff in Hz. destruct Hz as (x & <- & Hx). apply filter_In in Hx. destruct Hx as (_ & Hx). apply begins_spec in Hx.
    apply in_map_iff. exists (Z.to_nat ((o_start x - bbase c k) / 2)). rewrite in_seq. clear - Hx P4. generalize dependent (bbase c k). intros b Hx. lia. }
  pose proof (NoDup_incl_length Nd Ic) as Ln. rewrite !map_length, seq_length in Ln. lia.
Qed.
Lemma alive1_two c l o : ForallOrdPairs apart l -> Forall (ok2 c) l ->
  match o with SIndex p sz site => ok2 c (mkO p sz site) | SUnindex p => True end ->
  ForallOrdPairs apart (alive1 l o) /\ Forall (ok2 c) (alive1 l o).
Proof.
  intros F K H. assert (Kf : forall f, Forall (ok2 c) (filter f l)). { intros f. rewrite Forall_forall in *. intros x Hx. apply filter_In in Hx. apply K. tauto. }
  destruct o as [p sz site|p]; cbn [alive1].
  - split; constructor; auto; [|apply FOP_sub; auto]. rewrite Forall_forall. intros x Hx. apply filter_In in Hx. unfold meets, apart in *. cbn [o_start o_size]. lia.
  - split; auto. apply FOP_sub; auto.
Qed.
Lemma lawful2_lawful c h : wf c -> 4 <= c_pitch c -> forall l, ForallOrdPairs apart l -> Forall (ok2 c) l -> lawful2 c l h -> lawful c l h.
Proof.
  intros W P4. induction h as [|o t IH]; intros l F K L; cbn [lawful lawful2] in *; auto. destruct L as (A & L).
  destruct (alive1_two c l o F K) as (F1 & K1); [destruct o; auto|]. split; [|apply IH; auto].
  destruct o as [p sz site|p]; cbn [okop]; auto. split; [apply A|]. apply roomy_two; auto.
Qed.
(* C32 for objects of two bytes or more in buckets of at least four: nothing is asked about room *)
Theorem small_two_bytes_partial : forall c h, wf c -> 4 <= c_pitch c -> lawful2 c [] h ->
  exists s, srun c empty h = Ok s /\
  forall p, c_base c <= p < c_base c + c_nb c * c_pitch c ->
    match find (covers p) (alive [] h) with
    | Some o => exists sz, get_info c s p = Ok (Some (o_start o, sz, o_site o)) /\ (first_part c o = o_size o -> sz = Some (o_size o))
    | None => get_info c s p = Ok None
    end.
Proof. intros c h W P4 L. apply small_exact_partial; auto. apply lawful2_lawful; auto; constructor. Qed.
Print Assumptions small_two_bytes_partial.

(* ---- the pitch ---- *)
Lemma pow2_ge_spec n : forall i x, 0 <= i -> x <= 2 ^ (i + Z.of_nat n) -> exists j, i <= j /\ pow2_ge n (2 ^ i) x = 2 ^ j /\ x <= 2 ^ j /\ (j = i \/ 2 ^ (j - 1) < x).
Proof.
  induction n as [|n IH]; intros i x Hi Hx; cbn [pow2_ge].
  - exists i. replace (i + Z.of_nat 0) with i in Hx by lia. split; [lia|auto].
  - destruct (x <=? 2 ^ i) eqn:E.
    + exists i. split; [lia|]. split; auto. split; [lia|auto].
    + rewrite <- Z.pow_succ_r by lia. destruct (IH (Z.succ i) x) as (j & A & B & C & D); [lia|replace (Z.succ i + Z.of_nat n) with (i + Z.of_nat (S n)) by lia; auto|].
      exists j. split; [lia|]. split; [auto|]. split; [auto|]. right. destruct D as [->|D]; auto. replace (Z.succ i - 1) with i by lia. lia.
Qed.
Lemma next_pow2_spec x : 1 <= x <= 2 ^ 63 -> exists j, 0 <= j /\ next_pow2 x = 2 ^ j /\ x <= 2 ^ j /\ 2 ^ j < 2 * x.
Proof.
  intros H. unfold next_pow2. destruct (pow2_ge_spec 64 0 x ltac:(lia) ltac:(change (2 ^ (0 + Z.of_nat 64)) with 18446744073709551616; change (2 ^ 63) with 9223372036854775808 in H; lia)) as (j & A & B & C & D).
  change (2 ^ 0) with 1 in B. exists j. split; [auto|]. split; [auto|]. split; [auto|]. destruct D as [->|D]; [change (2 ^ 0) with 1; lia|].
  destruct (Z.eq_dec j 0) as [->|]; [change (2 ^ 0) with 1; lia|]. replace j with (Z.succ (j - 1)) by lia. rewrite Z.pow_succ_r by lia. lia.
Qed.
(* C32: whatever the container's size (over 256 bytes) and the first object's, the table made for the
   container has a power of two of bytes to a bucket, at most 256, and buckets for the whole of it *)
Theorem small_table : forall size guess, 256 < size <= 2 ^ 63 -> 1 <= guess ->
  let p := make_pitch size guess in
  (exists n, 0 <= n /\ p = 2 ^ n) /\ p <= 256 /\ size <= p * (next_pow2 size / p).
Proof.
  intros size guess Hs Hg. cbv zeta. unfold make_pitch.
  set (g := if 256 <? guess then 256 else guess). assert (Hg' : 1 <= g <= 256) by (unfold g; destruct (256 <? guess) eqn:E; lia).
  destruct (next_pow2_spec size ltac:(lia)) as (a & A0 & -> & A1 & _).
  destruct (next_pow2_spec g ltac:(change (2 ^ 63) with 9223372036854775808; lia)) as (b & B0 & -> & B1 & B2).
  assert (B9 : b < 9) by (apply (Z.pow_lt_mono_r_iff 2); [lia|lia|change (2 ^ 9) with 512; lia]).
  assert (A9 : 9 <= a). { destruct (Z.le_gt_cases 9 a); auto. assert (2 ^ a <= 2 ^ 8) by (apply Z.pow_le_mono_r; lia). change (2 ^ 8) with 256 in *. lia. }
  assert (Eab : b <= a -> 2 ^ a / 2 ^ b = 2 ^ (a - b)) by (intros; rewrite <- Z.pow_sub_r by lia; auto).
  assert (Cover : forall n, 0 <= n <= a -> size <= 2 ^ n * (2 ^ a / 2 ^ n)).
  { intros n Hn. rewrite <- Z.pow_sub_r, <- Z.pow_add_r by lia. replace (n + (a - n)) with a by lia. auto. }
  destruct (8 * (2 ^ a / 2 ^ b) <? PAGE) eqn:E.
  - assert (Ep : 8 * 2 ^ a / PAGE = 2 ^ (a - 9)).
    { change PAGE with (2 ^ 12). change 8 with (2 ^ 3). rewrite <- Z.pow_add_r, <- Z.pow_sub_r by lia. f_equal. lia. }
    rewrite Ep. rewrite Eab in E by lia.
    assert (a - b < 9). { apply (Z.pow_lt_mono_r_iff 2); [lia|lia|]. change (2 ^ 9) with 512. unfold PAGE in E. lia. }
    split; [exists (a - 9); split; [lia|auto]|]. split; [|apply Cover; lia].
    change 256 with (2 ^ 8). apply Z.pow_le_mono_r; lia.
  - split; [exists b; auto|]. split; [|apply Cover; lia]. change 256 with (2 ^ 8). apply Z.pow_le_mono_r; lia.
Qed.
Print Assumptions small_table.

(* ---- where C32 fails ---- *)
Definition ch (p : Z) : chunk := mkC 140000000000000 p 4096.
Definition rec (off size : Z) : sop := SIndex (140000000000000 + off) size 94000000000000.
Definition ask (p : Z) (h : list sop) (off : Z) : res (option (Z * option Z * Z)) := do s <- srun (ch p) empty h ; get_info (ch p) s (140000000000000 + off).
(* an object that leaves its first bucket: at its start only the part there is told *)
Theorem small_size_refuted : exists p off size sz, ask p [rec off size] off = Ok (Some (140000000000000 + off, Some sz, 94000000000000)) /\ sz < size.
Proof. exists 16, 8, 20, 8. vm_compute. auto. Qed.
(* and past it, no size at all *)
Theorem small_no_size_refuted : exists p off size x, off <= x < off + size /\ ask p [rec off size] x = Ok (Some (140000000000000 + off, None, 94000000000000)).
Proof. exists 16, 8, 20, 20. vm_compute. repeat split; congruence. Qed.
(* four one-byte objects in a bucket of four: looking up a free byte reads outside the table *)
Theorem small_full_refuted : exists p h x, ask p h x = UB /\ find (covers (140000000000000 + x)) (alive [] h) = None /\ Forall (okobj (ch p)) (alive [] h).
Proof.
  exists 4, [rec 0 1; rec 1 1; rec 2 1; rec 3 1], 4. split; [vm_compute; auto|]. split; [vm_compute; auto|].
  cbn. repeat constructor; vm_compute; congruence.
Qed.
(* a one-byte object is the first one: the pitch is one, and one object fills a bucket *)
Theorem small_byte_refuted : exists size x, let p := make_pitch 4096 size in ask p [rec 0 size] x = UB /\ 0 < size <= x /\ x < 4096 /\ srun (ch p) empty [rec 0 size; rec 0 size] = UB.
Proof. exists 1, 1. vm_compute. repeat split; congruence. Qed.
(* an object filling a bucket of 256: it is not found *)
Theorem small_pitch_refuted : exists size, let p := make_pitch 131072 size in ask p [rec 0 size] 0 = Ok None /\ ask p [rec 0 size] 100 = Ok None /\ 100 < size.
Proof. exists 256. vm_compute. auto. Qed.
(* nor is a longer one, from its first bucket *)
Theorem small_pitch_long_refuted : exists size, ask 256 [rec 0 size] 0 = Ok None /\ ask 256 [rec 0 size] 300 = Ok (Some (140000000000000, None, 94000000000000)) /\ 300 < size.
Proof. exists 600. vm_compute. auto. Qed.
(* no allocation site: not recorded; a small one: taken for a continuation *)
Theorem small_site_refuted : exists site, 0 < site < 65536 /\ ask 16 [SIndex 140000000000000 8 0] 0 = Ok None /\ ask 16 [SIndex 140000000000000 8 site] 0 = UB.
Proof. exists 4096. vm_compute. auto. Qed.
(* four megabytes: nothing beyond the first bucket is found *)
Theorem small_big_refuted : exists size x, 0 <= x < size /\ ask 16 [rec 0 size] 0 = Ok (Some (140000000000000, Some 16, 94000000000000)) /\ ask 16 [rec 0 size] x = Ok None.
Proof. exists 4194304, 16. vm_compute. repeat split; congruence. Qed.
(* removing what is not recorded uses a null entry *)
Theorem small_absent_refuted : exists x, srun (ch 16) empty [rec 0 8; SUnindex x] = UB.
Proof. exists 140000000000064. vm_compute. reflexivity. Qed.

Module SmEx.
(* objects spanning buckets, one dropped by an overlapping recording, one removed by an inner address *)
Definition h : list sop := [rec 8 20; rec 28 4; rec 40 100; rec 200 6; rec 30 12; SUnindex 140000000000203; rec 206 2].
Example wf16 : wf (ch 16).
Proof. unfold wf, ch, MINUSER, W64. cbn. lia. Qed.
Definition ok2b (c : chunk) (o : obj) : bool :=
  (c_base c <=? o_start o) && (o_start o + o_size o <=? c_base c + c_nb c * c_pitch c) && (2 <=? o_size o) && (o_size o <? MINUSER) &&
  (MINUSER <=? o_site o) && (o_site o <? 2 ^ 47) && (first_part c o <? 256).
Fixpoint lawful2b (c : chunk) (l : list obj) (h : list sop) : bool :=
  match h with
  | [] => true
  | o :: t => match o with SIndex p sz site => ok2b c (mkO p sz site) | SUnindex p => existsb (covers p) l end && lawful2b c (alive1 l o) t
  end.
Lemma lawful2b_ok c h : forall l, lawful2b c l h = true -> lawful2 c l h.
Proof.
  induction h as [|o t IH]; intros l H; cbn [lawful2b lawful2] in *; auto. apply andb_true_iff in H. destruct H as (A & B). split; auto.
  destruct o as [p sz site|p]; [|apply existsb_exists in A; auto].
  unfold ok2b in A. repeat (apply andb_true_iff in A; destruct A as (A & ?)). rewrite ?Z.leb_le, ?Z.ltb_lt in *. unfold ok2, okobj. repeat split; auto. cbn [o_size] in *. lia.
Qed.
Example h_lawful2 : lawful2 (ch 16) [] h.
Proof. apply lawful2b_ok. vm_compute. reflexivity. Qed.
Example h_lawful : lawful (ch 16) [] h.
Proof. apply lawful2_lawful; [apply wf16|cbn; lia|constructor|constructor|apply h_lawful2]. Qed.
Example h_alive : map (fun o => (o_start o - 140000000000000, o_size o)) (alive [] h) = [(206, 2); (30, 12); (8, 20)].
Proof. vm_compute. reflexivity. Qed.
Example answers : map (fun x => match ask 16 h x with Ok (Some (a, _, _)) => a - 140000000000000 | Ok None => -1 | _ => -2 end) [7; 8; 27; 28; 30; 41; 42; 100; 203; 206; 208] = [-1; 8; 8; -1; 30; 30; -1; -1; -1; 206; -1].
Proof. vm_compute. reflexivity. Qed.
Example pitch24 : make_pitch 65536 24 = 32 /\ make_pitch 8192 100 = 16.
Proof. vm_compute. auto. Qed.
End SmEx.
