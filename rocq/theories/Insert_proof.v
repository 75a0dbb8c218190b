From Verif Require Import Base Bits.
From Verif Require Import Insert_model.

Lemma w64_small x : 0 <= x < 2 ^ 64 -> w64 x = x.
Proof. intro H. apply Z.mod_small, H. Qed.

Lemma pad_spec n a : 0 < a -> 0 <= n -> n + a <= 2 ^ 64 ->
  n <= pad_to_align n a < n + a /\ (pad_to_align n a) mod a = 0.
Proof.
  intros Ha Hn Hb. unfold pad_to_align.
  assert (M := Z.mod_pos_bound n a Ha).
  destruct (Z.eqb_spec (n mod a) 0) as [E|E].
  - split; [lia|exact E].
  - rewrite w64_small by lia. split; [lia|].
    replace (n + a - n mod a) with ((n - n mod a) + 1 * a) by lia.
    rewrite Z.mod_add by lia. rewrite Zminus_mod_idemp_r, Z.sub_diag. apply Z.mod_0_l. lia.
Qed.

Lemma chunk_size_spec sz : 0 <= sz <= 2 ^ 64 - 16 ->
  sz + 8 <= chunk_size_with_trailer sz < sz + 16 /\ chunk_size_with_trailer sz mod 8 = 0.
Proof.
  intro H. unfold chunk_size_with_trailer, INSERT_SIZE.
  rewrite w64_small by lia. destruct (pad_spec (sz + 8) 8) as [A B]; try lia.
Qed.

(* fields of a freshly written insert *)
Lemma store_site_site v c : 0 <= c < 2 ^ 47 -> i_site (store_site v c) = c.
Proof.
  intro H. unfold i_site, store_site. rewrite getf_setf_same by lia. apply Z.mod_small, H.
Qed.
Lemma store_site_unused v c : i_unused (store_site v c) = 0.
Proof.
  unfold i_unused, store_site. rewrite getf_setf_other by lia.
  rewrite getf_setf_same by lia. reflexivity.
Qed.
Lemma store_site_life v c : lifetime (store_site v c) = lifetime v.
Proof. unfold lifetime, store_site. rewrite !getf_setf_other by lia. reflexivity. Qed.
Lemma store_site_bit0 v c : getf (store_site v c) 0 1 = getf v 0 1.
Proof. unfold store_site. rewrite !getf_setf_other by lia. reflexivity. Qed.
Lemma store_site_kind v c : is_with_type (store_site v c) = false.
Proof. unfold is_with_type. rewrite store_site_unused. reflexivity. Qed.

(* fields of a typed insert *)
Lemma shift_range u : 0 <= u < 2 ^ 47 -> 0 <= shift_type u < 2 ^ 44.
Proof.
  intro H. unfold shift_type. rewrite Z.shiftr_div_pow2 by lia.
  change (2 ^ 3) with 8. change (2 ^ 47) with (2 ^ 44 * 8) in H.
  split; [apply Z.div_pos; lia|]. apply Z.div_lt_upper_bound; lia.
Qed.
Lemma unshift_shift u : 0 <= u < 2 ^ 47 -> u mod 8 = 0 -> unshift_type (shift_type u) = u.
Proof.
  intros H A. unfold unshift_type, shift_type.
  rewrite Z.shiftr_div_pow2, Z.shiftl_mul_pow2 by lia. change (2 ^ 3) with 8.
  assert (E : u / 8 * 8 = u) by (assert (D := Z.div_mod u 8); lia).
  rewrite E. apply w64_small. lia.
Qed.
Lemma mk_shifted u id : 0 <= u < 2 ^ 47 -> t_shifted (mk_with_type u id) = shift_type u.
Proof.
  intro H. unfold t_shifted, mk_with_type. rewrite getf_setf_same by lia.
  apply Z.mod_small, shift_range, H.
Qed.
Lemma mk_type u id : 0 <= u < 2 ^ 47 -> u mod 8 = 0 -> t_type (mk_with_type u id) = u.
Proof. intros H A. unfold t_type. rewrite mk_shifted by exact H. apply unshift_shift; assumption. Qed.
Lemma mk_idraw u id : getf (mk_with_type u id) 1 15 = id mod 2 ^ 15.
Proof.
  unfold mk_with_type. rewrite getf_setf_other by lia. rewrite getf_setf_same by lia. reflexivity.
Qed.
Lemma mk_id u id : - 2 ^ 14 <= id < 2 ^ 14 -> t_id (mk_with_type u id) = id.
Proof. intro H. unfold t_id. rewrite mk_idraw. apply (sext_mod 15); lia. Qed.
Lemma mk_life u id : lifetime (mk_with_type u id) = 0.
Proof. unfold lifetime, mk_with_type. rewrite !getf_setf_other by lia. reflexivity. Qed.
Lemma mk_bit0 u id : getf (mk_with_type u id) 0 1 = 1.
Proof. unfold mk_with_type. rewrite !getf_setf_other by lia. reflexivity. Qed.

(* the top twelve bits of the stored type *)
Lemma unused_of_shifted v : i_unused v = getf (t_shifted v) 32 12.
Proof. unfold i_unused, t_shifted. rewrite getf_getf by lia. reflexivity. Qed.
Lemma mk_kind u id : 0 <= u < 2 ^ 47 -> is_with_type (mk_with_type u id) = (2 ^ 35 <=? u).
Proof.
  intro H. unfold is_with_type. rewrite unused_of_shifted, mk_shifted by exact H.
  assert (Z1 := getf_zero (shift_type u) 32 12 ltac:(lia) ltac:(lia) (shift_range u H)).
  assert (Z2 : shift_type u < 2 ^ 32 <-> u < 2 ^ 35).
  { unfold shift_type. rewrite Z.shiftr_div_pow2 by lia. change (2 ^ 3) with 8.
    change (2 ^ 35) with (2 ^ 32 * 8).
    split; intro L; [|apply Z.div_lt_upper_bound; lia].
    destruct (Z.lt_ge_cases u (2 ^ 32 * 8)) as [|G]; [assumption|].
    assert (2 ^ 32 <= u / 8) by (apply Z.div_le_lower_bound; lia). lia. }
  destruct (Z.eqb_spec (getf (shift_type u) 32 12) 0) as [E|E]; cbn [negb];
    destruct (Z.leb_spec (2 ^ 35) u) as [L|L]; try reflexivity; exfalso.
  - apply Z1, Z2 in E. lia.
  - apply E, Z1, Z2. exact L.
Qed.

(* policy updates touch only the policy field *)
Lemma policy_fields v x :
  i_site (setf v 60 4 x) = i_site v /\ i_unused (setf v 60 4 x) = i_unused v /\
  t_id (setf v 60 4 x) = t_id v /\ t_shifted (setf v 60 4 x) = t_shifted v /\
  lifetime (setf v 60 4 x) = x mod 16.
Proof.
  unfold i_site, i_unused, t_id, t_shifted, lifetime.
  rewrite !(getf_setf_other v 60 4 x) by lia. rewrite getf_setf_same by lia.
  repeat split; reflexivity.
Qed.

Lemma with_type_nonzero v : is_with_type v = true -> t_type v <> 0.
Proof.
  unfold is_with_type. rewrite unused_of_shifted. intro H. apply negb_true_iff, Z.eqb_neq in H.
  assert (R := getf_range v 16 44 ltac:(lia) ltac:(lia)). fold (t_shifted v) in R.
  unfold t_type, unshift_type. rewrite Z.shiftl_mul_pow2 by lia. change (2 ^ 3) with 8.
  rewrite w64_small by lia. intro E. apply H.
  apply (getf_zero (t_shifted v) 32 12); [lia|lia|exact R|]. lia.
Qed.

(* What the next query must report: the current type of the chunk, if it has one. *)
Definition typed_as (s : ist) (u : Z) : Prop := is_with_type (ins s) = true /\ t_type (ins s) = u.
Definition sited_at (s : ist) (c : Z) : Prop := is_with_type (ins s) = false /\ i_site (ins s) = c.

Lemma policy_kind v x : is_with_type (setf v 60 4 x) = is_with_type v.
Proof. unfold is_with_type. destruct (policy_fields v x) as (_ & -> & _). reflexivity. Qed.

Definition high_type (u : Z) : Prop := 2 ^ 35 <= u < 2 ^ 47 /\ u mod 8 = 0.

Lemma mk_typed u id un : high_type u -> typed_as (mkI (mk_with_type u id) un) u.
Proof.
  intros [H A]. split; cbn.
  - rewrite mk_kind by lia. apply Z.leb_le. lia.
  - apply mk_type; lia.
Qed.

Lemma step_typed nd T s o u :
  typed_as s u -> (forall w, o = SetType w -> high_type w) ->
  typed_as (fst (istep nd T s o)) (match o with SetType w => w | _ => u end) /\
  (o = Query -> snd (istep nd T s o) = Some (mkA false u 0)).
Proof.
  intros [K E] Ho. destruct o as [|w|p|p]; cbn [istep fst snd].
  - unfold extract. rewrite K, E.
    assert (N := with_type_nonzero _ K). rewrite E in N.
    destruct (Z.eqb_spec u 0); [congruence|]. cbn. split; [split; assumption|reflexivity].
  - split; [apply mk_typed, Ho; reflexivity|discriminate].
  - split; [|discriminate]. unfold typed_as, policy_or, t_type. cbn [ins].
    rewrite policy_kind. destruct (policy_fields (ins s) (Z.lor (lifetime (ins s)) p)) as (_ & _ & _ & -> & _).
    split; assumption.
  - split; [|discriminate]. unfold typed_as, policy_clear, t_type. cbn [ins].
    rewrite policy_kind. destruct (policy_fields (ins s) (Z.ldiff (lifetime (ins s)) p)) as (_ & _ & _ & -> & _).
    split; assumption.
Qed.

Lemma step_sited nd T s o c :
  sited_at s c -> high_type (type_of T c) -> (forall w, o = SetType w -> high_type w) ->
  (match o with
   | Query => if nd : bool then typed_as (fst (istep nd T s o)) (type_of T c)
              else sited_at (fst (istep nd T s o)) c
   | SetType w => typed_as (fst (istep nd T s o)) w
   | _ => sited_at (fst (istep nd T s o)) c
   end) /\
  (o = Query -> snd (istep nd T s o) = Some (mkA false (type_of T c) c)).
Proof.
  intros [K E] Hc Ho. destruct o as [|w|p|p]; cbn [istep fst snd].
  - unfold extract. rewrite K, E.
    destruct (Z.eqb_spec (type_of T c) 0) as [Z0|Z0]; [destruct Hc as [Hc _]; lia|].
    cbn [fst snd andb]. split; [|reflexivity].
    destruct nd; [apply mk_typed, Hc|split; assumption].
  - split; [apply mk_typed, Ho; reflexivity|discriminate].
  - split; [|discriminate]. unfold sited_at, policy_or. cbn [ins].
    rewrite policy_kind. destruct (policy_fields (ins s) (Z.lor (lifetime (ins s)) p)) as (-> & _).
    split; assumption.
  - split; [|discriminate]. unfold sited_at, policy_clear. cbn [ins].
    rewrite policy_kind. destruct (policy_fields (ins s) (Z.ldiff (lifetime (ins s)) p)) as (-> & _).
    split; assumption.
Qed.

(* the type reported by each query of a history, as a function of the history alone *)
Fixpoint expected (u : Z) (h : list iop) : list (option Z) :=
  match h with
  | [] => []
  | Query :: h' => Some u :: expected u h'
  | SetType w :: h' => None :: expected w h'
  | _ :: h' => None :: expected u h'
  end.
Definition types_of (l : list (option answer)) : list (option Z) :=
  map (option_map a_type) l.

Definition cur (T : sites) (s : ist) (u : Z) : Prop :=
  typed_as s u \/ exists c, sited_at s c /\ type_of T c = u /\ high_type u.

Lemma step_cur nd T s o u :
  cur T s u -> (forall w, o = SetType w -> high_type w) ->
  cur T (fst (istep nd T s o)) (match o with SetType w => w | _ => u end) /\
  match o with
  | Query => exists c, snd (istep nd T s o) = Some (mkA false u c)
  | _ => snd (istep nd T s o) = None
  end.
Proof.
  intros [H|(c & H & E & Hi)] Ho.
  - destruct (step_typed nd T s o u H Ho) as [A B]. split; [left; exact A|].
    destruct o; [exists 0; apply B; reflexivity|reflexivity..].
  - subst u. destruct (step_sited nd T s o c H Hi Ho) as [A B]. split.
    + destruct o; [destruct nd; [left; exact A|]| |right; exists c..]; auto.
      * right; exists c; auto.
      * left; exact A.
    + destruct o; [exists c; apply B; reflexivity|reflexivity..].
Qed.

Lemma run_cur nd T h : forall s u,
  cur T s u -> (forall w, In (SetType w) h -> high_type w) ->
  types_of (snd (irun nd T s h)) = expected u h /\
  (forall a, In (Some a) (snd (irun nd T s h)) -> a_err a = false).
Proof.
  induction h as [|o h IH]; intros s u HT HS; [split; [reflexivity|intros a []]|].
  cbn [irun].
  destruct (step_cur nd T s o u HT) as [A B].
  { intros w ->. apply HS. simpl; auto. }
  destruct (istep nd T s o) as [s1 a1]. cbn [fst snd] in *.
  destruct (IH s1 _ A) as [C D]. { intros w Hw. apply HS. right; exact Hw. }
  destruct (irun nd T s1 h) as [s2 r]. cbn [snd] in *. cbn [types_of map]. fold (types_of r).
  destruct o as [|w|p|p]; cbn [expected].
  - destruct B as (c & ->). cbn. rewrite C. split; [reflexivity|].
    intros a [E|E]; [injection E as <-; reflexivity|auto].
  - rewrite B. cbn. rewrite C. split; [reflexivity|]. intros a [E|E]; [discriminate|auto].
  - rewrite B. cbn. rewrite C. split; [reflexivity|]. intros a [E|E]; [discriminate|auto].
  - rewrite B. cbn. rewrite C. split; [reflexivity|]. intros a [E|E]; [discriminate|auto].
Qed.
