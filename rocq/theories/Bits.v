(* Bit fields of a machine word held in Z: [getf v lo w] is the w-bit field starting at
   bit lo, [setf v lo w x] overwrites it with the low w bits of x.  This is how GCC lays
   out the bit-field structs of the code on x86-64 (little-endian, low bits first). *)
From Verif Require Import Base.

Definition getf (v lo w : Z) : Z := Z.land (Z.shiftr v lo) (Z.ones w).
Definition setf (v lo w x : Z) : Z :=
  Z.lor (Z.ldiff v (Z.shiftl (Z.ones w) lo)) (Z.shiftl (Z.land x (Z.ones w)) lo).

Lemma getf_bit v lo w i : 0 <= lo -> 0 <= w -> 0 <= i ->
  Z.testbit (getf v lo w) i = (i <? w) && Z.testbit v (lo + i).
Proof.
  intros Hl Hw Hi. unfold getf. rewrite Z.land_spec, Z.shiftr_spec by lia.
  rewrite Z.testbit_ones_nonneg by lia. rewrite andb_comm. f_equal. f_equal. lia.
Qed.

Lemma setf_bit v lo w x i : 0 <= lo -> 0 <= w -> 0 <= i ->
  Z.testbit (setf v lo w x) i =
  if (lo <=? i) && (i <? lo + w) then Z.testbit x (i - lo) else Z.testbit v i.
Proof.
  intros Hl Hw Hi. unfold setf.
  rewrite Z.lor_spec, Z.ldiff_spec.
  destruct (Z.leb_spec lo i) as [H|H].
  - rewrite !Z.shiftl_spec by lia. rewrite Z.land_spec.
    rewrite Z.testbit_ones_nonneg by lia.
    destruct (Z.ltb_spec (i - lo) w); destruct (Z.ltb_spec i (lo + w)); try lia; cbn [andb negb orb].
    + rewrite andb_false_r, andb_true_r. reflexivity.
    + rewrite andb_true_r, andb_false_r, orb_false_r. reflexivity.
  - rewrite !Z.shiftl_spec by lia. rewrite !(fun n => Z.testbit_neg_r n (i - lo)) by lia.
    cbn [andb negb]. rewrite andb_true_r, orb_false_r. reflexivity.
Qed.

Lemma getf_mod v lo w : 0 <= lo -> 0 <= w -> getf v lo w = (v / 2 ^ lo) mod 2 ^ w.
Proof. intros Hl Hw. unfold getf. rewrite Z.land_ones by lia. rewrite Z.shiftr_div_pow2 by lia. reflexivity. Qed.

Lemma getf_range v lo w : 0 <= lo -> 0 <= w -> 0 <= getf v lo w < 2 ^ w.
Proof. intros Hl Hw. rewrite getf_mod by lia. apply Z.mod_pos_bound. apply Z.pow_pos_nonneg; lia. Qed.

Lemma getf_setf_same v lo w x : 0 <= lo -> 0 <= w -> getf (setf v lo w x) lo w = x mod 2 ^ w.
Proof.
  intros Hl Hw. apply Z.bits_inj'. intros i Hi.
  rewrite getf_bit, setf_bit by lia. rewrite <- Z.land_ones by lia.
  rewrite Z.land_spec, Z.testbit_ones_nonneg by lia.
  replace (lo + i - lo) with i by lia.
  destruct (Z.leb_spec lo (lo + i)); [|lia].
  destruct (Z.ltb_spec i w); destruct (Z.ltb_spec (lo + i) (lo + w)); try lia; cbn [andb];
    rewrite ?andb_true_r, ?andb_false_r; reflexivity.
Qed.

Lemma getf_setf_other v lo w x lo' w' :
  0 <= lo -> 0 <= w -> 0 <= lo' -> 0 <= w' -> (lo + w <= lo' \/ lo' + w' <= lo) ->
  getf (setf v lo w x) lo' w' = getf v lo' w'.
Proof.
  intros Hl Hw Hl' Hw' Hd. apply Z.bits_inj'. intros i Hi.
  rewrite !getf_bit by lia. rewrite setf_bit by lia.
  destruct (Z.ltb_spec i w'); [|reflexivity]. cbn [andb].
  destruct (Z.leb_spec lo (lo' + i)); destruct (Z.ltb_spec (lo' + i) (lo + w)); cbn; try reflexivity; lia.
Qed.

(* a field of a field *)
Lemma getf_getf v lo w lo' w' :
  0 <= lo -> 0 <= w -> 0 <= lo' -> 0 <= w' -> lo' + w' <= w ->
  getf (getf v lo w) lo' w' = getf v (lo + lo') w'.
Proof.
  intros Hl Hw Hl' Hw' Hd. apply Z.bits_inj'. intros i Hi.
  rewrite !getf_bit by lia.
  destruct (Z.ltb_spec i w'); [|reflexivity]. cbn [andb].
  destruct (Z.ltb_spec (lo' + i) w); [|lia]. cbn [andb]. f_equal. lia.
Qed.

Lemma getf_small v w : 0 <= w -> 0 <= v < 2 ^ w -> getf v 0 w = v.
Proof.
  intros Hw Hv. rewrite getf_mod by lia. rewrite Z.pow_0_r, Z.div_1_r. apply Z.mod_small, Hv.
Qed.

Lemma setf_range v lo w x n : 0 <= lo -> 0 <= w -> lo + w <= n -> 0 <= v < 2 ^ n ->
  0 <= setf v lo w x < 2 ^ n.
Proof.
  intros Hl Hw Hn Hv.
  assert (E : setf v lo w x = setf v lo w x mod 2 ^ n).
  { apply Z.bits_inj'. intros i Hi. rewrite <- Z.land_ones by lia.
    rewrite Z.land_spec, Z.testbit_ones_nonneg by lia.
    destruct (Z.ltb_spec i n) as [L|L]; [rewrite andb_true_r; reflexivity|].
    rewrite andb_false_r, setf_bit by lia.
    destruct (Z.ltb_spec i (lo + w)); [lia|]. rewrite andb_false_r.
    rewrite <- (Z.mod_small v (2 ^ n)) by lia.
    rewrite <- Z.land_ones by lia. rewrite Z.land_spec, Z.testbit_ones_nonneg by lia.
    destruct (Z.ltb_spec i n); [lia|]. apply andb_false_r. }
  rewrite E. apply Z.mod_pos_bound. apply Z.pow_pos_nonneg; lia.
Qed.

(* the field made of bits [lo, lo+w) is zero iff v mod 2^(lo+w) is below 2^lo *)
Lemma getf_zero v lo w : 0 <= lo -> 0 <= w -> 0 <= v < 2 ^ (lo + w) ->
  getf v lo w = 0 <-> v < 2 ^ lo.
Proof.
  intros Hl Hw Hv. rewrite getf_mod by lia.
  assert (P : 0 < 2 ^ lo) by (apply Z.pow_pos_nonneg; lia).
  rewrite Z.mod_small.
  - split; intro H.
    + apply Z.div_small_iff in H; lia.
    + apply Z.div_small; lia.
  - split; [apply Z.div_pos; lia|]. apply Z.div_lt_upper_bound; [lia|].
    rewrite <- Z.pow_add_r by lia. lia.
Qed.

(* sign extension of a w-bit field *)
Definition sext (w x : Z) : Z := if x <? 2 ^ (w - 1) then x else x - 2 ^ w.
Lemma sext_mod w x : 0 < w -> - 2 ^ (w - 1) <= x < 2 ^ (w - 1) -> sext w (x mod 2 ^ w) = x.
Proof.
  intros Hw Hx. unfold sext.
  assert (E : 2 ^ w = 2 * 2 ^ (w - 1)) by (rewrite <- Z.pow_succ_r by lia; f_equal; lia).
  assert (P : 0 < 2 ^ (w - 1)) by (apply Z.pow_pos_nonneg; lia).
  destruct (Z.leb_spec 0 x).
  - rewrite Z.mod_small by lia. destruct (Z.ltb_spec x (2 ^ (w - 1))); lia.
  - assert (E2 : x mod 2 ^ w = x + 2 ^ w).
    { rewrite <- (Z.mod_add x 1 (2 ^ w)) by lia. rewrite Z.mul_1_l. apply Z.mod_small. lia. }
    rewrite E2. destruct (Z.ltb_spec (x + 2 ^ w) (2 ^ (w - 1))); lia.
Qed.
