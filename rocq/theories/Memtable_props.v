(* C30: memory-table addressing. *)
From Verif Require Import Base Memtable_model.

Lemma u64_small x : 0 <= x < 2 ^ 64 -> u64 x = x.
Proof. apply Z.mod_small. Qed.
Lemma s64_small x : - 2 ^ 63 <= x < 2 ^ 63 -> s64 x = x.
Proof. intro H. unfold s64. rewrite Z.mod_small by lia. lia. Qed.

(* A usable table: a bucketed range [b, e) (e = 0: to the top of the address space, of
   which only the lower 2^63 bytes above b are addressed), and a table region that the
   entries fit into. [n] is the number of buckets. *)
Definition table_ok (tab esz cov b e n : Z) : Prop :=
  0 < esz /\ 0 < cov /\ 0 <= b /\ 0 <= tab /\ tab + esz * n <= 2 ^ 63 /\
  b + n * cov <= 2 ^ 63 /\ (e = 0 \/ e = b + n * cov).

(* [a] belongs to bucket [i] *)
Definition in_bucket (b cov i a : Z) : Prop := b + i * cov <= a < b + (i + 1) * cov.

Lemma bucket_div b cov i a : 0 < cov -> in_bucket b cov i a -> (a - b) / cov = i.
Proof.
  intros H [L U]. symmetry. apply (Z.div_unique _ _ _ (a - b - i * cov)); nia.
Qed.

Lemma table_addr_eq tab esz cov b e n i a :
  table_ok tab esz cov b e n -> 0 <= i < n -> in_bucket b cov i a ->
  table_addr tab esz cov b e a = Ok (tab + esz * i).
Proof.
  intros (E & C & B & T & S1 & S2 & En) Hi Hb.
  assert (D := bucket_div b cov i a C Hb). destruct Hb as [L U].
  assert (R1 : (i + 1) * cov <= n * cov) by nia.
  assert (R0 : 0 <= i * cov) by nia.
  assert (R2 : esz * (i + 1) <= esz * n) by nia.
  assert (R3 : 0 <= esz * i) by nia.
  unfold table_addr.
  replace ((b <=? a) && ((e =? 0) || (a <? e))) with true.
  2:{ symmetry. apply andb_true_iff. split; [apply Z.leb_le; lia|].
      apply orb_true_iff. rewrite Z.eqb_eq, Z.ltb_lt. destruct En; [left; assumption|right; lia]. }
  replace (cov =? 0) with false by (symmetry; apply Z.eqb_neq; lia).
  rewrite s64_small by lia. rewrite Z.quot_div_nonneg by lia. rewrite D.
  assert (i <= i * cov) by nia.
  rewrite u64_small by lia. unfold table_index.
  rewrite (u64_small (esz * i)) by lia. rewrite u64_small by lia. reflexivity.
Qed.

Lemma entry_range_base_eq tab esz cov b e n i p :
  table_ok tab esz cov b e n -> 0 <= i < n -> tab + esz * i <= p < tab + esz * (i + 1) ->
  entry_range_base tab esz cov b p = Ok (b + i * cov).
Proof.
  intros (E & C & B & T & S1 & S2 & En) Hi Hp.
  assert (R1 : (i + 1) * cov <= n * cov) by nia.
  assert (R0 : 0 <= i * cov) by nia.
  assert (R2 : esz * (i + 1) <= esz * n) by nia.
  assert (R3 : 0 <= esz * i) by nia.
  unfold entry_range_base. replace (esz =? 0) with false by (symmetry; apply Z.eqb_neq; lia).
  rewrite (s64_small (p - tab)) by lia. rewrite Z.quot_div_nonneg by lia.
  assert (D : (p - tab) / esz = i).
  { symmetry. apply (Z.div_unique _ _ _ (p - tab - i * esz)); nia. }
  rewrite D. rewrite s64_small by lia. rewrite u64_small by lia. f_equal. lia.
Qed.

Lemma bucket_of tab esz cov b e n a :
  table_ok tab esz cov b e n -> b <= a < b + n * cov ->
  let i := (a - b) / cov in 0 <= i < n /\ in_bucket b cov i a.
Proof.
  intros (E & C & B & T & S1 & S2 & En) H i.
  assert (M := Z.mul_div_le (a - b) cov C). fold i in M.
  assert (M2 := Z.mul_succ_div_gt (a - b) cov C). fold i in M2.
  assert (P : 0 <= i) by (apply Z.div_pos; lia).
  split; [split; [exact P|]|split; nia].
  apply (Z.mul_lt_mono_pos_l cov); [exact C|]. lia.
Qed.

(* Two addresses share an entry exactly when they lie in the same bucket. *)
Theorem memtable_entry_iff_bucket_partial : forall tab esz cov b e n a a',
  table_ok tab esz cov b e n ->
  b <= a < b + n * cov -> b <= a' < b + n * cov ->
  exists p p', table_addr tab esz cov b e a = Ok p /\ table_addr tab esz cov b e a' = Ok p' /\
    tab <= p /\ p + esz <= tab + esz * n /\
    (p = p' <-> exists i, in_bucket b cov i a /\ in_bucket b cov i a').
Proof.
  intros tab esz cov b e n a a' H Ha Ha'.
  destruct (bucket_of tab esz cov b e n a H Ha) as [I1 B1].
  destruct (bucket_of tab esz cov b e n a' H Ha') as [I2 B2].
  set (i := (a - b) / cov) in *. set (j := (a' - b) / cov) in *.
  exists (tab + esz * i), (tab + esz * j).
  split; [apply (table_addr_eq _ _ _ _ _ n); assumption|].
  split; [apply (table_addr_eq _ _ _ _ _ n); assumption|].
  destruct H as (E & C & B & T & S1 & S2 & En).
  split; [nia|]. split; [nia|]. split.
  - intro Q. assert (i = j) by nia. exists i. split; [exact B1|]. rewrite H. exact B2.
  - intros (k & K1 & K2). apply bucket_div in K1; [|exact C]. apply bucket_div in K2; [|exact C].
    fold i in K1. fold j in K2. congruence.
Qed.

(* Address to entry and back gives the base of the address's bucket, from any byte of the
   entry; base plus offset recovers the address. *)
Theorem memtable_roundtrip_partial : forall tab esz cov b e n a,
  table_ok tab esz cov b e n -> b <= a < b + n * cov ->
  exists p base i,
    table_addr tab esz cov b e a = Ok p /\
    in_bucket b cov i a /\ base = b + i * cov /\
    (forall q, p <= q < p + esz -> entry_range_base tab esz cov b q = Ok base) /\
    addr_range_base tab esz cov b e a = Ok base /\
    exists o, addr_range_offset tab esz cov b e a = Ok o /\ base + o = a /\ 0 <= o < cov.
Proof.
  intros tab esz cov b e n a H Ha.
  destruct (bucket_of tab esz cov b e n a H Ha) as [I1 B1]. set (i := (a - b) / cov) in *.
  assert (A := table_addr_eq tab esz cov b e n i a H I1 B1).
  assert (R : forall q, tab + esz * i <= q < tab + esz * i + esz ->
              entry_range_base tab esz cov b q = Ok (b + i * cov)).
  { intros q Hq. apply (entry_range_base_eq _ _ _ _ e n); [exact H|exact I1|lia]. }
  exists (tab + esz * i), (b + i * cov), i.
  destruct H as (E & C & B & T & S1 & S2 & En). destruct B1 as [L U].
  split; [exact A|]. split; [split; assumption|]. split; [reflexivity|]. split; [exact R|].
  assert (RB : addr_range_base tab esz cov b e a = Ok (b + i * cov)).
  { unfold addr_range_base. rewrite A. cbn [bind]. apply R. lia. }
  split; [exact RB|]. exists (a - (b + i * cov)).
  assert (R1 : (i + 1) * cov <= n * cov) by nia.
  assert (R0 : 0 <= i * cov) by nia.
  split; [|lia]. unfold addr_range_offset. rewrite RB. cbn [bind].
  rewrite s64_small by lia. reflexivity.
Qed.

(* The size mapped for a bounded range is exactly what the entries need. *)
Theorem memtable_mapping_exact : forall esz k b n,
  0 < esz -> 0 <= k < 32 -> 0 <= b -> 0 < n -> b + n * 2 ^ k <= 2 ^ 64 -> esz * n < 2 ^ 64 ->
  mapping_size esz (2 ^ k) b (b + n * 2 ^ k) = Ok (esz * n).
Proof.
  intros esz k b n E K B N S1 S2. unfold mapping_size.
  assert (P : 0 < 2 ^ k) by (apply Z.pow_pos_nonneg; lia).
  replace (is_power_of_two (2 ^ k)) with true.
  2:{ symmetry. apply andb_true_iff. split; [apply Z.ltb_lt; exact P|].
      rewrite Z.log2_pow2 by lia. apply Z.eqb_refl. }
  cbn [negb]. replace (b + n * 2 ^ k - b) with (n * 2 ^ k) by lia.
  assert (Q : 0 < n * 2 ^ k) by nia.
  assert (U : u64 (s64 (n * 2 ^ k)) = (n * 2 ^ k) mod 2 ^ 64).
  { unfold u64, s64. rewrite Zminus_mod_idemp_l. f_equal. lia. }
  rewrite U.
  assert (W : b = 0 /\ n * 2 ^ k = 2 ^ 64 \/ n * 2 ^ k < 2 ^ 64) by lia.
  destruct W as [[-> W]|W].
  - rewrite W. rewrite Z_mod_same_full. cbn [Z.eqb].
    rewrite Z.log2_pow2 by lia.
    assert (NE : n = 2 ^ (64 - k)).
    { apply (Z.mul_reg_r _ _ (2 ^ k)); [lia|]. rewrite W, <- Z.pow_add_r by lia. f_equal. lia. }
    destruct (Z.leb_spec 64 (64 - k)) as [L|L].
    + exfalso. assert (k = 0) by lia. subst k. rewrite NE in S2. change (2 ^ (64 - 0)) with (2 ^ 64) in S2. nia.
    + rewrite <- NE. rewrite u64_small by nia. f_equal. lia.
  - rewrite Z.mod_small by lia.
    destruct (Z.eqb_spec (n * 2 ^ k) 0); [lia|].
    rewrite Z.mod_mul by lia. cbn [Z.eqb negb]. rewrite Z.div_mul by lia.
    rewrite u64_small by nia. f_equal. lia.
Qed.

(* Addresses in the upper half of a whole-address-space table: the signed division sends
   the entry below the table. *)
Theorem memtable_upper_half_refuted : exists tab esz cov a p,
  mapping_size esz cov 0 0 = Ok (2 ^ 44) /\
  table_addr tab esz cov 0 0 a = Ok p /\ ~ (tab <= p < tab + 2 ^ 44).
Proof.
  exists (2 ^ 46), 8, (2 ^ 23), (2 ^ 63 + 2 ^ 23), (2 ^ 46 - 2 ^ 43 + 8).
  split; [vm_compute; reflexivity|]. split; [vm_compute; reflexivity|]. lia.
Qed.

(* One-byte buckets over the whole address space: the entry count is an over-wide shift. *)
Theorem memtable_full_bytes_refuted : mapping_size 1 1 0 0 = UB.
Proof. reflexivity. Qed.

Module Memtable_ex.
  (* page index: 4096-byte buckets, 2-byte entries, 2^35 of them *)
  Example ok : table_ok (2 ^ 46) 2 4096 0 0 (2 ^ 35).
  Proof. unfold table_ok. repeat split; try lia. Qed.
  Example case : table_addr (2 ^ 46) 2 4096 0 0 (2 ^ 40 + 5000) = Ok (2 ^ 46 + 2 * (2 ^ 28 + 1)) /\
    addr_range_base (2 ^ 46) 2 4096 0 0 (2 ^ 40 + 5000) = Ok (2 ^ 40 + 4096) /\
    addr_range_offset (2 ^ 46) 2 4096 0 0 (2 ^ 40 + 5000) = Ok 904.
  Proof. vm_compute. auto. Qed.
  Example bounded : table_ok 65536 3 16 4096 (4096 + 100 * 16) 100 /\
    mapping_size 3 (2 ^ 4) 4096 (4096 + 100 * 2 ^ 4) = Ok 300.
  Proof. split; [unfold table_ok; repeat split; try lia|vm_compute; reflexivity]. Qed.
End Memtable_ex.

Print Assumptions memtable_entry_iff_bucket_partial.
Print Assumptions memtable_roundtrip_partial.
Print Assumptions memtable_mapping_exact.
Print Assumptions memtable_upper_half_refuted.
Print Assumptions memtable_full_bytes_refuted.
