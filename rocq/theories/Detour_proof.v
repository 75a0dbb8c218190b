From Verif Require Import Base Meta_model Meta_proof Detour_model Detour_spec.

Lemma put_out m a n v x : x < a \/ a + n <= x -> put m a n v x = m x.
Proof. intros H. unfold put. destruct (a <=? x) eqn:E1; destruct (x <? a + n) eqn:E2; cbn [andb]; auto; lia. Qed.
Lemma put_in m a n v k : 0 <= k < n -> put m a n v (a + k) = (v / 256 ^ k) mod 256.
Proof. intros H. unfold put. replace (a <=? a + k) with true by lia. replace (a + k <? a + n) with true by lia.
  cbn [andb]. replace (a + k - a) with k by lia. reflexivity. Qed.
Lemma put_bytes m a n v : bytes_ok m -> bytes_ok (put m a n v).
Proof. intros H x. unfold put. destruct ((a <=? x) && (x <? a + n)); [apply Z.mod_pos_bound; lia | apply H]. Qed.

Lemma split256 v B : 0 < B -> v mod (256 * B) = v mod 256 + 256 * ((v / 256) mod B).
Proof. intros H. apply Z.rem_mul_r; lia. Qed.
Lemma get4_bound m a : bytes_ok m -> 0 <= get4 m a < 2 ^ 32.
Proof. intros H. unfold get4. pose proof (H a); pose proof (H (a+1)); pose proof (H (a+2)); pose proof (H (a+3)).
  change (2^32) with 4294967296. lia. Qed.
Lemma get8_bound m a : bytes_ok m -> 0 <= get8 m a < W64.
Proof. intros H. unfold get8. pose proof (get4_bound m a H). pose proof (get4_bound m (a + 4) H).
  change (2^32) with 4294967296 in *. change W64 with 18446744073709551616. lia. Qed.
Lemma get4_ext m m' a a' : (forall k, 0 <= k < 4 -> m' (a' + k) = m (a + k)) -> get4 m' a' = get4 m a.
Proof. intros H. unfold get4. pose proof (H 0 ltac:(lia)) as H0. rewrite !Z.add_0_r in H0.
  rewrite H0, (H 1), (H 2), (H 3) by lia. reflexivity. Qed.
Lemma get8_ext m m' a a' : (forall k, 0 <= k < 8 -> m' (a' + k) = m (a + k)) -> get8 m' a' = get8 m a.
Proof. intros H. unfold get8. rewrite (get4_ext m m' a a') by (intros; apply H; lia).
  rewrite (get4_ext m m' (a + 4) (a' + 4)); [reflexivity|].
  intros k Hk. rewrite <- !Z.add_assoc. apply H; lia. Qed.

Lemma four v : v mod 2 ^ 32 = v mod 256 + 256 * ((v / 256) mod 256) + 65536 * ((v / 65536) mod 256) + 16777216 * ((v / 16777216) mod 256).
Proof.
  change (2 ^ 32) with (256 * (256 * (256 * 256))).
  rewrite split256 by lia. rewrite split256 by lia. rewrite split256 by lia.
  rewrite !Z.div_div by lia. change (256 * 256) with 65536. change (65536 * 256) with 16777216. lia.
Qed.
Lemma get4_put m a n v : 4 <= n -> get4 (put m a n v) a = v mod 2 ^ 32.
Proof.
  intros H. unfold get4.
  replace (put m a n v a) with (put m a n v (a + 0)) by (f_equal; lia).
  rewrite !put_in by lia. rewrite four.
  change (256 ^ 0) with 1. change (256 ^ 1) with 256. change (256 ^ 2) with 65536. change (256 ^ 3) with 16777216.
  rewrite Z.div_1_r. reflexivity.
Qed.
Lemma get8_put m a v : get8 (put m a 8 v) a = v mod W64.
Proof.
  unfold get8. rewrite get4_put by lia.
  assert (E : get4 (put m a 8 v) (a + 4) = (v / 2 ^ 32) mod 2 ^ 32).
  { unfold get4. rewrite <- !Z.add_assoc. rewrite !put_in by lia. rewrite four.
    change (4 + 1) with 5. change (4 + 2) with 6. change (4 + 3) with 7.
    change (256 ^ 4) with (2^32 * 1). change (256 ^ 5) with (2^32 * 256).
    change (256 ^ 6) with (2^32 * 65536). change (256 ^ 7) with (2^32 * 16777216).
    rewrite <- !Z.div_div by (vm_compute; congruence || reflexivity). rewrite Z.div_1_r. lia. }
  rewrite E. change W64 with (2 ^ 32 * 2 ^ 32).
  rewrite (Z.rem_mul_r v (2^32) (2^32)) by (vm_compute; congruence || reflexivity).
  change 4294967296 with (2 ^ 32). reflexivity.
Qed.

Lemma sext_of x d : - 2 ^ 31 <= d < 2 ^ 31 -> x mod 2 ^ 32 = d mod 2 ^ 32 -> sext (x mod 2 ^ 32) = d.
Proof.
  intros H E. rewrite E. unfold sext.
  change (2 ^ 31) with 2147483648 in *. change (2 ^ 32) with 4294967296 in *.
  destruct (d mod 4294967296 <? 2147483648) eqn:C; lia.
Qed.
Lemma sext_cong x : 0 <= x < 2 ^ 32 -> exists k, sext x = x + k * 2 ^ 32.
Proof. intros H. unfold sext. destruct (x <? 2 ^ 31); [exists 0 | exists (-1)]; lia. Qed.

(* a 32-bit displacement that was computed modulo 2^64 is the one that reaches *)
Lemma disp from to : near from to -> sext (((to - from) mod W64) mod 2 ^ 32) = 
  (let d := ((to - from) mod W64) mod 2 ^ 32 in sext d) /\
  (from + sext (((to - from) mod W64) mod 2 ^ 32)) mod W64 = to mod W64.
Proof.
  intros (d & Hd & E). split; [reflexivity|].
  assert (E2 : ((to - from) mod W64) mod 2 ^ 32 = d mod 2 ^ 32).
  { change W64 with 18446744073709551616 in *. change (2 ^ 32) with 4294967296 in *. lia. }
  rewrite (sext_of _ d Hd E2). exact E.
Qed.

Lemma put_jump_spec m a to : near (a + 5) to -> 0 <= to < W64 -> bytes_ok m ->
  exists m', put_jump m a to = Ok m' /\ bytes_ok m' /\ jumps m' a to /\ (forall x, x < a \/ a + 5 <= x -> m' x = m x).
Proof.
  intros Hn Ht Hb. unfold put_jump, apply_reloc. change (R_PC32 =? R_PC32) with true. cbv iota.
  eexists. split; [reflexivity|]. split; [apply put_bytes, put_bytes, Hb|]. split.
  - unfold jumps. split.
    + rewrite put_out by lia. replace a with (a + 0) at 2 by lia. rewrite put_in by lia. reflexivity.
    + rewrite get4_put by lia.
      replace (to - (a + 1) + -4) with (to - (a + 5)) by lia.
      destruct (disp _ _ Hn) as (_ & E). rewrite E. apply Z.mod_small; lia.
  - intros x Hx. rewrite !put_out by lia. reflexivity.
Qed.

(* one field *)
Lemma refers_ext m m' a a' ty : (forall k, 0 <= k < fsize ty -> m' (a' + k) = m (a + k)) -> ty <> R_PC32 ->
  refers m' a' ty = refers m a ty.
Proof.
  intros H Hty. unfold refers, fsize in *. replace (ty =? R_PC32) with false by lia.
  destruct (ty =? R_64); [apply get8_ext | apply get4_ext]; intros; apply H; lia.
Qed.
Lemma refers_same m m' a ty : (forall k, 0 <= k < fsize ty -> m' (a + k) = m (a + k)) ->
  refers m' a ty = refers m a ty.
Proof.
  intros H. unfold refers, fsize in *. destruct (ty =? R_PC32) eqn:E.
  - replace (ty =? R_64) with false in H by (unfold R_PC32, R_64 in *; lia).
    rewrite (get4_ext m m' a a) by (intros; apply H; lia). reflexivity.
  - destruct (ty =? R_64); [apply get8_ext | apply get4_ext]; intros; apply H; lia.
Qed.

Lemma one_field m a b ty : bytes_ok m -> known ty ->
  (ty = R_PC32 -> near b (refers m a ty)) ->
  exists s m', read_reloc m a ty = Ok s /\ apply_reloc m b ty s 0 = Ok m' /\ bytes_ok m' /\
    (forall x, x < b \/ b + fsize ty <= x -> m' x = m x) /\ refers m' b ty = refers m a ty.
Proof.
  intros Hb Hk Hn. pose proof (get4_bound m a Hb) as G4. pose proof (get8_bound m a Hb) as G8.
  destruct Hk as [->|[->|[->|[->| ->]]]]; unfold read_reloc, apply_reloc, refers, fsize in *; cbn [Z.eqb Pos.eqb R_64 R_PC32 R_32 R_32S R_TPOFF32] in *.
  - eexists _, _; split; [reflexivity|]; split; [reflexivity|]; split; [apply put_bytes, Hb|]; split;
      [intros; apply put_out; lia|]. rewrite get8_put. rewrite Z.add_0_r, Zmod_mod. apply Z.mod_small; lia.
  - eexists _, _; split; [reflexivity|]; split; [reflexivity|]; split; [apply put_bytes, Hb|]; split;
      [intros; apply put_out; lia|]. rewrite get4_put by lia.
    specialize (Hn eq_refl). destruct Hn as (d & Hd & E).
    destruct (sext_cong (get4 m a) G4) as (k & Ek). rewrite Ek in *.
    set (g := get4 m a) in *. clearbody g.
    assert (E2 : (((a + g) mod W64 - b + 0) mod W64) mod 2 ^ 32 = d mod 2 ^ 32).
    { change W64 with 18446744073709551616 in *. change (2 ^ 32) with 4294967296 in *. clear - E. lia. }
    rewrite (sext_of _ d Hd E2). rewrite E. apply Zmod_mod.
  - eexists _, _; split; [reflexivity|]; split; [reflexivity|]; split; [apply put_bytes, Hb|]; split;
      [intros; apply put_out; lia|]. rewrite get4_put by lia. rewrite Z.add_0_r.
    rewrite (Z.mod_small (get4 m a)) by (change W64 with 18446744073709551616; change (2 ^ 32) with 4294967296 in *; lia).
    apply Z.mod_small; lia.
  - eexists _, _; split; [reflexivity|]; split; [reflexivity|]; split; [apply put_bytes, Hb|]; split;
      [intros; apply put_out; lia|]. rewrite get4_put by lia.
    rewrite (Z.mod_small (get4 m a) (2 ^ 32)) by lia. change (sext (0 mod 2 ^ 32)) with 0. rewrite Z.add_0_r.
    destruct (sext_cong (get4 m a) G4) as (k & Ek). rewrite Ek.
    set (g := get4 m a) in *. clearbody g. change W64 with 18446744073709551616 in *. change (2 ^ 32) with 4294967296 in *. lia.
  - eexists _, _; split; [reflexivity|]; split; [reflexivity|]; split; [apply put_bytes, Hb|]; split;
      [intros; apply put_out; lia|]. rewrite get4_put by lia. rewrite Z.add_0_r.
    rewrite (Z.mod_small (get4 m a)) by (change W64 with 18446744073709551616; change (2 ^ 32) with 4294967296 in *; lia).
    apply Z.mod_small; lia.
Qed.

Definition fat (t : Z) (e : Z * field) : Z := t + (fst e + f_off (snd e)).
Definition fdisj (e g : Z * field) : Prop :=
  fst e + f_off (snd e) + fsize (f_type (snd e)) <= fst g + f_off (snd g) \/
  fst g + f_off (snd g) + fsize (f_type (snd g)) <= fst e + f_off (snd e).

Lemma fsize_pos ty : 0 < fsize ty. Proof. unfold fsize. destruct (ty =? R_64); lia. Qed.

Lemma relocate_spec func tramp n : apart func n tramp n -> forall fs m1, bytes_ok m1 ->
  ForallOrdPairs fdisj fs ->
  (forall e, In e fs -> known (f_type (snd e)) /\ 0 <= fst e + f_off (snd e) /\ fst e + f_off (snd e) + fsize (f_type (snd e)) <= n) ->
  (forall e, In e fs -> f_type (snd e) = R_PC32 -> near (fat tramp e) (refers m1 (fat func e) R_PC32)) ->
  exists m2, relocate m1 func tramp fs = Ok m2 /\ bytes_ok m2 /\
    (forall x, (forall e, In e fs -> x < fat tramp e \/ fat tramp e + fsize (f_type (snd e)) <= x) -> m2 x = m1 x) /\
    (forall e, In e fs -> refers m2 (fat tramp e) (f_type (snd e)) = refers m1 (fat func e) (f_type (snd e))).
Proof.
  intros Hap. induction fs as [|[o f] r IH]; intros m1 Hb Hd Hf Hn.
  - exists m1. cbn. repeat split; auto; contradiction || apply Hb.
  - destruct (Hf (o, f) (or_introl eq_refl)) as (Hk & Ho & Hl). cbn [fst snd] in *.
    destruct (one_field m1 (func + (o + f_off f)) (tramp + (o + f_off f)) (f_type f) Hb Hk) as (s & m' & E1 & E2 & Hb' & Hout & Href).
    { intros Hty. specialize (Hn (o, f) (or_introl eq_refl) Hty). cbn [fst snd fat] in Hn. unfold fat in Hn; cbn [fst snd] in Hn. rewrite Hty. exact Hn. }
    assert (Hsame : forall e, In e ((o, f) :: r) -> forall k, 0 <= k < fsize (f_type (snd e)) -> m' (fat func e + k) = m1 (fat func e + k)).
    { intros e He k Hk'. apply Hout. destruct (Hf e He) as (_ & A & B). unfold fat. unfold apart in Hap. pose proof (fsize_pos (f_type f)). lia. }
    inversion Hd as [|? ? Hd1 Hd2]; subst.
    destruct (IH m' Hb' Hd2) as (m2 & E3 & Hb2 & Hout2 & Href2).
    { intros e He. apply Hf. right; exact He. }
    { intros e He Hty. rewrite (refers_same m1 m').
      - apply Hn; [right; exact He | exact Hty].
      - intros k Hk'. apply (Hsame e (or_intror He)). rewrite Hty. exact Hk'. }
    exists m2. cbn [relocate]. rewrite E1. cbn [bind]. rewrite E2. cbn [bind]. split; [exact E3|]. split; [exact Hb2|]. split.
    + intros x Hx. rewrite Hout2 by (intros e He; apply Hx; right; exact He). apply Hout.
      specialize (Hx (o, f) (or_introl eq_refl)). unfold fat in Hx. cbn [fst snd] in Hx. exact Hx.
    + intros e [<-|He].
      * unfold fat; cbn [fst snd]. rewrite <- Href. apply refers_same. intros k Hk'. apply Hout2.
        intros g Hg. rewrite Forall_forall in Hd1. specialize (Hd1 g Hg). unfold fdisj in Hd1. cbn [fst snd] in Hd1.
        unfold fat. lia.
      * rewrite Href2 by exact He. apply refers_same. intros k Hk'. apply (Hsame e (or_intror He)). exact Hk'.
Qed.

Section Chain.
Variable decode : mem -> Z -> Z -> insn.
Hypothesis DOK : decoder_ok decode.

Inductive chain (m : mem) (limit func : Z) : Z -> list (Z * insn) -> Z -> Prop :=
| c_done o : chain m limit func o [] o
| c_insn o i r q : i = decode m (func + o) limit -> 0 < i_len i -> chain m limit func (o + i_len i) r q ->
    chain m limit func o ((o, i) :: r) q.

Definition all_fields (il : list (Z * insn)) : list (Z * field) :=
  flat_map (fun e => map (pair (fst e)) (fields (snd e))) il.

Lemma dlen m p limit : i_len (decode m p limit) = 0 \/ (1 <= i_len (decode m p limit) <= 15 /\ p + i_len (decode m p limit) <= limit).
Proof. destruct (proj1 DOK m p limit) as [H|(A & B & _)]; [left; exact H | right; tauto]. Qed.
Lemma dfields m p limit f : 0 < i_len (decode m p limit) -> In f (fields (decode m p limit)) -> field_ok (decode m p limit) f.
Proof. intros H Hf. destruct (proj1 DOK m p limit) as [H0|(A & B & C & _)]; [lia | exact (C f Hf)]. Qed.
Lemma short_no_fields m p limit : 0 < i_len (decode m p limit) < 5 -> fields (decode m p limit) = [].
Proof.
  intros H. destruct (fields (decode m p limit)) as [|f r] eqn:E; [reflexivity|].
  destruct (dfields m p limit f) as (_ & A & B); [lia | rewrite E; left; reflexivity |].
  pose proof (fsize_pos (f_type f)). unfold fsize in *. destruct (f_type f =? R_64); lia.
Qed.
Lemma append_none nb i : fields i = [] -> append (append [] nb (i_f0 i)) nb (i_f1 i) = [].
Proof. unfold fields, append. cbn [List.filter]. destruct (f_type (i_f0 i) =? 0); destruct (f_type (i_f1 i) =? 0); cbn; congruence. Qed.
Lemma append_two nb i : append (append [] nb (i_f0 i)) nb (i_f1 i) = map (pair nb) (fields i).
Proof. unfold fields, append. cbn [List.filter]. destruct (f_type (i_f0 i) =? 0); destruct (f_type (i_f1 i) =? 0); reflexivity. Qed.

Lemma means_len m p i : Z.of_nat (length (m_bytes (means m p i))) = Z.max 0 (i_len i).
Proof. unfold means. cbn [m_bytes]. rewrite map_length, seq_length. lia. Qed.

Lemma straight_cases m limit p ms q : straight decode m limit p ms q ->
  (ms = [] /\ q = p) \/
  (exists r, ms = means m p (decode m p limit) :: r /\ 0 < i_len (decode m p limit) /\
     straight decode m limit (p + i_len (decode m p limit)) r q).
Proof. intros H. destruct H; [left; auto | right; eauto]. Qed.

Lemma straight_last m limit ms0 : forall p x q, straight decode m limit p (ms0 ++ [x]) q ->
  p <= q - Z.of_nat (length (m_bytes x)).
Proof.
  induction ms0 as [|y r IH]; intros p x q H; apply straight_cases in H; cbn [app] in H.
  - destruct H as [(H & _)|(r & E & L & H)]; [discriminate|]. injection E as -> <-. apply straight_cases in H.
    destruct H as [(_ & ->)|(r & E & _)]; [|discriminate]. rewrite means_len. lia.
  - destruct H as [(H & _)|(r' & E & L & H)]; [discriminate|]. injection E as -> <-. apply IH in H. lia.
Qed.

Lemma prologue_spec m func limit n : 5 <= n -> forall ms0 x fuel nb,
  straight decode m limit (func + nb) (ms0 ++ [x]) (func + n) -> n - Z.of_nat (length (m_bytes x)) < 5 ->
  (5 - nb <= Z.of_nat fuel) -> 0 <= nb ->
  exists il, prologue decode fuel m func limit nb [] = Ok (Some (n, all_fields il)) /\
    chain m limit func nb il n /\ n <= 19 /\
    ms0 ++ [x] = map (fun e => means m (func + fst e) (snd e)) il /\
    ForallOrdPairs fdisj (all_fields il).
Proof.
  intros Hn. induction ms0 as [|y r IH]; intros x fuel nb H Hx Hfu Hnb; pose proof (straight_last _ _ _ _ _ _ H) as HL;
    apply straight_cases in H; cbn [app] in H.
  - destruct H as [(H & _)|(r & E & L & H)]; [discriminate|]. injection E as -> <-. apply straight_cases in H.
    destruct H as [(_ & E)|(r & E & _)]; [|discriminate].
    rewrite means_len in *. set (i := decode m (func + nb) limit) in *.
    assert (En : n = nb + i_len i) by lia. assert (nb < 5) by lia.
    exists [(nb, i)]. destruct fuel as [|fuel]; [lia|].
    cbn [prologue]. replace (nb <? CLOBBER) with true by (unfold CLOBBER; lia). cbv zeta. fold i.
    replace (i_len i =? 0) with false by lia. rewrite append_two.
    assert (Hp : prologue decode fuel m func limit (nb + i_len i) (map (pair nb) (fields i)) = Ok (Some (nb + i_len i, map (pair nb) (fields i)))).
    { destruct fuel; cbn [prologue]; replace (nb + i_len i <? CLOBBER) with false by (unfold CLOBBER; lia); reflexivity. }
    rewrite Hp, <- En. unfold all_fields at 1; cbn [flat_map fst snd]. rewrite app_nil_r. split; [reflexivity|].
    pose proof (dlen m (func + nb) limit) as D. fold i in D.
    split; [|split; [lia|split]].
    + rewrite En. apply c_insn; [reflexivity | exact L | apply c_done].
    + reflexivity.
    + unfold all_fields; cbn [flat_map fst snd]. rewrite app_nil_r.
      pose proof (proj1 DOK m (func + nb) limit) as PD. cbv zeta in PD. fold i in PD.
      destruct PD as [H0|(A & B & C & D2)]; [lia|].
      unfold fields. cbn [List.filter].
      unfold fields in D2; cbn [List.filter] in D2.
      destruct (negb (f_type (i_f0 i) =? 0)); destruct (negb (f_type (i_f1 i) =? 0)); cbn [map];
        [apply FOP_cons; [apply Forall_cons; [|apply Forall_nil] | apply FOP_cons; [apply Forall_nil | apply FOP_nil]]
        | apply FOP_cons; [apply Forall_nil | apply FOP_nil] | apply FOP_cons; [apply Forall_nil | apply FOP_nil] | apply FOP_nil].
      destruct (D2 (i_f0 i) (i_f1 i) eq_refl); unfold fdisj; cbn [fst snd]; lia.
  - destruct H as [(H & _)|(r' & E & L & H)]; [discriminate|]. injection E as -> <-.
    set (i := decode m (func + nb) limit) in *.
    pose proof (straight_last _ _ _ _ _ _ H) as HL2.
    assert (Hnf : fields i = []). { apply short_no_fields. fold i. lia. }
    destruct (IH x (pred fuel) (nb + i_len i)) as (il & E & Hc & H19 & Hms & Hd).
    { rewrite Z.add_assoc. exact H. } { exact Hx. } { lia. } { lia. }
    exists ((nb, i) :: il). destruct fuel as [|fuel]; [lia|].
    cbn [prologue]. replace (nb <? CLOBBER) with true by (unfold CLOBBER; lia). cbv zeta. fold i.
    replace (i_len i =? 0) with false by lia. rewrite append_none by exact Hnf. cbn [pred] in E. rewrite E.
    assert (Ea : all_fields ((nb, i) :: il) = all_fields il).
    { unfold all_fields; cbn [flat_map fst snd]. rewrite Hnf. reflexivity. }
    rewrite Ea. split; [reflexivity|]. split; [apply c_insn; auto|]. split; [exact H19|]. split.
    + cbn [map fst snd]. rewrite <- Hms. reflexivity.
    + exact Hd.
Qed.

Lemma chain_cases m limit func o il q : chain m limit func o il q ->
  (il = [] /\ q = o) \/ (exists r, il = (o, decode m (func + o) limit) :: r /\ 0 < i_len (decode m (func + o) limit) /\
     chain m limit func (o + i_len (decode m (func + o) limit)) r q).
Proof. intros H. destruct H; [left; auto | right; subst; eauto]. Qed.
Lemma chain_le m limit func il : forall o q, chain m limit func o il q -> o <= q.
Proof. induction il as [|x r IH]; intros o q H; apply chain_cases in H; destruct H as [(_ & ->)|(r' & E & L & H)]; try lia; try discriminate.
  injection E as -> <-. apply IH in H. lia. Qed.
Lemma chain_in m limit func il : forall o q, chain m limit func o il q -> forall o' i, In (o', i) il ->
  i = decode m (func + o') limit /\ 0 < i_len i /\ o <= o' /\ o' + i_len i <= q.
Proof.
  induction il as [|x r IH]; intros o q H o' i Hin; [contradiction|].
  apply chain_cases in H. destruct H as [(H & _)|(r' & E & L & H)]; [discriminate|]. injection E as -> <-.
  pose proof (chain_le _ _ _ _ _ _ H). destruct Hin as [Hin|Hin].
  - injection Hin as <- <-. repeat split; auto; lia.
  - destruct (IH _ _ H _ _ Hin) as (A & B & C & D). repeat split; auto; lia.
Qed.
Lemma chain_apart m limit func il : forall o q, chain m limit func o il q -> forall o1 i1 o2 i2, In (o1, i1) il -> In (o2, i2) il ->
  o1 = o2 \/ o1 + i_len i1 <= o2 \/ o2 + i_len i2 <= o1.
Proof.
  induction il as [|x r IH]; intros o q H o1 i1 o2 i2 H1 H2; [contradiction|].
  apply chain_cases in H. destruct H as [(H & _)|(r' & E & L & H)]; [discriminate|]. injection E as -> <-.
  destruct H1 as [H1|H1], H2 as [H2|H2].
  - injection H1 as <- <-. injection H2 as <- <-. auto.
  - injection H1 as <- <-. destruct (chain_in _ _ _ _ _ _ H _ _ H2) as (_ & _ & C & _). lia.
  - injection H2 as <- <-. destruct (chain_in _ _ _ _ _ _ H _ _ H1) as (_ & _ & C & _). lia.
  - exact (IH _ _ H _ _ _ _ H1 H2).
Qed.
Lemma all_fields_in il e : In e (all_fields il) <-> exists i, In (fst e, i) il /\ In (snd e) (fields i).
Proof.
  unfold all_fields. rewrite in_flat_map. split.
  - intros ((o & i) & H & H2). cbn [fst snd] in H2. apply in_map_iff in H2. destruct H2 as (f & <- & Hf). exists i. auto.
  - intros (i & H & Hf). exists (fst e, i). split; [exact H|]. cbn [fst snd]. apply in_map_iff. exists (snd e). destruct e; auto.
Qed.

Lemma chain_reach m limit func tramp il : forall o q, chain m limit func o il q ->
  in_reach (tramp + o) (map (fun e => means m (func + fst e) (snd e)) il) ->
  forall e, In e (all_fields il) -> f_type (snd e) = R_PC32 -> near (fat tramp e) (refers m (fat func e) R_PC32).
Proof.
  induction il as [|x r IH]; intros o q H Hr e He Hty; [contradiction|].
  apply chain_cases in H. destruct H as [(H & _)|(r' & E & L & H)]; [discriminate|]. injection E as -> <-.
  cbn [map fst snd] in Hr. inversion Hr as [|? ? Hr1 Hr2]; subst. rewrite means_len in Hr2.
  unfold all_fields in He. cbn [flat_map fst snd] in He. apply in_app_or in He. destruct He as [He|He].
  - apply in_map_iff in He. destruct He as (f & <- & Hf). unfold fat; cbn [fst snd] in *.
    specialize (Hr1 f (refers m (func + o + f_off f) (f_type f))). unfold means in Hr1; cbn [m_refs] in Hr1.
    rewrite Hty in Hr1. rewrite !Z.add_assoc. apply Hr1; [|reflexivity].
    apply in_map_iff. exists f. rewrite Hty. auto.
  - apply (IH (o + i_len (decode m (func + o) limit)) q H); auto.
    replace (tramp + (o + i_len (decode m (func + o) limit))) with (tramp + o + Z.max 0 (i_len (decode m (func + o) limit))) by lia.
    exact Hr2.
Qed.

Lemma means_eq m m' p p' i : (forall k, 0 <= k < i_len i -> in_field i k = false -> m' (p' + k) = m (p + k)) ->
  (forall f, In f (fields i) -> refers m' (p' + f_off f) (f_type f) = refers m (p + f_off f) (f_type f)) ->
  means m' p' i = means m p i.
Proof.
  intros H1 H2. unfold means. f_equal.
  - apply map_ext_in. intros k Hk. apply in_seq in Hk. cbv zeta. destruct (in_field i (Z.of_nat k)) eqn:E; [reflexivity|].
    rewrite H1; [reflexivity | lia | exact E].
  - apply map_ext_in. intros f Hf. rewrite H2 by exact Hf. reflexivity.
Qed.

Lemma chain_straight m limit func m' tramp n il : forall o q, chain m limit func o il q -> q <= n ->
  (forall o' i k, In (o', i) il -> 0 <= k < i_len i -> in_field i k = false -> m' (tramp + o' + k) = m (func + o' + k)) ->
  (forall o' i f, In (o', i) il -> In f (fields i) -> refers m' (tramp + o' + f_off f) (f_type f) = refers m (func + o' + f_off f) (f_type f)) ->
  straight decode m' (tramp + n) (tramp + o) (map (fun e => means m (func + fst e) (snd e)) il) (tramp + q).
Proof.
  induction il as [|x r IH]; intros o q H Hq H1 H2; apply chain_cases in H; destruct H as [(E & ->)|(r' & E & L & H)]; try discriminate.
  - apply s_done.
  - injection E as -> <-. cbn [map fst snd]. set (i := decode m (func + o) limit) in *.
    pose proof (chain_le _ _ _ _ _ _ H).
    assert (Ed : decode m' (tramp + o) (tramp + n) = i).
    { apply (proj2 DOK m (func + o) limit); fold i; [exact L | lia |].
      intros k Hk Hf. apply (H1 o i k); [left; reflexivity | exact Hk | exact Hf]. }
    assert (Em : means m (func + o) i = means m' (tramp + o) (decode m' (tramp + o) (tramp + n))).
    { rewrite Ed. symmetry. apply means_eq.
      - intros k Hk Hf. apply (H1 o i k); [left; reflexivity | exact Hk | exact Hf].
      - intros f Hf. apply (H2 o i f); [left; reflexivity | exact Hf]. }
    rewrite Em. apply s_insn; rewrite Ed; [exact L|].
    rewrite <- Z.add_assoc. apply IH; auto.
    + intros. apply H1 with (i := i0); auto. right; assumption.
    + intros. apply H2 with (i := i0); auto. right; assumption.
Qed.

Lemma straight_chain m limit func : forall ms o q, straight decode m limit (func + o) ms (func + q) ->
  exists il, chain m limit func o il q /\ ms = map (fun e => means m (func + fst e) (snd e)) il.
Proof.
  induction ms as [|x r IH]; intros o q H; apply straight_cases in H.
  - destruct H as [(_ & E)|(r & E & _)]; [|discriminate]. exists []. split; [|reflexivity]. replace q with o by lia. apply c_done.
  - destruct H as [(E & _)|(r' & E & L & H)]; [discriminate|]. injection E as -> <-.
    rewrite <- Z.add_assoc in H. destruct (IH _ _ H) as (il & Hc & ->).
    exists ((o, decode m (func + o) limit) :: il). split; [apply c_insn; auto | reflexivity].
Qed.

(* a straight run depends only on the bytes it covers *)
Lemma straight_same m m' limit p ms n : straight decode m limit p ms (p + n) -> p + n <= limit ->
  (forall x, p <= x < p + n -> m' x = m x) -> straight decode m' limit p ms (p + n).
Proof.
  intros H Hl Hs.
  assert (H0 : straight decode m limit (p + 0) ms (p + n)) by (rewrite Z.add_0_r; exact H).
  destruct (straight_chain _ _ _ _ _ _ H0) as (il & Hc & ->).
  pose proof (chain_straight m limit p m' p (limit - p) il 0 n Hc) as G.
  replace (p + (limit - p)) with limit in G by lia. rewrite Z.add_0_r in G. apply G; [lia| |].
  - intros o i k Hin Hk _. destruct (chain_in _ _ _ _ _ _ Hc _ _ Hin) as (_ & _ & A & B). apply Hs. lia.
  - intros o i f Hin Hf. destruct (chain_in _ _ _ _ _ _ Hc _ _ Hin) as (E & L & A & B).
    apply refers_same. intros k Hk. apply Hs.
    destruct (dfields m (p + o) limit f) as (_ & C & D); rewrite <- E in *; auto. lia.
Qed.

Theorem detour_ok m func limit dfunc slot tramp n ms :
  bytes_ok m -> displaced decode m limit func ms n ->
  0 <= func -> func + n < W64 -> 0 <= tramp < W64 -> 0 <= dfunc < W64 ->
  apart func n tramp (n + 5) -> apart slot 8 func n -> apart slot 8 tramp (n + 5) ->
  near (func + 5) dfunc -> near (tramp + n + 5) (func + n) -> in_reach tramp ms ->
  exists m', detour decode m func limit dfunc slot tramp = Ok (m', tramp + n + 5) /\ bytes_ok m' /\ n <= 19 /\
    redirected decode m' func dfunc slot tramp n ms /\
    (forall x, (x < func \/ func + 5 <= x) -> (x < slot \/ slot + 8 <= x) -> (x < tramp \/ tramp + n + 5 <= x) -> m' x = m x).
Proof.
  intros Hb (Hst & Hn & ms0 & x & -> & Hx) Hf1 Hf2 Ht Hdf A1 A2 A3 N1 N2 Hr.
  assert (Hst0 : straight decode m limit (func + 0) (ms0 ++ [x]) (func + n)) by (rewrite Z.add_0_r; exact Hst).
  destruct (prologue_spec m func limit n Hn ms0 x 5 0 Hst0 Hx ltac:(lia) ltac:(lia)) as (il & Ep & Hc & H19 & Hms & Hd).
  unfold apart in *.
  assert (Ec : copy m tramp func n = Ok (fun y => if (tramp <=? y) && (y <? tramp + n) then m (func + (y - tramp)) else m y)).
  { unfold copy. replace ((tramp <? func + n) && (func <? tramp + n)) with false by lia. reflexivity. }
  set (m1 := fun y => if (tramp <=? y) && (y <? tramp + n) then m (func + (y - tramp)) else m y) in *.
  assert (Hb1 : bytes_ok m1) by (intros y; unfold m1; destruct ((tramp <=? y) && (y <? tramp + n)); apply Hb).
  assert (M1in : forall k, 0 <= k < n -> m1 (tramp + k) = m (func + k)).
  { intros k Hk. unfold m1. replace ((tramp <=? tramp + k) && (tramp + k <? tramp + n)) with true by lia. f_equal. lia. }
  assert (M1out : forall y, y < tramp \/ tramp + n <= y -> m1 y = m y).
  { intros y Hy. unfold m1. replace ((tramp <=? y) && (y <? tramp + n)) with false by lia. reflexivity. }
  clearbody m1.
  assert (Hfields : forall e, In e (all_fields il) -> known (f_type (snd e)) /\ 0 <= fst e + f_off (snd e) /\ fst e + f_off (snd e) + fsize (f_type (snd e)) <= n).
  { intros e He. apply all_fields_in in He. destruct He as (i & Hi & Hfi).
    destruct (chain_in _ _ _ _ _ _ Hc _ _ Hi) as (E & L & B1 & B2).
    destruct (dfields m (func + fst e) limit (snd e)) as (K & C & D); rewrite <- E in *; auto. repeat split; auto; lia. }
  assert (Hsame : forall e, In e (all_fields il) -> refers m1 (fat func e) (f_type (snd e)) = refers m (fat func e) (f_type (snd e))).
  { intros e He. apply refers_same. intros k Hk. apply M1out. destruct (Hfields e He) as (_ & B1 & B2). unfold fat. lia. }
  destruct (relocate_spec func tramp n ltac:(unfold apart; lia) (all_fields il) m1 Hb1 Hd Hfields) as (m2 & E2 & Hb2 & Out2 & Ref2).
  { intros e He Hty. pose proof (Hsame e He) as HS. rewrite Hty in HS. rewrite HS.
    apply (chain_reach m limit func tramp il 0 n Hc); auto. rewrite Z.add_0_r, <- Hms. exact Hr. }
  destruct (put_jump_spec m2 (tramp + n) (func + n) N2 ltac:(lia) Hb2) as (m3 & E3 & Hb3 & J3 & Out3).
  set (m4 := put m3 slot 8 tramp).
  assert (Hb4 : bytes_ok m4) by (apply put_bytes, Hb3).
  destruct (put_jump_spec m4 func dfunc N1 Hdf Hb4) as (m5 & E5 & Hb5 & J5 & Out5).
  assert (Out4 : forall y, y < slot \/ slot + 8 <= y -> m4 y = m3 y) by (intros; apply put_out; lia).
  exists m5. split.
  { unfold detour. rewrite Ep. cbn [bind]. rewrite Ec. cbn [bind]. rewrite E2. cbn [bind]. rewrite E3. cbn [bind].
    cbv zeta. fold m4. rewrite E5. reflexivity. }
  split; [exact Hb5|]. split; [exact H19|].
  assert (T5 : forall y, tramp <= y < tramp + n + 5 -> m5 y = m3 y) by (intros y Hy; rewrite Out5, Out4 by lia; reflexivity).
  assert (T2 : forall y, tramp <= y < tramp + n -> m5 y = m2 y) by (intros y Hy; rewrite T5, Out3 by lia; reflexivity).
  split; [constructor|].
  - exact J5.
  - rewrite (get8_ext m4 m5 slot slot).
    + unfold m4. rewrite get8_put. apply Z.mod_small; lia.
    + intros k Hk. apply Out5. lia.
  - rewrite Hms. pose proof (chain_straight m limit func m5 tramp n il 0 n Hc) as G.
    rewrite Z.add_0_r in G. apply G; [lia| |].
    + intros o i k Hi Hk Hif. destruct (chain_in _ _ _ _ _ _ Hc _ _ Hi) as (E & L & B1 & B2).
      rewrite T2 by lia. rewrite Out2.
      * rewrite <- Z.add_assoc, M1in by lia. f_equal. lia.
      * intros e He. apply all_fields_in in He. destruct He as (i2 & Hi2 & Hf2i).
        destruct (chain_in _ _ _ _ _ _ Hc _ _ Hi2) as (Ee2 & L2 & B3 & B4).
        destruct (dfields m (func + fst e) limit (snd e)) as (K & C & D); rewrite <- Ee2 in *; auto.
        unfold fat. destruct (chain_apart _ _ _ _ _ _ Hc _ _ _ _ Hi Hi2) as [Eo|Ha]; [|lia].
        assert (H : i = i2) by (rewrite E, Ee2, Eo; reflexivity). 
        rewrite <- H in Hf2i. unfold in_field in Hif.
        assert (Hnf : (f_off (snd e) <=? k) && (k <? f_off (snd e) + fsize (f_type (snd e))) = false).
        { destruct ((f_off (snd e) <=? k) && (k <? f_off (snd e) + fsize (f_type (snd e)))) eqn:Eb; [|reflexivity].
          rewrite <- Hif. symmetry. apply existsb_exists. exists (snd e). split; [exact Hf2i | exact Eb]. }
        lia.
    + intros o i f Hi Hfi.
      assert (He : In (o, f) (all_fields il)) by (apply all_fields_in; exists i; auto).
      destruct (Hfields _ He) as (_ & B1 & B2). cbn [fst snd] in *.
      rewrite (refers_same m2 m5) by (intros k Hk; apply T2; lia).
      pose proof (Ref2 _ He) as R2. rewrite (Hsame _ He) in R2. unfold fat in R2; cbn [fst snd] in R2.
      rewrite !Z.add_assoc in R2. exact R2.
  - destruct J3 as (J31 & J32). split.
    + rewrite T5 by lia. exact J31.
    + rewrite (get4_ext m3 m5 (tramp + n + 1) (tramp + n + 1)); [exact J32|]. intros k Hk. apply T5. lia.
  - intros y Y1 Y2 Y3. rewrite Out5 by lia. rewrite Out4 by lia. rewrite Out3 by lia.
    rewrite Out2; [apply M1out; lia|].
    intros e He. destruct (Hfields e He) as (_ & B1 & B2). unfold fat. lia.
Qed.
End Chain.
