(* Lemmas about metadata file names and searches. *)
From Coq Require Import String Ascii.
From Verif Require Import Base Meta_model Meta_spec.

Lemma str_eqb_eq a : forall b, str_eqb a b = true <-> a = b.
Proof.
  induction a as [|x a IH]; intros [|y b]; cbn [str_eqb]; split; intros H; try congruence; try reflexivity.
  - apply andb_prop in H. destruct H as [H1 H2]. apply IH in H2. f_equal; [lia|exact H2].
  - injection H as -> ->. rewrite Z.eqb_refl. cbn. apply IH. reflexivity.
Qed.
Lemma str_eqb_refl a : str_eqb a a = true. Proof. apply str_eqb_eq. reflexivity. Qed.
Lemma str_eqb_neq a b : a <> b -> str_eqb a b = false.
Proof. intros H. destruct (str_eqb a b) eqn:E; [apply str_eqb_eq in E; contradiction|reflexivity]. Qed.

Lemma len_app a b : len (a ++ b) = len a + len b.
Proof. unfold len. rewrite app_length. lia. Qed.
Lemma len_nonneg a : 0 <= len a. Proof. unfold len. lia. Qed.
Lemma len_cons c a : len (c :: a) = 1 + len a. Proof. unfold len. cbn [length]. lia. Qed.

Lemma take_all s : forall n, len s <= n -> take n s = s.
Proof.
  induction s as [|c s IH]; intros n H; [reflexivity|].
  rewrite len_cons in H. pose proof (len_nonneg s). cbn [take].
  replace (n <=? 0) with false by lia. f_equal. apply IH. lia.
Qed.
Lemma len_take s : forall n, 0 <= n -> len (take n s) = Z.min n (len s).
Proof.
  induction s as [|c s IH]; intros n H; cbn [take].
  - cbn. lia.
  - rewrite len_cons. pose proof (len_nonneg s). destruct (n <=? 0) eqn:E; [change (len []) with 0; lia|].
    rewrite len_cons, IH by lia. lia.
Qed.
Lemma take_app s : forall t n, 0 <= n -> take n (s ++ t) = take n s ++ take (n - Z.min n (len s)) t.
Proof.
  induction s as [|c s IH]; intros t n H; cbn [take app].
  - cbn. f_equal. lia.
  - rewrite len_cons. pose proof (len_nonneg s). destruct (n <=? 0) eqn:E.
    + replace (n - Z.min n (1 + len s)) with 0 by lia. destruct t; reflexivity.
    + cbn [app]. rewrite IH by lia. do 2 f_equal. f_equal. lia.
Qed.
Lemma take_0 s : take 0 s = []. Proof. destruct s; reflexivity. Qed.

Lemma less_ok left l : 0 <= l -> 0 <= left < W32 -> less left l = left - Z.min left l.
Proof.
  intros H1 H2. unfold less. destruct (left <? l) eqn:E; rewrite Z.mod_small; lia.
Qed.

Lemma strncat_ok s src n : 0 <= n -> len s + n + 1 <= BUFFER -> strncat s src n = Ok (s ++ take n src).
Proof.
  intros Hn H. unfold strncat. rewrite len_app, len_take by exact Hn.
  replace (_ <=? BUFFER) with true by lia. reflexivity.
Qed.

(* by path, whatever the lengths (of strings the machine can hold) *)
Lemma name_by_path_cut base o :
  len base < W32 -> len (SLASH :: o) < W32 ->
  name_by_path base (SLASH :: o) = Ok (Some (take 4094 (base ++ (SLASH :: o) ++ SUFFIX))).
Proof.
  intros Hb Ho. pose proof (len_nonneg base) as Pb. pose proof (len_nonneg (SLASH :: o)) as Po.
  remember (SLASH :: o) as ob eqn:Eob.
  assert (E : name_by_path base ob =
    do s1 <- strncat [] base (BUFFER - 1 - 1) ;
    do s2 <- strncat s1 ob (less (BUFFER - 1 - 1) (len base mod W32)) ;
    do s3 <- strncat s2 SUFFIX (less (less (BUFFER - 1 - 1) (len base mod W32)) (len ob mod W32)) ;
    Ok (Some s3)) by (rewrite Eob; reflexivity).
  rewrite E. clear E Eob.
  rewrite !(Z.mod_small (len _)) by lia.
  change (BUFFER - 1 - 1) with 4094.
  rewrite (strncat_ok [] base 4094) by (unfold BUFFER; cbn; lia). cbn [bind app].
  rewrite (less_ok 4094) by (unfold W32; lia).
  set (l1 := 4094 - Z.min 4094 (len base)) in *.
  assert (L1 : len (take 4094 base) = 4094 - l1) by (rewrite len_take; lia).
  assert (0 <= l1 <= 4094) by lia.
  rewrite (strncat_ok _ ob l1) by (unfold BUFFER; lia). cbn [bind].
  rewrite (less_ok l1) by (unfold W32; lia).
  set (l2 := l1 - Z.min l1 (len ob)) in *.
  assert (0 <= l2 <= l1) by lia.
  rewrite strncat_ok; [|lia|rewrite len_app, L1, len_take by lia; unfold BUFFER; lia].
  cbn [bind]. do 2 f_equal.
  rewrite (take_app base) by lia. rewrite (take_app ob) by lia.
  fold l1. fold l2. rewrite <- app_assoc. reflexivity.
Qed.

Lemma name_by_path_none base o : (forall r, o <> SLASH :: r) -> name_by_path base o = Ok None.
Proof.
  intros H. destruct o as [|c r]; [reflexivity|]. cbn [name_by_path].
  destruct (c =? SLASH) eqn:E; [|reflexivity]. exfalso. apply (H r). f_equal. lia.
Qed.

Lemma hex_digit_spec d : 0 <= d < 16 -> hex_digit d = digit d.
Proof.
  intros H. assert (C : d = 0 \/ d = 1 \/ d = 2 \/ d = 3 \/ d = 4 \/ d = 5 \/ d = 6 \/ d = 7 \/ d = 8 \/
    d = 9 \/ d = 10 \/ d = 11 \/ d = 12 \/ d = 13 \/ d = 14 \/ d = 15) by lia.
  repeat (destruct C as [->|C]; [reflexivity|]). subst. reflexivity.
Qed.
Lemma hh_spec b : 0 <= b < 256 -> hh b = hex2 b.
Proof.
  intros H. unfold hh, hex2. rewrite (Z.mod_small b 256) by lia.
  rewrite !hex_digit_spec; [reflexivity| |].
  - apply Z.mod_pos_bound. lia.
  - split; [apply Z.div_pos; lia|apply Z.div_lt_upper_bound; lia].
Qed.
Lemma hhs_spec l : (forall b, In b l -> 0 <= b < 256) -> flat_map hh l = concat (map hex2 l).
Proof.
  induction l as [|b l IH]; intros H; [reflexivity|].
  cbn [flat_map map concat]. rewrite hh_spec by (apply H; left; reflexivity).
  rewrite IH; [reflexivity|]. intros c Hc. apply H. right. exact Hc.
Qed.
Lemma hhs_len l : len (flat_map hh l) = 2 * Z.of_nat (length l).
Proof.
  induction l as [|b l IH]; [reflexivity|]. cbn [flat_map length].
  rewrite len_app, IH. change (len (hh b)) with 2. lia.
Qed.
Lemma hex_id_spec id : is_id id ->
  hex_id id = hex2 (hd 0 id) ++ text "/" ++ concat (map hex2 (tl id)) /\ len (hex_id id) = 41.
Proof.
  intros [L H]. destruct id as [|b r]; [discriminate L|].
  unfold hex_id, hd, tl. split.
  - rewrite hh_spec by (apply H; left; reflexivity).
    rewrite hhs_spec by (intros c Hc; apply H; right; exact Hc). reflexivity.
  - cbn [length] in L. injection L as L.
    rewrite !len_app, hhs_len, L. change (len (hh b)) with 2. reflexivity.
Qed.

Lemma name_by_id_ok base id :
  is_id id -> len base <= 4035 -> name_by_id base id = Ok (id_name base id).
Proof.
  intros Hid Hb. pose proof (len_nonneg base) as Pb.
  destruct (hex_id_spec id Hid) as [Hh Hl].
  unfold name_by_id. rewrite (Z.mod_small (len base)) by (unfold W32; lia).
  change (BUFFER - 1 - 1) with 4094. change (len INFIX) with 11.
  rewrite (strncat_ok [] base 4094) by (unfold BUFFER; cbn; lia). cbn [bind app].
  rewrite (take_all base) by lia.
  rewrite (less_ok 4094) by (unfold W32; lia).
  replace (4094 - Z.min 4094 (len base)) with (4094 - len base) by lia.
  rewrite strncat_ok by (unfold BUFFER; lia). cbn [bind].
  rewrite (take_all INFIX) by (change (len INFIX) with 11; lia).
  rewrite (less_ok (4094 - len base)) by (unfold W32; lia).
  replace (4094 - len base - Z.min (4094 - len base) 11) with (4083 - len base) by lia.
  unfold snprintf_end. replace (4083 - len base =? 0) with false by lia.
  rewrite (take_all (hex_id id)) by lia.
  rewrite !len_app, Hl. change (len INFIX) with 11.
  replace (_ <=? BUFFER) with true by (unfold BUFFER; lia). cbn [bind].
  rewrite (Z.mod_small (_ - 40)) by (unfold W32; lia).
  unfold strncat. rewrite (take_all SUFFIX) by (change (len SUFFIX) with 8; lia).
  rewrite !len_app, Hl. change (len INFIX) with 11. change (len SUFFIX) with 8.
  replace (_ <=? BUFFER) with true by (unfold BUFFER; lia).
  f_equal. unfold id_name. rewrite Hh. rewrite <- !app_assoc. reflexivity.
Qed.

(* distinctness *)
Lemma digit_inj a b : 0 <= a < 16 -> 0 <= b < 16 -> digit a = digit b -> a = b.
Proof.
  intros Ha Hb H. rewrite <- !hex_digit_spec in H by assumption. unfold hex_digit in H.
  destruct (a <? 10) eqn:E1; destruct (b <? 10) eqn:E2; lia.
Qed.
Lemma byte_parts b : 0 <= b < 256 -> 0 <= b / 16 < 16 /\ 0 <= b mod 16 < 16 /\ b = 16 * (b / 16) + b mod 16.
Proof.
  intros H. split; [|split].
  - split; [apply Z.div_pos; lia|apply Z.div_lt_upper_bound; lia].
  - apply Z.mod_pos_bound. lia.
  - apply Z.div_mod. lia.
Qed.
Lemma hex2_inj a b : 0 <= a < 256 -> 0 <= b < 256 -> hex2 a = hex2 b -> a = b.
Proof.
  intros Ha Hb H. unfold hex2 in H. injection H as H1 H2.
  destruct (byte_parts a Ha) as (A1 & A2 & A3). destruct (byte_parts b Hb) as (B1 & B2 & B3).
  apply digit_inj in H1; try assumption. apply digit_inj in H2; try assumption. lia.
Qed.
Lemma hexs_inj l : forall m r s, length l = length m ->
  (forall b, In b l -> 0 <= b < 256) -> (forall b, In b m -> 0 <= b < 256) ->
  concat (map hex2 l) ++ r = concat (map hex2 m) ++ s -> l = m /\ r = s.
Proof.
  induction l as [|a l IH]; intros [|b m] r s L Hl Hm H; try discriminate L; [split; [reflexivity|exact H]|].
  cbn [map concat] in H. rewrite <- !app_assoc in H. unfold hex2 at 1 3 in H. cbn [app] in H.
  injection H as H1 H2 H3.
  assert (a = b).
  { apply hex2_inj; [apply Hl; left; reflexivity|apply Hm; left; reflexivity|].
    unfold hex2. congruence. }
  subst b. cbn [length] in L. injection L as L.
  destruct (IH m r s L) as [E1 E2]; try assumption.
  - intros b Hb. apply Hl. right. exact Hb.
  - intros b Hb. apply Hm. right. exact Hb.
  - subst. split; reflexivity.
Qed.
Lemma id_name_inj base id1 id2 :
  is_id id1 -> is_id id2 -> id_name base id1 = id_name base id2 -> id1 = id2.
Proof.
  intros [L1 H1] [L2 H2] H. unfold id_name in H.
  apply app_inv_head in H. apply app_inv_head in H.
  destruct id1 as [|a l]; [discriminate L1|]. destruct id2 as [|b m]; [discriminate L2|].
  cbn [hd tl] in H. unfold hex2 at 1 3 in H. cbn [app] in H. injection H as E1 E2 H.
  assert (a = b).
  { apply hex2_inj; [apply H1; left; reflexivity|apply H2; left; reflexivity|].
    unfold hex2. congruence. }
  subst b. apply hexs_inj in H.
  - destruct H as [-> _]. reflexivity.
  - cbn [length] in L1, L2. lia.
  - intros c Hc. apply H1. right. exact Hc.
  - intros c Hc. apply H2. right. exact Hc.
Qed.
Lemma path_name_inj base o1 o2 : path_name base o1 = path_name base o2 -> o1 = o2.
Proof. unfold path_name. intros H. apply app_inv_head in H. apply app_inv_tail in H. exact H. Qed.

Lemma prefix_of_app (a b c d : list Z) : a ++ b = c ++ d -> (length a <= length c)%nat -> exists r, c = a ++ r.
Proof.
  revert c. induction a as [|x a IH]; intros c H L; [exists c; reflexivity|].
  destruct c as [|y c]; [cbn in L; lia|]. cbn [app] in H. injection H as -> H.
  cbn [length] in L. destruct (IH c H) as [r ->]; [lia|]. exists r. reflexivity.
Qed.
Lemma id_path_names base id o :
  is_id id -> id_name base id = path_name base o -> exists r, o = text "/.build-id/" ++ r.
Proof.
  intros [L _] H. unfold id_name, path_name in H. apply app_inv_head in H.
  assert (Lo : (length (text "/.build-id/") <= length o)%nat).
  { apply (f_equal (@length Z)) in H. rewrite !app_length in H.
    change (length (text "/.build-id/")) with 11%nat in *.
    change (length (text "-meta.so")) with 8%nat in *.
    change (length (text "/")) with 1%nat in *.
    assert (C : (length (concat (map hex2 (tl id))) = 38)%nat).
    { destruct id as [|b id]; [discriminate L|]. cbn [tl length] in *. injection L as L.
      assert (G : forall l, length (concat (map hex2 l)) = (2 * length l)%nat).
      { intros l. induction l as [|c l IH]; [reflexivity|]. cbn [map concat length].
        rewrite app_length, IH. cbn [hex2 length]. lia. }
      rewrite G. lia. }
    lia. }
  exact (prefix_of_app _ _ _ _ H Lo).
Qed.

(* where the tools put them *)
Lemma made_path base o : made_by_path base (SLASH :: o) = path_name base (SLASH :: o).
Proof. reflexivity. Qed.
Lemma made_id base id : is_id id -> made_by_id base id = id_name base id.
Proof.
  intros [L H]. destruct id as [|b r]; [discriminate L|].
  unfold made_by_id, id_name. cbn [hd tl flat_map].
  rewrite hh_spec by (apply H; left; reflexivity).
  rewrite hhs_spec by (intros c Hc; apply H; right; exact Hc).
  cbn [hex2 app firstn skipn]. reflexivity.
Qed.

(* closing what was just opened *)
Lemma close_new t fd p : (forall e, In e t -> fst e <> fd) -> close ((fd, p) :: t) fd = t.
Proof.
  intros H. unfold close. cbn [filter fst]. rewrite Z.eqb_refl. cbn [negb].
  induction t as [|e t IH]; [reflexivity|].
  cbn [filter]. replace (fst e =? fd) with false.
  - cbn [negb]. f_equal. apply IH. intros x Hx. apply H. right. exact Hx.
  - symmetry. apply Z.eqb_neq. apply H. left. reflexivity.
Qed.

Section Try.
Variables (fs : fsys) (newfd : fdtab -> Z) (junk : nat -> Z).
Hypothesis fresh : forall t, 0 <= newfd t /\ forall e, In e t -> fst e <> newfd t.
Variables (objname : str) (built : Z).
Hypothesis stated : stats fs objname = Some built.

Definition good (p : str) : bool :=
  match opens fs p with Some (Some t) => built <=? t | _ => false end.

Lemma good_usable p : good p = true <-> usable (opens fs) built p.
Proof.
  unfold good, usable. destruct (opens fs p) as [[t|]|]; split.
  - intros H. exists t. split; [reflexivity|lia].
  - intros (x & E & H). injection E as ->. lia.
  - discriminate.
  - intros (x & E & _). discriminate.
  - discriminate.
  - intros (x & E & _). discriminate.
Qed.

Lemma try_each_ok cs : forall i t,
  try_each fs newfd junk i cs objname t =
  match find good cs with Some p => (newfd t, (newfd t, p) :: t) | None => (-1, t) end.
Proof.
  induction cs as [|c r IH]; intros i t; [reflexivity|].
  cbn [try_each find]. unfold good at 1.
  destruct (opens fs c) as [[mt|]|]; [|rewrite close_new; [apply IH|apply fresh]|apply IH].
  rewrite stated. destruct (mt <? built) eqn:E.
  - replace (built <=? mt) with false by lia. rewrite close_new; [apply IH|apply fresh].
  - replace (built <=? mt) with true by lia. reflexivity.
Qed.
End Try.

Lemma have_id_spec id : have_id id = true <-> ~ no_id id.
Proof.
  unfold have_id, no_id. destruct (forallb (fun b => b =? 0) id) eqn:E; cbn [negb]; split; try congruence.
  - intros H. exfalso. apply H. intros b Hb. rewrite forallb_forall in E. specialize (E b Hb). lia.
  - intros _ H. assert (T : forallb (fun b => b =? 0) id = true).
    { apply forallb_forall. intros b Hb. rewrite (H b Hb). reflexivity. }
    congruence.
Qed.

Lemma absolute_dec o : absolute o \/ ~ absolute o.
Proof.
  destruct o as [|c r]; [right; intros [r E]; discriminate|].
  destruct (Z.eq_dec c 47) as [->|N]; [left; exists r; reflexivity|].
  right. intros [r' E]. injection E as -> _. contradiction.
Qed.

Section Found.
Variables (base : str) (fs : fsys) (newfd : fdtab -> Z) (junk : nat -> Z).
Hypothesis fresh : forall t, 0 <= newfd t /\ forall e, In e t -> fst e <> newfd t.
Hypothesis empty : opens fs [] = None.
Variables (objname : str) (id : list Z) (built : Z).
Hypothesis stated : stats fs objname = Some built.
Hypothesis Hbase : len base <= 4035.
Hypothesis Hpath : len base + len objname + 8 <= 4094.
Hypothesis Hid : is_id id.

Lemma path_candidate : exists q, name_by_path base objname = Ok q /\
     ((q = Some (path_name base objname) /\ absolute objname) \/ (q = None /\ ~ absolute objname)).
Proof.
  pose proof (len_nonneg base). pose proof (len_nonneg objname).
  destruct (absolute_dec objname) as [A|N].
  - exists (Some (path_name base objname)). split; [|left; split; [reflexivity|exact A]].
    destruct A as [r E]. rewrite E in *. change 47 with SLASH in *.
    rewrite name_by_path_cut by (unfold W32; lia).
    rewrite take_all; [reflexivity|]. rewrite !len_app. change (len SUFFIX) with 8. lia.
  - exists None. split; [|right; split; [reflexivity|exact N]].
    apply name_by_path_none. intros r E. apply N. exists r. exact E.
Qed.

Lemma good_empty : good fs built [] = false.
Proof. unfold good. rewrite empty. reflexivity. Qed.
Lemma not_good p : good fs built p = false -> ~ usable (opens fs) built p.
Proof. intros G U. apply good_usable in U. congruence. Qed.

Lemma find_meta_ok t : exists fd t',
  find_meta base fs newfd junk objname id t = Ok (fd, t') /\
  ((fd = -1 /\ t' = t /\ none_usable (opens fs) built base objname id) \/
   exists p, fd = newfd t /\ t' = (fd, p) :: t /\ best (opens fs) built base objname id p).
Proof.
  unfold find_meta. destruct path_candidate as (q & Eq & Cq).
  assert (P : (exists c, (match q with Some s => s | None => [] end) = c /\
     ((good fs built c = true /\ absolute objname /\ c = path_name base objname) \/
      (good fs built c = false /\ (absolute objname -> ~ usable (opens fs) built (path_name base objname)))))).
  { eexists. split; [reflexivity|]. destruct Cq as [[-> A]|[-> N]].
    - destruct (good fs built (path_name base objname)) eqn:G; [left; auto|right].
      split; [reflexivity|]. intros _. apply not_good. exact G.
    - right. split; [exact good_empty|]. intros A. contradiction. }
  destruct P as (c & Ec & Pc).
  destruct (have_id id) eqn:HI.
  - rewrite name_by_id_ok by assumption. cbn [bind]. rewrite Eq. cbn [bind]. rewrite Ec.
    apply have_id_spec in HI.
    rewrite (try_each_ok fs newfd junk fresh objname built stated). cbn [find].
    destruct (good fs built (id_name base id)) eqn:G1.
    + do 2 eexists. split; [reflexivity|]. right. eexists. split; [reflexivity|]. split; [reflexivity|].
      exists 0%nat. split; [left; auto|]. split; [apply good_usable; exact G1|]. intros j z Hj. lia.
    + apply not_good in G1. destruct Pc as [(G2 & A & C2)|(G2 & N)]; rewrite G2.
      * do 2 eexists. split; [reflexivity|]. right. eexists. split; [reflexivity|]. split; [reflexivity|].
        exists 1%nat. split; [right; auto|]. split; [apply good_usable; exact G2|].
        intros j z Hj [(_ & _ & ->)|(J & _)]; [exact G1|lia].
      * do 2 eexists. split; [reflexivity|]. left. split; [reflexivity|]. split; [reflexivity|].
        intros k z [(_ & _ & ->)|(_ & A & ->)]; [exact G1|exact (N A)].
  - cbn [bind]. rewrite Eq. cbn [bind]. rewrite Ec.
    assert (NI : ~ ~ no_id id) by (intros X; apply have_id_spec in X; congruence).
    rewrite (try_each_ok fs newfd junk fresh objname built stated). cbn [find].
    destruct Pc as [(G2 & A & C2)|(G2 & N)]; rewrite G2.
    + do 2 eexists. split; [reflexivity|]. right. eexists. split; [reflexivity|]. split; [reflexivity|].
      exists 1%nat. split; [right; auto|]. split; [apply good_usable; exact G2|].
      intros j z Hj [(_ & X & ->)|(J & _)]; [contradiction|lia].
    + do 2 eexists. split; [reflexivity|]. left. split; [reflexivity|]. split; [reflexivity|].
      intros k z [(_ & X & ->)|(_ & A & ->)]; [contradiction|exact (N A)].
Qed.
End Found.
