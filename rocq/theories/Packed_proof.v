(* Lemmas about packed sequences: the cache is exactly a prefix of the elements. *)
From Verif Require Import Base Big_model Big_field Packed_model Packed_spec.

Lemma rup_le a k : 0 < k -> a <= rup a k < a + k.
Proof. intros. unfold rup. nia. Qed.
Lemma rup_mod a k : 0 < k -> rup a k mod k = 0.
Proof. intros. unfold rup. rewrite Z.mod_mul; lia. Qed.
Lemma rdown_same a k : 0 < k -> a mod k = 0 -> rdown a k = a.
Proof. intros H Hm. unfold rdown. apply Z_div_exact_full_2 in Hm; lia. Qed.
Lemma divup_le a b : 0 < b -> a <= divup a b * b.
Proof. intros. unfold divup. nia. Qed.
Lemma mult_lt_step a b k : 0 < k -> a mod k = 0 -> b mod k = 0 -> a < b -> a / k < b / k.
Proof.
  intros Hk Ha Hb L. apply Z_div_exact_full_2 in Ha; [|lia]. apply Z_div_exact_full_2 in Hb; [|lia]. nia.
Qed.
Lemma div_floor_lt x b k : 0 < k -> b mod k = 0 -> x < b -> x / k < b / k.
Proof.
  intros Hk Hb L. apply Z.div_lt_upper_bound; auto. apply Z_div_exact_full_2 in Hb; lia.
Qed.
Lemma align_pos f : 0 <= la f -> 0 < align f.
Proof. intros. apply Z.pow_pos_nonneg; lia. Qed.
Lemma shiftr_align f x : 0 <= la f -> Z.shiftr x (la f) = x / align f.
Proof. intros. apply Z.shiftr_div_pow2; auto. Qed.
Lemma shiftl_align f x : 0 <= la f -> Z.shiftl x (la f) = x * align f.
Proof. intros. apply Z.shiftl_mul_pow2; auto. Qed.
Lemma sub_mod0 a b k : 0 < k -> a mod k = 0 -> b mod k = 0 -> (a - b) mod k = 0.
Proof. intros. rewrite Zminus_mod, H0, H1. apply Z.mod_0_l; lia. Qed.

(* ---- maximum and minimum set bits ---- *)
Definition mx (q : Z) (m : option Z) (b : Z) := if b <=? q then match m with None => Some b | Some x => Some (Z.max x b) end else m.
Definition mn (q : Z) (m : option Z) (b : Z) := if q <=? b then match m with None => Some b | Some x => Some (Z.min x b) end else m.
Lemma mx_high q l : (forall b, In b l -> q < b) -> forall m, fold_left (mx q) l m = m.
Proof.
  induction l as [|a l IH]; intros H m; cbn; auto. unfold mx at 2.
  destruct (a <=? q) eqn:E; [specialize (H a (or_introl eq_refl)); lia|]. apply IH. intros; apply H; right; auto.
Qed.
Lemma mx_low q l : forall m x, (forall b, In b l -> b <= x) -> x <= q ->
  (match m with None => True | Some y => y <= x end) -> (match fold_left (mx q) l m with None => True | Some y => y <= x end).
Proof.
  induction l as [|a l IH]; intros m x H Hx Hm; cbn; auto.
  apply IH; auto. { intros; apply H; right; auto. }
  unfold mx. destruct (a <=? q); auto. specialize (H a (or_introl eq_refl)). destruct m; lia.
Qed.
Lemma rfind_split l1 x l2 q : (forall b, In b l1 -> b <= x) -> x <= q -> (forall b, In b l2 -> q < b) -> rfind_leq (l1 ++ x :: l2) q = Some x.
Proof.
  intros H1 Hx H2. change (rfind_leq (l1 ++ x :: l2) q) with (fold_left (mx q) (l1 ++ x :: l2) None).
  rewrite fold_left_app. pose proof (mx_low q l1 None x H1 Hx Logic.I) as M. cbn [fold_left].
  rewrite mx_high by auto. unfold mx at 1. destruct (x <=? q) eqn:E; [|lia].
  destruct (fold_left (mx q) l1 None) as [y|]; auto. f_equal. lia.
Qed.
Lemma mn_low q l : (forall b, In b l -> b < q) -> forall m, fold_left (mn q) l m = m.
Proof.
  induction l as [|a l IH]; intros H m; cbn; auto. unfold mn at 2.
  destruct (q <=? a) eqn:E; [specialize (H a (or_introl eq_refl)); lia|]. apply IH. intros; apply H; right; auto.
Qed.
Lemma mn_high q x l : (forall b, In b l -> x <= b) -> q <= x -> fold_left (mn q) l (Some x) = Some x.
Proof.
  induction l as [|a l IH]; intros H Hx; cbn; auto. unfold mn at 2. pose proof (H a (or_introl eq_refl)).
  destruct (q <=? a); [replace (Z.min x a) with x by lia|]; apply IH; auto; intros; apply H; right; auto.
Qed.
Lemma fgeq_split l1 x l2 q : (forall b, In b l1 -> b < q) -> q <= x -> (forall b, In b l2 -> x <= b) -> find_geq (l1 ++ x :: l2) q = Some x.
Proof.
  intros H1 Hx H2. change (find_geq (l1 ++ x :: l2) q) with (fold_left (mn q) (l1 ++ x :: l2) None).
  rewrite fold_left_app. rewrite (mn_low q l1 H1). cbn [fold_left]. unfold mn at 2. destruct (q <=? x) eqn:E; [|lia]. apply mn_high; auto.
Qed.
Lemma fgeq_none l q : (forall b, In b l -> b < q) -> find_geq l q = None.
Proof. intros. change (find_geq l q) with (fold_left (mn q) l None). apply mn_low; auto. Qed.
Lemma count_split l1 l2 q : (forall b, In b l1 -> b < q) -> (forall b, In b l2 -> q <= b) -> count_set (l1 ++ l2) q = length l1.
Proof.
  intros H1 H2. unfold count_set. rewrite filter_app, app_length.
  replace (filter (fun b => b <? q) l2) with (@nil Z).
  - replace (filter (fun b => b <? q) l1) with l1; [cbn; lia|].
    induction l1 as [|a l1 IH]; auto. cbn. pose proof (H1 a (or_introl eq_refl)).
    destruct (a <? q) eqn:E; [|lia]. f_equal. apply IH. intros; apply H1; right; auto.
  - induction l2 as [|a l2 IH]; auto. cbn. pose proof (H2 a (or_introl eq_refl)).
    destruct (a <? q) eqn:E; [lia|]. apply IH. intros; apply H2; right; auto.
Qed.

(* ---- positions of elements ---- *)
Fixpoint pos_after (f : fam) (p : Z) (l : list el) : Z :=
  match l with [] => p | e :: t => pos_after f (nextpos f e) t end.
Lemma tile_app f en pre : forall p post, tile f p en (pre ++ post) -> tile f (pos_after f p pre) en post.
Proof. induction pre as [|e pre IH]; intros p post H; cbn in *; auto. apply IH. tauto. Qed.
Lemma nextpos_ge f e : 0 <= la f -> l_start e + l_size e <= nextpos f e.
Proof. intros H. unfold nextpos. pose proof (rup_le (l_start e + l_size e) _ (align_pos f H)). lia. Qed.
Lemma nextpos_mod f e : 0 <= la f -> nextpos f e mod align f = 0.
Proof. intros. apply rup_mod, align_pos; auto. Qed.
Lemma pos_after_ge f en (H : 0 <= la f) l : forall p post, tile f p en (l ++ post) -> p + Z.of_nat (length l) <= pos_after f p l.
Proof.
  induction l as [|e l IH]; intros p post T; cbn [pos_after length app tile] in *; [lia|].
  destruct T as (E & _ & P & _ & T). pose proof (IH _ _ T). pose proof (nextpos_ge f e H). lia.
Qed.
Lemma pos_after_mod f (H : 0 <= la f) l : forall p, p mod align f = 0 -> pos_after f p l mod align f = 0.
Proof. induction l as [|e l IH]; intros p Hp; cbn; auto. apply IH, nextpos_mod; auto. Qed.
Lemma pos_after_app f l1 : forall p l2, pos_after f p (l1 ++ l2) = pos_after f (pos_after f p l1) l2.
Proof. induction l1; cbn; auto. Qed.
Lemma pre_bounds f en (H : 0 <= la f) l : forall p post e, tile f p en (l ++ post) -> In e l ->
  p <= l_start e /\ nextpos f e <= pos_after f p l /\ 0 < l_size e.
Proof.
  induction l as [|a l IH]; intros p post e T I; [easy|]. cbn [pos_after app tile] in *.
  destruct T as (E & _ & P & _ & T). pose proof (pos_after_ge f en H _ _ _ T) as G. pose proof (nextpos_ge f a H).
  destruct I as [<-|I]; [repeat split; lia|]. destruct (IH _ _ _ T I) as (A & B & C). repeat split; lia.
Qed.
Lemma starts_mod f en (H : 0 <= la f) l : forall p e, p mod align f = 0 -> tile f p en l -> In e l -> l_start e mod align f = 0.
Proof.
  induction l as [|a l IH]; intros p e Hp T I; [easy|]. cbn [tile] in T. destruct T as (E & _ & _ & _ & T).
  destruct I as [<-|I]; [congruence|]. exact (IH _ e (nextpos_mod f a H) T I).
Qed.
Lemma tile_count f en (H : 0 <= la f) l : forall p, tile f p en l -> l <> [] -> p + Z.of_nat (length l) <= en.
Proof.
  induction l as [|a l IH]; intros p T N; [easy|]. cbn [tile length] in *. destruct T as (E & _ & P & Q & T).
  destruct l as [|b l]; [cbn; lia|]. assert (K : b :: l <> []) by easy. pose proof (IH _ T K). pose proof (nextpos_ge f a H). lia.
Qed.

(* ---- the cache ---- *)
Definition bit_of (f : fam) (beg : Z) (e : el) : Z := (l_start e - beg) / align f.
Definition ent_of (f : fam) (e : el) : list (Z * Z * Z) := entry_for f (l_start e) (l_start e + l_size e) (nextpos f e) (l_type e).
Definition cachedto (f : fam) (beg : Z) (l pre post : list el) (s : seq) : Prop :=
  l = pre ++ post /\ bits s = map (bit_of f beg) pre /\ mv s = flat_map (ent_of f) pre /\ cached s = pos_after f beg pre - beg.

Section C.
Context (dbg : bool) (f : fam) (beg en : Z) (l : list el).
Context (Hla : 0 <= la f) (Hal : beg mod align f = 0) (HT : tile f beg en l) (Hsz : 0 <= en - beg < 2 ^ 31).

Lemma cachedto0 : cachedto f beg l [] l seq0.
Proof. unfold cachedto. cbn. repeat split; lia. Qed.

Lemma loop_cached target : forall fuel pre post s s', cachedto f beg l pre post s ->
  cache_loop fuel f beg beg target (pos_after f beg pre) s = Ok s' ->
  exists pre' post', cachedto f beg l pre' post' s' /\ (target <= pos_after f beg pre' \/ post' = []).
Proof.
  induction fuel as [|fuel IH]; intros pre post s s' (E & B & M & C) R; [easy|]. cbn [cache_loop] in R.
  pose proof HT as T. rewrite E in T. apply tile_app in T.
  destruct post as [|e post]; cbn [tile] in T.
  - destruct T as (T & _). rewrite T in R. injection R as <-. exists pre, []. repeat split; auto.
  - destruct T as (S1 & S2 & S3 & S4 & T). rewrite S2 in R.
    destruct (_ <? _) eqn:L in R; [|easy].
    assert (CT : cachedto f beg l (pre ++ [e]) post
       (mkSeq (nextpos f e - beg) (nwords s) (bits s ++ [Z.shiftr (pos_after f beg pre - beg) (la f)]) (mv s ++ ent_of f e))).
    { unfold cachedto; cbn. rewrite <- app_assoc, pos_after_app, map_app, flat_map_app, B, M. cbn. rewrite app_nil_r.
      repeat split; auto. f_equal. f_equal. rewrite shiftr_align by auto. unfold bit_of. rewrite S1. reflexivity. }
    assert (PA : pos_after f beg (pre ++ [e]) = nextpos f e) by (rewrite pos_after_app; reflexivity).
    unfold ent_of, nextpos in CT. rewrite S1 in CT. unfold nextpos in PA. rewrite S1 in PA.
    destruct (target <=? pos_after f beg pre + l_size e) eqn:D in R.
    + injection R as <-. exists (pre ++ [e]), post. split; auto. left. rewrite PA.
      pose proof (rup_le (pos_after f beg pre + l_size e) _ (align_pos f Hla)). lia.
    + apply (IH _ _ _ _ CT). rewrite PA. exact R.
Qed.

Lemma loop_runs target nw : forall fuel pre post s, cachedto f beg l pre post s -> Forall (tight f) l -> nwords s = nw ->
  divup (target + 1 - beg) (align f) <= nw * 64 -> pos_after f beg pre < target -> (length post < fuel)%nat ->
  exists s', cache_loop fuel f beg beg target (pos_after f beg pre) s = Ok s'.
Proof.
  induction fuel as [|fuel IH]; intros pre post s (E & B & M & C) HTi NW HB L LF; [easy|]. cbn [cache_loop].
  pose proof HT as T. rewrite E in T. apply tile_app in T.
  destruct post as [|e post]; cbn [tile] in T.
  - destruct T as (T & _). rewrite T. eauto.
  - destruct T as (S1 & S2 & S3 & S4 & T). rewrite S2.
    assert (BB : Z.shiftr (pos_after f beg pre - beg) (la f) < nw * 64).
    { rewrite shiftr_align by auto. pose proof (align_pos f Hla) as AP.
      pose proof (divup_le (target + 1 - beg) _ AP). apply Z.div_lt_upper_bound; [lia|]. nia. }
    rewrite NW. destruct (_ <? _) eqn:K; [|lia].
    destruct (target <=? pos_after f beg pre + l_size e) eqn:D; [eauto|].
    assert (PA : pos_after f beg (pre ++ [e]) = nextpos f e) by (rewrite pos_after_app; reflexivity).
    assert (TI : tight f e). { eapply Forall_forall; [exact HTi|]. rewrite E. apply in_or_app. right. left. auto. }
    unfold tight in TI. unfold nextpos in PA. rewrite S1 in PA.
    rewrite <- PA. eapply (IH _ post); auto.
    + unfold cachedto; cbn. rewrite <- app_assoc, pos_after_app, map_app, flat_map_app, B, M. cbn. rewrite app_nil_r.
      rewrite pos_after_app in PA. cbn in PA. unfold ent_of, nextpos. rewrite S1.
      repeat split; auto. f_equal. f_equal. rewrite shiftr_align by auto. unfold bit_of. rewrite S1. reflexivity.
    + unfold nextpos in TI. rewrite PA. rewrite S1 in TI. lia.
    + cbn in LF. lia.
Qed.

Lemma target_small o c : 0 <= c -> 0 <= o <= en - beg -> c < o ->
  let t := (Z.min (en - beg) (Z.max ((2 * c) mod W32) o)) mod W32 in o <= t <= en - beg.
Proof. intros. subst t. change W32 with 4294967296. change (2 ^ 31) with 2147483648 in Hsz. clear - H H0 H1 Hsz. lia. Qed.

Lemma cached_nonneg pre post s : cachedto f beg l pre post s -> 0 <= cached s.
Proof. intros (E & _ & _ & C). rewrite C. pose proof HT as T. rewrite E in T. pose proof (pos_after_ge f en Hla _ _ _ T). lia. Qed.

Lemma rest_done pre : l = pre ++ [] -> en <= pos_after f beg pre.
Proof. intros E. pose proof HT as T. rewrite E in T. apply tile_app in T. cbn in T. tauto. Qed.

Lemma ensure_cached pre post s o s' : cachedto f beg l pre post s -> 0 <= o <= en - beg -> ensure dbg f beg en s o = Ok s' ->
  exists pre' post', cachedto f beg l pre' post' s' /\ beg + o <= pos_after f beg pre'.
Proof.
  intros CT Ho R. unfold ensure in R. rewrite (rdown_same beg _ (align_pos f Hla) Hal) in R.
  destruct (cached s <? o) eqn:D.
  - assert (D' : cached s < o) by lia.
    pose proof (target_small o (cached s) (cached_nonneg _ _ _ CT) Ho D') as TS. cbn zeta in TS.
    set (t := (Z.min (en - beg) (Z.max ((2 * cached s) mod W32) o)) mod W32) in *.
    destruct CT as (E & B & M & C). replace (beg + cached s) with (pos_after f beg pre) in R by lia.
    destruct (cache_loop _ _ _ _ _ _ _) as [s1| | |] eqn:CL in R; cbn [bind] in R; try easy.
    match type of CL with cache_loop _ _ _ _ _ _ ?z = _ => assert (CT1 : cachedto f beg l pre post z) by (repeat split; auto) end.
    destruct (loop_cached (beg + t) _ pre post _ s1 CT1 CL) as (p' & q' & CT' & F).
    exists p', q'. assert (s' = s1) as ->.
    { unfold asrt in R. destruct dbg, (o <=? cached s1); cbn in R; congruence. }
    split; auto. destruct F as [F| ->]; [lia|]. destruct CT' as (E' & _). pose proof (rest_done _ E'). lia.
  - cbn [bind] in R. assert (s' = s) as ->. { unfold asrt in R. destruct dbg, (o <=? cached s); cbn in R; congruence. }
    exists pre, post. split; auto. destruct CT as (_ & _ & _ & C). lia.
Qed.

Lemma ensure_runs pre post s o : cachedto f beg l pre post s -> 0 <= o <= en - beg -> Forall (tight f) l ->
  exists s', ensure dbg f beg en s o = Ok s'.
Proof.
  intros CT Ho Ti. unfold ensure. rewrite (rdown_same beg _ (align_pos f Hla) Hal).
  destruct (cached s <? o) eqn:D.
  - assert (D' : cached s < o) by lia.
    pose proof (target_small o (cached s) (cached_nonneg _ _ _ CT) Ho D') as TS. cbn zeta in TS.
    set (t := (Z.min (en - beg) (Z.max ((2 * cached s) mod W32) o)) mod W32) in *.
    destruct CT as (E & B & M & C). replace (beg + cached s) with (pos_after f beg pre) by lia.
    set (nb := divup (beg + t + 1 - beg) (align f)). set (nw := if nwords s <? divup nb 64 then divup nb 64 else nwords s).
    set (s1 := mkSeq _ nw _ _). assert (CT1 : cachedto f beg l pre post s1) by (repeat split; auto).
    assert (LP : (length post < S (Z.to_nat (en - beg)))%nat).
    { pose proof HT as T. rewrite E in T. pose proof (pos_after_ge f en Hla _ _ _ T) as G. apply tile_app in T.
      destruct post as [|e post]; [cbn; lia|]. pose proof (tile_count f en Hla _ _ T). assert (K : e :: post <> []) by easy. specialize (H K). lia. }
    assert (HB : nb <= nw * 64). { pose proof (divup_le nb 64 ltac:(lia)). subst nw. clear - H. destruct (nwords s <? divup nb 64) eqn:K; clearbody nb; lia. }
    destruct (loop_runs (beg + t) nw _ pre post s1 CT1 Ti eq_refl HB ltac:(lia) LP) as (s2 & R2). rewrite R2. cbn [bind].
    destruct (loop_cached (beg + t) _ pre post _ s2 CT1 R2) as (p' & q' & CT' & F).
    rewrite asrt_true; [cbn; eauto|]. destruct CT' as (E' & _ & _ & C').
    destruct F as [F| ->]; [lia|]. pose proof (rest_done _ E'). lia.
  - cbn [bind]. rewrite asrt_true by lia. cbn. eauto.
Qed.


(* the element containing an address, among those cached *)
Lemma locate_from x : forall pre p, p <= x < pos_after f p pre -> (forall e, In e pre -> True) ->
  tile f p en (pre ++ []) \/ (exists post, tile f p en (pre ++ post)) ->
  exists p1 e p2, pre = p1 ++ e :: p2 /\ l_start e <= x < nextpos f e.
Proof.
  induction pre as [|a pre IH]; intros p Hx _ T; cbn [pos_after] in Hx; [lia|].
  assert (T' : exists post, tile f p en ((a :: pre) ++ post)) by (destruct T as [T|T]; eauto).
  destruct T' as (post & T'). cbn [app tile] in T'. destruct T' as (E & _ & _ & _ & T').
  destruct (Z_lt_dec x (nextpos f a)) as [L|L].
  - exists [], a, pre. split; auto. lia.
  - destruct (IH (nextpos f a)) as (p1 & e & p2 & E2 & H); [lia|auto|eauto|].
    exists (a :: p1), e, p2. rewrite E2. auto.
Qed.

Lemma split_bounds p1 e p2 : l = p1 ++ e :: p2 ->
  l_start e = pos_after f beg p1 /\ l_start e mod align f = 0 /\ beg <= l_start e /\ 0 < l_size e /\
  l_start e + l_size e <= en /\ enum f (l_start e) = Some (l_size e, l_type e) /\
  (forall a, In a p1 -> bit_of f beg a < bit_of f beg e) /\
  (forall a, In a p2 -> nextpos f e <= l_start a /\ (nextpos f e - beg) / align f <= bit_of f beg a /\ bit_of f beg e < bit_of f beg a).
Proof.
  intros E. pose proof HT as T. rewrite E in T. pose proof (align_pos f Hla) as AP.
  pose proof (tile_app _ _ _ _ _ T) as T2. cbn [tile] in T2. destruct T2 as (S1 & S2 & S3 & S4 & T2).
  pose proof (pos_after_ge f en Hla _ _ _ T) as G.
  assert (SM : l_start e mod align f = 0).
  { apply (starts_mod f en Hla _ beg e Hal HT). rewrite E. apply in_or_app. right. left. auto. }
  split; [auto|]. split; [auto|]. split; [lia|]. split; [lia|]. split; [lia|]. split; [congruence|]. split.
  - intros a Ia. destruct (pre_bounds f en Hla _ _ _ _ T Ia) as (A & B & C).
    pose proof (nextpos_ge f a Hla). unfold bit_of. apply div_floor_lt; auto; [apply sub_mod0; auto|lia].
  - intros a Ia. assert (T3 : tile f (nextpos f e) en (p2 ++ [])) by (rewrite app_nil_r; auto).
    destruct (pre_bounds f en Hla _ _ _ _ T3 Ia) as (A & B & C). pose proof (nextpos_ge f e Hla).
    split; auto. unfold bit_of. split; [apply Z.div_le_mono; lia|].
    apply div_floor_lt; auto; [|lia]. apply sub_mod0; auto.
    apply (starts_mod f en Hla _ beg a Hal HT). rewrite E. apply in_or_app. right. right. auto.
Qed.

Lemma find_idx_in ty t k : nth_error t k = Some ty -> forall i, exists j, (j <= k)%nat /\ find_idx i ty t = i + Z.of_nat j /\ nth_error t j = Some ty.
Proof.
  revert k. induction t as [|a t IH]; intros k H i; [destruct k; easy|]. cbn [find_idx].
  destruct (a =? ty) eqn:E. { exists 0%nat. cbn. assert (a = ty) as -> by lia. repeat split; auto; lia. }
  destruct k as [|k]; cbn in H. { injection H as ->. lia. }
  destruct (IH _ H (i + 1)) as (j & J1 & J2 & J3). exists (S j). cbn. rewrite J2. repeat split; auto; lia.
Qed.

(* an element's record gives back its type and size *)
Lemma entry_back w e : mwidths f = Some w -> fits f e -> l_start e mod align f = 0 -> 0 < l_size e ->
  exists ti na d, ent_of f e = [(ti, na, d)] /\ nth_error (types f) (Z.to_nat ti) = Some (l_type e) /\
    Z.shiftl na (la f) - d = l_size e /\ d = nextpos f e - (l_start e + l_size e).
Proof.
  intros W F SM P. unfold fits in F. rewrite W in F. destruct w as ((w1, w2), w3).
  destruct F as ((k & K1 & K2) & N & D & P1 & P2 & P3). unfold ent_of, entry_for. rewrite W.
  pose proof (align_pos f Hla) as AP. pose proof (nextpos_ge f e Hla) as NG. pose proof (nextpos_mod f e Hla) as NM.
  do 3 eexists. split; [reflexivity|]. split; [|split].
  - destruct (find_idx_in _ _ _ K2 0) as (j & J1 & J2 & J3). rewrite J2. rewrite Z.mod_small by lia. cbn. rewrite Nat2Z.id. auto.
  - rewrite shiftr_align, shiftl_align by auto.
    pose proof (sub_mod0 _ _ _ AP NM SM) as DM. apply Z_div_exact_full_2 in DM; [|lia].
    rewrite (Z.mod_small (_ / _)). 2:{ split; [apply Z.div_pos; lia|]. apply Z.div_lt_upper_bound; lia. }
    rewrite (Z.mod_small (_ - _)) by lia. lia.
  - apply Z.mod_small. lia.
Qed.

Lemma flat_nth w p1 e p2 : mwidths f = Some w -> nth_error (flat_map (ent_of f) (p1 ++ e :: p2)) (length p1) = Some (hd (0,0,0) (ent_of f e)).
Proof.
  intros W. destruct w as ((w1, w2), w3). induction p1 as [|a p1 IH]; cbn [flat_map app length].
  - unfold ent_of, entry_for. rewrite W. reflexivity.
  - unfold ent_of at 1, entry_for at 1. rewrite W. cbn. exact IH.
Qed.

(* a query over a cached prefix, when nothing goes wrong *)
Lemma query_answer w pre post s x s' r p1 e p2 : cachedto f beg l pre post s -> mwidths f = Some w -> Forall (fits f) l ->
  beg <= x < en -> get_info dbg f beg en s x = Ok (s', r) -> l = p1 ++ e :: p2 -> l_start e <= x < nextpos f e ->
  r = Some (l_type e, l_start e, l_size e) /\ exists pre' post', cachedto f beg l pre' post' s'.
Proof.
  intros CT W HF Hx R El Hxe. unfold get_info in R. pose proof (align_pos f Hla) as AP.
  assert (XM : (x - beg) mod W32 = x - beg). { change W32 with 4294967296. change (2 ^ 31) with 2147483648 in Hsz. clear - Hx Hsz. lia. }
  rewrite XM in R. rewrite (rdown_same beg _ AP Hal) in R.
  destruct (ensure dbg f beg en s (x - beg + 1)) as [s1| | |] eqn:ER; cbn [bind] in R; try easy.
  assert (HO : 0 <= x - beg + 1 <= en - beg) by (clear - Hx; lia).
  destruct (ensure_cached _ _ _ _ _ CT HO ER) as (pre' & post' & CT' & G).
  pose proof CT' as (E' & B' & M' & C').
  (* the element is in the cached prefix *)
  assert (SP : exists q2, pre' = p1 ++ e :: q2 /\ p2 = q2 ++ post').
  { rewrite E' in El. pose proof HT as T. rewrite E' in T.
    destruct (Nat.lt_ge_cases (length p1) (length pre')) as [LL|LL].
    - assert (F1 : firstn (length pre') (p1 ++ e :: p2) = pre') by (rewrite <- El, firstn_app, firstn_all, Nat.sub_diag; cbn; apply app_nil_r).
      assert (F2 : skipn (length pre') (p1 ++ e :: p2) = post') by (rewrite <- El, skipn_app, skipn_all, Nat.sub_diag; cbn; auto).
      rewrite firstn_app in F1. rewrite skipn_app in F2.
      rewrite firstn_all2 in F1 by lia. rewrite skipn_all2 in F2 by lia.
      destruct (length pre' - length p1)%nat as [|m] eqn:EM; [lia|]. cbn in F1, F2.
      exists (firstn m p2). split; [auto|]. rewrite <- F2. symmetry. apply firstn_skipn.
    - exfalso. assert (F2 : firstn (length pre') p1 = pre').
      { assert (F1 : firstn (length pre') (p1 ++ e :: p2) = pre') by (rewrite <- El, firstn_app, firstn_all, Nat.sub_diag; cbn; apply app_nil_r).
        rewrite firstn_app in F1. replace (length pre' - length p1)%nat with 0%nat in F1 by lia. cbn in F1. rewrite app_nil_r in F1. auto. }
      assert (P1 : p1 = pre' ++ skipn (length pre') p1) by (rewrite <- F2 at 1; symmetry; apply firstn_skipn).
      rewrite <- E' in El. destruct (split_bounds _ _ _ El) as (S1 & _). rewrite P1, pos_after_app in S1.
      assert (T' : tile f (pos_after f beg pre') en (skipn (length pre') p1 ++ e :: p2)).
      { apply tile_app. rewrite app_assoc, <- P1, <- El. exact HT. }
      pose proof (pos_after_ge f en Hla _ _ _ T'). lia. }
  destruct SP as (q2 & Ep & _).
  destruct (split_bounds _ _ _ El) as (S1 & SM & S2 & S3 & S4 & S5 & BL & BH).
  assert (HB : forall b, In b (map (bit_of f beg) p1) -> b < bit_of f beg e) by (intros b Hb; apply in_map_iff in Hb; destruct Hb as (a & <- & Ia); auto).
  assert (HQ : forall b, In b (map (bit_of f beg) q2) -> (nextpos f e - beg) / align f <= b /\ bit_of f beg e < b).
  { intros b Hb. apply in_map_iff in Hb. destruct Hb as (a & <- & Ia). apply BH.
    assert (IA : In a l) by (rewrite E', Ep; apply in_or_app; left; apply in_or_app; right; right; auto).
    rewrite Ep, <- app_assoc in E'. cbn in E'. rewrite El in E'. apply app_inv_head in E'. injection E' as ->. apply in_or_app. auto. }
  assert (EX : bit_of f beg e <= Z.shiftr (x - beg) (la f) < (nextpos f e - beg) / align f).
  { rewrite shiftr_align by auto. unfold bit_of. split; [apply Z.div_le_mono; lia|].
    apply div_floor_lt; auto; [|lia]. apply sub_mod0; auto. apply nextpos_mod; auto. }
  replace (beg + (x - beg) - beg) with (x - beg) in R by lia.
  rewrite B', Ep, map_app in R. cbn [map] in R.
  rewrite (rfind_split (map (bit_of f beg) p1) (bit_of f beg e) (map (bit_of f beg) q2)) in R.
  2:{ intros b Hb. specialize (HB _ Hb). lia. } 2:{ lia. } 2:{ intros b Hb. specialize (HQ _ Hb). lia. }
  rewrite W in R.
  rewrite count_split in R. 2:{ auto. } 2:{ intros b [<-|Hb]; [lia|]. specialize (HQ _ Hb). lia. }
  rewrite map_length, M', Ep, (flat_nth w) in R by auto.
  assert (FE : fits f e). { eapply Forall_forall; [exact HF|]. rewrite El. apply in_or_app. right. left. auto. }
  destruct (entry_back w e W FE SM S3) as (ti & na & d & EE & ET & ES & _). rewrite EE in R. cbn [hd] in R.
  rewrite ET in R. cbn [bind] in R.
  assert (BB : beg + Z.shiftl (bit_of f beg e) (la f) = l_start e).
  { rewrite shiftl_align by auto. unfold bit_of. pose proof (sub_mod0 _ _ _ AP SM Hal) as DM. apply Z_div_exact_full_2 in DM; lia. }
  rewrite BB, ES in R. injection R as <- <-. split; auto. exists pre', post'. auto.
Qed.
End C.
