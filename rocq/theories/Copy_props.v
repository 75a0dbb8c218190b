(* C46: copies and frees notify exactly the pointers affected. *)
From Verif Require Import Base Copy_model Copy_spec.

Section Ind.
Variable P : ty -> Prop.
Hypothesis HB : forall sz, P (BaseT sz).
Hypothesis HP : P Ptr.
Hypothesis HA : forall n e, P e -> P (Arr n e).
Hypothesis HC : forall sz ms, Forall (fun om => P (snd om)) ms -> P (Comp sz ms).
Fixpoint ty_rect' (t : ty) : P t :=
  match t with
  | BaseT sz => HB sz
  | Ptr => HP
  | Arr n e => HA n e (ty_rect' e)
  | Comp sz ms => HC sz ms ((fix go l : Forall (fun om => P (snd om)) l := match l with [] => Forall_nil _ | (off, m) :: r => Forall_cons (off, m) (ty_rect' m) (go r) end) ms)
  end.
End Ind.

Definition all_wf (sz : Z) : list (Z * ty) -> Prop := fix all l := match l with [] => True | (off, m) :: r => (wf m /\ 0 <= off /\ off + sizeof m <= sz) /\ all r end.
Definition any_need : list (Z * ty) -> bool := fix any l := match l with [] => false | (_, m) :: r => need m || any r end.
Definition ptrs_l (b : Z) : list (Z * ty) -> list Z := fix go l := match l with [] => [] | (off, m) :: r => ptrs m (b + off) ++ go r end.
Definition fits_l (size : Z) : list (Z * ty) -> Prop :=
  fix all l := match l with [] => True | (off, m) :: r => (need m = true -> off <= size /\ fits m (Z.min (size - off) (sizeof m))) /\ all r end.
Definition members (dest : Z) (src : option Z) (size : Z) : list (Z * ty) -> list note := fix members l := match l with
  | [] => []
  | (off, m) :: r =>
      let maxmemb := (size - off) mod W64 in
      let membsize := if maxmemb <? sizeof m then maxmemb else sizeof m in
      snd (for_type m (dest + off) (adv src off) membsize) ++ members r
  end.

Lemma size_nonneg t : wf t -> 0 <= sizeof t.
Proof. destruct t; cbn; try lia; tauto. Qed.
Lemma ptrs_in : forall t b p, wf t -> In p (ptrs t b) -> b <= p /\ p + 8 <= b + sizeof t.
Proof.
  apply (ty_rect' (fun t => forall b p, wf t -> In p (ptrs t b) -> b <= p /\ p + 8 <= b + sizeof t)).
  - intros sz b p _ [].
  - intros b p _ [<-|[]]. cbn. lia.
  - intros n e IH b p (We & Hn & Hs) I. cbn [ptrs] in I. apply in_flat_map in I. destruct I as (i & Ii & Ip). apply in_seq in Ii. apply (IH _ _ We) in Ip. cbn [sizeof].
    assert (0 <= sizeof e) by (apply size_nonneg, We). nia.
  - intros sz ms IH b p [Hs W] I. cbn [sizeof]. cbn [ptrs] in I. fold (ptrs_l b ms) in I. cbn [wf] in W. fold (all_wf sz ms) in W. clear Hs. induction ms as [|[off m] r IHr]; [destruct I|].
    cbn [all_wf ptrs_l] in *. inversion IH as [|? ? I1 I2]; subst. destruct W as [(Wm & H1 & H2) W]. apply in_app_or in I. destruct I as [I|I]; [|exact (IHr I2 W I)].
    apply (I1 _ _ Wm) in I. cbn [snd] in I. lia.
Qed.
Lemma need_ptrs : forall t b, need t = false -> ptrs t b = [].
Proof.
  apply (ty_rect' (fun t => forall b, need t = false -> ptrs t b = [])).
  - reflexivity.
  - discriminate.
  - intros n e IH b H. cbn [ptrs need] in *. induction (seq 0 (Z.to_nat n)) as [|i l IHl]; [reflexivity|]. cbn [flat_map]. rewrite IH, IHl by exact H. reflexivity.
  - intros sz ms IH b H. cbn [ptrs need] in *. fold (ptrs_l b ms). fold (any_need ms) in H. induction ms as [|[off m] r IHr]; [reflexivity|]. cbn [ptrs_l any_need] in *. inversion IH as [|? ? I1 I2]; subst.
    apply orb_false_iff in H. destruct H as [H1 H2]. cbn [snd] in I1. rewrite (I1 (b + off) H1), (IHr I2 H2). reflexivity.
Qed.
Lemma fits_whole : forall t size, wf t -> sizeof t <= size -> fits t size.
Proof.
  apply (ty_rect' (fun t => forall size, wf t -> sizeof t <= size -> fits t size)); try exact (fun _ _ _ => I).
  - intros sz size _ _. exact I.
  - intros n e _ size _ H. left. exact H.
  - intros sz ms IH size [Hs W] H. cbn [wf fits sizeof] in *. fold (fits_l size ms). fold (all_wf sz ms) in W. clear Hs. induction ms as [|[off m] r IHr]; [exact I|]. cbn [all_wf fits_l] in *.
    inversion IH as [|? ? I1 I2]; subst. destruct W as [(Wm & H1 & H2) W]. split; [|exact (IHr I2 W)]. intros _. assert (0 <= sizeof m) by (apply size_nonneg, Wm).
    split; [lia|]. apply I1; [exact Wm|]. cbn [snd]. lia.
Qed.

Definition mk (d : Z) (s : option Z) (p : Z) : note := (p, adv s (p - d)).
Definition upto (x : Z) (p : Z) : bool := p + 8 <=? x.
Lemma flt_ext {A} (f h : A -> bool) l : (forall x, In x l -> f x = h x) -> filter f l = filter h l.
Proof. intro H. induction l as [|x l IH]; [reflexivity|]. cbn. rewrite (H x (or_introl eq_refl)), IH; [reflexivity|]. intros y Iy. apply H. right. exact Iy. Qed.
Lemma flt_none {A} (f : A -> bool) l : (forall x, In x l -> f x = false) -> filter f l = [].
Proof. intro H. induction l as [|x l IH]; [reflexivity|]. cbn. rewrite (H x (or_introl eq_refl)). apply IH. intros y Iy. apply H. right. exact Iy. Qed.
Lemma mk_shift d s k p : mk (d + k) (adv s k) p = mk d s p.
Proof. unfold mk, adv. destruct s; [|reflexivity]. f_equal. f_equal. lia. Qed.
Lemma map_shift d s k l : map (mk (d + k) (adv s k)) l = map (mk d s) l.
Proof. apply map_ext. intro p. apply mk_shift. Qed.

Lemma arr_rest f elem : 0 <= elem -> forall n d s remain, 0 <= remain -> fst (arr_loop f elem n d s remain) = Z.max (remain - Z.of_nat n * elem) 0.
Proof.
  intros He n. induction n as [|n IH]; intros d s remain Hr; [cbn; lia|]. cbn [arr_loop]. destruct (Z.eqb_spec remain 0) as [->|]; [cbn [fst]; nia|].
  destruct (Z.gtb_spec remain elem).
  - specialize (IH (d + elem) (adv s elem) (remain - elem) ltac:(lia)). destruct (arr_loop f elem n (d + elem) (adv s elem) (remain - elem)) as [r l]. cbn [fst] in *. nia.
  - specialize (IH (d + remain) (adv s remain) (remain - remain) ltac:(lia)). destruct (arr_loop f elem n (d + remain) (adv s remain) (remain - remain)) as [r l]. cbn [fst] in *. nia.
Qed.
Lemma arr_notes e (We : wf e) :
  (forall d s size, 0 <= size < W64 -> fits e size -> snd (for_type e d s size) = map (mk d s) (filter (upto (d + size)) (ptrs e d))) ->
  forall n k d s remain, 0 <= remain < W64 -> (Z.of_nat n * sizeof e <= remain \/ remain mod sizeof e = 0 \/ fits e (remain mod sizeof e)) ->
  snd (arr_loop (fun d s c => snd (for_type e d s c)) (sizeof e) n d s remain) =
  map (mk d s) (filter (upto (d + remain)) (flat_map (fun i => ptrs e (d + (Z.of_nat i - Z.of_nat k) * sizeof e)) (seq k n))).
Proof.
  intro IHe. assert (He := size_nonneg e We). intro n. induction n as [|n IH]; intros k d s remain Hr Hf; [reflexivity|]. cbn [arr_loop seq flat_map].
  rewrite Z.sub_diag, Z.mul_0_l, Z.add_0_r.
  assert (Far : forall p, In p (flat_map (fun i => ptrs e (d + (Z.of_nat i - Z.of_nat k) * sizeof e)) (seq (S k) n)) -> d + sizeof e <= p).
  { intros p I. apply in_flat_map in I. destruct I as (i & Ii & Ip). apply in_seq in Ii. apply (ptrs_in _ _ _ We) in Ip. nia. }
  destruct (Z.eqb_spec remain 0) as [->|Nz].
  { cbn [snd]. rewrite flt_none; [reflexivity|]. intros p I. unfold upto. apply in_app_or in I. destruct I as [I|I]; [apply (ptrs_in _ _ _ We) in I; lia|apply Far in I; lia]. }
  destruct (Z.gtb_spec remain (sizeof e)) as [Hgt|Hle].
  - specialize (IH (S k) (d + sizeof e) (adv s (sizeof e)) (remain - sizeof e) ltac:(lia)).
    destruct (arr_loop (fun d s c => snd (for_type e d s c)) (sizeof e) n (d + sizeof e) (adv s (sizeof e)) (remain - sizeof e)) as [r l]. cbn [snd] in *.
    rewrite filter_app, map_app. f_equal.
    + rewrite IHe; [|lia|apply fits_whole; [exact We|lia]]. f_equal. apply flt_ext. intros p I. apply (ptrs_in _ _ _ We) in I. unfold upto. destruct (Z.leb_spec (p + 8) (d + sizeof e)), (Z.leb_spec (p + 8) (d + remain)); lia.
    + rewrite IH.
      * rewrite map_shift. f_equal. replace (d + sizeof e + (remain - sizeof e)) with (d + remain) by lia. f_equal. apply flat_map_ext. intro i. f_equal. lia.
      * destruct Hf as [Hf|Hf]; [left; nia|right]. destruct (Z.eq_dec (sizeof e) 0) as [E0|]; [rewrite E0, Z.sub_0_r; rewrite E0 in Hf; exact Hf|].
        replace ((remain - sizeof e) mod sizeof e) with (remain mod sizeof e); [exact Hf|]. replace (remain - sizeof e) with (remain + (-1) * sizeof e) by lia. rewrite Z.mod_add by assumption. reflexivity.
  - assert (Fe : fits e remain).
    { destruct (Z.eq_dec remain (sizeof e)) as [->|]; [apply fits_whole; [exact We|lia]|]. destruct Hf as [Hf|Hf]; [nia|]. rewrite Z.mod_small in Hf by lia. destruct Hf as [Hf|Hf]; [lia|exact Hf]. }
    specialize (IH (S k) (d + remain) (adv s remain) (remain - remain) ltac:(lia)).
    assert (E0 : snd (arr_loop (fun d s c => snd (for_type e d s c)) (sizeof e) n (d + remain) (adv s remain) (remain - remain)) = []).
    { rewrite Z.sub_diag. destruct n; reflexivity. }
    destruct (arr_loop (fun d s c => snd (for_type e d s c)) (sizeof e) n (d + remain) (adv s remain) (remain - remain)) as [r l]. cbn [snd] in *. subst l. rewrite app_nil_r, filter_app.
    rewrite (flt_none _ (flat_map _ _)); [|intros p I; apply Far in I; unfold upto; lia]. rewrite app_nil_r. apply IHe; [lia|exact Fe].
Qed.

Lemma for_type_notes : forall t d s size, wf t -> 0 <= size < W64 -> fits t size -> snd (for_type t d s size) = map (mk d s) (filter (upto (d + size)) (ptrs t d)).
Proof.
  apply (ty_rect' (fun t => forall d s size, wf t -> 0 <= size < W64 -> fits t size -> snd (for_type t d s size) = map (mk d s) (filter (upto (d + size)) (ptrs t d)))).
  - reflexivity.
  - intros d s size _ Hs _. cbn. unfold upto. destruct (Z.ltb_spec size 8), (Z.leb_spec (d + 8) (d + size)); try lia; [cbn; destruct (Z.leb_spec (d + 8) (d + size)); [lia|reflexivity]|]. unfold filter. destruct (Z.leb_spec (d + 8) (d + size)); [|lia]. cbn [map]. unfold mk. rewrite Z.sub_diag. destruct s; [|reflexivity]. cbn [adv]. rewrite Z.add_0_r. reflexivity.
  - intros n e IH d s size W Hs Hf. destruct (need (Arr n e)) eqn:N; [|rewrite (need_ptrs _ _ N); destruct s; cbn [for_type]; rewrite N; reflexivity].
    cbn [for_type]. rewrite N. destruct W as (We & Hn & Ht). cbn [fits] in Hf.
    assert (X := arr_notes e We (fun d s size H1 H2 => IH d s size We H1 H2) (Z.to_nat n) 0 d s size Hs). rewrite Z2Nat.id in X by lia. specialize (X Hf).
    destruct (arr_loop (fun d s c => snd (for_type e d s c)) (sizeof e) (Z.to_nat n) d s size) as [r l]. cbn [snd] in *. rewrite X. f_equal. f_equal. cbn [ptrs]. apply flat_map_ext. intro i. f_equal. lia.
  - intros sz ms IH d s size W Hs Hf. destruct (need (Comp sz ms)) eqn:N; [|rewrite (need_ptrs _ _ N); destruct s; cbn [for_type]; rewrite N; reflexivity].
    cbn [for_type]. rewrite N. cbn [snd]. fold (members d s size ms). cbn [ptrs]. fold (ptrs_l d ms). destruct W as [Hz W]. cbn [fits] in Hf. fold (all_wf sz ms) in W. fold (fits_l size ms) in Hf. clear N.
    induction ms as [|[off m] r IHr]; [reflexivity|]. cbn [members ptrs_l all_wf fits_l] in *. inversion IH as [|? ? I1 I2]; subst. destruct W as [(Wm & H1 & H2) W]. destruct Hf as [Hm Hf].
    rewrite filter_app, map_app, (IHr I2 W Hf). f_equal. cbv zeta. destruct (need m) eqn:Nm.
    + destruct (Hm eq_refl) as [H3 H4]. assert (0 <= sizeof m) by (apply size_nonneg, Wm). rewrite Z.mod_small by lia.
      replace (if size - off <? sizeof m then size - off else sizeof m) with (Z.min (size - off) (sizeof m)) by (destruct (Z.ltb_spec (size - off) (sizeof m)); lia).
      cbn [snd] in I1. rewrite I1; [|exact Wm|lia|exact H4]. rewrite map_shift. f_equal. apply flt_ext. intros p I. apply (ptrs_in _ _ _ Wm) in I. unfold upto.
      destruct (Z.leb_spec (p + 8) (d + off + Z.min (size - off) (sizeof m))), (Z.leb_spec (p + 8) (d + size)); lia.
    + rewrite (need_ptrs _ _ Nm). cbn. destruct m; cbn [for_type]; rewrite Nm; reflexivity.
Qed.
Lemma for_type_handled t d s size : wf t -> 0 <= size < W64 -> fst (for_type t d s size) = if need t then Z.min size (sizeof t) else sizeof t.
Proof.
  intros W Hs. destruct (need t) eqn:N; [|destruct t; cbn [for_type]; rewrite N; reflexivity]. destruct t as [sz| |n e|sz ms]; cbn [for_type]; rewrite N.
  - discriminate.
  - cbn. destruct (Z.ltb_spec size 8); cbn; lia.
  - destruct W as (We & Hn & Ht). assert (X := arr_rest (fun d s c => snd (for_type e d s c)) (sizeof e) (size_nonneg e We) (Z.to_nat n) d s size ltac:(lia)).
    destruct (arr_loop _ _ _ d s size) as [r l]. cbn [fst] in *. rewrite X, Z2Nat.id by lia. change (sizeof (Arr n e)) with (n * sizeof e). lia.
  - cbn [fst sizeof]. destruct (Z.ltb_spec sz size); lia.
Qed.

(* ---- theorems ---- *)
(* Freeing an object notifies a null write to each of its pointers, in order, and to nothing else. *)
Theorem copy_free_exact : forall tyat t d, tyat d = Some t -> wf t -> notify_free tyat d = map (fun p => (p, None)) (ptrs t d).
Proof.
  intros tyat t d E W. unfold notify_free. rewrite E. assert (H := size_nonneg t W). assert (Hs : sizeof t < W64) by (destruct t; cbn in *; try lia; try tauto; unfold W64; lia).
  rewrite for_type_notes; [|exact W|lia|apply fits_whole; [exact W|lia]]. replace (filter (upto (d + sizeof t)) (ptrs t d)) with (ptrs t d); [reflexivity|]. symmetry.
  rewrite (flt_ext _ (fun _ => true)); [induction (ptrs t d) as [|x l IH]; cbn; congruence|]. intros p I. apply (ptrs_in _ _ _ W) in I. unfold upto. lia.
Qed.

Lemma total_nonneg tyat : forall ts d, laid tyat d ts -> 0 <= total ts.
Proof. intro ts. induction ts as [|t r IH]; intros d H; [cbn; lia|]. destruct H as (_ & _ & H1 & H2). apply IH in H2. cbn. fold (total r). lia. Qed.
Lemma all_ptrs_in tyat : forall ts d p, laid tyat d ts -> In p (all_ptrs d ts) -> d <= p.
Proof.
  intro ts. induction ts as [|t r IH]; intros d p H I; [destruct I|]. destruct H as (_ & W & H1 & H2). cbn in I. apply in_app_or in I. destruct I as [I|I]; [apply (ptrs_in _ _ _ W) in I; lia|].
  apply (IH _ _ H2) in I. lia.
Qed.
(* Copying n bytes over consecutive objects notifies exactly the pointers inside those bytes,
   each with the corresponding source.  Partial: the bytes may not end within an object without
   pointers, nor before a pointer-bearing member of a structure they end within. *)
Theorem copy_exact_partial : forall tyat ts d s n fuel, laid tyat d ts -> 0 <= d -> 0 <= s -> 0 <= n <= total ts -> ends ts n -> d + n < W64 -> s + n < W64 -> (length ts < fuel)%nat ->
  notify_copy tyat fuel d s n = Ok (map (fun p => (p, Some (s + (p - d)))) (filter (fun p => p + 8 <=? d + n) (all_ptrs d ts))).
Proof.
  intros tyat ts. induction ts as [|t r IH]; intros d s n fuel L Hd Hsr Hn He Hd1 Hs1 Hf.
  - cbn in Hn. destruct fuel as [|fuel]; [lia|]. cbn [notify_copy]. destruct (Z.ltb_spec n 8); [reflexivity|lia].
  - destruct fuel as [|fuel]; [lia|]. cbn [notify_copy]. assert (L' := L). destruct L as (Et & W & Hp & L). destruct (Z.ltb_spec n 8).
    { rewrite flt_none; [reflexivity|]. intros p I. apply (all_ptrs_in tyat _ _ _ L') in I. lia. }
    rewrite Et. assert (Hn' := for_type_handled t d (Some s) n W ltac:(lia)).
    assert (Hnote : (n < sizeof t -> need t = true /\ fits t n) /\ fits t n).
    { assert (X : n < sizeof t -> need t = true /\ fits t n) by (intro X; destruct (He [] t r eq_refl ltac:(cbn; lia)) as [Y1 Y2]; cbn in Y2; rewrite Z.sub_0_r in Y2; auto).
      split; [exact X|]. destruct (Z.ltb_spec n (sizeof t)); [apply X; assumption|apply fits_whole; assumption]. }
    destruct Hnote as [Hpart Hfits]. assert (Nt := for_type_notes t d (Some s) n W ltac:(lia) Hfits). destruct (for_type t d (Some s) n) as [handled l]. cbn [fst snd] in *. subst l.
    assert (Hh : handled = Z.min n (sizeof t)) by (destruct (need t) eqn:N; [exact Hn'|]; destruct (Z.ltb_spec n (sizeof t)) as [X|X]; [destruct (Hpart X); discriminate|lia]).
    cbn [total fold_right] in Hn. fold (total r) in Hn. cbn [all_ptrs]. rewrite filter_app, map_app.
    rewrite !Z.mod_small by lia. destruct (Z.ltb_spec n (sizeof t)) as [Lt|Ge].
    + replace (n - handled) with 0 by lia. assert (Stop : notify_copy tyat fuel (d + handled) (s + handled) 0 = Ok []) by (destruct fuel; [cbn in Hf; lia|reflexivity]). rewrite Stop. cbn [bind]. f_equal. f_equal.
      symmetry. rewrite flt_none; [reflexivity|]. intros p I. apply (all_ptrs_in tyat _ _ _ L) in I. lia.
    + replace handled with (sizeof t) by lia. rewrite (IH (d + sizeof t) (s + sizeof t) (n - sizeof t) fuel L); try lia.
      * cbn [bind]. f_equal. f_equal. replace (d + sizeof t + (n - sizeof t)) with (d + n) by lia. apply map_ext. intro p. f_equal. f_equal. lia.
      * intros a t' b E H1. destruct (He (t :: a) t' b) as [Y1 Y2]; [cbn; rewrite E; reflexivity|cbn; fold (total a); lia|]. split; [exact Y1|]. cbn in Y2. fold (total a) in Y2.
        replace (n - sizeof t - total a) with (n - (sizeof t + total a)) by lia. exact Y2.
      * cbn in Hf. lia.
Qed.

(* Without unions no pointer is notified twice. *)
Theorem copy_once_partial : forall t b, wf t -> nounion t -> NoDup (ptrs t b).
Proof.
  assert (App : forall (l1 l2 : list Z) x, NoDup l1 -> NoDup l2 -> (forall p, In p l1 -> p < x) -> (forall p, In p l2 -> x <= p) -> NoDup (l1 ++ l2)).
  { intros l1 l2 x N1 N2 H1 H2. induction N1 as [|p l Np N1 IH]; [exact N2|]. cbn. constructor; [|apply IH; intros q Iq; apply H1; right; exact Iq].
    intro I. apply in_app_or in I. destruct I as [I|I]; [contradiction|]. specialize (H1 p (or_introl eq_refl)). specialize (H2 p I). lia. }
  apply (ty_rect' (fun t => forall b, wf t -> nounion t -> NoDup (ptrs t b))).
  - intros. constructor.
  - intros. constructor; [intros []|constructor].
  - intros n e IH b (We & Hn & Hs) U. cbn [ptrs nounion] in *. assert (He := size_nonneg e We). generalize 0%nat as k. induction (Z.to_nat n) as [|m IHm]; intro k; [constructor|]. cbn [seq flat_map].
    apply (App _ _ (b + Z.of_nat (S k) * sizeof e)); [apply IH; assumption|apply IHm|..].
    + intros p I. apply (ptrs_in _ _ _ We) in I. lia.
    + intros p I. apply in_flat_map in I. destruct I as (i & Ii & Ip). apply in_seq in Ii. apply (ptrs_in _ _ _ We) in Ip. nia.
  - intros sz ms IH b [Hz W] U. cbn [wf nounion ptrs] in *. fold (ptrs_l b ms). fold (all_wf sz ms) in W. revert U. generalize 0. induction ms as [|[off m] r IHr]; intros lo U; [constructor|].
    cbn [ptrs_l all_wf] in *. inversion IH as [|? ? I1 I2]; subst. destruct W as [(Wm & H1 & H2) W]. destruct U as (U1 & U2 & U3). apply (App _ _ (b + off + sizeof m)); [apply I1; assumption|exact (IHr I2 W _ U3)|..].
    + intros p I. apply (ptrs_in _ _ _ Wm) in I. lia.
    + assert (Q : forall l hi, (fix all (lo : Z) l := match l with [] => True | (off, m) :: r => lo <= off /\ nounion m /\ all (off + sizeof m) r end) hi l -> all_wf sz l -> forall p, In p (ptrs_l b l) -> b + hi <= p).
      { intro l. induction l as [|[o2 m2] l IHl]; intros h U W' p I; [destruct I|]. cbn [ptrs_l all_wf] in *. destruct U as (V1 & V2 & V3). destruct W' as [(W1 & W2 & W3) W']. apply in_app_or in I. destruct I as [I|I].
        - apply (ptrs_in _ _ _ W1) in I. lia.
        - assert (X := IHl _ V3 W' p I). assert (0 <= sizeof m2) by (apply size_nonneg, W1). lia. }
      intros p I. assert (X := Q r _ U3 W p I). lia.
Qed.

(* ---- concrete cases ---- *)
(* struct node { struct node *next; int n; char *name; } *)
Definition node : ty := Comp 24 [(0, Ptr); (8, BaseT 4); (16, Ptr)].
Definition at_ (l : list (Z * ty)) (a : Z) : option ty := match find (fun dt => (fst dt <=? a) && (a <? fst dt + sizeof (snd dt))) l with Some dt => Some (snd dt) | None => None end.
Definition heap : Z -> option ty := at_ [(1000, node); (1024, Arr 3 node)].
Example copy_ex : wf node /\ nounion node /\ laid heap 1000 [node; Arr 3 node] /\ ends [node; Arr 3 node] 48 /\ ends [node; Arr 3 node] 65 /\
  notify_copy heap 3 1000 5000 48 = Ok [(1000, Some 5000); (1016, Some 5016); (1024, Some 5024); (1040, Some 5040)] /\
  notify_copy heap 3 1000 5000 65 = Ok [(1000, Some 5000); (1016, Some 5016); (1024, Some 5024); (1040, Some 5040); (1048, Some 5048)] /\
  notify_free heap 1000 = [(1000, None); (1016, None)].
Proof.
  assert (W : wf node) by (cbn; unfold W64; lia).
  assert (S2 : forall (P : list ty -> ty -> Prop), (P [] node) -> (P [node] (Arr 3 node)) -> forall a t b, [node; Arr 3 node] = a ++ t :: b -> P a t).
  { intros P P1 P2 a t b E. destruct a as [|x [|y a]]; cbn in E.
    - injection E as <- _. exact P1.
    - injection E as <- <- _. exact P2.
    - injection E as _ _ E. destruct a; discriminate. }
  split; [exact W|]. split; [cbn; lia|]. split; [cbn; unfold W64; repeat split; lia|]. split; [|split].
  - intros a t b E. revert a t b E. apply (S2 (fun a t => total a + 8 <= 48 < total a + sizeof t -> need t = true /\ fits t (48 - total a))); cbn; [lia|]. intros _. split; [reflexivity|]. right. left. reflexivity.
  - intros a t b E. revert a t b E. apply (S2 (fun a t => total a + 8 <= 65 < total a + sizeof t -> need t = true /\ fits t (65 - total a))); cbn; [lia|]. intros _. split; [reflexivity|]. right. right. vm_compute. repeat split; intros; congruence.
  - vm_compute. auto.
Qed.

(* ---- refutations ---- *)
(* Copying eight bytes over a sixteen-byte object without pointers: the remaining length wraps
   round, and a pointer beyond the copied bytes is notified. *)
Theorem copy_pointerless_refuted : exists tyat d s n l p v, laid tyat d [BaseT 16; Ptr] /\ n = 8 /\ notify_copy tyat 9 d s n = Ok l /\ In (p, v) l /\ d + n <= p.
Proof. exists (at_ [(1000, BaseT 16); (1016, Ptr)]), 1000, 5000, 8, [(1016, Some 5016)], 1016, (Some 5016). vm_compute. repeat split; auto; congruence. Qed.
(* Copying the first eight bytes of a structure notifies a pointer at offset sixteen. *)
Theorem copy_short_struct_refuted : exists t d s n l p v, wf t /\ nounion t /\ laid (at_ [(d, t)]) d [t] /\ 0 <= n < sizeof t /\ notify_copy (at_ [(d, t)]) 9 d s n = Ok l /\ In (p, v) l /\ d + n <= p.
Proof.
  exists (Comp 24 [(0, Ptr); (8, Ptr); (16, Ptr)]), 1000, 5000, 8, [(1000, Some 5000); (1016, Some 5016)], 1016, (Some 5016).
  split; [cbn; unfold W64; lia|]. split; [cbn; lia|]. split; [cbn; unfold W64; repeat split; lia|]. vm_compute. repeat split; auto; congruence.
Qed.
(* Copying over an object of no size never returns. *)
Theorem copy_empty_refuted : forall fuel, notify_copy (fun _ => Some (BaseT 0)) fuel 1000 5000 8 = Fuel.
Proof. intro fuel. induction fuel as [|k IH]; [reflexivity|]. cbn [notify_copy]. change (8 <? 8) with false. cbv iota. cbn [for_type need sizeof]. change ((1000 + 0) mod W64) with 1000. change ((5000 + 0) mod W64) with 5000. change ((8 - 0) mod W64) with 8. rewrite IH. reflexivity. Qed.
(* Copying to a pointer member of an object is taken to be a copy to the object's start: the
   pointer overwritten is not notified. *)
Theorem copy_interior_refuted : exists t d s p, wf t /\ nounion t /\ In p (ptrs t d) /\ at_ [(d, t)] p = Some t /\ notify_copy (at_ [(d, t)]) 9 p s 8 = Ok [].
Proof. exists (Comp 16 [(0, BaseT 8); (8, Ptr)]), 1000, 5000, 1008. split; [cbn; unfold W64; lia|]. split; [cbn; lia|]. vm_compute. auto 6. Qed.
(* A union of two pointers is notified twice. *)
Theorem copy_union_refuted : exists t d s l, wf t /\ laid (at_ [(d, t)]) d [t] /\ notify_copy (at_ [(d, t)]) 9 d s (sizeof t) = Ok l /\ l = [(d, Some s); (d, Some s)].
Proof. exists (Comp 8 [(0, Ptr); (0, Ptr)]), 1000, 5000, [(1000, Some 5000); (1000, Some 5000)]. split; [cbn; unfold W64; lia|]. split; [cbn; unfold W64; repeat split; lia|]. vm_compute. auto. Qed.

Print Assumptions copy_free_exact.
Print Assumptions copy_exact_partial.
Print Assumptions copy_once_partial.
Print Assumptions copy_pointerless_refuted.
Print Assumptions copy_short_struct_refuted.
Print Assumptions copy_empty_refuted.
Print Assumptions copy_interior_refuted.
Print Assumptions copy_union_refuted.
