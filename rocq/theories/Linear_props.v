(* Theorems about the dynamic linker's heap: see properties.jsonl C34 and C49. *)
From Verif Require Import Base Big_model Big_field Allocsites_model Linear_model.
From Verif Require Allocsites_props.
From Coq Require Import Permutation Sorted.

(* ---- specification: the chunks allocated and not freed ---- *)
Definition live1 (l : list (Z * Z)) (o : lop) : list (Z * Z) :=
  match o with LAlloc a sz => l ++ [(a, sz)] | LFree a => filter (fun c => negb (fst c =? a)) l end.
Definition live (h : list lop) : list (Z * Z) := fold_left live1 h [].
(* what the dynamic linker does: chunks are non-empty, apart from each other, within 2GiB from [lo]
   on, and fewer than 254; what is freed is a chunk *)
Fixpoint lawful (lo : Z) (l : list (Z * Z)) (h : list lop) : Prop :=
  match h with
  | [] => True
  | o :: t => match o with
              | LAlloc a sz => lo <= a < lo + 2 ^ 31 /\ 0 < sz < W32 /\ Z.of_nat (length l) < 253 /\
                               (forall c, In c l -> a + sz <= fst c \/ fst c + snd c <= a)
              | LFree a => exists sz, In (a, sz) l
              end /\ lawful lo (live1 l o) t
  end.

Lemma int32_small x : - 2 ^ 31 <= x < 2 ^ 31 -> int32 x = x.
Proof. change (2 ^ 31) with 2147483648. unfold int32. change W32 with 4294967296. change (2 ^ 31) with 2147483648. intros. destruct (_ <? _) eqn:E; lia. Qed.
(* nulls last *)
Definition lkey (lo : Z) (r : lrec) : Z := if r_addr r =? 0 then lo + 2 ^ 31 else r_addr r.
Definition okr (lo : Z) (r : lrec) : Prop := r_addr r = 0 \/ lo <= r_addr r < lo + 2 ^ 31.
Lemma lcmp_key lo x y : 0 < lo -> okr lo x -> okr lo y -> (lcmp x y <=? 0) = (lkey lo x <=? lkey lo y).
Proof.
  intros L X Y. unfold lcmp, lkey. change (2 ^ 31) with 2147483648.
  assert (K : okr lo x -> okr lo y -> r_addr x <> 0 -> r_addr y <> 0 -> int32 (r_addr x - r_addr y) = r_addr x - r_addr y).
  { intros A B C D. apply int32_small. unfold okr in *. change (2 ^ 31) with 2147483648 in *. lia. }
  unfold okr in X, Y. change (2 ^ 31) with 2147483648 in X, Y.
  destruct (r_addr x =? 0) eqn:Ex, (r_addr y =? 0) eqn:Ey; cbn [andb]; try lia.
Qed.
Definition ksorted (lo : Z) (l : list lrec) := StronglySorted (fun a b => lkey lo a < lkey lo b) l.
Lemma linsert_perm x l : Permutation (linsert x l) (x :: l).
Proof. induction l as [|y l IH]; cbn; auto. destruct (_ <=? _); auto. rewrite IH. apply perm_swap. Qed.
Lemma lsort_perm l : Permutation (lsort l) l.
Proof. induction l as [|x l IH]; cbn; auto. rewrite linsert_perm. constructor. auto. Qed.
Lemma linsert_sorted lo x l : 0 < lo -> Forall (okr lo) (x :: l) -> ~ In (lkey lo x) (map (lkey lo) l) -> ksorted lo l -> ksorted lo (linsert x l).
Proof.
  intros L O N HS. unfold ksorted in *. induction HS as [|y l HS IH HF]; cbn [linsert]; [repeat constructor|].
  inversion O as [|? ? Ox Ol]; subst. inversion Ol as [|? ? Oy Ol']; subst.
  rewrite (lcmp_key lo) by auto. assert (lkey lo x <> lkey lo y) by (intros E; apply N; left; auto).
  destruct (_ <=? _) eqn:E.
  - constructor; [constructor; auto|]. constructor; [lia|]. eapply Forall_impl; [|exact HF]. cbn. intros; lia.
  - constructor.
    + apply IH; auto. intros I; apply N; right; auto.
    + rewrite linsert_perm. constructor; [lia|auto].
Qed.
Lemma lsort_sorted lo l : 0 < lo -> Forall (okr lo) l -> NoDup (map (lkey lo) l) -> ksorted lo (lsort l).
Proof.
  intros L. induction l as [|x l IH]; intros O N; cbn; [constructor|]. inversion N as [|? ? N1 N2]; subst. inversion O as [|? ? O1 O2]; subst.
  apply linsert_sorted; auto.
  - constructor; auto. rewrite lsort_perm. auto.
  - intros I. apply N1. eapply Permutation_in; [|exact I]. apply Permutation_map, lsort_perm.
Qed.

(* ---- what the array holds ---- *)
Definition proj (r : lrec) : Z * Z := (r_addr r, r_size r).
Definition apart (l : list (Z * Z)) : Prop := ForallOrdPairs (fun c d => fst c + snd c <= fst d \/ fst d + snd d <= fst c) l.
Definition asorted (l : list lrec) := StronglySorted (fun a b => r_addr a < r_addr b) l.
Record good (lo : Z) (l : list (Z * Z)) (recs : list lrec) : Prop := mkGood {
  g_perm : Permutation (map proj recs) l;
  g_sort : asorted recs;
  g_in : forall c, In c l -> lo <= fst c < lo + 2 ^ 31 /\ 0 < snd c;
  g_apart : forall c d, In c l -> In d l -> c = d \/ fst c + snd c <= fst d \/ fst d + snd d <= fst c;
  g_nodup : NoDup (map fst l) }.

Lemma g_rec lo l recs r : good lo l recs -> In r recs -> In (proj r) l.
Proof. intros G I. eapply Permutation_in; [apply (g_perm _ _ _ G)|]. apply in_map. auto. Qed.

Lemma asorted_split l1 r l2 : asorted (l1 ++ r :: l2) -> (forall x, In x l1 -> r_addr x < r_addr r) /\ (forall x, In x l2 -> r_addr r < r_addr x).
Proof.
  unfold asorted. induction l1 as [|a l1 IH]; cbn; intros H; inversion H as [|? ? S1 S2]; subst.
  - split; [easy|]. intros x Ix. rewrite Forall_forall in S2. auto.
  - destruct (IH S1) as (A & B). split; auto. intros x [<-|Ix]; auto. rewrite Forall_forall in S2. apply S2. apply in_or_app. right. left. auto.
Qed.

(* the record spanning an address is the one found *)
Lemma lfind_in lo l recs l1 r l2 x : good lo l recs -> recs = l1 ++ r :: l2 -> r_addr r <= x < r_addr r + r_size r -> lfind recs x = Some (length l1).
Proof.
  intros G E Hx. pose proof (g_sort _ _ _ G) as HS. rewrite E in HS. destruct (asorted_split _ _ _ HS) as (_ & B).
  unfold lfind. rewrite (Allocsites_props.bsearch_at (map r_addr recs) x (length l1)).
  - rewrite E, nth_error_app2, Nat.sub_diag by lia. cbn. destruct (_ <? _) eqn:K; [auto|lia].
  - rewrite E, map_length, app_length. cbn. lia.
  - rewrite E, map_app. cbn. rewrite app_nth2; rewrite map_length; [|lia]. rewrite Nat.sub_diag. cbn. lia.
  - intros j Hj. rewrite E, map_app, app_length, map_length in Hj. rewrite E, map_app. cbn [map] in *. cbn [length] in Hj.
    rewrite app_nth2; rewrite map_length; [|lia]. destruct (j - length l1)%nat as [|m] eqn:Em; [lia|]. cbn.
    assert (Hm : (m < length l2)%nat) by (rewrite map_length in Hj; lia).
    change 0 with (r_addr (mkL 0 0 0)). rewrite map_nth. set (d := nth m l2 (mkL 0 0 0)).
    assert (Id : In d l2) by (apply nth_In; auto).
    assert (Ir : In r recs) by (rewrite E; apply in_or_app; right; left; auto).
    assert (Id' : In d recs) by (rewrite E; apply in_or_app; right; right; auto).
    destruct (g_apart _ _ _ G _ _ (g_rec _ _ _ _ G Ir) (g_rec _ _ _ _ G Id')) as [A|[A|A]]; specialize (B d Id); cbn in A; unfold proj in A.
    + injection A as A1 A2. lia.
    + lia.
    + destruct (g_in _ _ _ G _ (g_rec _ _ _ _ G Id')) as (_ & P). cbn in P. lia.
Qed.
Lemma lfind_out lo l recs x : good lo l recs -> (forall c, In c l -> ~ fst c <= x < fst c + snd c) -> lfind recs x = None.
Proof.
  intros G H. unfold lfind, bsearch_leq.
  destruct (Allocsites_props.leq_from_spec (map r_addr recs) x 0 None) as [(j & -> & L & N & _)|(-> & _)]; auto. cbn [Nat.add].
  destruct (nth_error recs j) as [r|] eqn:E; auto. destruct (_ <? _) eqn:K; auto. exfalso.
  apply (H (proj r)); [eapply g_rec; eauto; eapply nth_error_In; eauto|]. cbn.
  rewrite <- (map_nth_error r_addr _ _ E) in * || idtac.
  assert (nth j (map r_addr recs) 0 = r_addr r) by (apply nth_error_nth; apply map_nth_error; auto). lia.
Qed.

Lemma rup8 s : 0 <= rup (s + 8) 8 - 8 - s < 8.
Proof. unfold rup. lia. Qed.

Lemma nodup_keys (recs : list lrec) : asorted recs -> NoDup (map r_addr recs).
Proof.
  unfold asorted. induction 1 as [|x l HS IH HF]; cbn; constructor; auto. intros I. apply in_map_iff in I. destruct I as (y & E & Iy).
  rewrite Forall_forall in HF. specialize (HF y Iy). lia.
Qed.
Lemma nonnull lo l recs r : 0 < lo -> good lo l recs -> In r recs -> r_addr r <> 0.
Proof. intros L G I. destruct (g_in _ _ _ G _ (g_rec _ _ _ _ G I)) as (A & _). cbn in A. lia. Qed.
Lemma last_in (recs : list lrec) d : recs <> [] -> In (last recs d) recs.
Proof. induction recs as [|x [|y l] IH]; intros H; [easy|left; auto|right; apply IH; easy]. Qed.

Lemma ksorted_asorted lo l : (forall r, In r l -> r_addr r <> 0) -> ksorted lo l -> asorted l.
Proof.
  unfold ksorted, asorted. intros H. induction 1 as [|x l HS IH HF]; constructor.
  - apply IH. intros; apply H; right; auto.
  - rewrite Forall_forall in *. intros y Iy. specialize (HF y Iy). unfold lkey in HF.
    pose proof (H x (or_introl eq_refl)). pose proof (H y (or_intror Iy)).
    destruct (r_addr x =? 0) eqn:E1, (r_addr y =? 0) eqn:E2; lia.
Qed.

Lemma ladd_good lo l recs a sz : 0 < lo -> good lo l recs -> lo <= a < lo + 2 ^ 31 -> 0 < sz < W32 -> Z.of_nat (length l) < 253 ->
  (forall c, In c l -> a + sz <= fst c \/ fst c + snd c <= a) ->
  exists recs', ladd recs a sz = Ok recs' /\ good lo (l ++ [(a, sz)]) recs' /\ Permutation recs' (recs ++ [mkL a sz (lpad sz)]).
Proof.
  intros L G Ha Hs Hn Hd. unfold ladd. pose proof (Permutation_length (g_perm _ _ _ G)) as PL. rewrite map_length in PL.
  rewrite PL. unfold MAXL. destruct (_ <? 253) eqn:E; [|lia]. cbn [negb]. rewrite (Z.mod_small sz W32) by lia.
  set (new := mkL a sz (lpad sz)).
  assert (NA : forall r, In r recs -> r_addr r <> a).
  { intros r Ir. pose proof (g_rec _ _ _ _ G Ir) as I. specialize (Hd _ I). destruct (g_in _ _ _ G _ I) as (_ & P). cbn in *. lia. }
  assert (GP : forall recs', Permutation recs' (recs ++ [new]) -> asorted recs' -> good lo (l ++ [(a, sz)]) recs').
  { intros recs' HP HS. constructor; auto.
    - rewrite HP, map_app. cbn. apply Permutation_app_tail, (g_perm _ _ _ G).
    - intros c Ic. apply in_app_or in Ic. destruct Ic as [Ic|[<-|[]]]; [apply (g_in _ _ _ G); auto|cbn; lia].
    - intros c d Ic Id. apply in_app_or in Ic. apply in_app_or in Id.
      destruct Ic as [Ic|[<-|[]]], Id as [Id|[<-|[]]]; auto;
        [apply (g_apart _ _ _ G); auto|specialize (Hd _ Ic); cbn in *; lia].
    - rewrite map_app. cbn. apply (Permutation_NoDup (l := a :: map fst l)); [apply Permutation_cons_append|]. constructor; [|apply (g_nodup _ _ _ G)].
      intros I. apply in_map_iff in I. destruct I as (c & E1 & Ic). specialize (Hd _ Ic). destruct (g_in _ _ _ G _ Ic) as (_ & P). lia. }
  eexists. split; [reflexivity|].
  destruct ((1 <? Z.of_nat (length l) + 1) && (a <? r_addr (last recs (mkL 0 0 0)))) eqn:B.
  - split; [|apply lsort_perm]. apply GP; [apply lsort_perm|]. apply (ksorted_asorted lo).
    + intros r Ir. assert (Ir' : In r (recs ++ [new])) by (eapply Permutation_in; [apply lsort_perm|exact Ir]).
      apply in_app_or in Ir'. destruct Ir' as [I|[<-|[]]]; [eapply nonnull; eauto|cbn; lia].
    + apply lsort_sorted; auto.
      * apply Forall_app. split; [|constructor; auto; right; cbn; lia]. apply Forall_forall. intros r Ir. right. apply (g_in _ _ _ G _ (g_rec _ _ _ _ G Ir)).
      * replace (map (lkey lo) (recs ++ [new])) with (map r_addr (recs ++ [new])).
        { rewrite map_app. cbn. apply (Permutation_NoDup (l := a :: map r_addr recs)); [apply Permutation_cons_append|]. constructor; [|apply nodup_keys, (g_sort _ _ _ G)].
          intros I. apply in_map_iff in I. destruct I as (r & E1 & Ir). eapply NA; eauto. }
        apply map_ext_in. intros r Ir. unfold lkey. destruct (r_addr r =? 0) eqn:K; auto. exfalso.
        apply in_app_or in Ir. destruct Ir as [I|[<-|[]]]; [pose proof (nonnull _ _ _ _ L G I)|cbn in K]; lia.
  - split; auto. apply GP; auto. unfold asorted.
    assert (LL : forall r, In r recs -> r_addr r < a).
    { destruct recs as [|r0 recs0] eqn:ER; [easy|]. rewrite <- ER in *. assert (NE : recs <> []) by (rewrite ER; easy).
      assert (LA : r_addr (last recs (mkL 0 0 0)) < a).
      { pose proof (NA _ (last_in recs (mkL 0 0 0) NE)). assert (1 < Z.of_nat (length l) + 1) by (rewrite <- PL, ER; cbn; lia). lia. }
      intros r Ir. destruct (exists_last NE) as (l1 & z & E2). rewrite E2 in *. rewrite last_last in LA.
      destruct (asorted_split _ _ _ (g_sort _ _ _ G)) as (A & _). apply in_app_or in Ir. destruct Ir as [I|[<-|[]]]; auto. specialize (A _ I). lia. }
    pose proof (g_sort _ _ _ G) as HS. clear - LL HS. induction HS as [|x r HS IH HF]; cbn; [repeat constructor|].
    constructor; [apply IH; intros; apply LL; right; auto|]. apply Forall_app. split; auto. constructor; auto. cbn. apply LL. left. auto.
Qed.

Lemma lset_split l1 r l2 z : lset (l1 ++ r :: l2) (length l1) z = l1 ++ z :: l2.
Proof. induction l1; cbn; congruence. Qed.

Lemma filter_perm {A} (g : A -> bool) l l' : Permutation l l' -> Permutation (filter g l) (filter g l').
Proof.
  induction 1; cbn; auto.
  - destruct (g x); auto.
  - destruct (g x), (g y); auto. constructor.
  - eauto using Permutation_trans.
Qed.

Lemma ldel_good dbg lo l recs a sz : 0 < lo -> good lo l recs -> In (a, sz) l ->
  exists recs', ldel dbg recs a = Ok recs' /\ good lo (live1 l (LFree a)) recs' /\ (forall r, In r recs' -> In r recs).
Proof.
  intros L G I. assert (HP := g_perm _ _ _ G). assert (I' : In (a, sz) (map proj recs)) by (eapply Permutation_in; [symmetry; exact HP|exact I]).
  apply in_map_iff in I'. destruct I' as (r & E & Ir). apply in_split in Ir. destruct Ir as (l1 & l2 & El).
  injection E as E1 E2. destruct (g_in _ _ _ G _ I) as (W & P). cbn in W, P.
  assert (F : lfind recs a = Some (length l1)) by (eapply lfind_in; eauto; lia).
  unfold ldel. rewrite F. assert (NE0 : nth_error recs (length l1) = Some r) by (rewrite El, nth_error_app2, Nat.sub_diag by lia; auto). rewrite NE0. cbv zeta.
  set (z := mkL 0 (r_size r) (r_pad r)). replace (lset recs (length l1) z) with (l1 ++ z :: l2) by (rewrite El, lset_split; auto).
  set (s := lsort (l1 ++ z :: l2)).
  assert (SP : Permutation s (z :: l1 ++ l2)). { etransitivity; [apply lsort_perm|]. symmetry. apply Permutation_middle. }
  assert (INr : forall x, In x (l1 ++ l2) -> In x recs) by (intros x Ix; rewrite El; apply in_app_or in Ix; apply in_or_app; destruct Ix; auto; right; right; auto).
  assert (NN : forall x, In x (l1 ++ l2) -> r_addr x <> 0) by (intros x Ix; apply (nonnull lo l recs x L G), INr, Ix).
  assert (SS : ksorted lo s).
  { apply lsort_sorted; auto.
    - eapply Permutation_Forall; [apply Permutation_middle|]. constructor; [left; auto|]. apply Forall_forall. intros x Ix. right. apply (g_in _ _ _ G _ (g_rec _ _ _ _ G (INr x Ix))).
    - eapply Permutation_NoDup; [apply Permutation_map, Permutation_middle|]. cbn [map]. constructor.
      + intros K. apply in_map_iff in K. destruct K as (x & E & Ix). unfold lkey in E. cbn in E. pose proof (NN x Ix).
        destruct (r_addr x =? 0) eqn:E0; [lia|]. destruct (g_in _ _ _ G _ (g_rec _ _ _ _ G (INr x Ix))) as (W' & _). cbn in W'. lia.
      + replace (map (lkey lo) (l1 ++ l2)) with (map r_addr (l1 ++ l2)).
        { pose proof (nodup_keys _ (g_sort _ _ _ G)) as ND. rewrite El, map_app in ND. cbn in ND. apply NoDup_remove_1 in ND. rewrite <- map_app in ND. auto. }
        apply map_ext_in. intros x Ix. unfold lkey. pose proof (NN x Ix). destruct (r_addr x =? 0) eqn:E0; lia. }
  assert (NE : s <> []). { intros K. rewrite K in SP. apply Permutation_nil in SP. easy. }
  destruct (exists_last NE) as (s1 & w & Es).
  assert (Ew : w = z).
  { assert (Iz : In z s) by (eapply Permutation_in; [symmetry; exact SP|left; auto]). rewrite Es in Iz. apply in_app_or in Iz. destruct Iz as [Iz|[->|[]]]; auto.
    exfalso. assert (KL : lkey lo z < lkey lo w).
    { rewrite Es in SS. clear - SS Iz. unfold ksorted in SS. induction s1 as [|y s1 IH]; [easy|]. cbn in SS. inversion SS as [|? ? S1 S2]; subst.
      destruct Iz as [->|Iz]; auto. rewrite Forall_forall in S2. apply S2. apply in_or_app. right. left. auto. }
    assert (Iw : In w (z :: l1 ++ l2)) by (eapply Permutation_in; [exact SP|rewrite Es; apply in_or_app; right; left; auto]).
    destruct Iw as [<-|Iw]; [lia|]. unfold lkey in KL. cbn in KL. pose proof (NN _ Iw). destruct (r_addr w =? 0) eqn:E0; [lia|].
    destruct (g_in _ _ _ G _ (g_rec _ _ _ _ G (INr _ Iw))) as (W' & _). cbn in W'. lia. }
  subst w. rewrite Es, last_last, removelast_last. rewrite asrt_true by (cbn; reflexivity). cbn [bind]. exists s1. split; [auto|].
  assert (P1 : Permutation s1 (l1 ++ l2)).
  { rewrite Es in SP. apply (Permutation_cons_inv (a := z)). etransitivity; [apply Permutation_cons_append|exact SP]. }
  split; [|intros x Ix; apply INr; eapply Permutation_in; eauto].
  assert (AS1 : asorted s1).
  { apply (ksorted_asorted lo). { intros x Ix. apply NN. eapply Permutation_in; eauto. }
    rewrite Es in SS. clear - SS. unfold ksorted in *. induction s1 as [|y s1 IH]; cbn in SS; [constructor|]. inversion SS as [|? ? S1 S2]; subst.
    constructor; auto. apply Forall_app in S2. tauto. }
  assert (FI : forall c, In c (live1 l (LFree a)) -> In c l) by (intros c Ic; cbn in Ic; apply filter_In in Ic; tauto).
  constructor; auto.
  - cbn. etransitivity; [apply Permutation_map; exact P1|].
    assert (FP : Permutation (filter (fun c => negb (fst c =? a)) (map proj recs)) (filter (fun c => negb (fst c =? a)) l)) by (apply filter_perm; auto).
    etransitivity; [|exact FP]. rewrite El, (map_app proj l1 (r :: l2)), filter_app. cbn [map filter]. unfold proj at 3. cbn [fst]. rewrite E1, Z.eqb_refl. cbn [negb].
    pose proof (asorted_split _ _ _ ltac:(rewrite <- El; apply (g_sort _ _ _ G))) as (A & B).
    assert (FA : forall t, (forall x, In x t -> r_addr x <> a) -> filter (fun c : Z * Z => negb (fst c =? a)) (map proj t) = map proj t).
    { induction t as [|x t IH]; intros H; auto. cbn. pose proof (H x (or_introl eq_refl)). destruct (r_addr x =? a) eqn:K; [lia|]. cbn. f_equal. apply IH. intros; apply H; right; auto. }
    rewrite !FA, <- map_app; auto; intros x Ix; [specialize (B x Ix)|specialize (A x Ix)]; lia.
  - intros c Ic. apply (g_in _ _ _ G); auto.
  - intros c d Ic Id. apply (g_apart _ _ _ G); auto.
  - pose proof (g_nodup _ _ _ G) as ND. clear - ND. cbn. induction l as [|x l IH]; cbn; [constructor|]. cbn in ND. inversion ND as [|? ? N1 N2]; subst.
    destruct (negb _); auto. cbn. constructor; auto. intros I. apply N1. apply in_map_iff in I. destruct I as (y & E & Iy). apply filter_In in Iy. apply in_map_iff. exists y. tauto.
Qed.

Lemma lrun_good dbg lo : 0 < lo -> forall h l recs, good lo l recs -> Forall (fun r => r_pad r = lpad (r_size r)) recs -> lawful lo l h ->
  exists recs', lrun dbg recs h = Ok recs' /\ good lo (fold_left live1 h l) recs' /\ Forall (fun r => r_pad r = lpad (r_size r)) recs'.
Proof.
  intros L. induction h as [|o h IH]; intros l recs G FP LW; cbn [lrun fold_left]; [eauto|].
  destruct LW as (LO & LW). destruct o as [a sz|a]; cbn [lstep].
  - destruct LO as (A & B & C & D). destruct (ladd_good lo l recs a sz L G A B C D) as (recs' & R & G' & P). rewrite R. cbn [bind]. apply IH; auto.
    rewrite P. apply Forall_app. auto.
  - destruct LO as (sz & I). destruct (ldel_good dbg lo l recs a sz L G I) as (recs' & R & G' & P). rewrite R. cbn [bind]. apply IH; auto.
    apply Forall_forall. intros r Ir. rewrite Forall_forall in FP. auto.
Qed.
Lemma good_nil lo : good lo [] [].
Proof. constructor; cbn; try easy; constructor. Qed.

(* C34: after any lawful history, a query gives the live chunk containing the address, if there is one *)
Theorem linear_lookup_partial : forall dbg lo h, 0 < lo -> lawful lo [] h ->
  exists recs, lrun dbg [] h = Ok recs /\
  (forall x a sz, In (a, sz) (live h) -> a <= x < a + sz -> lget recs x = Some (a, sz)) /\
  (forall x, (forall a sz, In (a, sz) (live h) -> ~ a <= x < a + sz) -> lget recs x = None).
Proof.
  intros dbg lo h L LW. destruct (lrun_good dbg lo L h [] [] (good_nil lo) (Forall_nil _) LW) as (recs & R & G & _).
  exists recs. split; auto. split.
  - intros x a sz I Hx. assert (I' : In (a, sz) (map proj recs)) by (eapply Permutation_in; [symmetry; apply (g_perm _ _ _ G)|exact I]).
    apply in_map_iff in I'. destruct I' as (r & E & Ir). apply in_split in Ir. destruct Ir as (l1 & l2 & El). injection E as E1 E2.
    unfold lget. rewrite (lfind_in lo _ recs l1 r l2 x G El) by lia. rewrite El, nth_error_app2, Nat.sub_diag by lia. cbn. congruence.
  - intros x H. unfold lget. rewrite (lfind_out lo _ recs x G); auto. intros (a, sz) I. apply H. auto.
Qed.

(* C34: a chunk's usable size is its size rounded up so that the insert after it is aligned *)
Theorem linear_usable_partial : forall dbg lo h, 0 < lo -> lawful lo [] h ->
  exists recs, lrun dbg [] h = Ok recs /\
  (forall a sz, In (a, sz) (live h) -> exists u, lusable recs a = Some u /\ sz <= u < sz + 8 /\ (u + 8) mod 8 = 0) /\
  (forall x, (forall sz, ~ In (x, sz) (live h)) -> lusable recs x = None).
Proof.
  intros dbg lo h L LW. destruct (lrun_good dbg lo L h [] [] (good_nil lo) (Forall_nil _) LW) as (recs & R & G & FP).
  exists recs. split; auto. split.
  - intros a sz I. destruct (g_in _ _ _ G _ I) as (W & P). cbn in W, P.
    assert (I' : In (a, sz) (map proj recs)) by (eapply Permutation_in; [symmetry; apply (g_perm _ _ _ G)|exact I]).
    apply in_map_iff in I'. destruct I' as (r & E & Ir). pose proof Ir as Ir0. apply in_split in Ir. destruct Ir as (l1 & l2 & El). injection E as E1 E2.
    unfold lusable. rewrite (lfind_in lo _ recs l1 r l2 a G El) by lia. rewrite El, nth_error_app2, Nat.sub_diag by lia. cbn [nth_error].
    rewrite E1, Z.eqb_refl. rewrite Forall_forall in FP. rewrite (FP _ Ir0), E2. exists (sz + lpad sz). split; auto.
    unfold lpad. pose proof (rup8 sz) as RR. rewrite Z.mod_small by lia. unfold rup in *. split; [lia|]. replace (sz + ((sz + 8 + (8 - 1)) / 8 * 8 - 8 - sz) + 8) with ((sz + 8 + (8 - 1)) / 8 * 8) by lia. apply Z.mod_mul. lia.
  - intros x H. unfold lusable. destruct (lfind recs x) as [k|] eqn:F; auto. destruct (nth_error recs k) as [r|] eqn:E; auto.
    destruct (r_addr r =? x) eqn:K; auto. exfalso. assert (x = r_addr r) by lia. subst x. apply (H (r_size r)). apply (g_rec lo _ recs r G). eapply nth_error_In; eauto.
Qed.

Module LinEx.
Definition lo := 139637976727552. (* 0x7f0000000000 *)
(* allocations out of order, a free and a reallocation *)
Definition h := [LAlloc (lo + 100) 24; LAlloc (lo + 200) 10; LAlloc (lo + 40) 16; LFree (lo + 100); LAlloc (lo + 100) 40].
Fixpoint many (n : nat) (a : Z) : list lop := match n with O => [] | S k => LAlloc a 8 :: many k (a + 16) end.
End LinEx.
Import LinEx.
Example linear_ex : match lrun true [] h with Ok recs => (lget recs (lo + 139), lget recs (lo + 140), lget recs (lo + 205), lusable recs (lo + 200)) | _ => (None, None, None, None) end
  = (Some (lo + 100, 40), None, Some (lo + 200, 10), Some 16).
Proof. vm_compute. auto. Qed.
Example linear_hyp : lawful lo [] h.
Proof.
  unfold lawful, h, live1, lo. cbn [app length filter fst snd]. change (2 ^ 31) with 2147483648. change W32 with 4294967296.
  repeat match goal with
    | |- _ /\ _ => split
    | |- True => exact Logic.I
    | |- exists _, _ => exists 24; cbn; auto
    | |- forall c, In c _ -> _ => let c := fresh in let H := fresh in intros c H; cbn in H; intuition (subst; cbn; try lia)
    | |- _ => lia
    end.
  reflexivity.
Qed.

(* chunks more than 2GiB apart: after sorting, the array is not in order and the higher chunk is not found *)
Theorem linear_far_refuted : exists a b recs, lrun true [] [LAlloc a 16; LAlloc b 16] = Ok recs /\ a + 16 < 2 ^ 47 /\ 0 < b /\
  map r_addr recs = [a; b] /\ b < a /\ lget recs a = None.
Proof. exists lo, (lo - 3000000000), [mkL lo 16 0; mkL (lo - 3000000000) 16 0]. vm_compute. repeat split; congruence. Qed.
(* the 254th chunk is recorded outside the page *)
Theorem linear_capacity_refuted : exists h, length h = 254%nat /\ lrun true [] h = UB.
Proof. exists (many 254 lo). vm_compute. auto. Qed.
(* freeing an empty chunk follows a null pointer *)
Theorem linear_empty_refuted : exists a, 0 < a /\ lrun true [] [LAlloc a 0; LFree a] = UB.
Proof. exists lo. vm_compute. auto. Qed.
(* a chunk of 4GiB or more is recorded with the low 32 bits of its size *)
Theorem linear_size_refuted : exists a sz recs, lrun true [] [LAlloc a sz] = Ok recs /\ lget recs (a + 16) = None /\ 16 < sz.
Proof. exists lo, (2 ^ 32 + 16), [mkL lo 16 0]. vm_compute. auto. Qed.

(* ---- areas ---- *)
Fixpoint ensure_all (m : mapping) (l : list Z) : res (mapping * list (Z * Z)) :=
  match l with
  | [] => Ok (m, [])
  | a :: t => do ' (m1, ar) <- ensure_area m a ; do ' (m2, ars) <- ensure_all m1 t ; Ok (m2, ar :: ars)
  end.
(* where the heap's memory comes from: an anonymous mapping with nothing in it, or the part of a
   file's mapping after the one file in it *)
Definition from_home (m : mapping) (lo : Z) : Prop :=
  if m_file m then exists fb, m_kids m = [(fb, lo, KFile)] /\ m_beg m <= fb <= lo else m_kids m = [] /\ lo = m_beg m.

(* C49: for every non-empty sequence of chunks from there, exactly one area is made, all the chunks
   are in it, and it is in the mapping and after the file *)
Theorem area_once_partial : forall m lo a l, from_home m lo -> Forall (fun x => lo <= x < m_end m) (a :: l) ->
  exists m', ensure_all m (a :: l) = Ok (m', repeat (lo, m_end m) (length (a :: l))) /\
    filter is_area (m_kids m') = [(lo, m_end m, KArea)] /\ m_beg m <= lo /\
    filter (fun c => negb (is_area c)) (m_kids m') = m_kids m.
Proof.
  intros m lo a l H F. inversion F as [|? ? Fa Fl]; subst.
  set (m1 := mkM (m_beg m) (m_end m) (m_file m) ((lo, m_end m, KArea) :: m_kids m) (m_glob m)).
  assert (E1 : ensure_area m a = Ok (m1, (lo, m_end m)) /\ m_beg m <= lo /\ filter is_area (m_kids m) = [] /\ filter (fun c => negb (is_area c)) (m_kids m) = m_kids m).
  { unfold from_home in H. unfold ensure_area, m1. destruct (m_file m) eqn:EF.
    - destruct H as (fb & K & O). rewrite K. cbn. unfold spans. cbn. destruct ((fb <=? a) && (a <? lo)) eqn:B; [lia|]. cbn. repeat split; auto. lia.
    - destruct H as (K & ->). rewrite K. cbn. repeat split; auto. lia. }
  destruct E1 as (E1 & O & N1 & N2). cbn [ensure_all]. rewrite E1. cbn [bind].
  assert (R : forall t, Forall (fun x => lo <= x < m_end m) t -> ensure_all m1 t = Ok (m1, repeat (lo, m_end m) (length t))).
  { induction t as [|x t IH]; intros Ft; [reflexivity|]. inversion Ft as [|? ? Fx Ft']; subst. cbn [ensure_all]. unfold ensure_area at 1. cbn [m1 m_kids find].
    unfold is_area at 1, spans at 1. cbn [fst snd]. destruct ((lo <=? x) && (x <? m_end m)) eqn:B; [|lia]. cbn [andb]. fold m1. cbn [bind]. rewrite IH by auto. reflexivity. }
  rewrite R by auto. cbn [bind]. exists m1. split; [reflexivity|]. cbn [m1 m_kids filter]. unfold is_area at 1 3. cbn [snd negb]. rewrite N1, N2. auto.
Qed.
Example area_ex : exists m lo, from_home m lo /\ ensure_all m [lo + 8; lo + 100] = Ok (mkM 4096 12288 true [(9000, 12288, KArea); (4096, 9000, KFile)] None, [(9000, 12288); (9000, 12288)]).
Proof. exists (mkM 4096 12288 true [(4096, 9000, KFile)] None), 9000. split; [|reflexivity]. cbn. exists 4096. split; auto. lia. Qed.

(* between two files mapped in one sequence: the area covers the second file *)
Theorem area_two_files_refuted : exists m a m' b e fb fe, ensure_area m a = Ok (m', (b, e)) /\ In (fb, fe, KFile) (m_kids m) /\ b < fb /\ fe < e /\
  (forall c, In c (m_kids m) -> spans c a = false).
Proof.
  exists (mkM 4096 40960 true [(4096, 9000, KFile); (16384, 20480, KFile)] None), 10000. do 2 eexists. exists 40960, 16384, 20480.
  split; [reflexivity|]. cbn. intuition (subst; try reflexivity; lia).
Qed.
(* an anonymous mapping that something else is already using part of is claimed whole *)
Theorem area_shared_refuted : exists m a m' b e ob oe, ensure_area m a = Ok (m', (b, e)) /\ In (ob, oe, KOther) (m_kids m) /\ b <= ob /\ oe <= e.
Proof. exists (mkM 4096 40960 false [(8192, 12288, KOther)] None), 20000. do 2 eexists. exists 40960, 8192, 12288. split; [reflexivity|]. cbn. intuition lia. Qed.
(* describing the area aborts, whatever areas were made *)
Theorem area_info_refuted : forall l m m' ars, m_glob m = None -> ensure_all m l = Ok (m', ars) -> area_info m' = Abort.
Proof.
  induction l as [|a l IH]; intros m m' ars G E; cbn in E.
  - injection E as <- _. unfold area_info. rewrite G. auto.
  - destruct (ensure_area m a) as [(m1, ar)| | |] eqn:E1; try discriminate. cbn in E.
    destruct (ensure_all m1 l) as [(m2, ars2)| | |] eqn:E2; try discriminate. cbn in E. injection E as <- _.
    eapply IH; [|exact E2]. unfold ensure_area in E1. destruct (find _ _); [injection E1 as <- _; auto|].
    destruct (if m_file m then _ else _) as [ar'| | |]; try discriminate. cbn in E1. injection E1 as <- _. auto.
Qed.
Example area_info_ex : exists m m', m_glob m = None /\ ensure_area m 10000 = Ok (m', (9000, 12288)) /\ area_info m' = Abort.
Proof. exists (mkM 4096 12288 true [(4096, 9000, KFile)] None). eexists. repeat split. Qed.

Print Assumptions linear_lookup_partial.
Print Assumptions linear_usable_partial.
Print Assumptions area_once_partial.
