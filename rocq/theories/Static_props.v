(* Static-object lookup (C35) and generated tables of statics (C48). *)
From Coq Require Import Sorted.
From Verif Require Import Base Big_model Allocsites_model Static_model Static_spec.
From Verif Require Allocsites_props.

(* ---- searching ---- *)
Lemma object_vaddr f r b n ty : object f r = Some (b, n, ty) ->
  vaddr_of f r = Ok b /\ limit_of f r = Ok (b + n) /\ type_of r = ty.
Proof.
  destruct r as [b' n'|k i t]; cbn; [intro H; inversion H; subst; auto|].
  unfold symbol. destruct (nth_error (symtab f k) i) as [s|]; intro H; inversion H; subst. cbn. auto.
Qed.

Lemma vaddrs_ok f tab : forall lo, sorted_from f lo tab ->
  exists ks, vaddrs f tab = Ok ks /\ length ks = length tab /\ (forall j, (j < length ks)%nat -> lo <= nth j ks 0) /\
    forall k r, nth_error tab k = Some r -> exists b n ty, object f r = Some (b, n, ty) /\ nth k ks 0 = b /\ 0 < n /\
      forall j, (k < j < length ks)%nat -> b + n <= nth j ks 0.
Proof.
  induction tab as [|r tab IH]; intros lo H; cbn [sorted_from] in H.
  - exists []. repeat split; cbn; [lia|]. intros [|k] r; discriminate.
  - destruct H as (b & n & ty & E & Hlo & Hn & Hs). destruct (IH _ Hs) as (ks & Ek & Lk & Hk & Hr).
    destruct (object_vaddr _ _ _ _ _ E) as (Ev & _ & _).
    exists (b :: ks). cbn [vaddrs]. rewrite Ev. cbn [bind]. rewrite Ek. cbn [bind].
    split; [reflexivity|]. split; [cbn; lia|]. split.
    + intros [|j] Hj; cbn in *; [exact Hlo|]. specialize (Hk j ltac:(lia)). lia.
    + intros [|k] r0 E0; cbn in E0.
      * inversion E0; subst r0. exists b, n, ty. repeat split; auto.
        intros [|j] Hj; cbn in *; [lia|]. apply Hk. lia.
      * destruct (Hr _ _ E0) as (b0 & n0 & ty0 & E1 & E2 & E3 & E4). exists b0, n0, ty0. repeat split; auto.
        intros [|j] Hj; cbn in *; [lia|]. apply E4. lia.
Qed.

Definition seg_place (p : place) (f : sfile) (tab : list rec) : Prop :=
  p = PSegment f tab \/ p = PSection (PSegment f tab) \/
  p = PSymbol (PSegment f tab) \/ p = PSymbol (PSection (PSegment f tab)).
Lemma segment_of_ok dbg arr p f tab obj : seg_place p f tab -> segment_of dbg arr (Some p) obj = Ok (f, tab).
Proof. intros [->|[->|[->| ->]]]; reflexivity. Qed.

Lemma lookup_in dbg arr p f tab lo k r b n ty x :
  seg_place p f tab -> sorted_from f lo tab -> nth_error tab k = Some r -> object f r = Some (b, n, ty) ->
  b <= x < b + n -> 0 <= x < W64 ->
  do_lookup dbg arr (sf_load f + x) (Some p) = Ok (Some (f, r)).
Proof.
  intros P S Hk E Hx Hw. unfold do_lookup. rewrite (segment_of_ok _ _ _ _ _ _ P). cbn [bind].
  replace (sf_load f + x - sf_load f) with x by lia. rewrite Z.mod_small by exact Hw.
  destruct (vaddrs_ok _ _ _ S) as (ks & -> & Lk & _ & Hr). cbn [bind].
  destruct (Hr _ _ Hk) as (b0 & n0 & ty0 & E0 & Hb & Hn & Hj). rewrite E in E0. inversion E0; subst b0 n0 ty0.
  assert (Lt : (k < length ks)%nat) by (rewrite Lk; apply nth_error_Some; congruence).
  rewrite (Allocsites_props.bsearch_at ks x k Lt); [|lia|intros j J; specialize (Hj j J); lia].
  rewrite Hk. destruct (object_vaddr _ _ _ _ _ E) as (_ & -> & _). cbn [bind].
  replace (x >? b + n) with false by lia. reflexivity.
Qed.

(* C35, in part: in a sorted table of objects that do not overlap, an address in an object is
   answered with its type and start and, if it is a symbol, its size.  Missing: the size of
   relocation targets, and tables whose objects nest, for which it is false
   (static_reloc_size_refuted, static_nested_refuted). *)
Theorem static_found_partial : forall dbg arr p f tab lo r b n ty x,
  seg_place p f tab -> sorted_from f lo tab -> In r tab -> object f r = Some (b, n, ty) ->
  b <= x < b + n -> 0 <= x < W64 ->
  exists n', get_info dbg arr (sf_load f + x) (Some p) = Ok (Some (ty, sf_load f + b, n')) /\
    (forall k i t, r = RSym k i t -> n' = n).
Proof.
  intros dbg arr p f tab lo r b n ty x P S Hin E Hx Hw.
  destruct (In_nth_error _ _ Hin) as (k & Hk). unfold get_info.
  rewrite (lookup_in dbg arr p f tab lo k r b n ty x P S Hk E Hx Hw). cbn [bind].
  destruct (object_vaddr _ _ _ _ _ E) as (-> & _ & ->). cbn [bind].
  destruct r as [b0 n0|k0 i0 t0]; cbn [size_of bind].
  - eexists. split; [reflexivity|]. intros; discriminate.
  - cbn in E. unfold symbol. destruct (nth_error (symtab f k0) i0) as [s|]; inversion E; subst. cbn [bind].
    eexists. split; [reflexivity|]. reflexivity.
Qed.

(* C35, in part: an address in no object is an error, unless it is one past the end of one.
   Missing: that case, for which it is false (static_end_refuted). *)
Theorem static_outside_partial : forall dbg arr p f tab lo x,
  seg_place p f tab -> sorted_from f lo tab -> 0 <= x < W64 ->
  (forall r b n ty, In r tab -> object f r = Some (b, n, ty) -> ~ b <= x <= b + n) ->
  get_info dbg arr (sf_load f + x) (Some p) = Ok None.
Proof.
  intros dbg arr p f tab lo x P S Hw Hout. unfold get_info, do_lookup.
  rewrite (segment_of_ok _ _ _ _ _ _ P). cbn [bind].
  replace (sf_load f + x - sf_load f) with x by lia. rewrite Z.mod_small by exact Hw.
  destruct (vaddrs_ok _ _ _ S) as (ks & -> & Lk & _ & Hr). cbn [bind]. unfold bsearch_leq.
  destruct (Allocsites_props.leq_from_spec ks x 0 None) as [(j & E & L & N & A)|[-> _]]; [|reflexivity].
  rewrite E. cbn [plus]. destruct (nth_error tab j) as [r|] eqn:Ej; [|apply nth_error_None in Ej; lia].
  destruct (Hr _ _ Ej) as (b & n & ty & Eo & Hb & Hn & _).
  destruct (object_vaddr _ _ _ _ _ Eo) as (_ & -> & _). cbn [bind].
  specialize (Hout r b n ty (nth_error_In _ _ Ej) Eo). replace (x >? b + n) with true by lia. reflexivity.
Qed.

(* ---- generating ---- *)
Definition klt (p q : Z * grec) : Prop := fst p < fst q.
Definition entry_ok (f : sfile) (ss : list static) (p : Z * grec) : Prop :=
  match snd p with
  | GSym k i ty => exists s, In s ss /\ t_lo s = fst p /\ t_ty s = ty /\
                     nth_error (symtab f k) i = Some (mkSym (fst p) (t_hi s - fst p))
  | GReloc => forall s, In s ss -> ~ t_lo s <= fst p < t_hi s
  end.

Lemma minsert_in a g m q : In q (minsert a g m) -> q = (a, g) \/ In q m.
Proof.
  induction m as [|[b h] t IH]; cbn [minsert]; [intros [<-|[]]; auto|].
  destruct (a <? b); [intros [<-|H]; auto|]. destruct (a =? b); [auto|].
  intros [<-|H]; [right; left; reflexivity|]. destruct (IH H); [auto|right; right; assumption].
Qed.
Lemma minsert_keep a g m q : In q m -> In q (minsert a g m).
Proof.
  induction m as [|[b h] t IH]; [intros []|]. cbn [minsert]. intro H.
  destruct (a <? b); [right; exact H|]. destruct (a =? b); [exact H|].
  destruct H as [<-|H]; [left; reflexivity|right; exact (IH H)].
Qed.
Lemma minsert_key a g m : exists h, In (a, h) (minsert a g m).
Proof.
  induction m as [|[b h] t IH]; cbn [minsert]; [exists g; left; reflexivity|].
  destruct (a <? b); [exists g; left; reflexivity|].
  destruct (Z.eqb_spec a b) as [->|N]; [exists h; left; reflexivity|].
  destruct IH as (h' & H). exists h'. right. exact H.
Qed.
Lemma minsert_sorted a g m : StronglySorted klt m -> StronglySorted klt (minsert a g m).
Proof.
  induction m as [|[b h] t IH]; intro H; cbn [minsert]; [constructor; constructor|].
  inversion H as [|? ? H1 H2]; subst. rewrite Forall_forall in H2.
  destruct (Z.ltb_spec a b) as [L|L].
  - constructor; [exact H|]. apply Forall_forall. intros q [<-|Hq]; unfold klt in *; cbn in *; [exact L|].
    specialize (H2 _ Hq). cbn in H2. lia.
  - destruct (Z.eqb_spec a b) as [E|E]; [exact H|]. constructor; [exact (IH H1)|].
    apply Forall_forall. intros q Hq. apply minsert_in in Hq. unfold klt in *. destruct Hq as [->|Hq]; [cbn; lia|exact (H2 _ Hq)].
Qed.

Definition mok (f : sfile) (ss : list static) (m : list (Z * grec)) : Prop :=
  StronglySorted klt m /\ forall p, In p m -> entry_ok f ss p.
Lemma mok_insert f ss a g m : mok f ss m -> entry_ok f ss (a, g) -> mok f ss (minsert a g m).
Proof.
  intros [A B] E. split; [apply minsert_sorted, A|]. intros p Hp.
  apply minsert_in in Hp. destruct Hp as [->|Hp]; [exact E|exact (B _ Hp)].
Qed.

Definition has (a : Z) (m : list (Z * grec)) : Prop := exists h, In (a, h) m.
Lemma has_insert x a g m : has x m -> has x (minsert a g m).
Proof. intros (h & H). exists h. apply minsert_keep, H. Qed.

Lemma add_extra_ok f ss : forall t n m, (forall s, In s t -> In s ss) -> described f (S n) t -> mok f ss m ->
  mok f ss (add_extra t n m) /\ (forall x, has x m -> has x (add_extra t n m)) /\
  forall s, In s t -> t_kind s = KExtra -> has (t_lo s) (add_extra t n m).
Proof.
  induction t as [|s t IH]; intros n m Hin D M; cbn [add_extra]; [split; [exact M|split; [auto|intros s []]]|].
  cbn [described] in D. destruct D as [D1 D2].
  assert (Hin' : forall s', In s' t -> In s' ss) by (intros; apply Hin; right; assumption).
  assert (Hs := Hin s (or_introl eq_refl)).
  destruct (t_kind s) eqn:Ek; cbn [skind_eqb].
  - destruct (IH n m Hin' D2 M) as (A & B & C). split; [exact A|]. split; [exact B|].
    intros s' [<-|Hs'] E; [congruence|exact (C _ Hs' E)].
  - destruct (IH n m Hin' D2 M) as (A & B & C). split; [exact A|]. split; [exact B|].
    intros s' [<-|Hs'] E; [congruence|exact (C _ Hs' E)].
  - destruct (IH (S n) (minsert (t_lo s) (GSym KExtra (S n) (t_ty s)) m) Hin' D2) as (A & B & C).
    { apply mok_insert; [exact M|]. exists s. cbn. auto. }
    split; [exact A|]. split; [intros x Hx; apply B, has_insert, Hx|].
    intros s' [<-|Hs'] E; [|exact (C _ Hs' E)]. apply B. apply minsert_key.
Qed.
Lemma add_others_ok f ss : forall t n m, (forall s, In s t -> In s ss) -> described f n t -> mok f ss m ->
  mok f ss (add_others t m) /\ (forall x, has x m -> has x (add_others t m)) /\
  forall s, In s t -> t_kind s <> KExtra -> has (t_lo s) (add_others t m).
Proof.
  induction t as [|s t IH]; intros n m Hin D M; cbn [add_others]; [split; [exact M|split; [auto|intros s []]]|].
  cbn [described] in D. destruct D as [D1 D2].
  assert (Hin' : forall s', In s' t -> In s' ss) by (intros; apply Hin; right; assumption).
  assert (Hs := Hin s (or_introl eq_refl)).
  assert (Other : t_kind s <> KExtra -> nth_error (symtab f (t_kind s)) (t_idx s) = Some (mkSym (t_lo s) (t_hi s - t_lo s)) ->
     mok f ss (add_others t (minsert (t_lo s) (GSym (t_kind s) (t_idx s) (t_ty s)) m)) /\
     (forall x, has x m -> has x (add_others t (minsert (t_lo s) (GSym (t_kind s) (t_idx s) (t_ty s)) m))) /\
     forall s', In s' (s :: t) -> t_kind s' <> KExtra -> has (t_lo s') (add_others t (minsert (t_lo s) (GSym (t_kind s) (t_idx s) (t_ty s)) m))).
  { intros Ne Hn. destruct (IH _ (minsert (t_lo s) (GSym (t_kind s) (t_idx s) (t_ty s)) m) Hin' D2) as (A & B & C).
    { apply mok_insert; [exact M|]. exists s. cbn. auto. }
    split; [exact A|]. split; [intros x Hx; apply B, has_insert, Hx|].
    intros s' [<-|Hs'] E; [|exact (C _ Hs' E)]. apply B. apply minsert_key. }
  destruct (t_kind s) eqn:Ek; cbn [skind_eqb].
  - apply Other; [congruence|exact D1].
  - apply Other; [congruence|exact D1].
  - destruct (IH _ m Hin' D2 M) as (A & B & C). split; [exact A|]. split; [exact B|].
    intros s' [<-|Hs'] E; [congruence|exact (C _ Hs' E)].
Qed.
Lemma add_relocs_ok f ss : forall ts m, mok f ss m ->
  mok f ss (add_relocs ss ts m) /\ (forall x, has x m -> has x (add_relocs ss ts m)) /\
  (forall p, In p m -> In p (add_relocs ss ts m)) /\
  forall x, In x ts -> (forall s, In s ss -> ~ t_lo s <= through_sword x < t_hi s) -> has (through_sword x) (add_relocs ss ts m).
Proof.
  induction ts as [|x ts IH]; intros m M; cbn [add_relocs]; [split; [exact M|split; [auto|split; [auto|intros x []]]]|].
  destruct (existsb _ ss) eqn:Ex.
  - destruct (IH m M) as (A & B & C & D). split; [exact A|]. split; [exact B|]. split; [exact C|].
    intros y [<-|Hy] Hn; [|exact (D _ Hy Hn)]. exfalso. apply existsb_exists in Ex. destruct Ex as (s & Hs & E).
    apply (Hn s Hs). apply andb_prop in E. lia.
  - assert (E : entry_ok f ss (through_sword x, GReloc)).
    { intros s Hs H. cbn in H. enough (existsb (fun s0 => (t_lo s0 <=? through_sword x) && (through_sword x <? t_hi s0)) ss = true) by congruence.
      apply existsb_exists. exists s. split; [exact Hs|]. apply andb_true_intro. lia. }
    destruct (IH _ (mok_insert _ _ _ _ _ M E)) as (A & B & C & D). split; [exact A|].
    split; [intros y Hy; apply B, has_insert, Hy|]. split; [intros p Hp; apply C, minsert_keep, Hp|].
    intros y [<-|Hy] Hn; [|exact (D _ Hy Hn)]. apply B, minsert_key.
Qed.

Lemma generate_ok f ss ts : described f 2 ss ->
  mok f ss (generate ss ts) /\ (forall s, In s ss -> has (t_lo s) (generate ss ts)) /\
  forall x, In x ts -> (forall s, In s ss -> ~ t_lo s <= through_sword x < t_hi s) -> has (through_sword x) (generate ss ts).
Proof.
  intro D. unfold generate.
  destruct (add_extra_ok f ss ss 1 [] (fun s H => H) D) as (A1 & B1 & C1).
  { split; [constructor|intros p []]. }
  destruct (add_others_ok f ss ss 2 _ (fun s H => H) D A1) as (A2 & B2 & C2).
  destruct (add_relocs_ok f ss ts _ A2) as (A3 & B3 & _ & C3).
  split; [exact A3|]. split; [|exact C3]. intros s Hs. apply B3.
  assert (K : t_kind s = KExtra \/ t_kind s <> KExtra) by (destruct (t_kind s); auto; right; congruence).
  destruct K as [K|K]; [apply B2, C1; assumption|apply C2; assumption].
Qed.

Lemma apart_lo lo ss : statics_apart lo ss -> forall s, In s ss -> lo <= t_lo s /\ t_lo s < t_hi s.
Proof.
  revert lo. induction ss as [|s ss IH]; intros lo H s' Hs; [destruct Hs|]. cbn in H. destruct H as (A & B & C).
  destruct Hs as [<-|Hs]; [lia|]. destruct (IH _ C _ Hs). lia.
Qed.
Lemma apart_in lo ss : statics_apart lo ss -> forall s s', In s ss -> In s' ss -> s = s' \/ t_hi s <= t_lo s' \/ t_hi s' <= t_lo s.
Proof.
  revert lo. induction ss as [|x ss IH]; intros lo H s s' Hs Hs'; [destruct Hs|]. cbn in H. destruct H as (A & B & C).
  destruct Hs as [<-|Hs], Hs' as [<-|Hs'].
  - auto.
  - destruct (apart_lo _ _ C _ Hs'). auto.
  - destruct (apart_lo _ _ C _ Hs). auto.
  - exact (IH _ C _ _ Hs Hs').
Qed.

Lemma emit_sorted f ss lo hi lo1 : statics_apart lo1 ss -> forall m lo0, mok f ss m -> (forall p, In p m -> lo0 <= fst p) ->
  sorted_from f lo0 (emit lo hi m).
Proof.
  intro Ap. induction m as [|[a g] t IH]; intros lo0 [S E] L; cbn [emit]; [exact Logic.I|].
  inversion S as [|? ? S1 S2]; subst. rewrite Forall_forall in S2.
  assert (M' : mok f ss t) by (split; [exact S1|intros; apply E; right; assumption]).
  destruct ((lo <=? a) && (a <? hi)) eqn:Es; [|apply IH; [exact M'|intros; apply L; right; assumption]].
  assert (La := L _ (or_introl eq_refl)). cbn in La. assert (Ea := E _ (or_introl eq_refl)).
  destruct g as [k i ty|]; cbn [app sorted_from].
  - destruct Ea as (s & Hs & E1 & E2 & E3). cbn [fst snd] in *. cbn [object]. rewrite E3. cbn [s_val s_size].
    destruct (apart_lo _ _ Ap _ Hs) as [_ Hpos].
    exists a, (t_hi s - a), ty. split; [reflexivity|]. split; [exact La|]. split; [lia|].
    apply IH; [exact M'|]. intros p Hp. assert (X := S2 _ Hp). unfold klt in X. cbn [fst] in X.
    assert (Ep := E p (or_intror Hp)). unfold entry_ok in Ep. destruct (snd p).
    + destruct Ep as (s' & Hs' & F1 & _ & _). destruct (apart_in _ _ Ap _ _ Hs Hs') as [->|[Y|Y]]; [lia|lia|].
      destruct (apart_lo _ _ Ap _ Hs'). lia.
    + specialize (Ep _ Hs). lia.
  - cbn [object]. eexists a, _, UBYTE. split; [reflexivity|]. split; [exact La|].
    apply andb_prop in Es. destruct t as [|[b h] t'].
    + split; [lia|exact Logic.I].
    + assert (X := S2 _ (or_introl eq_refl)). unfold klt in X. cbn [fst] in X. split; [lia|].
      apply IH; [exact M'|]. intros p [<-|Hp]; [cbn; lia|].
      inversion S1 as [|? ? S3 S4]; subst. rewrite Forall_forall in S4. specialize (S4 _ Hp). unfold klt in S4. cbn [fst] in S4. lia.
Qed.

Lemma emit_in lo hi a g : forall m, In (a, g) m -> lo <= a < hi ->
  exists r, In r (emit lo hi m) /\ match g with GSym k i ty => r = RSym k i ty | GReloc => exists n, r = RReloc a n end.
Proof.
  induction m as [|[b h] t IH]; intros H L; [destruct H|]. cbn [emit]. destruct H as [E|H].
  - inversion E; subst b h. replace ((lo <=? a) && (a <? hi)) with true by lia.
    eexists. split; [left; reflexivity|]. destruct g; [reflexivity|eexists; reflexivity].
  - destruct (IH H L) as (r & Hr & Eg). exists r. split; [apply in_or_app; right; exact Hr|exact Eg].
Qed.

Lemma mok_min f ss m : mok f ss m -> exists lo0, forall p, In p m -> lo0 <= fst p.
Proof.
  intros [S _]. destruct m as [|[a g] t]; [exists 0; intros p []|]. exists a.
  inversion S as [|? ? S1 S2]; subst. rewrite Forall_forall in S2. intros p [<-|Hp]; [cbn; lia|].
  specialize (S2 _ Hp). unfold klt in S2. cbn in S2. lia.
Qed.

(* C48: the generated table of a segment is sorted, and its objects do not overlap. *)
Theorem metatab_sorted : forall f ss ts lo hi lo1,
  statics_apart lo1 ss -> described f 2 ss -> exists lo0, sorted_from f lo0 (emit lo hi (generate ss ts)).
Proof.
  intros f ss ts lo hi lo1 Ap D. destruct (generate_ok f ss ts D) as (M & _ & _).
  destruct (mok_min _ _ _ M) as (lo0 & L). exists lo0. eapply emit_sorted; eassumption.
Qed.

(* C48, with C35: whatever the relocations, an address in a described static of the segment is
   answered with that static's type, start and size. *)
Theorem metatab_static_found : forall dbg arr f ss ts lo hi lo1 p s x,
  statics_apart lo1 ss -> described f 2 ss -> seg_place p f (emit lo hi (generate ss ts)) ->
  In s ss -> lo <= t_lo s < hi -> t_lo s <= x < t_hi s -> 0 <= x < W64 ->
  get_info dbg arr (sf_load f + x) (Some p) = Ok (Some (t_ty s, sf_load f + t_lo s, t_hi s - t_lo s)).
Proof.
  intros dbg arr f ss ts lo hi lo1 p s x Ap D P Hs Hl Hx Hw.
  destruct (generate_ok f ss ts D) as (M & H & _). destruct (H _ Hs) as (g & Hg).
  destruct (mok_min _ _ _ M) as (lo0 & L). assert (S := emit_sorted f ss lo hi lo1 Ap _ lo0 M L).
  assert (E := proj2 M _ Hg). destruct (emit_in lo hi _ _ _ Hg Hl) as (r & Hr & Er).
  destruct g as [k i ty|]; [|exfalso; apply (E _ Hs); cbn; destruct (apart_lo _ _ Ap _ Hs); lia].
  destruct E as (s' & Hs' & E1 & E2 & E3). cbn [fst snd] in *.
  assert (s' = s).
  { destruct (apart_lo _ _ Ap _ Hs), (apart_lo _ _ Ap _ Hs'). destruct (apart_in _ _ Ap _ _ Hs' Hs) as [X|[X|X]]; [exact X|lia|lia]. }
  subst s'. subst r.
  destruct (static_found_partial dbg arr p f _ lo0 (RSym k i ty) (t_lo s) (t_hi s - t_lo s) ty x P S Hr) as (n' & G & Gn).
  - cbn. rewrite E3. reflexivity.
  - lia.
  - exact Hw.
  - rewrite G, (Gn _ _ _ eq_refl). subst ty. reflexivity.
Qed.

(* C48, with C35, in part: the target of a relocation that is in no static is itself found as an
   object of bytes.  Missing: its size (static_reloc_size_refuted) and targets of 2^31 and up
   (metatab_reloc_high_refuted). *)
Theorem metatab_reloc_found_partial : forall dbg arr f ss ts lo hi lo1 p x,
  statics_apart lo1 ss -> described f 2 ss -> seg_place p f (emit lo hi (generate ss ts)) ->
  In x ts -> 0 <= x < 2 ^ 31 -> (forall s, In s ss -> ~ t_lo s <= x < t_hi s) -> lo <= x < hi ->
  exists n, get_info dbg arr (sf_load f + x) (Some p) = Ok (Some (UBYTE, sf_load f + x, n)).
Proof.
  intros dbg arr f ss ts lo hi lo1 p x Ap D P Hx Hb Ho Hl.
  assert (Ex : through_sword x = x).
  { unfold through_sword. rewrite Z.mod_small by (unfold W32; lia). replace (x <? 2 ^ 31) with true by lia. reflexivity. }
  destruct (generate_ok f ss ts D) as (M & _ & H). destruct (H x Hx) as (g & Hg); [rewrite Ex; exact Ho|].
  rewrite Ex in Hg. destruct (mok_min _ _ _ M) as (lo0 & L). assert (S := emit_sorted f ss lo hi lo1 Ap _ lo0 M L).
  assert (E := proj2 M _ Hg). destruct (emit_in lo hi _ _ _ Hg Hl) as (r & Hr & Er).
  destruct g as [k i ty|].
  { exfalso. destruct E as (s' & Hs' & E1 & _). cbn in E1. apply (Ho _ Hs'). destruct (apart_lo _ _ Ap _ Hs'). lia. }
  destruct Er as (n & ->).
  assert (Hn : 0 < n).
  { clear - S Hr. revert lo0 S. induction (emit lo hi (generate ss ts)) as [|r l IH]; intros lo0 S; [destruct Hr|].
    cbn in S. destruct S as (b & n' & ty & E & _ & Hn & S'). destruct Hr as [->|Hr]; [cbn in E; inversion E; subst; exact Hn|exact (IH Hr _ S')]. }
  destruct (static_found_partial dbg arr p f _ lo0 (RReloc x n) x n UBYTE x P S Hr eq_refl) as (n' & G & _).
  - lia.
  - unfold W64; lia.
  - exists n'. exact G.
Qed.

(* ---- wrong answers ---- *)
Module StEx.
Definition f := mkSF 5000000 [mkSym 0 0; mkSym 100 16; mkSym 300 8] [mkSym 0 0; mkSym 116 4] [mkSym 0 0; mkSym 0 0; mkSym 200 40].
Definition ss := [mkSt 100 116 KDyn 1 64; mkSt 116 120 KSym 1 72; mkSt 200 240 KExtra 0 0; mkSt 300 308 KDyn 2 80].
Definition ts := [150; 104; 260; 150; 170].
Definition tab := emit 0 256 (generate ss ts).
Definition arr : Z -> place := fun _ => PElse.
Lemma apart : statics_apart 0 ss.
Proof. cbn. lia. Qed.
Lemma descr : described f 2 ss.
Proof. cbn. auto. Qed.
Lemma place_ok : seg_place (PSection (PSegment f tab)) f tab.
Proof. right. left. reflexivity. Qed.
End StEx.
Import StEx.

(* the table is not empty and mixes kinds; a static, a reloc target and a hole *)
Example metatab_ex : tab = [RSym KDyn 1 64; RSym KSym 1 72; RReloc 150 20; RReloc 170 30; RSym KExtra 2 0].
Proof. vm_compute. reflexivity. Qed.
Example metatab_sorted_ex : exists lo0, sorted_from f lo0 tab.
Proof. exact (metatab_sorted f ss ts 0 256 0 apart descr). Qed.
Example metatab_static_ex : get_info true arr 5000117 (Some (PSection (PSegment f tab))) = Ok (Some (72, 5000116, 4)).
Proof.
  apply (metatab_static_found true arr f ss ts 0 256 0 _ (mkSt 116 120 KSym 1 72) 117 apart descr place_ok);
    [cbn; auto|cbn; lia|cbn; lia|unfold W64; lia].
Qed.
Example metatab_reloc_ex : exists n, get_info true arr 5000170 (Some (PSection (PSegment f tab))) = Ok (Some (8, 5000170, n)).
Proof.
  apply (metatab_reloc_found_partial true arr f ss ts 0 256 0 _ 170 apart descr place_ok);
    [cbn; auto 6|lia| |lia].
  intros s H. cbn in H. intuition (subst; cbn in *; lia).
Qed.
Example static_outside_ex : get_info true arr 5000140 (Some (PSection (PSegment f tab))) = Ok None.
Proof.
  destruct metatab_sorted_ex as (lo0 & S).
  apply (static_outside_partial true arr _ f tab lo0 140 place_ok S); [unfold W64; lia|].
  intros r b n ty Hr E. rewrite metatab_ex in Hr. cbn in Hr.
  intuition (subst; cbn in E; inversion E; subst; lia).
Qed.

(* The size reported for a relocation target is its end, not its size. *)
Theorem static_reloc_size_refuted : exists dbg arr p f tab lo r b n ty x n',
  seg_place p f tab /\ sorted_from f lo tab /\ In r tab /\ object f r = Some (b, n, ty) /\ b <= x < b + n /\
  get_info dbg arr (sf_load f + x) (Some p) = Ok (Some (ty, sf_load f + b, n')) /\ n = 20 /\ n' = 170.
Proof.
  destruct metatab_sorted_ex as (lo0 & S).
  exists true, arr, (PSection (PSegment f tab)), f, tab, lo0, (RReloc 150 20), 150, 20, UBYTE, 155, 170.
  split; [exact place_ok|]. split; [exact S|]. split; [vm_compute; auto|]. split; [reflexivity|]. split; [lia|].
  vm_compute. auto.
Qed.
(* One past an object's end, if no object starts there, is answered as inside it. *)
Theorem static_end_refuted : exists dbg arr p f tab lo x ty b n,
  seg_place p f tab /\ sorted_from f lo tab /\ get_info dbg arr (sf_load f + x) (Some p) = Ok (Some (ty, sf_load f + b, n)) /\
  forall r b n ty, In r tab -> object f r = Some (b, n, ty) -> ~ b <= x < b + n.
Proof.
  destruct metatab_sorted_ex as (lo0 & S).
  exists true, arr, (PSection (PSegment f tab)), f, tab, lo0, 120, 72, 116, 4.
  split; [exact place_ok|]. split; [exact S|]. split; [vm_compute; reflexivity|].
  intros r b n ty Hr E. rewrite metatab_ex in Hr. cbn in Hr.
  intuition (subst; cbn in E; inversion E; subst; lia).
Qed.
(* An address in an object, after the end of another inside it, is not found. *)
Theorem static_nested_refuted : exists dbg arr f tab x b n ty r,
  vaddrs f tab = Ok [100; 120] /\ In r tab /\ object f r = Some (b, n, ty) /\ b <= x < b + n /\
  get_info dbg arr (sf_load f + x) (Some (PSegment f tab)) = Ok None.
Proof.
  exists true, arr, (mkSF 5000 [mkSym 100 50; mkSym 120 8] [] []), [RSym KDyn 0 64; RSym KDyn 1 72], 140, 100, 50, 64, (RSym KDyn 0 64).
  split; [vm_compute; reflexivity|]. split; [left; reflexivity|]. split; [reflexivity|]. split; [lia|]. vm_compute. reflexivity.
Qed.
(* Asking for the name of any address from 128MiB up, whatever is there, reads outside an array. *)
Theorem static_name_refuted : forall dbg arr obj, NBIG * PAGE <= obj -> get_name dbg arr obj = UB.
Proof.
  intros dbg arr obj H. unfold get_name, do_lookup, segment_of.
  replace (PAGENUM obj <? NBIG) with false; [reflexivity|].
  unfold PAGENUM, NBIG, PAGE in *. symmetry. apply Z.ltb_ge. apply Z.div_le_lower_bound; lia.
Qed.
Example static_name_ex : get_name true arr (NBIG * PAGE) = UB.
Proof. apply static_name_refuted. lia. Qed.
(* The last relocation target of a segment is taken to extend to the next segment's first object. *)
Theorem metatab_reloc_past_segment_refuted : exists ss ts lo hi b n,
  statics_apart 0 ss /\ In (RReloc b n) (emit lo hi (generate ss ts)) /\ hi < b + n.
Proof.
  exists [mkSt 4096 4104 KDyn 1 64], [200], 0, 256, 200, 3896.
  split; [cbn; lia|]. split; [vm_compute; auto|lia].
Qed.
(* A relocation target of 2^31 or more has no record. *)
Theorem metatab_reloc_high_refuted : exists dbg arr f ss ts lo hi x,
  statics_apart 0 ss /\ described f 2 ss /\ In x ts /\ lo <= x < hi /\ (forall s, In s ss -> ~ t_lo s <= x < t_hi s) /\
  get_info dbg arr (sf_load f + x) (Some (PSegment f (emit lo hi (generate ss ts)))) = Ok None.
Proof.
  exists true, arr, (mkSF 0 [] [] []), [], [2147483648], 0, 4294967296, 2147483648.
  split; [exact Logic.I|]. split; [exact Logic.I|]. split; [left; reflexivity|]. split; [lia|].
  split; [intros s []|]. vm_compute. reflexivity.
Qed.

Print Assumptions static_found_partial.
Print Assumptions static_outside_partial.
Print Assumptions metatab_sorted.
Print Assumptions metatab_static_found.
Print Assumptions metatab_reloc_found_partial.
Print Assumptions static_reloc_size_refuted.
Print Assumptions static_end_refuted.
Print Assumptions static_nested_refuted.
Print Assumptions static_name_refuted.
Print Assumptions metatab_reloc_past_segment_refuted.
Print Assumptions metatab_reloc_high_refuted.
