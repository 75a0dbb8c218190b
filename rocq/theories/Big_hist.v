(* Histories of operations on the big-allocation forest. *)
From Verif Require Import Base Big_model Big_set Big_spec Big_inv Big_lookup Big_links Big_field Big_create
  Big_delete Big_resize Big_preext Big_stack Big_split Big_range Big_common Big_adopt.

(* One call into the big-allocation layer. *)
Inductive op :=
| New (ptr size : Z) (priv maybe_parent alloc : nat)
| SetSub (n sub subpriv : nat)           (* b->suballocator = ..., as done e.g. at stack.c:78 *)
| SetPriv (n priv : nat)                 (* b->allocator_private = ..., as done e.g. at mmap.c:82 *)
| Del (n : nat)                          (* __liballocs_delete_bigalloc_* *)
| DelAt (a : Z) (alloc : nat)
| DelRange (lo hi : Z)
| Extend (n : nat) (e : Z)
| AdjustEnd (n : nat) (e : Z)
| PreExtend (n : nat) (b : Z)
| TruncEnd (n : nat) (e : Z)
| TruncBegin (n : nat) (b : Z)
| Split (n : nat) (sp : Z)
| Touch (stacks : list nat) (ptr : Z).   (* a query of an unindexed address *)

Section Hist.
Variables (nb : nat) (biggest : Z) (dbg : bool) (al : nat -> Z) (cur max : Z).

Definition set_sub (s : st) (n sub subpriv : nat) : st :=
  let b := bigs s n in
  put s n (mkBig (b_begin b) (b_end b) (b_parent b) (b_first b) (b_next b) (b_prev b) (b_alloc b) sub (b_priv b) subpriv).

Definition step (s : st) (o : op) : res st :=
  match o with
  | New ptr size priv mp a => do '(s', _) <- new_bigalloc nb biggest dbg s ptr size priv mp a ; Ok s'
  | SetSub n sub sp => Ok (set_sub s n sub sp)
  | SetPriv n p => Ok (set_priv s n p)
  | Del n => bigalloc_del nb biggest dbg s n
  | DelAt a al => do '(s', _) <- delete_at nb biggest dbg s a al ; Ok s'
  | DelRange lo hi => delete_overlapping nb biggest dbg s lo hi
  | Extend n e => extend biggest dbg s n e
  | AdjustEnd n e => adjust_end biggest dbg s n e
  | PreExtend n b => pre_extend nb biggest dbg s n b
  | TruncEnd n e => truncate_end biggest dbg s n e
  | TruncBegin n b => truncate_begin biggest dbg s n b
  | Split n sp => do '(s', _) <- split nb dbg s n sp ; Ok s'
  | Touch stacks ptr => do '(s', _) <- find_deepest_adopt nb biggest dbg al cur max s stacks ptr ; Ok s'
  end.

Definition width (s : st) (n : nat) : Z := b_end (bigs s n) - b_begin (bigs s n).

(* The caller's side of the contract. *)
Definition grow_end (s : st) (n : nat) (e : Z) : Prop :=
  live s n /\ b_end (bigs s n) <= e /\ good_range s n (b_begin (bigs s n)) e /\ e - b_begin (bigs s n) <= biggest /\
  (b_begin (bigs s n) <= RDOWN (b_end (bigs s n)) \/ RDOWN e = RDOWN (b_end (bigs s n))).
Definition shrink_end (s : st) (n : nat) (e : Z) : Prop :=
  live s n /\ e <= b_end (bigs s n) /\ good_range s n (b_begin (bigs s n)) e /\
  (b_begin (bigs s n) <= RDOWN e \/ RDOWN e = RDOWN (b_end (bigs s n))).

Definition legal (s : st) (o : op) : Prop :=
  match o with
  | New ptr size priv mp a =>
      has_free nb s /\ size <= biggest /\ exists p, fits s p ptr (ptr + size) /\ parent_choice s mp p ptr (ptr + size)
  | SetSub n _ _ => live s n
  | SetPriv n _ => live s n
  | Del n => live s n /\ ~ anc s n (start s)
  | DelAt a al => forall n, outermost s false a al n -> ~ anc s n (start s)
  | DelRange lo hi => 0 <= lo /\ (lo mod PAGE = 0 \/ hi mod PAGE = 0) /\ ~ meets s (start s) lo hi
  | Extend n e => grow_end s n e
  | AdjustEnd n e => grow_end s n e \/ shrink_end s n e
  | PreExtend n b => live s n /\ b <= b_begin (bigs s n) /\ good_range s n b (b_end (bigs s n)) /\ b_end (bigs s n) - b <= biggest
  | TruncEnd n e => shrink_end s n e
  | TruncBegin n b => live s n /\ b_begin (bigs s n) <= b /\ good_range s n b (b_end (bigs s n)) /\
      (RUP b <= b_end (bigs s n) \/ RUP b = RUP (b_begin (bigs s n)))
  | Split n sp => has_free nb s /\ splittable s n sp
  | Touch stacks ptr => PAGE <= ptr /\
      (forall a, 0 <= al a /\ (al a = 0 \/ (al a | PAGE))) /\
      forall b, In b stacks -> live s b /\ b_begin (bigs s b) mod PAGE = 0 /\
        forall m, anc s m b -> b_end (bigs s m) - RDOWN ptr <= biggest
  end.

(* The state in which dlmalloc-ext.c:63-100 leaves the table: one top-level record, START,
   spanning [lo,hi).  The unused records are all zero (static data). *)
Definition big0 : big := mkBig 0 0 0 0 0 0 0 0 0 0.
Definition init_st (lo hi : Z) (alloc priv : nat) : st :=
  mkSt (fun n => if Nat.eqb n 1 then mkBig lo hi 0 0 0 0 alloc 0 priv 0 else big0)
       (fun q => if (lo <=? PAGE * q) && (PAGE * q + PAGE <=? hi) then 1%nat else 0%nat)
       1 [].

Inductive reach : st -> Prop :=
| reach_init lo hi a pr : (2 <= nb)%nat -> 0 < lo < hi -> hi - lo <= biggest -> lo mod PAGE = 0 -> hi mod PAGE = 0 ->
    reach (init_st lo hi a pr)
| reach_step s o s' : reach s -> legal s o -> step s o = Ok s' -> reach s'.

Definition Good (s : st) : Prop := (exists K rk, Inv nb s K rk) /\ forall n, live s n -> width s n <= biggest.

Lemma init_good lo hi a pr : (2 <= nb)%nat -> 0 < lo < hi -> hi - lo <= biggest -> lo mod PAGE = 0 -> hi mod PAGE = 0 ->
  Good (init_st lo hi a pr).
Proof.
  intros Hnb Hr Hsz Ha1 Ha2. set (s := init_st lo hi a pr).
  assert (Hlive : forall n, live s n <-> n = 1%nat).
  { intro n. unfold live, s, init_st, in_use; cbn [bigs]. destruct (Nat.eqb_spec n 1) as [->|E]; cbn [b_begin b_end big0].
    - split; auto. intros _. split; [lia|]. rewrite (proj2 (Z.eqb_neq lo 0)), (proj2 (Z.eqb_neq hi 0)) by lia. reflexivity.
    - split; [intros [_ H]; discriminate|intros ->; congruence]. }
  assert (Hpar : forall n, b_parent (bigs s n) = 0%nat).
  { intro n. unfold s, init_st; cbn [bigs]. destruct (Nat.eqb_spec n 1); reflexivity. }
  assert (B1 : bigs s 1%nat = mkBig lo hi 0 0 0 0 a 0 pr 0) by reflexivity.
  assert (Hpi : forall q, pidx s q = if (lo <=? PAGE * q) && (PAGE * q + PAGE <=? hi) then 1%nat else 0%nat) by reflexivity.
  assert (Hst : start s = 1%nat) by reflexivity. clearbody s.
  split.
  - exists (fun p => if Nat.eqb p 0 then [1%nat] else []), (fun _ => 0%nat). constructor.
    + intros p c. rewrite Hlive, Hpar. destruct (Nat.eqb_spec p 0) as [->|E]; cbn; intuition congruence.
    + intro p. destruct (Nat.eqb p 0); repeat constructor. simpl; tauto.
    + intro p. destruct (Nat.eqb p 0); cbn; auto. rewrite B1. auto.
    + intros n Hn. apply Hlive in Hn. subst. rewrite B1. reflexivity.
    + intros n Hn. left. apply Hpar.
    + intros n _ H. rewrite Hpar in H. congruence.
    + intros n Hn. apply Hlive in Hn. subst. rewrite B1. cbn. lia.
    + intros n Hn. apply Hlive in Hn. lia.
    + intros n _ H. rewrite Hpar in H. congruence.
    + intros p x y. destruct (Nat.eqb p 0); cbn; [|tauto]. intros [<-|[]] [<-|[]]. congruence.
    + cbn. split; [intros y []|auto].
    + intros n. cbn. intros [<-|[]]. rewrite B1. cbn. auto.
    + rewrite Hst. cbn. auto.
    + intros n _ _. apply Hpar.
    + intro q. rewrite Hpi.
      destruct (Z.leb_spec lo (PAGE * q)) as [H1|H1]; cbn [andb]; [destruct (Z.leb_spec (PAGE * q + PAGE) hi) as [H2|H2]|].
      * split; [right; apply Hlive; auto|]. split; [right; unfold spans; rewrite B1; cbn [b_begin b_end]; lia|]. cbn. tauto.
      * split; [left; auto|]. split; [left; auto|]. cbn. intros c [<-|[]]. unfold spans. rewrite B1; cbn [b_begin b_end]; lia.
      * split; [left; auto|]. split; [left; auto|]. cbn. intros c [<-|[]]. unfold spans. rewrite B1; cbn [b_begin b_end]; lia.
  - intros n Hn. apply Hlive in Hn. subst. unfold width. rewrite B1. cbn. lia.
Qed.

(* sizes after an operation, from the views *)
Lemma view_width s n a : live s n -> view s n = Some a -> width s n = a_end a - a_begin a.
Proof. intros L H. rewrite live_view in H by auto. injection H; intro E. unfold width. rewrite <- E. reflexivity. Qed.
Lemma live_some s n : live s n -> exists a, view s n = Some a.
Proof. intro L. rewrite live_view by auto. eauto. Qed.
Lemma some_live s n a : view s n = Some a -> live s n.
Proof. intro H. apply view_live. congruence. Qed.

Lemma widths s s' : (forall n, live s n -> width s n <= biggest) ->
  (forall m a, view s' m = Some a -> (exists b, view s m = Some b /\ a_end a - a_begin a <= a_end b - a_begin b) \/ a_end a - a_begin a <= biggest) ->
  forall n, live s' n -> width s' n <= biggest.
Proof.
  intros H HV n Ln. destruct (live_some _ _ Ln) as (a & Ha). rewrite (view_width _ _ _ Ln Ha).
  destruct (HV n a Ha) as [(b & Hb & Hle)|Hle]; [|auto]. specialize (H n (some_live _ _ _ Hb)). rewrite (view_width _ _ _ (some_live _ _ _ Hb) Hb) in H. lia.
Qed.

Lemma widths_gone s s' D : (forall n, live s n -> width s n <= biggest) -> gone s s' D -> forall n, live s' n -> width s' n <= biggest.
Proof.
  intros H HG. apply (widths s s' H). intros m a Hm. rewrite (go_view _ _ _ HG) in Hm.
  destruct (existsb (Nat.eqb m) D); [discriminate|]. left. exists a. split; auto. lia.
Qed.
Lemma widths_resized s s' n lo hi : (forall n, live s n -> width s n <= biggest) -> resized s s' n lo hi -> hi - lo <= biggest ->
  forall n, live s' n -> width s' n <= biggest.
Proof.
  intros H [HV _] Hle. apply (widths s s' H). intros m a Hm. rewrite HV in Hm.
  destruct (Nat.eqb m n); [injection Hm; intros <-; right; cbn; lia|]. left. exists a. split; auto. lia.
Qed.

(* the fields the forest's shape does not depend on *)
Definition set_client (s : st) (n sub priv subpriv : nat) : st :=
  let b := bigs s n in
  put s n (mkBig (b_begin b) (b_end b) (b_parent b) (b_first b) (b_next b) (b_prev b) (b_alloc b) sub priv subpriv).
Lemma set_client_ok s K rk n sub pr sp : Inv nb s K rk -> live s n ->
  Inv nb (set_client s n sub pr sp) K rk /\
  forall m, view (set_client s n sub pr sp) m =
    if Nat.eqb m n then Some (mkAttrs (b_begin (bigs s n)) (b_end (bigs s n)) (b_parent (bigs s n)) (b_alloc (bigs s n)) sub pr sp)
    else view s m.
Proof.
  intros HI Hn. set (s' := set_client s n sub pr sp).
  assert (Hf : forall m, b_begin (bigs s' m) = b_begin (bigs s m) /\ b_end (bigs s' m) = b_end (bigs s m) /\
     b_parent (bigs s' m) = b_parent (bigs s m) /\ b_first (bigs s' m) = b_first (bigs s m) /\
     b_next (bigs s' m) = b_next (bigs s m) /\ b_prev (bigs s' m) = b_prev (bigs s m) /\ in_use (bigs s' m) = in_use (bigs s m)).
  { intro m. unfold s', set_client. rewrite put_bigs. unfold in_use. destruct (Nat.eqb_spec m n) as [->|E]; cbn; repeat split; auto. }
  assert (Hl : forall m, live s' m <-> live s m) by (intro m; unfold live; destruct (Hf m) as (_ & _ & _ & _ & _ & _ & ->); tauto).
  assert (Hsp : forall m q, spans s' m q <-> spans s m q) by (intros m q; unfold spans; destruct (Hf m) as (-> & -> & _); tauto).
  split.
  - assert (Hd : forall l pv, dll (bigs s) pv l -> dll (bigs s') pv l).
    { induction l as [|x l IH]; intros pv; cbn; auto. destruct (Hf x) as (_ & _ & _ & _ & -> & -> & _). intuition. }
    assert (Hb : forall l, before s l -> before s' l).
    { induction l as [|x l IH]; cbn; auto. destruct (Hf x) as (_ & -> & _). intros [H1 H2]; split; auto.
      intros y Hy. destruct (Hf y) as (-> & _). auto. }
    destruct HI. constructor.
    + intros p c. rewrite Hl. destruct (Hf c) as (_ & _ & -> & _). auto.
    + auto.
    + auto.
    + intros m Hm. apply Hl in Hm. destruct (Hf m) as (_ & _ & _ & -> & _). auto.
    + intros m Hm. apply Hl in Hm. destruct (Hf m) as (_ & _ & -> & _). destruct (I_par m Hm) as [H|H]; [left; auto|right; apply Hl; auto].
    + intros m Hm. apply Hl in Hm. destruct (Hf m) as (_ & _ & -> & _). auto.
    + intros m Hm. apply Hl in Hm. destruct (Hf m) as (-> & -> & _). auto.
    + intros m Hm. apply Hl in Hm. auto.
    + intros m Hm. apply Hl in Hm. destruct (Hf m) as (-> & -> & -> & _). destruct (Hf (b_parent (bigs s m))) as (-> & -> & _). auto.
    + intros p a b. unfold disj. destruct (Hf a) as (-> & -> & _). destruct (Hf b) as (-> & -> & _). apply I_disj.
    + auto.
    + intro m. destruct (Hf m) as (-> & -> & _). auto.
    + auto.
    + intro m. destruct (Hf m) as (_ & _ & -> & _ & _ & _ & ->). auto.
    + intro q. change (pidx s' q) with (pidx s q). destruct (I_pix q) as (A & B & C). split; [|split].
      * destruct A as [A|A]; [left; auto|right; apply Hl; auto].
      * destruct B as [B|B]; [left; auto|right; apply Hsp; auto].
      * intros c Hc H. apply Hsp in H. apply (C c Hc H).
  - intro m. unfold view. destruct (Hf m) as (_ & _ & _ & _ & _ & _ & ->). destruct (Nat.eqb_spec m n) as [E|E].
    + rewrite E in *. unfold live in Hn. destruct Hn as [H1 H2]. rewrite H2. destruct (Nat.eqb_spec n 0); [congruence|]. cbn [negb andb].
      unfold attrs_of, s', set_client. rewrite put_bigs, Nat.eqb_refl. reflexivity.
    + unfold s', set_client. rewrite put_bigs. destruct (Nat.eqb_spec m n); [congruence|]. reflexivity.
Qed.
Lemma set_sub_ok s K rk n sub sp : Inv nb s K rk -> live s n ->
  Inv nb (set_sub s n sub sp) K rk /\
  forall m, view (set_sub s n sub sp) m =
    if Nat.eqb m n then Some (mkAttrs (b_begin (bigs s n)) (b_end (bigs s n)) (b_parent (bigs s n)) (b_alloc (bigs s n)) sub (b_priv (bigs s n)) sp)
    else view s m.
Proof. exact (set_client_ok s K rk n sub (b_priv (bigs s n)) sp). Qed.
Lemma set_priv_ok s K rk n pr : Inv nb s K rk -> live s n ->
  Inv nb (set_priv s n pr) K rk /\
  forall m, view (set_priv s n pr) m =
    if Nat.eqb m n then Some (mkAttrs (b_begin (bigs s n)) (b_end (bigs s n)) (b_parent (bigs s n)) (b_alloc (bigs s n)) (b_sub (bigs s n)) pr (b_subpriv (bigs s n)))
    else view s m.
Proof. exact (set_client_ok s K rk n (b_sub (bigs s n)) pr (b_subpriv (bigs s n))). Qed.

Theorem step_good s o : Good s -> legal s o -> exists s', step s o = Ok s' /\ Good s'.
Proof.
  intros [(K & rk & HI) HW] HL. destruct o as [ptr size pr mp a|n sub sp|n pr|n|a al0|lo hi|n e|n e|n b|n e|n b|n sp|stacks ptr]; cbn [legal step] in *.
  - destruct HL as (Hf & Hsz & p & Hfit & Hpc).
    destruct (new_bigalloc_ok nb biggest dbg s K rk ptr size pr mp a p HI Hf Hsz Hfit Hpc) as (s' & n & K' & rk' & E & HI' & Hn & Hv & HV & _).
    rewrite E. cbn [bind]. exists s'. split; [auto|]. split; [eauto|]. apply (widths s s' HW). intros m t Hm. rewrite HV in Hm.
    destruct (Nat.eqb m n); [injection Hm; intros <-; right; cbn; lia|]. left. exists t. split; auto. lia.
  - destruct (set_sub_ok s K rk n sub sp HI HL) as [A B]. exists (set_sub s n sub sp). split; [auto|]. split; [eauto|].
    apply (widths s _ HW). intros m t Hm. rewrite B in Hm. destruct (Nat.eqb_spec m n) as [->|E].
    + injection Hm; intros <-. left. exists (attrs_of (bigs s n)). split; [apply live_view; auto|]. cbn. lia.
    + left. exists t. split; auto. lia.
  - destruct (set_priv_ok s K rk n pr HI HL) as [A B]. exists (set_priv s n pr). split; [auto|]. split; [eauto|].
    apply (widths s _ HW). intros m t Hm. rewrite B in Hm. destruct (Nat.eqb_spec m n) as [->|E].
    + injection Hm; intros <-. left. exists (attrs_of (bigs s n)). split; [apply live_view; auto|]. cbn. lia.
    + left. exists t. split; auto. lia.
  - destruct HL as [Ln Ha]. destruct (bigalloc_del_ok nb biggest dbg s K rk n HI Ln Ha (HW n Ln)) as (s' & K' & D & E & HI' & _ & HG).
    exists s'. split; [auto|]. split; [eauto|]. eapply widths_gone; eauto.
  - destruct (delete_at_ok nb biggest dbg s K rk a al0 HI) as [[E _]|(s' & K' & n & D & E & _ & HI' & _ & HG)].
    + intros n Hn. split; [apply HW; apply Hn|auto].
    + rewrite E. exists s. split; [auto|]. split; eauto.
    + rewrite E. exists s'. split; [auto|]. split; [eauto|]. eapply widths_gone; eauto.
  - destruct HL as (H0 & H1 & H2). destruct (delete_overlapping_ok nb biggest dbg s K rk lo hi HI H0 H1) as (s' & K' & D & E & HI' & HG & _).
    + intros r [Lr _] Hm. split; [apply HW; auto|]. intros ->. auto.
    + exists s'. split; [auto|]. split; [eauto|]. eapply widths_gone; eauto.
  - destruct HL as (Ln & H1 & H2 & H3 & H4). destruct (extend_ok nb biggest dbg s K rk n e HI Ln H1 H2 H3 H4) as (s' & E & HI' & HR).
    exists s'. split; [auto|]. split; [eauto|]. eapply widths_resized; eauto.
  - unfold adjust_end. destruct (Z.ltb_spec e (b_end (bigs s n))) as [Hlt|Hge].
    + destruct HL as [(_ & H & _)|HL]; [lia|]. destruct HL as (Ln & H1 & H2 & H3).
      destruct (truncate_end_ok nb biggest dbg s K rk n e HI Ln H1 H2 (HW n Ln) H3) as (s' & E & HI' & HR).
      exists s'. split; [auto|]. split; [eauto|]. eapply widths_resized; eauto. specialize (HW n Ln). unfold width in HW. lia.
    + destruct (Z.ltb_spec (b_end (bigs s n)) e) as [Hlt2|Hge2].
      * destruct HL as [HL|(_ & H & _)]; [|lia]. destruct HL as (Ln & H1 & H2 & H3 & H4).
        destruct (extend_ok nb biggest dbg s K rk n e HI Ln H1 H2 H3 H4) as (s' & E & HI' & HR).
        exists s'. split; [auto|]. split; [eauto|]. eapply widths_resized; eauto.
      * exists s. split; [auto|]. split; eauto.
  - destruct HL as (Ln & H1 & H2 & H3). destruct (pre_extend_ok nb biggest dbg s K rk n b HI Ln H1 H2 H3) as (s' & E & HI' & HR).
    exists s'. split; [auto|]. split; [eauto|]. eapply widths_resized; eauto.
  - destruct HL as (Ln & H1 & H2 & H3). destruct (truncate_end_ok nb biggest dbg s K rk n e HI Ln H1 H2 (HW n Ln) H3) as (s' & E & HI' & HR).
    exists s'. split; [auto|]. split; [eauto|]. eapply widths_resized; eauto. specialize (HW n Ln). unfold width in HW. lia.
  - destruct HL as (Ln & H1 & H2 & H3). destruct (truncate_begin_ok nb biggest dbg s K rk n b HI Ln H1 H2 (HW n Ln) H3) as (s' & E & HI' & HR).
    exists s'. split; [auto|]. split; [eauto|]. eapply widths_resized; eauto. specialize (HW n Ln). unfold width in HW. lia.
  - destruct HL as (Hf & Hs). destruct (split_ok nb dbg s K rk n sp HI Hf Hs) as (s' & nw & K' & rk' & E & HI' & Hv & Hn & HV & _).
    rewrite E. cbn [bind]. exists s'. split; [auto|]. split; [eauto|]. apply (widths s s' HW). intros m t Hm. rewrite HV in Hm.
    destruct Hs as (Ln & Hal & Hsp & _). specialize (HW n Ln). unfold width in HW. unfold split_view in Hm. cbn zeta in Hm.
    destruct (Nat.eqb m n); [injection Hm; intros <-; right; cbn; lia|].
    destruct (Nat.eqb m nw); [injection Hm; intros <-; right; cbn; lia|].
    destruct (view s m) as [u|]; [|discriminate]. left. exists u. split; auto. injection Hm; intros <-.
    destruct (Nat.eqb (a_parent u) n && (sp <=? a_begin u)); cbn; lia.
  - destruct HL as (Hp & Hal & HS). unfold find_deepest_adopt. destruct (Nat.eqb_spec (pidx s (PAGENUM ptr)) 0) as [E0|E0].
    + destruct (stack_notify_ok nb biggest dbg al Hal cur max s K rk ptr HI Hp E0 stacks HS) as
        [(l1 & b & l2 & s' & E1 & _ & _ & _ & E & HI' & HV1 & HV2 & _)|[_ E]]; rewrite E; cbn [bind].
      * destruct (find_deepest_correct _ _ _ _ HI' ptr) as (r & Er & _). rewrite Er. cbn [bind]. exists s'. split; [auto|]. split; [eauto|].
        destruct (HS b) as (Lb & _ & Hsz); [rewrite E1; apply in_or_app; simpl; auto|].
        apply (widths s s' HW). intros m t Hm. destruct (anc_dec _ _ _ _ m b HI Lb) as [Ha|Ha].
        -- destruct (HV1 m Ha) as [Hv Hlt]. rewrite Hv in Hm. injection Hm; intros <-. right. cbn. specialize (Hsz m Ha). lia.
        -- rewrite HV2 in Hm by auto. left. exists t. split; auto. lia.
      * destruct (find_deepest_correct _ _ _ _ HI ptr) as (r & Er & _). rewrite Er. cbn [bind]. exists s. split; [auto|]. split; eauto.
    + destruct (find_deepest_correct _ _ _ _ HI ptr) as (r & Er & _). rewrite Er. cbn [bind]. exists s. split; [auto|]. split; eauto.
Qed.

Theorem reach_good s : reach s -> Good s.
Proof.
  induction 1 as [lo hi a pr H1 H2 H3 H4 H5|s o s' H IH HL E]; [apply init_good; auto|].
  destruct (step_good s o IH HL) as (s2 & E2 & G). rewrite E in E2. injection E2; intros ->. auto.
Qed.

(* the invariant, read as the specification *)
Lemma dll_sib_list s K rk p : Inv nb s K rk -> forall l pv, (forall x, In x l -> In x (K p)) -> dll (bigs s) pv l -> sib_list s pv (hd 0%nat l) l.
Proof.
  intro HI. induction l as [|x l IH]; intros pv Hin H; cbn; auto. destruct H as (H1 & H2 & H3).
  split; auto. split; [apply (kid_live _ _ _ _ HI p); apply Hin; simpl; auto|]. split; auto. rewrite H2. apply IH; auto. intros; apply Hin; simpl; auto.
Qed.
Lemma before_nth s l : before s l -> forall i j, (i < j < length l)%nat -> b_end (bigs s (nth i l 0%nat)) <= b_begin (bigs s (nth j l 0%nat)).
Proof.
  induction l as [|x l IH]; intros H i j Hij; [cbn in Hij; lia|]. destruct H as [H1 H2]. cbn [length] in Hij.
  destruct j as [|j]; [lia|]. destruct i as [|i]; cbn [nth]; [apply H1; apply nth_In; lia|]. apply IH; auto. lia.
Qed.
Lemma Inv_forest s K rk : Inv nb s K rk -> forest s /\ links_ok s.
Proof.
  intro HI. split.
  - constructor.
    + apply (I_geo _ _ _ _ HI).
    + intros n Hn. exact (I_par _ _ _ _ HI n Hn).
    + apply (I_in _ _ _ _ HI).
    + intros m n Lm Ln Hne Hp (a & H1 & H2). unfold covers in *.
      destruct (I_disj _ _ _ _ HI (b_parent (bigs s m)) m n) as [D|D]; auto; try lia.
      * apply (live_kid _ _ _ _ HI); auto.
      * rewrite Hp. apply (live_kid _ _ _ _ HI); auto.
    + intros n Ln Hp Ha. destruct (I_par _ _ _ _ HI n Ln) as [|Lp]; [congruence|].
      pose proof (anc_rk_le _ _ _ _ _ _ HI Ha Lp). pose proof (I_rk _ _ _ _ HI n Ln Hp). lia.
    + intros n Ln Hp. apply (I_align _ _ _ _ HI). rewrite <- Hp. apply (live_kid _ _ _ _ HI); auto.
  - split.
    + intros p Lp. exists (K p). split; [rewrite (I_first _ _ _ _ HI p Lp); apply (dll_sib_list s K rk p HI); auto; apply (I_dll _ _ _ _ HI)|].
      split; [apply (I_nodup _ _ _ _ HI)|apply (I_kid _ _ _ _ HI)].
    + exists (hd 0%nat (K 0%nat)), (K 0%nat). split; [apply (dll_sib_list s K rk 0 HI); auto; apply (I_dll _ _ _ _ HI)|].
      split; [apply (I_nodup _ _ _ _ HI)|]. split; [apply (I_kid _ _ _ _ HI)|]. split; [apply (I_start _ _ _ _ HI)|].
      apply before_nth, (I_before _ _ _ _ HI).
Qed.
End Hist.
