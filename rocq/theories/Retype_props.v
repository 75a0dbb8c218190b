(* C68: the types of heap objects, end to end. *)
From Verif Require Import Base Bits Big_model Big_spec Big_inv Big_set Big_lookup Big_create Big_hist Big_props Big_field Map_state Insert_model Insert_proof Heap_model Heap_spec Heap_proof Heap_calls Heap_props Retype_model Retype_spec Retype_proof.

Section P.
Variables (nb : nat) (biggest : Z) (dbg : bool) (al : nat -> Z) (cur_ max_ : Z).
Variable a : nat.
Hypothesis Ha : a <> 0%nat.
Hypothesis Hbig : biggest <= 2 ^ 32.
Variable T : sites.
Variable slots : nat -> slot.
Variable others : nat -> Z -> Z.
Notation R := (reach nb biggest dbg al cur_ max_).
Notation hreach := (hreach nb biggest dbg al cur_ max_ a).
Notation r_alloc := (r_alloc nb biggest dbg a).
Notation r_free := (r_free nb biggest dbg a).
Notation r_pre := (r_pre nb biggest dbg a).
Notation r_post := (r_post nb biggest dbg a).
Notation r_query := (r_query nb dbg a T).
Notation r_set := (r_set nb dbg a T slots others).
Notation add_type := (add_type nb dbg a T slots others).
Notation may_alloc := (may_alloc a nb biggest).

(* the underlying allocator's size function is right about the live chunks *)
Definition sizes_ok (C : list chunk) (f : Z -> Z) : Prop := forall c, In c C -> f (c_base c) = c_usable c.
(* the library's first record exists *)
Definition booted (s : rst) : Prop := b_begin (bigs (h_fo (r_h s)) 1) <> 0.

(* Every history of allocations, frees, reallocations, queries, type changes and writes by the
   program, with the live chunks and the type each has.  Queries that find a large chunk are
   left out of release builds, where they write outside it (retype_large_query_refuted). *)
Inductive rreach : rst -> list chunk -> list Z -> types -> Prop :=
| rr_start H m Y : hreach H [] [] -> bytes m -> rreach (mkR H m []) [] [] Y
| rr_alloc s C D Y c caller s' : rreach s C D Y -> may_alloc (h_fo (r_h s)) C D c -> 0 <= caller < 2 ^ 47 ->
    r_alloc s (c_base c) (c_req c) (c_usable c) caller = Ok s' -> rreach s' (c :: C) D (now Y c (type_of T caller))
| rr_free s C D Y c s' : rreach s C D Y -> In c C -> r_free s (c_base c) = Ok s' ->
    rreach s' (without c C) (if large c then c_base c :: D else D) Y
| rr_pre s C D Y c s' : rreach s C D Y -> In c C -> r_pre s (c_base c) = Ok s' ->
    rreach s' (without c C) (if large c then c_base c :: D else D) Y
| rr_post s C D Y old modified old_usable c caller s' : rreach s C D Y -> may_alloc (h_fo (r_h s)) C D c -> 0 <= caller < 2 ^ 47 ->
    (exists n v, arena a (h_fo (r_h s)) n v /\ a_begin v <= old < a_end v) ->
    (c_base c = old -> large c = true -> old_usable <= modified) ->
    r_post s old modified old_usable (c_req c) (c_base c) (c_usable c) caller = Ok s' -> rreach s' (c :: C) D (now Y c (type_of T caller))
| rr_query s C D Y f x s' r : rreach s C D Y -> sizes_ok C f ->
    (dbg = true \/ (exists c, In c C /\ large c = false /\ inside c x) \/ (forall b sz w, r <> Found b sz w)) ->
    r_query s f x = Ok (s', r) -> rreach s' C D Y
| rr_set s C D Y f c x u s' : rreach s C D Y -> sizes_ok C f -> booted s -> In c C -> large c = false -> inside c x -> proper u ->
    r_set s f x u = Ok s' -> rreach s' C D (now Y c u)
| rr_write s C D Y m : rreach s C D Y -> bytes m -> respects C (r_m s) m -> rreach (mkR (r_h s) m (r_un s)) C D Y
| rr_other s C D Y t : rreach s C D Y -> R t -> calm a C (h_fo (r_h s)) t ->
    rreach (mkR (mkH t (h_info (r_h s)) (h_next (r_h s))) (r_m s) (r_un s)) C D Y.

Record RInv (s : rst) (C : list chunk) (D : list Z) (Y : types) : Prop := {
  ri_h : hreach (r_h s) C D;
  ri_m : bytes (r_m s);
  ri_w : forall c, In c C -> large c = false -> proper (Y c) -> says T (load (r_m s) (c_end c - 8)) (Y c) }.

Lemma words_apart H C D c d : hreach H C D -> In c C -> In d C -> c <> d ->
  c_end c - 8 + 8 <= c_end d - 8 \/ c_end d - 8 + 8 <= c_end c - 8.
Proof.
  intros HH Ic Id N. assert (I := hreach_inv _ _ _ _ _ _ _ Ha Hbig _ _ _ HH).
  destruct (hi_apart _ _ _ _ _ _ _ _ _ _ I c d Ic Id) as [|Q]; [contradiction|].
  destruct (hi_ck _ _ _ _ _ _ _ _ _ _ I c Ic) as [[_ c2 c3 _] _]. destruct (hi_ck _ _ _ _ _ _ _ _ _ _ I d Id) as [[_ d2 d3 _] _].
  unfold apart, c_end in *. lia.
Qed.

(* writing the word of c to say u *)
Lemma put_word H C D c m Y v u : hreach H C D -> In c C -> bytes m ->
  (forall d, In d C -> d <> c -> large d = false -> proper (Y d) -> says T (load m (c_end d - 8)) (Y d)) ->
  0 <= v < 2 ^ 64 -> says T v u ->
  bytes (store m (c_end c - 8) v) /\
  forall d, In d C -> large d = false -> proper (now Y c u d) -> says T (load (store m (c_end c - 8) v) (c_end d - 8)) (now Y c u d).
Proof.
  intros HH Ic B W V S. split; [apply bytes_store, B|]. intros d Id Sd Pd. destruct (chunk_eqb c d) eqn:E.
  - apply chunk_eqb_eq in E. subst d. rewrite now_same. rewrite load_store by exact V. exact S.
  - assert (N : c <> d) by (intros <-; assert (X := proj2 (chunk_eqb_eq c c) eq_refl); congruence).
    rewrite now_other in * by exact N. rewrite load_away; [apply W; auto|]. destruct (words_apart H C D c d HH Ic Id N); lia.
Qed.

Lemma now_id Y c d : now Y c (Y c) d = Y d.
Proof. unfold now. destruct (chunk_eqb c d) eqn:E; [|reflexivity]. apply chunk_eqb_eq in E. congruence. Qed.

(* a query inside a small chunk *)
Lemma small_query s C D Y f c x : RInv s C D Y -> sizes_ok C f -> In c C -> large c = false -> inside c x -> 
  exists i r, extract (negb dbg) T (mkI (load (r_m s) (c_end c - 8)) (r_un s)) = (i, r) /\
    r_query s f x = Ok (mkR (r_h s) (if ins i =? load (r_m s) (c_end c - 8) then r_m s else store (r_m s) (c_end c - 8) (ins i)) (unrec i),
                        Found (c_base c) ((c_usable c - 16) mod 2 ^ 64) r).
Proof.
  intros [HH B W] F Ic Sm Hx.
  assert (Q := heap_lookup_small_partial _ _ _ _ _ _ _ Ha Hbig _ _ _ _ _ _ HH Ic Sm (F c Ic) Hx).
  unfold Retype_model.r_query. rewrite Q. cbn [bind]. unfold at_word, Retype_model.nd. cbn [r_m r_h r_un].
  destruct (extract (negb dbg) T (mkI (load (r_m s) (c_end c - 8)) (r_un s))) as [i r]. exists i, r. split; reflexivity.
Qed.

Lemma extract_fits n v un i r : 0 <= v < 2 ^ 64 -> extract n T (mkI v un) = (i, r) -> 0 <= ins i < 2 ^ 64.
Proof.
  intros V E. unfold extract in E. cbn [ins unrec] in E.
  destruct (is_with_type v); [destruct (t_type v =? 0)|destruct (type_of T (i_site v) =? 0)]; injection E as <- _; cbn [ins]; try exact V;
    destruct n; try exact V; apply type_fits.
Qed.

(* the write-back after a query *)
Lemma back_word s C D Y c i r : RInv s C D Y -> In c C -> large c = false ->
  extract (negb dbg) T (mkI (load (r_m s) (c_end c - 8)) (r_un s)) = (i, r) ->
  RInv (mkR (r_h s) (if ins i =? load (r_m s) (c_end c - 8) then r_m s else store (r_m s) (c_end c - 8) (ins i)) (unrec i)) C D Y.
Proof.
  intros [HH B W] Ic Sm E. assert (Fi := extract_fits _ _ _ _ _ (load_range (r_m s) (c_end c - 8) B) E).
  destruct (Z.eqb_spec (ins i) (load (r_m s) (c_end c - 8))) as [|Ne]; [constructor; cbn; auto|].
  constructor; cbn [r_h r_m]; [exact HH|apply bytes_store, B|]. intros d Id Sd Pd. destruct (chunk_eqb c d) eqn:Ec.
  - apply chunk_eqb_eq in Ec. subst d. rewrite load_store by exact Fi.
    destruct (extract_says (negb dbg) T _ (r_un s) (Y c) (W c Ic Sm Pd) Pd) as (i' & r' & E' & _ & _ & S & _). rewrite E in E'. injection E' as <- <-. exact S.
  - assert (N : c <> d) by (intros <-; assert (X := proj2 (chunk_eqb_eq c c) eq_refl); congruence).
    rewrite load_away; [apply W; auto|]. destruct (words_apart _ C D c d HH Ic Id N); lia.
Qed.

Lemma set_says s un u : proper u -> says T (ins (set_type T (mkI s un) u)) u /\ 0 <= ins (set_type T (mkI s un) u) < 2 ^ 64.
Proof. intro P. unfold set_type. cbn [ins]. split; [apply says_type, P|apply type_fits]. Qed.

(* setting inside a small chunk *)
Lemma small_set s C D Y f c x u : RInv s C D Y -> sizes_ok C f -> booted s -> In c C -> large c = false -> inside c x ->
  heap_set nb dbg a T s f x u = Ok (set_word T s (c_end c - 8) u, true).
Proof.
  intros [HH B W] F Bo Ic Sm Hx.
  destruct (small_path _ _ _ _ _ _ _ Ha Hbig _ _ _ c x f HH Ic Sm (F c Ic) Hx) as (n & i & sz & E1 & E2 & E3 & E4 & E5 & E6 & E7).
  unfold heap_set. rewrite E4. cbn [bind]. unfold booted in Bo. destruct (Z.eqb_spec (b_begin (bigs (h_fo (r_h s)) 1)) 0); [contradiction|].
  rewrite E3, E5. cbn [bind]. destruct (Nat.eqb_spec i 0); [contradiction|]. rewrite E7. cbn [bind]. destruct s; reflexivity.
Qed.
Lemma set_inv s C D Y c u : RInv s C D Y -> In c C -> large c = false -> proper u ->
  RInv (set_word T s (c_end c - 8) u) C D (now Y c u).
Proof.
  intros [HH B W] Ic Sm P. destruct (set_says (load (r_m s) (c_end c - 8)) (r_un s) u P) as [S V].
  destruct (put_word (r_h s) C D c (r_m s) Y _ u HH Ic B ltac:(auto) V S) as [X1 X2]. constructor; cbn [set_word r_h r_m]; assumption.
Qed.

(* the type read after the change *)
Lemma small_type s C D Y f c x : RInv s C D Y -> sizes_ok C f -> In c C -> large c = false -> inside c x -> proper (Y c) ->
  exists s', type_at nb dbg a T others s f x = Ok (s', Y c) /\ RInv s' C D Y /\ h_fo (r_h s') = h_fo (r_h s).
Proof.
  intros I F Ic Sm Hx P. destruct (small_query s C D Y f c x I F Ic Sm Hx) as (i & r & E & Q). unfold type_at. rewrite Q. cbn [bind].
  destruct (extract_says (negb dbg) T _ (r_un s) (Y c) (ri_w _ _ _ _ I c Ic Sm P) P) as (i' & r' & E' & Er & Et & _). rewrite E in E'. injection E' as <- <-.
  rewrite Er, Et. eexists. split; [reflexivity|]. split; [exact (back_word s C D Y c i r I Ic Sm E)|reflexivity].
Qed.

Lemma set_run s C D Y f c x u : RInv s C D Y -> sizes_ok C f -> booted s -> In c C -> large c = false -> inside c x -> proper u ->
  exists s', r_set s f x u = Ok s' /\ RInv s' C D (now Y c u).
Proof.
  intros I F Bo Ic Sm Hx P. destruct (small_path _ _ _ _ _ _ _ Ha Hbig _ _ _ c x f (ri_h _ _ _ _ I) Ic Sm (F c Ic) Hx) as (n & j & sz & E1 & E2 & E3 & _).
  unfold Retype_model.r_set. rewrite E1. cbn [bind]. destruct (Nat.eqb_spec n 0); [contradiction|]. rewrite E3. destruct (Nat.eqb_spec a 0); [contradiction|].
  rewrite Nat.eqb_refl. rewrite (small_set s C D Y f c x u I F Bo Ic Sm Hx). cbn [bind].
  assert (I1 := set_inv s C D Y c u I Ic Sm P). assert (P1 : proper (now Y c u c)) by (rewrite now_same; exact P).
  destruct (small_type _ C D _ f c x I1 F Ic Sm Hx P1) as (s' & Q & I2 & _). rewrite now_same in Q.
  destruct dbg eqn:Ed; [|eexists; split; [reflexivity|exact I1]].
  rewrite Q. cbn [bind]. rewrite Z.eqb_refl. cbn [asrt bind andb negb]. eexists. split; [reflexivity|exact I2].
Qed.

Lemma alloc_word H0 H C D c m Y caller un : hreach H (c :: C) D -> hreach H0 C D -> bytes m -> 0 <= caller < 2 ^ 47 ->
  (forall d, In d C -> large d = false -> proper (Y d) -> says T (load m (c_end d - 8)) (Y d)) ->
  RInv (mkR H (note_site m (c_end c - 8) caller) un) (c :: C) D (now Y c (type_of T caller)).
Proof.
  intros HH _ B Hc W. destruct (put_word H (c :: C) D c m Y (store_site (load m (c_end c - 8)) caller) (type_of T caller) HH (or_introl eq_refl) B) as [X1 X2].
  - intros d [<-|Id] N; [contradiction|]. apply W, Id.
  - apply site_fits, load_range, B.
  - apply says_site, Hc.
  - constructor; cbn [r_h r_m]; [exact HH|exact X1|exact X2].
Qed.

Lemma rreach_inv s C D Y : rreach s C D Y -> RInv s C D Y.
Proof.
  induction 1 as [H m Y HH B|s C D Y c caller s' _ I MA Hc E|s C D Y c s' _ I Ic E|s C D Y c s' _ I Ic E
    |s C D Y old modified ou c caller s' _ I MA Hc Ar NT E|s C D Y f x s' r _ I F K E|s C D Y f c x u s' _ I F Bo Ic Sm Hx P E
    |s C D Y m _ I B Rs|s C D Y t _ I Rt Cm].
  - constructor; cbn; [exact HH|exact B|intros c []].
  - destruct (heap_alloc_partial _ _ _ _ _ _ _ Ha Hbig _ _ _ c (ri_h _ _ _ _ I) MA) as (H' & s1 & n & E1 & HH & _).
    unfold Retype_model.r_alloc in E. rewrite E1 in E. cbn [bind] in E. injection E as <-.
    exact (alloc_word _ _ C D c _ Y caller _ HH (ri_h _ _ _ _ I) (ri_m _ _ _ _ I) Hc (ri_w _ _ _ _ I)).
  - unfold Retype_model.r_free in E. destruct (do_free nb biggest dbg a (r_h s) (c_base c)) as [H'| | |] eqn:E1; cbn [bind] in E; try discriminate. injection E as <-.
    constructor; cbn [r_h r_m]; [exact (hr_free _ _ _ _ _ _ _ _ _ _ _ _ (ri_h _ _ _ _ I) Ic E1)|apply (ri_m _ _ _ _ I)|].
    intros d Id. apply in_without in Id. apply (ri_w _ _ _ _ I), Id.
  - unfold Retype_model.r_pre in E. destruct (pre_realloc nb biggest dbg a (r_h s) (c_base c)) as [H'| | |] eqn:E1; cbn [bind] in E; try discriminate. injection E as <-.
    constructor; cbn [r_h r_m]; [exact (hr_pre _ _ _ _ _ _ _ _ _ _ _ _ (ri_h _ _ _ _ I) Ic E1)|apply (ri_m _ _ _ _ I)|].
    intros d Id. apply in_without in Id. apply (ri_w _ _ _ _ I), Id.
  - unfold Retype_model.r_post in E.
    destruct (post_inv nb biggest dbg al cur_ max_ a Ha Hbig (r_h s) C D old modified ou c (hreach_inv _ _ _ _ _ _ _ Ha Hbig _ _ _ (ri_h _ _ _ _ I)) MA Ar NT) as (H' & s1 & n & E1 & _).
    assert (HH := hr_post _ _ _ _ _ _ _ _ _ _ _ _ _ _ _ _ (ri_h _ _ _ _ I) MA Ar NT E1). rewrite E1 in E. cbn [bind] in E. injection E as <-.
    exact (alloc_word _ _ C D c _ Y caller _ HH (ri_h _ _ _ _ I) (ri_m _ _ _ _ I) Hc (ri_w _ _ _ _ I)).
  - unfold Retype_model.r_query in E. destruct K as [K|[(c & Ic & Sm & Hx)|K]].
    + destruct (query nb dbg a (r_h s) f x) as [[H' q]| | |] eqn:Q; cbn [bind] in E; try discriminate.
      assert (H' = r_h s) as -> by exact (heap_query_pure _ _ _ _ _ _ _ Ha Hbig _ _ _ _ _ _ _ (ri_h _ _ _ _ I) Q).
      destruct I as [HH B W]. destruct q as [|n| |b sz z]; try (injection E as <- _; constructor; cbn; assumption).
      unfold at_word, Retype_model.nd in E. cbn [r_m r_h r_un] in E. destruct (extract (negb dbg) T (mkI (load (r_m s) z) (r_un s))) as [i w] eqn:X.
      injection E as <- _. assert (ins i = load (r_m s) z) as ->.
      { unfold extract in X. rewrite K in X. cbn [negb ins unrec] in X.
        destruct (is_with_type _); [destruct (t_type _ =? 0)|destruct (type_of T _ =? 0)]; injection X as <- _; reflexivity. }
      rewrite Z.eqb_refl. constructor; cbn; assumption.
    + destruct (small_query s C D Y f c x I F Ic Sm Hx) as (i & w & X & Q). unfold Retype_model.r_query in Q. rewrite Q in E. injection E as <- _.
      exact (back_word s C D Y c i w I Ic Sm X).
    + destruct (query nb dbg a (r_h s) f x) as [[H' q]| | |] eqn:Q; cbn [bind] in E; try discriminate.
      assert (H' = r_h s) as -> by exact (heap_query_pure _ _ _ _ _ _ _ Ha Hbig _ _ _ _ _ _ _ (ri_h _ _ _ _ I) Q).
      destruct I as [HH B W]. destruct q as [|n| |b sz z]; try (injection E as <- _; constructor; cbn; assumption).
      destruct (at_word dbg T _ z) as [s2 r2]. injection E as _ <-. destruct (K b sz r2 eq_refl).
  - destruct (set_run s C D Y f c x u I F Bo Ic Sm Hx P) as (s2 & E2 & I2). rewrite E in E2. injection E2 as <-. exact I2.
  - destruct I as [HH B0 W]. constructor; cbn [r_h r_m]; [exact HH|exact B|]. intros c Ic Sm P. rewrite (load_agree (r_m s) m); [apply W; assumption|].
    intros x Hx. apply (Rs c x Ic Sm). lia.
  - destruct I as [HH B W]. constructor; cbn [r_h r_m]; [exact (hr_other _ _ _ _ _ _ _ _ _ _ _ HH Rt Cm)|exact B|exact W].
Qed.

(* Full statement: whatever happened before, asking for the type at any address of a live heap
   object answers the type its allocation site had, or the one last set; and asking changes no
   object's type.  Missing: large chunks (retype_large_refuted), types below 2^35
   (retype_low_refuted); the size answered is eight short (C14, heap_size_refuted). *)
Theorem retype_query_partial : forall s C D Y f c x, rreach s C D Y -> sizes_ok C f -> In c C -> large c = false -> inside c x -> proper (Y c) ->
  exists s' r, r_query s f x = Ok (s', Found (c_base c) ((c_usable c - 16) mod 2 ^ 64) r) /\
    a_err r = false /\ a_type r = Y c /\ rreach s' C D Y.
Proof.
  intros s C D Y f c x HR F Ic Sm Hx P. assert (I := rreach_inv _ _ _ _ HR). destruct (small_query s C D Y f c x I F Ic Sm Hx) as (i & r & E & Q).
  destruct (extract_says (negb dbg) T _ (r_un s) (Y c) (ri_w _ _ _ _ I c Ic Sm P) P) as (i' & r' & E' & Er & Et & _). rewrite E in E'. injection E' as <- <-.
  eexists _, r. split; [exact Q|]. split; [exact Er|]. split; [exact Et|].
  eapply rr_query; [exact HR|exact F| |exact Q]. right. left. exists c. auto.
Qed.

(* Full statement: changing the type at any address of a live heap object changes that
   object's type, everywhere in it, and no other's; no assertion fails. *)
Theorem retype_set_partial : forall s C D Y f c x u, rreach s C D Y -> sizes_ok C f -> booted s -> In c C -> large c = false -> inside c x -> proper u ->
  exists s', r_set s f x u = Ok s' /\ rreach s' C D (now Y c u) /\
    (forall y, inside c y -> exists s2 b sz r, r_query s' f y = Ok (s2, Found b sz r) /\ a_err r = false /\ a_type r = u) /\
    (forall d y, In d C -> d <> c -> large d = false -> inside d y -> proper (Y d) ->
       exists s2 b sz r, r_query s' f y = Ok (s2, Found b sz r) /\ a_err r = false /\ a_type r = Y d).
Proof.
  intros s C D Y f c x u HR F Bo Ic Sm Hx P. destruct (set_run s C D Y f c x u (rreach_inv _ _ _ _ HR) F Bo Ic Sm Hx P) as (s' & E & _).
  exists s'. split; [exact E|]. assert (HR' := rr_set _ _ _ _ _ _ _ _ _ HR F Bo Ic Sm Hx P E). split; [exact HR'|]. split.
  - intros y Hy. destruct (retype_query_partial s' C D (now Y c u) f c y HR' F Ic Sm Hy ltac:(rewrite now_same; exact P)) as (s2 & r & Q & Er & Et & _).
    rewrite now_same in Et. eauto 10.
  - intros d y Id N Sd Hy Pd. destruct (retype_query_partial s' C D (now Y c u) f d y HR' F Id Sd Hy ltac:(rewrite now_other by congruence; exact Pd)) as (s2 & r & Q & Er & Et & _).
    rewrite now_other in Et by congruence. eauto 10.
Qed.

(* A new object has its own site's type, whatever the memory it was given held before, and a
   site of a known type is answered as the site. *)
Theorem retype_fresh_partial : forall s C D Y f c x caller, rreach s C D Y -> may_alloc (h_fo (r_h s)) C D c -> 0 <= caller < 2 ^ 47 ->
  sizes_ok (c :: C) f -> large c = false -> inside c x -> proper (type_of T caller) ->
  exists s' s2 b sz, r_alloc s (c_base c) (c_req c) (c_usable c) caller = Ok s' /\ rreach s' (c :: C) D (now Y c (type_of T caller)) /\
    r_query s' f x = Ok (s2, Found b sz (mkA false (type_of T caller) caller)).
Proof.
  intros s C D Y f c x caller HR MA Hc F Sm Hx P. assert (I := rreach_inv _ _ _ _ HR).
  destruct (heap_alloc_partial _ _ _ _ _ _ _ Ha Hbig _ _ _ c (ri_h _ _ _ _ I) MA) as (H' & s1 & n & E1 & HH & _).
  assert (E : r_alloc s (c_base c) (c_req c) (c_usable c) caller = Ok (mkR H' (note_site (r_m s) (c_end c - 8) caller) (r_un s))).
  { unfold Retype_model.r_alloc. rewrite E1. reflexivity. }
  assert (HR' := rr_alloc _ _ _ _ _ _ _ HR MA Hc E).
  assert (I' := rreach_inv _ _ _ _ HR'). destruct (small_query _ _ _ _ f c x I' F (or_introl eq_refl) Sm Hx) as (i & r & X & Q).
  eexists _, _, _, _. split; [exact E|]. split; [exact HR'|].
  rewrite Q. f_equal. f_equal. f_equal. cbn [r_m r_un] in X. unfold note_site in X.
  rewrite load_store in X by apply site_fits, load_range, (ri_m _ _ _ _ I).
  unfold extract in X. cbn [ins unrec] in X. rewrite store_site_kind, store_site_site in X by exact Hc.
  destruct (Z.eqb_spec (type_of T caller) 0) as [Z0|_]; [destruct P; lia|]. injection X as _ <-. reflexivity.
Qed.

Definition got_of {A B} (r : res (A * B)) (d : A) : A * option B := match r with Ok (x, y) => (x, Some y) | _ => (d, None) end.

(* Full statement: adding a type to a block gives it the union of what it was and as many of the
   new type as fit; other objects keep their types.  Missing: as above; the size fitted to is the
   one answered, eight short. *)
Theorem retype_add_partial : forall s C D Y f c x t (W : tys), rreach s C D Y -> sizes_ok C f -> booted s -> In c C -> large c = false -> inside c x -> proper (Y c) ->
  let sz := (c_usable c - 16) mod 2 ^ 64 in
  let u := union W (precise W (Y c) x sz) (array W t (sz / maxoff W t)) in
  maxoff W t <> 0 -> array W t (sz / maxoff W t) <> 0 -> proper u ->
  exists s', add_type W s f x t = Ok (s', 0) /\ rreach s' C D (now Y c u).
Proof.
  intros s C D Y f c x t W HR F Bo Ic Sm Hx P sz u M0 A0 Pu. assert (I := rreach_inv _ _ _ _ HR).
  destruct (small_path _ _ _ _ _ _ _ Ha Hbig _ _ _ c x f (ri_h _ _ _ _ I) Ic Sm (F c Ic) Hx) as (n & j & sz0 & E1 & E2 & E3 & _).
  destruct (retype_query_partial s C D Y f c x HR F Ic Sm Hx P) as (s1 & r & Q & Er & Et & HR1).
  unfold Retype_model.add_type. rewrite E1. cbn [bind]. destruct (Nat.eqb_spec n 0); [contradiction|]. rewrite E3. destruct (Nat.eqb_spec a 0); [contradiction|].
  rewrite Nat.eqb_refl, Q. cbn [bind]. rewrite Et. destruct (Z.eqb_spec (Y c) 0) as [Z0|_]; [destruct P; lia|].
  fold sz. destruct (Z.eqb_spec (maxoff W t) 0); [contradiction|]. destruct (Z.eqb_spec (array W t (sz / maxoff W t)) 0); [contradiction|]. fold u.
  assert (I1 := rreach_inv _ _ _ _ HR1).
  assert (Bo1 : booted s1). { destruct (small_query s C D Y f c x I F Ic Sm Hx) as (i & r' & _ & Q'). rewrite Q in Q'. injection Q' as -> _. exact Bo. }
  rewrite (small_set s1 C D Y f c x u I1 F Bo1 Ic Sm Hx). cbn [bind]. assert (As : forall b, b = true -> asrt dbg b = Ok tt) by (intros b ->; unfold asrt; destruct dbg; reflexivity). rewrite As by reflexivity. cbn [bind].
  assert (I2 := set_inv s1 C D Y c u I1 Ic Sm Pu). assert (P2 : proper (now Y c u c)) by (rewrite now_same; exact Pu).
  destruct (small_query _ C D _ f c x I2 F Ic Sm Hx) as (i & r2 & X & Q2).
  destruct (extract_says (negb dbg) T _ (r_un (set_word T s1 (c_end c - 8) u)) _ (ri_w _ _ _ _ I2 c Ic Sm P2) P2) as (i' & r' & E' & Er2 & Et2 & _). rewrite X in E'. injection E' as <- <-. rewrite now_same in Et2.
  unfold type_at. rewrite Q2. cbn [bind]. rewrite Er2, Et2, As by apply Z.eqb_refl. cbn [bind]. eexists. split; [reflexivity|].
  destruct (small_path _ _ _ _ _ _ _ Ha Hbig _ _ _ c x f (ri_h _ _ _ _ I1) Ic Sm (F c Ic) Hx) as (nn & j1 & sz1 & G1 & G2 & G3 & _).
  assert (S1 : r_set s1 f x u = if dbg then Ok (fst (got_of (r_query (set_word T s1 (c_end c - 8) u) f x) s1)) else Ok (set_word T s1 (c_end c - 8) u)).
  { unfold Retype_model.r_set. rewrite G1. cbn [bind]. destruct (Nat.eqb_spec nn 0); [contradiction|]. rewrite G3. destruct (Nat.eqb_spec a 0); [contradiction|].
    rewrite Nat.eqb_refl, (small_set s1 C D Y f c x u I1 F Bo1 Ic Sm Hx). cbn [bind]. destruct dbg; [|reflexivity].
    unfold type_at. rewrite Q2. cbn [bind got_of fst]. rewrite Er2, Et2, As by apply Z.eqb_refl. reflexivity. }
  rewrite Q2 in S1. cbn [got_of fst] in S1.
  assert (S2 : forall A B r0, (r0 = if dbg then Ok A else Ok B :> res rst) -> (dbg = true -> r0 = Ok A) /\ (dbg = false -> r0 = Ok B)) by (intros; subst; destruct dbg; split; congruence).
  apply S2 in S1. destruct S1 as [S1 S3]. destruct (Bool.bool_dec dbg true) as [Ed|Ed].
  - specialize (S1 Ed). exact (rr_set _ _ _ _ _ _ _ _ _ HR1 F Bo1 Ic Sm Hx Pu S1).
  - apply Bool.not_true_is_false in Ed. assert (HR2 := rr_set _ _ _ _ _ _ _ _ _ HR1 F Bo1 Ic Sm Hx Pu (S3 Ed)). eapply rr_query; [exact HR2|exact F| |exact Q2]. right. left. exists c. auto.
Qed.
End P.
