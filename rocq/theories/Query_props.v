(* The queries about an address are exact. *)
From Verif Require Import Base Big_model Big_spec Big_inv Big_create Big_lookup Big_adopt Big_hist Big_props Map_model Map_spec Big_field Map_seq Map_state Map_hist Map_props.
From Verif Require Import Brk_model Brk_spec Brk_props File_model Scan_model Auxv_model Query_model Query_spec.

Section P.
Variables (nb : nat) (biggest : Z) (dbg : bool) (al : nat -> Z) (cur_ max_ : Z) (obj_of : Z -> Z).
Variable fmeta : nat -> option fmd.
Variable BYTE : Z.
Variables (ax : auxv) (ty_of : aty -> Z) (entry_pt : Z).
Variable ldso : Z -> option (Z * Z * bool * Z).
Variable other : nat -> Z -> nat -> ask -> res (option qerr * outs).
Notation mreach := (mreach nb biggest dbg al cur_ max_ obj_of).
Notation R := (reach nb biggest dbg al cur_ max_).
Notation info_of := (info_of nb dbg fmeta BYTE ax ty_of entry_pt ldso other).
Notation gai := (get_alloc_info nb biggest dbg al cur_ max_ fmeta BYTE ax ty_of entry_pt ldso other).
Notation q_base := (q_base nb biggest dbg al cur_ max_ fmeta BYTE ax ty_of entry_pt ldso other).
Notation q_type := (q_type nb biggest dbg al cur_ max_ fmeta BYTE ax ty_of entry_pt ldso other).
Notation q_size := (q_size nb biggest dbg al cur_ max_ fmeta BYTE ax ty_of entry_pt ldso other).
Notation q_site := (q_site nb biggest dbg al cur_ max_ fmeta BYTE ax ty_of entry_pt ldso other).
Notation q_alloc := (q_alloc nb biggest dbg al cur_ max_ fmeta BYTE ax ty_of entry_pt ldso other).
Notation q_inner := (q_inner nb biggest dbg al cur_ max_ fmeta BYTE ax ty_of entry_pt ldso other).

Lemma leaf_is s obj n : R s -> innermost s obj n ->
  leaf_bigalloc nb s obj = Ok n /\ leaf_allocator nb s obj = Ok (responsible s n).
Proof.
  intros HR HN. destruct (big_leaf_lookup_innermost _ _ _ _ _ _ s obj HR) as (r & E & A).
  assert (X : lookup_answer s obj n).
  { unfold lookup_answer. destruct (Nat.eqb_spec n 0) as [->|]; [|exact HN]. destruct HN as [[N _] _]. contradiction. }
  assert (r = n) by exact (big_lookup_unique _ _ _ _ _ _ s obj r n HR A X). subst r. split; [exact E|].
  unfold leaf_allocator. rewrite E. cbn [bind]. destruct (Nat.eqb_spec n 0) as [->|]; [destruct HN as [[N _] _]; contradiction|].
  unfold responsible. destruct (b_sub (bigs s n)); reflexivity.
Qed.

(* ---------------------------------------------------------------- who is asked *)
(* The allocator asked is the one that has parcelled out the innermost record, else the one that
   made it; it is told that record; and asking changes nothing. *)
Theorem query_dispatch : forall B stacks kbrk obj n k, R (fo (bm B)) -> innermost (fo (bm B)) obj n ->
  responsible (fo (bm B)) n <> 0%nat ->
  gai B stacks kbrk obj k =
    match info_of B (responsible (fo (bm B)) n) obj n k with
    | Ok (e, o) => Ok (B, Some (responsible (fo (bm B)) n), e, o)
    | Abort => Abort | UB => UB | Fuel => Fuel
    end.
Proof.
  intros B stacks kbrk obj n k HR HN N0. destruct (leaf_is _ _ _ HR HN) as [E1 E2]. unfold get_alloc_info. rewrite E2. cbn [bind].
  destruct (Nat.eqb_spec (responsible (fo (bm B)) n) 0) as [|_]; [contradiction|]. rewrite E1. cbn [bind].
  destruct (info_of B (responsible (fo (bm B)) n) obj n k) as [[e o]| | |]; reflexivity.
Qed.

Lemma answers B stacks kbrk obj n x : R (fo (bm B)) -> innermost (fo (bm B)) obj n ->
  responsible (fo (bm B)) n <> 0%nat -> accounts (info_of B (responsible (fo (bm B)) n) obj n) x ->
  forall k, exists e o, gai B stacks kbrk obj k = Ok (B, Some (responsible (fo (bm B)) n), e, o) /\
    info_of B (responsible (fo (bm B)) n) obj n k = Ok (e, o).
Proof.
  intros HR HN N0 HA k. destruct (HA k) as (e & o & E & _). exists e, o. split; [|exact E].
  rewrite (query_dispatch B stacks kbrk obj n k HR HN N0), E. reflexivity.
Qed.

(* The single-value queries all tell parts of one account, provided the allocator asked gives
   one. *)
Theorem query_agree_partial : forall B stacks kbrk obj n x, R (fo (bm B)) -> innermost (fo (bm B)) obj n ->
  responsible (fo (bm B)) n <> 0%nat -> accounts (info_of B (responsible (fo (bm B)) n) obj n) x ->
  q_base B stacks kbrk obj = Ok (B, base_of x) /\ q_size B stacks kbrk obj = Ok (B, size_of x) /\
  q_type B stacks kbrk obj = Ok (B, type_of x) /\ q_site B stacks kbrk obj = Ok (B, site_in x) /\
  q_alloc B stacks kbrk obj = Ok (B, alloc_of (responsible (fo (bm B)) n) x) /\
  (match x with Known t b z s => t <> 0 -> q_inner B stacks kbrk obj = Ok (B, Descend t ((obj - b) mod 4294967296))
   | _ => q_inner B stacks kbrk obj = Ok (B, NoType) end).
Proof.
  intros B stacks kbrk obj n x HR HN N0 HA. assert (G := query_dispatch B stacks kbrk obj n).
  unfold Query_model.q_base, Query_model.q_size, Query_model.q_type, Query_model.q_site, Query_model.q_alloc, Query_model.q_inner.
  rewrite !G by assumption. clear G.
  assert (A1 := HA (mkAsk false true true false)). assert (A2 := HA (mkAsk false false true false)).
  assert (A3 := HA (mkAsk true false false false)). assert (A4 := HA (mkAsk false false false true)).
  assert (A5 := HA (mkAsk false false false false)). assert (A6 := HA (mkAsk true true true false)). clear HA.
  destruct A1 as (e1 & o1 & -> & A1), A2 as (e2 & o2 & -> & A2), A3 as (e3 & o3 & -> & A3), A4 as (e4 & o4 & -> & A4),
    A5 as (e5 & o5 & -> & A5), A6 as (e6 & o6 & -> & A6). cbn [bind].
  destruct x as [t b z s|b z s|err]; cbn [k_type k_base k_size k_site orb] in *.
  - destruct A1 as [-> ->], A2 as [-> ->], A3 as [-> ->], A4 as [-> ->], A5 as [-> ->], A6 as [-> ->]. repeat split; try reflexivity.
    intro N. cbn. destruct (Z.eqb_spec t 0); [contradiction|]. reflexivity.
  - destruct A1 as (-> & B1 & _), A2 as (-> & _ & B2 & _), A3 as (-> & _), A4 as (-> & _ & _ & B4), A5 as (-> & _), A6 as (-> & _).
    rewrite B1, B2, B4. repeat split; reflexivity.
  - destruct A1 as (-> & NE & ->), A2 as (-> & _ & ->), A3 as (-> & _ & ->), A4 as (-> & _ & ->), A5 as (-> & _ & ->), A6 as (-> & _ & ->).
    destruct err; try contradiction; repeat split; reflexivity.
Qed.

(* ---------------------------------------------------------------- records that are objects *)
Lemma site_of_none k p : k_site k = false -> site_of fmeta k p = Ok 0.
Proof. intro E. unfold site_of. rewrite E. reflexivity. Qed.

Lemma itself_resp B n a t : itself B BYTE n a t -> responsible (fo (bm B)) n = a /\ a <> 0%nat.
Proof. intro H. unfold responsible. inversion H as [A S|A S ?|A S|A S|A S|A S]; rewrite S; (split; [try exact A; try reflexivity|discriminate]). Qed.

Lemma itself_asked B obj n a t k : live (fo (bm B)) n -> itself B BYTE n a t -> k_site k = false ->
  info_of B a obj n k = Ok (None, put k t (b_begin (bigs (fo (bm B)) n)) (b_end (bigs (fo (bm B)) n) - b_begin (bigs (fo (bm B)) n)) 0).
Proof.
  intros [N0 _] HI Ek. unfold Query_model.info_of.
  assert (AS : asrt dbg (negb (Nat.eqb n 0)) = Ok tt) by (destruct (Nat.eqb_spec n 0); [contradiction|]; unfold asrt; cbn [negb]; rewrite andb_false_r; reflexivity).
  destruct HI as [A S|A S X|A S|A S|A S|A S]; cbn [Nat.eqb MMAP BRK FILE SEGM SECT];
  unfold mmap_info, brk_info, file_info, segment_info, section_info; rewrite ?AS; cbn [bind]; rewrite ?(site_of_none _ _ Ek); cbn [bind];
  try (unfold put; rewrite Ek; reflexivity).
  - subst n. destruct (Nat.eqb_spec (b_brk B) 0); [contradiction|]. cbn [andb]. unfold put. rewrite Ek. reflexivity.
  - rewrite A. cbn [Nat.eqb SECT]. unfold put. rewrite Ek. reflexivity.
Qed.

(* A record that is itself the object: start, size and type are its own, and the allocator named
   is the one that answers for it. *)
Theorem query_record_exact : forall B stacks kbrk obj n a t, R (fo (bm B)) -> innermost (fo (bm B)) obj n -> itself B BYTE n a t ->
  q_base B stacks kbrk obj = Ok (B, b_begin (bigs (fo (bm B)) n)) /\
  q_size B stacks kbrk obj = Ok (B, b_end (bigs (fo (bm B)) n) - b_begin (bigs (fo (bm B)) n)) /\
  q_type B stacks kbrk obj = Ok (B, t) /\ q_alloc B stacks kbrk obj = Ok (B, a) /\
  (t <> 0 -> q_inner B stacks kbrk obj = Ok (B, Descend t ((obj - b_begin (bigs (fo (bm B)) n)) mod 4294967296))) /\
  b_begin (bigs (fo (bm B)) n) <= obj < b_begin (bigs (fo (bm B)) n) + (b_end (bigs (fo (bm B)) n) - b_begin (bigs (fo (bm B)) n)).
Proof.
  intros B stacks kbrk obj n a t HR HN HI. destruct (itself_resp _ _ _ _ HI) as [ER N0]. destruct HN as (HL & HC & HI0).
  assert (HN : innermost (fo (bm B)) obj n) by (split; [exact HL|split; [exact HC|exact HI0]]).
  assert (G := query_dispatch B stacks kbrk obj n).
  unfold Query_model.q_base, Query_model.q_size, Query_model.q_type, Query_model.q_alloc, Query_model.q_inner. rewrite !G by (try assumption; rewrite ER; exact N0). clear G.
  rewrite ER, !(itself_asked B obj n a t _ HL HI) by reflexivity. cbn [bind put k_type k_base k_size k_site when read o_base o_type o_size dflt].
  repeat split; try reflexivity; [|exact (proj1 HC)|clear - HC; unfold covers in HC; lia].
  intro N. destruct (Z.eqb_spec t 0); [contradiction|]. reflexivity.
Qed.

(* The allocation site of a mapping is that of its first page. *)
Theorem query_mapping_site_partial : forall B M stacks kbrk obj n, mreach (bm B) M -> innermost (fo (bm B)) obj n ->
  itself B BYTE n MMAP 0 ->
  exists t, M (b_begin (bigs (fo (bm B)) n)) = Some t /\ q_site B stacks kbrk obj = Ok (B, at_caller t).
Proof.
  intros B M stacks kbrk obj n HM HN HI. destruct (mreach_inv _ _ _ _ _ _ _ _ _ HM) as [MI MR]. assert (HR := mi_R _ _ _ _ _ _ _ MI).
  destruct (itself_resp _ _ _ _ HI) as [ER N0]. assert (A : b_alloc (bigs (fo (bm B)) n) = MMAP) by (inversion HI; assumption).
  destruct HN as (HL & HC & HI0). assert (HN : innermost (fo (bm B)) obj n) by (split; [exact HL|split; [exact HC|exact HI0]]).
  destruct (mi_seq _ _ _ _ _ _ _ MI n _ (live_as _ _ HL) A) as (P & SI & Eb & Ee & _).
  set (q := seqs (bm B) (a_priv (attrs_of (bigs (fo (bm B)) n)))) in *. assert (OK := proj1 SI).
  destruct (seq_ok_contiguous nb al obj_of q OK) as (_ & C2 & L & C4 & _).
  assert (I0 : In (nth 0 (used q) ent0) (used q)) by (apply nth_In; lia).
  assert (C2' := C2 0%nat ltac:(lia)).
  exists (attr_of q (nth 0 (used q) ent0)). split.
  - apply MR. apply (rec_iff nb biggest dbg al cur_ max_ (bm B) _ _ MI). exists n, (attrs_of (bigs (fo (bm B)) n)). split; [exact (live_as _ _ HL)|]. split; [exact A|].
    exists (nth 0 (used q) ent0). split; [exact I0|]. split; [|reflexivity]. cbn [a_begin attrs_of] in Eb. lia.
  - unfold Query_model.q_site. rewrite (query_dispatch B stacks kbrk obj n _ HR HN) by (rewrite ER; exact N0). rewrite ER.
    unfold Query_model.info_of. cbn [Nat.eqb MMAP]. unfold mmap_info. destruct (Nat.eqb_spec n 0) as [->|_]; [destruct HL; contradiction|].
    unfold asrt. cbn [negb]. rewrite andb_false_r. cbn [bind put k_site when o_site dflt]. do 3 f_equal.
    cbn [attr_of at_caller]. change (b_priv (bigs (fo (bm B)) n)) with (a_priv (attrs_of (bigs (fo (bm B)) n))). fold q.
    f_equal. unfold slot, used. assert (U := so_used _ OK). destruct (q_nused q) as [|u]; [lia|]. destruct (q_maps q); reflexivity.
Qed.

(* That of the heap segment is the last caller to move the break; that of a file, or of a segment or
   section of it, is where the file was loaded. *)
Theorem query_brk_site : forall B stacks kbrk obj n, R (fo (bm B)) -> innermost (fo (bm B)) obj n -> itself B BYTE n BRK 0 ->
  q_site B stacks kbrk obj = Ok (B, b_last B).
Proof.
  intros B stacks kbrk obj n HR HN HI. destruct (itself_resp _ _ _ _ HI) as [ER N0].
  unfold Query_model.q_site. rewrite (query_dispatch B stacks kbrk obj n _ HR HN) by (rewrite ER; exact N0). rewrite ER.
  unfold Query_model.info_of. cbn [Nat.eqb MMAP BRK]. unfold brk_info. cbn [k_base k_size orb]. rewrite andb_false_r. reflexivity.
Qed.
Theorem query_file_site_partial : forall B stacks kbrk obj n a m, R (fo (bm B)) -> innermost (fo (bm B)) obj n -> itself B BYTE n a BYTE ->
  b_sub (bigs (fo (bm B)) n) = 0%nat -> file_for (fo (bm B)) fmeta n m ->
  q_site B stacks kbrk obj = Ok (B, fm_site m).
Proof.
  intros B stacks kbrk obj n a m HR HN HI S0 HF. destruct (itself_resp _ _ _ _ HI) as [ER N0].
  assert (EA : a = b_alloc (bigs (fo (bm B)) n)) by (unfold responsible in ER; rewrite S0 in ER; auto).
  unfold Query_model.q_site. rewrite (query_dispatch B stacks kbrk obj n _ HR HN) by (rewrite ER; exact N0). rewrite ER, EA.
  assert (AS : asrt dbg (negb (Nat.eqb n 0)) = Ok tt) by (destruct HN as [[N _] _]; destruct (Nat.eqb_spec n 0); [contradiction|]; unfold asrt; cbn [negb]; rewrite andb_false_r; reflexivity).
  unfold Query_model.info_of. destruct HF as [m' A F|m' f A E1 F|m' g f A E1 E2 F]; rewrite A; cbn [Nat.eqb MMAP BRK FILE SEGM SECT];
  unfold file_info, segment_info, section_info; rewrite ?AS; cbn [bind].
  - unfold site_of, file_of. cbn [k_site]. rewrite F. reflexivity.
  - rewrite E1. unfold site_of, file_of. cbn [k_site]. rewrite F. reflexivity.
  - rewrite A, E1, E2. cbn [Nat.eqb SECT]. unfold site_of, file_of. cbn [k_site]. rewrite F. reflexivity.
Qed.

(* ---------------------------------------------------------------- nothing there *)
Lemma uncovered_pidx s obj : R s -> (forall m, live s m -> ~ covers s m obj) ->
  leaf_allocator nb s obj = Ok 0%nat /\ pidx s (PAGENUM obj) = 0%nat.
Proof.
  intros HR Hno. destruct (reach_good _ _ _ _ _ _ _ HR) as [(K & rk & HI) _]. split.
  - destruct (big_leaf_allocator _ _ _ _ _ _ s obj HR) as (n & x & A & E & X). rewrite E, X. unfold lookup_answer in A.
    destruct (Nat.eqb_spec n 0) as [->|]; [reflexivity|]. destruct A as (L & C & _). exfalso. exact (Hno n L C).
  - destruct (Nat.eq_dec (pidx s (PAGENUM obj)) 0) as [|E]; auto. destruct (pix_covers _ _ _ _ HI obj E) as [L C]. exfalso. eapply Hno; eauto.
Qed.

(* An address in no allocation, near no stack, with no heap segment to have grown: every query says
   so, and nothing changes. *)
Theorem query_nothing : forall B stacks kbrk obj, R (fo (bm B)) -> legal nb biggest al (fo (bm B)) (Touch stacks obj) ->
  (forall m, live (fo (bm B)) m -> ~ covers (fo (bm B)) m obj) ->
  (forall x, In x stacks -> ~ (near cur_ max_ (fo (bm B)) x obj /\ gap_free (fo (bm B)) x obj)) -> b_brk B = 0%nat ->
  (forall k, gai B stacks kbrk obj k = Ok (B, None, Some Estorage, nothing)) /\
  q_base B stacks kbrk obj = Ok (B, 0) /\ q_size B stacks kbrk obj = Ok (B, 0) /\ q_type B stacks kbrk obj = Ok (B, 0) /\
  q_site B stacks kbrk obj = Ok (B, 0) /\ q_alloc B stacks kbrk obj = Ok (B, 0%nat) /\ q_inner B stacks kbrk obj = Ok (B, NoType).
Proof.
  intros B stacks kbrk obj HR HL Hno Hst B0. destruct (uncovered_pidx _ _ HR Hno) as [E1 E0]. destruct HL as (Hp & Hal & HS).
  destruct (reach_good _ _ _ _ _ _ _ HR) as [(K & rk & HI) _].
  assert (G : forall k, gai B stacks kbrk obj k = Ok (B, None, Some Estorage, nothing)).
  { intro k. unfold get_alloc_info. rewrite E1. cbn [bind Nat.eqb]. unfold notify_address.
    destruct (stack_notify_ok nb biggest dbg al Hal cur_ max_ (fo (bm B)) K rk obj HI Hp E0 stacks HS) as
      [(l1 & b & l2 & s' & Q & _ & N2 & N3 & _)|[_ E]].
    - exfalso. apply (Hst b); [rewrite Q; apply in_or_app; right; left; reflexivity|auto].
    - rewrite E. cbn [bind]. unfold notify_unindexed. rewrite B0. reflexivity. }
  split; [exact G|]. unfold Query_model.q_base, Query_model.q_size, Query_model.q_type, Query_model.q_site, Query_model.q_alloc, Query_model.q_inner.
  rewrite !G. repeat split; reflexivity.
Qed.

(* A stack that has grown down to the address: it is extended, with whatever encloses it, and the
   query is put to the allocator responsible for it. *)
Theorem query_stack_grown : forall B stacks kbrk obj k, R (fo (bm B)) -> legal nb biggest al (fo (bm B)) (Touch stacks obj) ->
  (forall m, live (fo (bm B)) m -> ~ covers (fo (bm B)) m obj) ->
  (exists x, In x stacks /\ near cur_ max_ (fo (bm B)) x obj /\ gap_free (fo (bm B)) x obj) ->
  (forall x, In x stacks -> responsible (fo (bm B)) x <> 0%nat) ->
  exists b s', In b stacks /\ near cur_ max_ (fo (bm B)) b obj /\ gap_free (fo (bm B)) b obj /\ R s' /\ innermost s' obj b /\
    (forall m, anc (fo (bm B)) m b -> view s' m = Some (lowered (attrs_of (bigs (fo (bm B)) m)) (RDOWN obj))) /\
    (forall m, ~ anc (fo (bm B)) m b -> view s' m = view (fo (bm B)) m) /\
    let B' := with_m B (set_fo (bm B) s') in
    gai B stacks kbrk obj k =
      match info_of B' (responsible (fo (bm B)) b) obj b k with
      | Ok (e, o) => Ok (B', Some (responsible (fo (bm B)) b), e, o)
      | Abort => Abort | UB => UB | Fuel => Fuel
      end.
Proof.
  intros B stacks kbrk obj k HR HL Hno (x & Hx & X1 & X2) HN. destruct (uncovered_pidx _ _ HR Hno) as [E1 E0].
  destruct (reach_good _ _ _ _ _ _ _ HR) as [(K & rk & HI) HW]. assert (HL' := HL). destruct HL' as (Hp & Hal & HS).
  destruct (stack_notify_ok nb biggest dbg al Hal cur_ max_ (fo (bm B)) K rk obj HI Hp E0 stacks HS) as
    [(l1 & b & l2 & s' & Q & N1 & N2 & N3 & E & HI' & HV1 & HV2 & _ & _ & Hin)|[NN _]]; [|exfalso; exact (NN x Hx (conj X1 X2))].
  exists b, s'. assert (Inb : In b stacks) by (rewrite Q; apply in_or_app; right; left; reflexivity).
  assert (HR' : R s').
  { apply (reach_step _ _ _ _ _ _ (fo (bm B)) (Touch stacks obj) s' HR HL). cbn [step]. unfold find_deepest_adopt. rewrite E0. cbn [Nat.eqb]. rewrite E. cbn [bind].
    destruct (find_deepest_correct _ _ _ _ HI' obj) as (r & Er & _). rewrite Er. reflexivity. }
  split; [exact Inb|]. split; [exact N2|]. split; [exact N3|]. split; [exact HR'|]. split; [exact Hin|]. split; [intros m Hm; apply (HV1 m Hm)|]. split; [exact HV2|].
  cbn zeta. set (B' := with_m B (set_fo (bm B) s')).
  assert (ER : responsible s' b = responsible (fo (bm B)) b).
  { destruct (HS b Inb) as (Lb & _). assert (V := proj1 (HV1 b (anc_refl _ _))). unfold view in V. destruct (negb (Nat.eqb b 0) && in_use (bigs s' b)); [|discriminate]. injection V as _ _ _ V1 V2 _ _. unfold responsible. rewrite V1, V2. reflexivity. }
  destruct (leaf_is _ _ _ HR' Hin) as [F1 F2]. rewrite ER in F2.
  unfold get_alloc_info. rewrite E1. cbn [bind Nat.eqb]. unfold notify_address. rewrite E. cbn [bind]. fold B'.
  change (fo (bm B')) with s'. rewrite F2. cbn [bind]. destruct (Nat.eqb_spec (responsible (fo (bm B)) b) 0) as [Z0|_]; [exfalso; exact (HN b Inb Z0)|].
  rewrite F1. cbn [bind]. destruct (info_of B' (responsible (fo (bm B)) b) obj b k) as [[e o]| | |]; reflexivity.
Qed.

(* A heap segment that has grown up over the address without our being told: the records are brought
   up to date, and the answers are those of the grown segment. *)
Theorem query_heap_grown_partial : forall B M v w k stacks obj, mreach (bm B) M ->
  heap (bm B) (b_map B) (b_brk B) v w -> may_move biggest (bm B) (b_map B) (b_brk B) v w k k -> (a_end w = k -> a_end v = RUP k) ->
  legal nb biggest al (fo (bm B)) (Touch stacks obj) -> (forall m, live (fo (bm B)) m -> ~ covers (fo (bm B)) m obj) ->
  (forall x, In x stacks -> ~ (near cur_ max_ (fo (bm B)) x obj /\ gap_free (fo (bm B)) x obj)) ->
  a_sub w = 0%nat -> a_begin w <= b_cur B -> b_cur B <= obj < k ->
  exists T', mreach T' (brk_moved M (a_end v) (RUP k)) /\ heap_moved (bm B) T' (b_map B) (b_brk B) v w (RUP k) k /\
    let B' := with_m B T' in
    q_base B stacks k obj = Ok (B', a_begin w) /\ q_size B stacks k obj = Ok (B', k - a_begin w) /\
    q_type B stacks k obj = Ok (B', 0) /\ q_site B stacks k obj = Ok (B', b_last B) /\ q_alloc B stacks k obj = Ok (B', BRK).
Proof.
  intros B M v w k stacks obj HM HP MV EQ HL Hno Hst S0 Hb Hr.
  assert (HR := mreach_R _ _ _ _ _ _ _ _ _ HM). destruct (uncovered_pidx _ _ HR Hno) as [E1 E0]. destruct HL as (Hp & Hal & HS).
  destruct (reach_good _ _ _ _ _ _ _ HR) as [(K & rk & HI) _].
  destruct (brk_touch_exact_partial nb biggest dbg al cur_ max_ obj_of B M v w k obj HM HP MV EQ) as (T' & E & HM' & HP' & HV).
  exists T'. split; [exact HM'|]. split; [exact HV|]. cbn zeta. set (B' := with_m B T') in *.
  assert (EN : notify_address nb biggest dbg al cur_ max_ B stacks k obj = Ok (B', true)).
  { unfold notify_address. destruct (stack_notify_ok nb biggest dbg al Hal cur_ max_ (fo (bm B)) K rk obj HI Hp E0 stacks HS) as
      [(l1 & b & l2 & s' & Q & _ & N2 & N3 & _)|[_ F]].
    - exfalso. apply (Hst b); [rewrite Q; apply in_or_app; right; left; reflexivity|auto].
    - rewrite F. cbn [bind]. rewrite E. replace ((b_cur B <=? obj) && (obj <? k)) with true by lia. reflexivity. }
  assert (HR' : R (fo T')) by exact (mreach_R _ _ _ _ _ _ _ _ _ HM').
  assert (Vm := hp_brk _ _ _ _ _ HP'). destruct (view_inv _ _ _ Vm) as [Lm Em].
  assert (Vn := hp_map _ _ _ _ _ HP'). destruct (view_inv _ _ _ Vn) as [Ln En].
  assert (F1 := f_equal a_begin Em). assert (F2 := f_equal a_end Em). assert (F3 := f_equal a_sub Em). assert (F4 := f_equal a_alloc Em).
  cbn [attrs_of with_end a_begin a_end a_sub a_alloc] in F1, F2, F3, F4.
  assert (HIN : innermost (fo T') obj (b_brk B)).
  { split; [exact Lm|]. split; [unfold covers; lia|]. intros c Lc Cc. destruct (Nat.eq_dec c (b_brk B)) as [->|Nm]; [apply anc_refl|].
    destruct (Nat.eq_dec c (b_map B)) as [->|Nn].
    - assert (PP : b_parent (bigs (fo T') (b_brk B)) = b_map B) by (assert (X := f_equal a_parent Em); cbn in X; rewrite <- X; exact (hp_par _ _ _ _ _ HP)).
      apply anc_up; rewrite PP; [exact (proj1 Ln)|apply anc_refl].
    - exfalso. assert (X := HV c). destruct (Nat.eqb_spec c (b_map B)); [contradiction|]. destruct (Nat.eqb_spec c (b_brk B)); [contradiction|].
      rewrite (live_as _ _ Lc) in X. symmetry in X. destruct (view_inv _ _ _ X) as [Lc0 Ec0]. apply (Hno c Lc0).
      assert (G1 := f_equal a_begin Ec0). assert (G2 := f_equal a_end Ec0). cbn in G1, G2. unfold covers in *. lia. }
  assert (HIT : itself B' BYTE (b_brk B) BRK 0).
  { apply it_brk; [cbn [B' with_m bm]; rewrite <- F4; exact (hp_bal _ _ _ _ _ HP)|cbn [B' with_m bm]; rewrite <- F3; exact S0|reflexivity]. }
  assert (G : forall kk, gai B stacks k obj kk = gai B' stacks k obj kk).
  { intro kk. destruct (leaf_is _ _ _ HR' HIN) as [L1 L2]. destruct (itself_resp _ _ _ _ HIT) as [ER N0]. change (fo (bm B')) with (fo T') in ER.
    rewrite ER in L2. unfold get_alloc_info at 1. rewrite E1. cbn [bind Nat.eqb]. rewrite EN. cbn [bind].
    unfold get_alloc_info. change (fo (bm B')) with (fo T'). rewrite L2. reflexivity. }
  destruct (query_record_exact B' stacks k obj (b_brk B) BRK 0 HR' HIN HIT) as (Q1 & Q2 & Q3 & Q4 & _).
  assert (Q5 := query_brk_site B' stacks k obj (b_brk B) HR' HIN HIT).
  change (fo (bm B')) with (fo T') in Q1, Q2. rewrite <- F1 in Q1, Q2. rewrite <- F2 in Q2.
  unfold Query_model.q_base, Query_model.q_size, Query_model.q_type, Query_model.q_site, Query_model.q_alloc in *. rewrite !G.
  split; [exact Q1|]. split; [exact Q2|]. split; [exact Q3|]. split; [exact Q5|exact Q4].
Qed.

(* ---------------------------------------------------------------- allocators that give one account *)
Lemma find_shdr_spec la obj l : match find_shdr la obj l with
  | Some (b, z) => section_at la obj l b z
  | None => forall ad z, In (true, ad, z) l -> ~ (la + ad <= obj < la + ad + z) end.
Proof.
  induction l as [|[[al' ad] z] l IH]; cbn [find_shdr]; [intros ad z []|].
  destruct (al' && (la + ad <=? obj) && (obj <? la + ad + z)) eqn:E.
  - destruct al'; [|discriminate]. exists [], l, ad. split; [reflexivity|]. split; [reflexivity|]. split; [lia|]. intros ? ? [].
  - assert (NH : forall ad' z', (true, ad', z') = (al', ad, z) -> ~ (la + ad' <= obj < la + ad' + z')).
    { intros ad' z' X. injection X as <- <- <-. lia. }
    destruct (find_shdr la obj l) as [[b z0]|].
    + destruct IH as (l1 & l2 & ad0 & -> & Eb & C & IH). exists ((al', ad, z) :: l1), l2, ad0. split; [reflexivity|]. split; [exact Eb|]. split; [exact C|].
      intros ad' z' [X|X]; [apply NH; symmetry; exact X|exact (IH _ _ X)].
    + intros ad' z' [X|X]; [apply NH; symmetry; exact X|exact (IH _ _ X)].
Qed.

(* The section allocator asked about an address elsewhere in a file: the first section covering it,
   or that there is none. *)
Theorem query_section_search : forall s obj n f m, climb_to_file (S nb) s n = Ok f -> b_alloc (bigs s n) <> SECT ->
  fmeta (b_priv (bigs s f)) = Some m ->
  (exists b z, section_at (fm_laddr m) obj (fm_shdrs m) b z /\ accounts (section_info nb fmeta BYTE s obj n) (Known 0 b z (fm_site m))) \/
  ((forall ad z, In (true, ad, z) (fm_shdrs m) -> ~ (fm_laddr m + ad <= obj < fm_laddr m + ad + z)) /\
   accounts (section_info nb fmeta BYTE s obj n) (Unknown Estatic)).
Proof.
  intros s obj n f m HC NS HF. assert (X := find_shdr_spec (fm_laddr m) obj (fm_shdrs m)).
  assert (G : forall k, section_info nb fmeta BYTE s obj n k =
     match find_shdr (fm_laddr m) obj (fm_shdrs m) with Some (ba, sz) => Ok (None, put k 0 ba sz (fm_site m)) | None => Ok (Some Estatic, nothing) end).
  { intro k. unfold section_info. destruct (Nat.eqb_spec (b_alloc (bigs s n)) SECT); [contradiction|]. rewrite HC. cbn [bind]. unfold file_of. rewrite HF. reflexivity. }
  destruct (find_shdr (fm_laddr m) obj (fm_shdrs m)) as [[b z]|].
  - left. exists b, z. split; [exact X|]. intro k. rewrite G. exists None, (put k 0 b z (fm_site m)). repeat split.
  - right. split; [exact X|]. intro k. rewrite G. exists (Some Estatic), nothing. repeat split. discriminate.
Qed.

(* The allocator-specific datum of the outermost allocation by that allocator. *)
Theorem query_specific_exact : forall s obj a, R s ->
  (exists n, outermost s false obj a n /\ q_specific nb s obj a = Ok (b_priv (bigs s n))) \/
  ((forall m, live s m -> covers s m obj -> b_alloc (bigs s m) <> a) /\ q_specific nb s obj a = Ok 0%nat).
Proof.
  intros s obj a HR. destruct (big_find_by_allocator _ _ _ _ _ _ s obj a false HR) as (n & E & [[-> H]|H]); unfold q_specific; rewrite E; cbn [bind].
  - right. split; [|reflexivity]. intros m L C. exact (H m L C).
  - left. exists n. split; [exact H|]. destruct H as [[N _] _]. destruct (Nat.eqb_spec n 0); [contradiction|reflexivity].
Qed.
End P.
