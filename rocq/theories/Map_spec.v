(* Specification of the memory-mapping records. *)
From Verif Require Import Base Big_model Big_spec Map_model.

(* What a mapping record says about a page, the file offset excepted. *)
Record attr := mkAttr { at_prot : Z; at_flags : Z; at_file : option Z; at_caller : Z }.
Definition attr_of (q : mseq) (e : entry) : attr :=
  mkAttr (e_prot e) (e_flags e) (if e_anon e then None else q_file q) (e_caller e).

(* The entries in use. *)
Definition used (q : mseq) : list entry := firstn (q_nused q) (q_maps q).

(* The entries [l] tile [lo,hi) in increasing order, none empty. *)
Fixpoint chain (lo : Z) (l : list entry) (hi : Z) : Prop :=
  match l with
  | [] => lo = hi
  | e :: l' => e_begin e = lo /\ lo < e_end e /\ chain (e_end e) l' hi
  end.

(* A well-formed sequence. *)
Record seq_ok (q : mseq) : Prop := {
  so_len : length (q_maps q) = MAXLEN;
  so_used : (1 <= q_nused q <= MAXLEN)%nat;
  so_pos : 0 < q_begin q;
  so_chain : chain (q_begin q) (used q) (q_end q);
  so_file : forall e, In e (used q) -> e_anon e = false -> q_file q <> None }.

(* The sequence's statement about an address. *)
Definition says (q : mseq) (a : Z) (t : attr) : Prop :=
  exists e, In e (used q) /\ e_begin e <= a < e_end e /\ t = attr_of q e.

(* The whole record's statement about an address. *)
Definition recorded (S : mst) (a : Z) (t : attr) : Prop :=
  exists n, live (fo S) n /\ b_alloc (bigs (fo S) n) = MMAP /\ covers (fo S) n a /\
            says (seqs S (priv_of S n)) a t.

(* An address space, and what mapping and unmapping do to it. *)
Definition space := Z -> option attr.
Definition map_over (M : space) (lo hi : Z) (t : attr) : space :=
  fun a => if (lo <=? a) && (a <? hi) then Some t else M a.
Definition unmap (M : space) (lo hi : Z) : space :=
  fun a => if (lo <=? a) && (a <? hi) then None else M a.

Definition mirrors (S : mst) (M : space) : Prop := forall a t, M a = Some t <-> recorded S a t.

(* Every mapping recorded at the top level is described by its own well-formed sequence,
   which fills it exactly. *)
Record tidy (S : mst) : Prop := {
  ti_seq : forall n, live (fo S) n -> b_alloc (bigs (fo S) n) = MMAP ->
     b_parent (bigs (fo S) n) = 0%nat /\ seq_ok (seqs S (priv_of S n)) /\
     q_begin (seqs S (priv_of S n)) = b_begin (bigs (fo S) n) /\
     q_end (seqs S (priv_of S n)) = b_end (bigs (fo S) n);
  ti_own : forall m n, live (fo S) m -> live (fo S) n ->
     b_alloc (bigs (fo S) m) = MMAP -> b_alloc (bigs (fo S) n) = MMAP ->
     priv_of S m = priv_of S n -> m = n }.

(* What a caller can read of an allocation that is not itself a mapping, its parent link
   excepted. *)
Record facts := mkFacts { f_begin : Z; f_end : Z; f_alloc : nat; f_sub : nat; f_priv : nat; f_subpriv : nat }.
Definition strip (v : attrs) : facts := mkFacts (a_begin v) (a_end v) (a_alloc v) (a_sub v) (a_priv v) (a_subpriv v).
Definition other (S : mst) (m : nat) (w : facts) : Prop :=
  exists v, view (fo S) m = Some v /\ a_alloc v <> MMAP /\ strip v = w.
Definition in_part (w : facts) (lo hi : Z) : Prop := exists a, lo <= a < hi /\ f_begin w <= a < f_end w.

(* Going from S to S' unmapped exactly [lo,hi): addresses in it are recorded no more, all
   others as before; the other allocations are left alone, except that those inside the
   unmapped part of a mapping are gone. *)
Record unmapped (S S' : mst) (lo hi : Z) : Prop := {
  un_rec : forall a t, recorded S' a t <-> recorded S a t /\ ~ (lo <= a < hi);
  un_oth : forall m w, other S' m w <->
             other S m w /\ ~ (in_part w lo hi /\ exists t, recorded S (f_begin w) t) }.

(* The caller's side of an unmapping: page-aligned, clear of the library's own START mapping;
   where only part of a mapping goes away, no allocation inside that mapping reaches into the
   part that goes; and there is a free record if a mapping is to fall in two. *)
Record may_unmap (nb : nat) (S : mst) (lo hi : Z) : Prop := {
  mu_range : 0 < lo < hi /\ lo mod PAGE = 0 /\ hi mod PAGE = 0;
  mu_start : ~ meets (fo S) (start (fo S)) lo hi;
  mu_kids : forall n c, live (fo S) n -> b_alloc (bigs (fo S) n) = MMAP -> meets (fo S) n lo hi ->
      b_begin (bigs (fo S) n) < lo \/ hi < b_end (bigs (fo S) n) ->
      live (fo S) c -> b_parent (bigs (fo S) c) = n ->
      b_end (bigs (fo S) c) <= lo \/ hi <= b_begin (bigs (fo S) c);
  mu_free : forall n, live (fo S) n -> b_alloc (bigs (fo S) n) = MMAP ->
      b_begin (bigs (fo S) n) < lo -> hi < b_end (bigs (fo S) n) -> has_free nb (fo S) }.

(* Going from S to S' mapped exactly [lo,hi), with attributes t, and left everything else. *)
Record mapped (S S' : mst) (lo hi : Z) (t0 : attr) : Prop := {
  ma_rec : forall a t, recorded S' a t <-> (lo <= a < hi /\ t = t0) \/ (~ (lo <= a < hi) /\ recorded S a t);
  ma_oth : forall m w, other S' m w <-> other S m w }.

(* The caller's side of a mapping: page-aligned, and either clear of every allocation, with
   a free record at hand and sizes the index can represent; or, for MAP_FIXED, anonymous
   memory placed within one anonymous mapping that has two spare entries, not at its very
   start if another mapping ends there. *)
Record may_map_free (nb : nat) (biggest : Z) (S : mst) (lo hi : Z) : Prop := {
  mf_clear : forall n, live (fo S) n -> ~ meets (fo S) n lo hi;
  mf_free : has_free nb (fo S);
  mf_size : hi - lo <= biggest;
  mf_ext : forall n, live (fo S) n -> b_alloc (bigs (fo S) n) = MMAP -> b_end (bigs (fo S) n) = lo ->
      hi - b_begin (bigs (fo S) n) <= biggest }.
Record may_map_over (S : mst) (n : nat) (lo hi : Z) : Prop := {
  mo_live : live (fo S) n /\ b_alloc (bigs (fo S) n) = MMAP;
  mo_in : b_begin (bigs (fo S) n) <= lo /\ hi <= b_end (bigs (fo S) n);
  mo_front : b_begin (bigs (fo S) n) < lo \/ forall t, ~ recorded S (lo - 1) t;
  mo_anon : q_file (seqs S (priv_of S n)) = None;
  mo_room : (length (used (seqs S (priv_of S n))) + 2 <= MAXLEN)%nat }.
Definition may_map (nb : nat) (biggest : Z) (S : mst) (lo hi flags : Z) (file : option Z) : Prop :=
  0 < lo < hi /\ lo mod PAGE = 0 /\ hi mod PAGE = 0 /\
  (may_map_free nb biggest S lo hi \/
   (Z.land flags MAP_FIXED <> 0 /\ file = None /\ exists n, may_map_over S n lo hi)).

(* The caller's side of moving the end of mapping n, which holds the program break, to the
   page end of [new]: the mapping stays non-empty; growing, nothing is in the way, and there
   is a spare entry unless the last page is anonymous; shrinking, nothing inside the mapping
   reaches beyond. *)
Record may_brk (biggest : Z) (S : mst) (n : nat) (new : Z) : Prop := {
  br_live : live (fo S) n /\ b_alloc (bigs (fo S) n) = MMAP;
  br_fit : b_begin (bigs (fo S) n) < RUP new;
  br_clear : forall m, live (fo S) m -> ~ meets (fo S) m (b_end (bigs (fo S) n)) (RUP new);
  br_size : RUP new - b_begin (bigs (fo S) n) <= biggest;
  br_room : b_end (bigs (fo S) n) < RUP new -> (length (used (seqs S (priv_of S n))) < MAXLEN)%nat \/
     forall t, recorded S (b_end (bigs (fo S) n) - 1) t -> at_file t = None;
  br_kids : forall c, live (fo S) c -> b_parent (bigs (fo S) c) = n -> b_end (bigs (fo S) c) <= RUP new }.

(* New pages are like the last page if that is anonymous, else plain read-write memory. *)
Definition brk_attr (o : option attr) : attr :=
  match o with
  | Some t => match at_file t with None => t | Some _ => mkAttr 3 0 None 0 end
  | None => mkAttr 3 0 None 0
  end.
Definition brk_moved (M : space) (old_end new_end : Z) : space :=
  if old_end <? new_end then map_over M old_end new_end (brk_attr (M (old_end - 1))) else unmap M new_end old_end.
