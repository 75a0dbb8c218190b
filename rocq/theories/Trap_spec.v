(* What system calls do to the address space, and what is asked of them. *)
From Verif Require Import Base Big_model Big_spec Big_hist Map_model Map_spec Map_hist Brk_model Brk_spec File_model Trap_model.

Definition same (M M' : space) : Prop := forall a, M a = M' a.
Definition failed (r : Z) : Prop := W64 - PAGE < r < W64.        (* -4095 ... -1 *)
Definition fixed (m : mm) : bool := negb (Z.land (m_flags m) MAP_FIXED =? 0).
Definition anonymous (m : mm) : bool := negb (Z.land (m_flags m) 32 =? 0).   (* MAP_ANONYMOUS *)
(* the file mapped *)
Definition backing (links : Z -> option Z) (m : mm) : option Z := if anonymous m then None else links (m_fd m).
Definition protect (K : space) (lo hi prot : Z) : space :=
  fun a => match K a with
           | Some t => if (lo <=? a) && (a <? hi) then Some (mkAttr prot (at_flags t) (at_file t) (at_caller t)) else Some t
           | None => None
           end.

(* The kernel's side.  [does K c r K']: with address space K, call c is answered r and leaves K'.
   [e]: the end of the mapping the program break is in.  Of successful mremap calls only those that
   move a mapping of one kind to a given place, keeping its size in pages, are described. *)
Inductive does (links : Z -> option Z) (caller e : Z) (K : space) : call -> Z -> space -> Prop :=
| d_fail c r : (forall a, c <> Cbrk a) -> failed r -> does links caller e K c r K
| d_mmap m r : 0 < r -> r mod PAGE = 0 -> 0 < m_len m -> r + RUP (m_len m) <= W64 - PAGE ->
    (if fixed m then r = m_addr m else forall a, r <= a < r + RUP (m_len m) -> K a = None) ->
    does links caller e K (Cmmap m) r
      (map_over K r (r + RUP (m_len m)) (mkAttr (m_prot m) (m_flags m) (backing links m) caller))
| d_munmap a l : 0 < a -> a mod PAGE = 0 -> 0 < l -> does links caller e K (Cmunmap a l) 0 (unmap K a (a + RUP l))
| d_mremap old olen nlen flags new t : Z.land flags MREMAP_FIXED <> 0 -> 0 < new -> new mod PAGE = 0 ->
    0 < nlen -> RUP nlen = RUP olen -> new + RUP nlen <= W64 - PAGE -> new + RUP nlen <= old \/ old + RUP nlen <= new ->
    (forall a, old <= a < old + RUP olen -> K a = Some t) ->
    does links caller e K (Cmremap old olen nlen flags new) new
      (let K1 := map_over K new (new + RUP olen) (mkAttr (at_prot t) (at_flags t) (at_file t) caller) in
       if Z.land flags MREMAP_DONTUNMAP =? 0 then unmap K1 old (old + RUP olen) else K1)
| d_brk a r : does links caller e K (Cbrk a) r (brk_moved K e (RUP r))
| d_open p f m r : 0 <= r < 2 ^ 31 -> does links caller e K (Copen p f m) r K
| d_openat d p f m r : 0 <= r < 2 ^ 31 -> does links caller e K (Copenat d p f m) r K
| d_mprotect a l p : does links caller e K (Cmprotect a l p) 0 (protect K a (a + RUP l) p)
| d_other nr r : does links caller e K (Cother nr) r K.

Section S.
Variables (nb : nat) (biggest : Z).

(* Room for a mapping where nothing is mapped. *)
Record room (T : mst) (lo hi : Z) : Prop := {
  rm_roots : forall n, live (fo T) n -> b_parent (bigs (fo T) n) = 0%nat -> b_alloc (bigs (fo T) n) = MMAP;
  rm_free : has_free nb (fo T);
  rm_size : hi - lo <= biggest;
  rm_ext : forall n, live (fo T) n -> b_alloc (bigs (fo T) n) = MMAP -> b_end (bigs (fo T) n) = lo ->
      hi - b_begin (bigs (fo T) n) <= biggest }.

(* The caller is not in this library, whose file is recorded; or it is too early for any call to
   be taken for one from the library. *)
Definition outside (base : bool) (own : Z) (s : st) (caller : Z) : Prop :=
  base = false \/
  ((exists f, live s f /\ b_alloc (bigs s f) = FILE /\ covers s f own) /\
   forall f, live s f -> b_alloc (bigs s f) = FILE -> covers s f own -> ~ covers s f caller).

(* Room for moving a mapping to where nothing is recorded: the range moved is within one entry,
   of a sequence with the same file; the place is not right after a mapping; there are two free records. *)
Definition may_move_to (T : mst) (old olen new : Z) : Prop := exists n x,
  (live (fo T) n /\ b_alloc (bigs (fo T) n) = MMAP) /\
  In x (used (seqs T (priv_of T n))) /\ e_begin x <= old /\ old + RUP olen <= e_end x /\
  at_file (attr_of (seqs T (priv_of T n)) x) = q_file (seqs T (priv_of T n)) /\
  may_map_free nb biggest T new (new + RUP olen) /\ (forall u, ~ recorded T (new - 1) u) /\
  may_unmap nb T old (old + RUP olen) /\
  exists i j, i <> j /\ (0 < i < nb)%nat /\ (0 < j < nb)%nat /\ in_use (bigs (fo T) i) = false /\ in_use (bigs (fo T) j) = false.

(* What is asked of a call that is answered r. *)
Definition may_call (base : bool) (own : Z) (links : Z -> option Z) (B : bst) (caller : Z) (c : call) (r e : Z) : Prop :=
  let T := bm B in
  match c with
  | Cmmap m =>
      (m_addr m <> 0 \/ fixed m = true \/ outside base own (fo T) caller) /\
      (failed r \/
       (if anonymous m then m_fd m = -1 else m_fd m <> -1 /\ links (m_fd m) <> None) /\
       (if fixed m then may_map nb biggest T r (r + RUP (m_len m)) (m_flags m) (backing links m)
        else room T r (r + RUP (m_len m))))
  | Cmunmap a l => failed r \/ may_unmap nb T a (a + RUP l)
  | Cmremap old olen _ flags new =>
      Z.land flags MREMAP_FIXED <> 0 /\ new <> 0 /\ new <> MAP_FAILED /\ (failed r \/ may_move_to T old olen new)
  | Cbrk _ => b_init B = true /\ exists v w, heap T (b_map B) (b_brk B) v w /\ a_end v = e /\
                may_move biggest T (b_map B) (b_brk B) v w (b_cur B) r
  | Cmprotect _ _ _ => failed r
  | _ => True
  end.
End S.
