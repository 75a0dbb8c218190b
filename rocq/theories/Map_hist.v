(* Histories of the mapping layer: the initial state, the start-up scan of the mappings made
   before, mapping, unmapping and program-break notifications, and the calls other allocators make on the forest in between. *)
From Verif Require Import Base Big_model Big_spec Big_hist Map_model Map_spec Scan_model Scan_spec.

Section H.
Variables (nb : nat) (biggest : Z) (dbg : bool) (al : nat -> Z) (cur_ max_ : Z) (obj_of : Z -> Z).

(* The state dlmalloc-ext.c:63-100 leaves: the private heap, START, recorded as record 1 with
   a one-entry sequence (id 1). *)
Definition init_m (lo hi : Z) (q : mseq) : mst :=
  mkS (init_st lo hi MMAP 1) (fun i => if Nat.eqb i 1 then q else seq0) 2.

(* a call by another allocator leaves the mappings as they are *)
Definition keeps (s s' : st) : Prop := forall n v, a_alloc v = MMAP -> (view s' n = Some v <-> view s n = Some v).

(* [mreach S M]: the table is in state S when the address space is M *)
Inductive mreach : mst -> space -> Prop :=
| m_init lo hi prot flags off file caller q :
    (2 <= nb)%nat -> 0 < lo < hi -> hi - lo <= biggest -> lo mod PAGE = 0 -> hi mod PAGE = 0 ->
    augment dbg obj_of seq0 lo hi prot flags off file caller = Ok (q, true) ->
    mreach (init_m lo hi q) (map_over (fun _ => None) lo hi (mkAttr prot flags file caller))
| m_map S M addr len prot flags file off caller S' : mreach S M ->
    may_map nb biggest S addr (addr + RUP len) flags file ->
    do_mmap nb biggest dbg obj_of S addr len prot flags file off caller = Ok S' ->
    mreach S' (map_over M addr (addr + RUP len) (mkAttr prot flags file caller))
| m_unmap S M addr len S' : mreach S M -> 0 < len -> may_unmap nb S addr (addr + RUP len) ->
    do_munmap nb biggest dbg S addr len = Ok S' ->
    mreach S' (unmap M addr (addr + RUP len))
| m_brk S M n new S' : mreach S M -> may_brk biggest S n new ->
    mmap_notify_brk biggest dbg S n new = Ok S' ->
    mreach S' (brk_moved M (b_end (bigs (fo S) n)) (RUP new))
| m_scan S M L argcp asciiz_end dseg xend S' our : mreach S M -> scannable nb biggest xend argcp S L ->
    scan_proc nb biggest dbg obj_of argcp asciiz_end dseg xend S 0 L = Ok (S', our) ->
    mreach S' (list_over biggest xend L M)
| m_other S M o s' : mreach S M -> legal nb biggest al (fo S) o -> step nb biggest dbg al cur_ max_ (fo S) o = Ok s' ->
    keeps (fo S) s' -> mreach (set_fo S s') M.
End H.
