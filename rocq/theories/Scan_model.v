(* Model of the start-up scan of /proc/self/maps, which records the mappings made before the
   library could see system calls: src/allocators/mmap.c:109-443, 919-966, 1409-1515; and of
   the carving of the initial stack, src/allocators/auxv.c:112-174 and stack.c:63-81.
   Definitions only. *)
From Verif Require Import Base Big_model Big_hist Map_model.

Definition AUXV : nat := 9.                   (* &__auxv_allocator *)
Definition STACK : nat := 10.                 (* &__stack_allocator *)
Definition FRAME : nat := 11.                 (* &__stackframe_allocator *)
Definition MAP_SHARED : Z := 1.
Definition MAP_PRIVATE : Z := 2.
Definition MAP_ANONYMOUS : Z := 32.

(* The last column of a line: empty; a name, which is an id, non-negative if it begins with a
   slash and negative if it begins with "[stack"; "[heap..."; any other bracketed word; or
   anything else, e.g. "anon_inode:[perf_event]". *)
Inductive rest := REmpty | RName (f : Z) | RHeap | RBracket | ROther.
Definition is_stack (f : Z) : bool := f <? 0.

(* struct maps_entry (librunt's maps.h, absent), as far as it is read *)
Record line := mkL { l_first : Z; l_second : Z; l_prot : Z; l_shared : bool; l_off : Z; l_rest : rest }.

(* mapping_entry_equal and mapping_entries_equal, mmap.c:109-138: [n] entries of one array
   from index i against another from j *)
Definition entry_eqb (e1 e2 : entry) : bool :=
  (e_begin e1 =? e_begin e2) && (e_end e1 =? e_end e2) && (e_prot e1 =? e_prot e2) && (e_flags e1 =? e_flags e2)
  && (e_off e1 =? e_off e2) && Bool.eqb (e_anon e1) (e_anon e2) && (e_caller e1 =? e_caller e2).
Definition entries_equal (l1 : list entry) (i : nat) (l2 : list entry) (j n : nat) : bool :=
  forallb (fun k => entry_eqb (slot l1 (i + k)) (slot l2 (j + k))) (seq 0 n).

(* mapping_sequence_prefix, mmap.c:140-156 *)
Definition seq_prefix (s1 s2 : mseq) : bool :=
  let n1 := q_nused s1 in let n2 := q_nused s2 in
  let t1 := slot (q_maps s1) (n1 - 1) in let t2 := slot (q_maps s2) (n2 - 1) in
  Nat.leb n1 n2 &&
  (entries_equal (q_maps s1) 0 (q_maps s2) 0 n1
   || (entries_equal (q_maps s1) 0 (q_maps s2) 0 (n1 - 1) && Nat.eqb n1 n2 && e_anon t1 && e_anon t2
       && (e_begin t1 =? e_begin t2) && (e_end t1 <=? e_end t2))).
(* mapping_sequence_suffix, mmap.c:162-172 *)
Definition seq_suffix (s1 s2 : mseq) : bool :=
  let n1 := q_nused s1 in let n2 := q_nused s2 in
  Nat.leb n1 n2 && entries_equal (q_maps s2) (n2 - n1) (q_maps s1) 0 n1.
(* mem_range_suffix, mmap.c:173-177 *)
Definition range_suffix (s1 s2 : mseq) : bool := (q_end s1 =? q_end s2) && (q_begin s2 <? q_begin s1).

(* the last k entries of q cleared and its end moved, mmap.c:230-234 *)
Definition trim (q : mseq) (k : nat) (e : Z) : mseq :=
  mkM (q_begin q) e (q_file q) (q_nused q - k)
      (firstn (q_nused q - k) (q_maps q) ++ repeat ent0 k ++ skipn (q_nused q) (q_maps q)).

(* The state during the scan: the records, the sequence being gathered (struct
   add_missing_cb_args, mmap.c:914-918) and auxv.c's our_bigalloc (0 if none). *)
Record scan := mkSc { sc_m : mst; sc_cur : mseq; sc_our : nat }.

Section Scan.
Variables (nb : nat) (biggest : Z) (dbg : bool) (obj_of : Z -> Z).
(* __auxv_program_argcountp and __auxv_asciiz_end, found by __auxv_allocator_init (Aux_model);
   executable_data_segment_start_addr; executable_end_addr *)
Variables (argcp asciiz_end dseg xend : Z).

Notation asrt := (asrt dbg).

(* __auxv_allocator_notify_init_stack_mapping_sequence, auxv.c:112-167, with
   __stack_allocator_notify_init_stack_region, stack.c:63-81.  A size is an unsigned 64-bit
   difference.  The three global pointers other than our_bigalloc that are set here are left
   out. *)
Definition stack_notify (s : st) (our n : nat) : res (st * nat) :=
  if argcp =? 0 then Abort else
  let b := b_begin (bigs s n) in
  let e := b_end (bigs s n) in
  if negb (Nat.eqb our 0) then
    let s1 := if b <? b_begin (bigs s our) then s_begin s our b else s in
    if b_end (bigs s1 our) <? asciiz_end then
      let ne := RUP asciiz_end in
      let pi := pidx s1 (PAGENUM asciiz_end) in
      do s2 <- (if Nat.eqb pi 0 then Ok s1 else truncate_begin biggest dbg s1 pi ne) ;
      do s3 <- extend biggest dbg s2 our ne ;
      Ok (s3, our)
    else Ok (s1, our)
  else
    do '(s1, o) <- new_bigalloc nb biggest dbg s b (e - b) 0 0 AUXV ;
    do '(s2, k) <- new_bigalloc nb biggest dbg s1 b ((argcp - b) mod W64) 0 0 STACK ;
    let p := b_parent (bigs s2 k) in
    if Nat.eqb p 0 || negb (Nat.eqb (b_alloc (bigs s2 p)) AUXV) then Abort else
    let s3 := set_sub s2 k FRAME (b_subpriv (bigs s2 k)) in
    Ok (set_sub s3 o 0 (b_subpriv (bigs s3 o)), o).

(* the label go_ahead of add_mapping_sequence_bigalloc_if_absent, mmap.c:358-366, with
   add_mapping_sequence_bigalloc_copying_seq, 77-100 *)
Definition go_ahead (S : mst) (our : nat) (q : mseq) : res (mst * nat) :=
  let '(S1, p) := alloc_seq S q in
  do '(s2, n) <- new_bigalloc nb biggest dbg (fo S1) (q_begin q) (q_end q - q_begin q) 0 0 MMAP ;
  let S2 := set_fo S1 (set_priv s2 n p) in
  if match q_file q with Some f => is_stack f | None => false end
  then do '(s3, o) <- stack_notify (fo S2) our n ; Ok (set_fo S2 s3, o)
  else Ok (S2, our).

(* the label report_problem, mmap.c:367-442: what is in the way is deleted, if a sequence for
   it is at hand.  The debug output is left out. *)
Definition report_problem (S : mst) (our : nat) (q : mseq) (existing : option mseq) : res (mst * nat) :=
  match existing with
  | None => Abort
  | Some x =>
      if negb (dseg =? 0) && (q_begin x <=? dseg) && (dseg <? q_end x) then Abort else
      do s1 <- delete_overlapping nb biggest dbg (fo S) (q_begin x) (q_end x) ;
      go_ahead (set_fo S s1) our q
  end.

(* The sequence a top-level record's private data is taken for: a record of another allocator
   has something else there, or nothing. *)
Definition existing (S : mst) (n : nat) : res mseq :=
  if Nat.eqb (b_alloc (bigs (fo S) n)) MMAP then Ok (seqs S (priv_of S n)) else UB.

(* add_mapping_sequence_bigalloc_if_absent, mmap.c:178-443.  The last byte of an empty
   sequence is at the top of the address space, outside the page index. *)
Definition if_absent (S : mst) (our : nat) (q : mseq) : res (mst * nat) :=
  if q_end q =? 0 then UB else
  do pb <- lookup_top_level nb (fo S) (q_begin q) ;
  do pe <- lookup_top_level nb (fo S) (q_end q - 1) ;
  if negb (Nat.eqb pb 0) && negb (Nat.eqb pe 0) && Nat.eqb pb pe && Nat.eqb (b_alloc (bigs (fo S) pb)) AUXV then Ok (S, our)
  else if Nat.eqb pb 0 && Nat.eqb pe 0 then go_ahead S our q
  else if Nat.eqb pb 0 then
    do x <- existing S pe ;
    if range_suffix x q then
      if negb (seq_suffix x q) then report_problem S our q (Some x) else
      let q' := trim q (q_nused x) (q_begin x) in
      do _ <- asrt (seq_sane q') ;
      do _ <- asrt (seq_sane x) ;
      go_ahead S our q'
    else if Nat.eqb (q_nused q) 1 && Nat.eqb (q_nused x) 1 then
      do s1 <- pre_extend nb biggest dbg (fo S) pe (q_begin q) ;
      do l <- store (q_maps x) 0 (slot (q_maps q) 0) ;
      let x' := mkM (q_begin q) (q_end x) (q_file x) (q_nused x) l in
      do _ <- asrt (seq_sane x') ;
      Ok (set_seq (set_fo S s1) (priv_of S pe) x', our)
    else report_problem S our q (Some x)
  else if Nat.eqb pe 0 then
    do x <- existing S pb ;
    if seq_prefix x q then
      do s1 <- extend biggest dbg (fo S) pb (q_end q) ;
      Ok (set_seq (set_fo S s1) (priv_of S pb) q, our)
    else report_problem S our q None
  else if Nat.eqb pb pe then
    do x <- existing S pb ;
    if seq_suffix x q && seq_suffix q x then Ok (S, our)
    else if seq_prefix q x then
      if q_end q =? q_end x then Ok (set_seq S (priv_of S pb) q, our)
      else
        do s1 <- truncate_end biggest dbg (fo S) pb (q_end q) ;
        Ok (set_seq (set_fo S s1) (priv_of S pb) q, our)
    else report_problem S our q (Some x)
  else report_problem S our q None.

(* extend_current, mmap.c:1417-1455 *)
Definition file_of (r : rest) : option (option Z) :=
  match r with
  | REmpty | RHeap | RBracket => Some None
  | RName f => Some (Some f)
  | ROther => None
  end.
Definition flags_of (shared : bool) (file : option Z) : Z :=
  Z.lor (if shared then MAP_SHARED else MAP_PRIVATE) (if is_none file then MAP_ANONYMOUS else 0).
Definition extend_current (q : mseq) (l : line) : res (mseq * bool) :=
  match file_of (l_rest l) with
  | None => Ok (q, false)
  | Some f => augment dbg obj_of q (l_first l) (l_second l) (l_prot l) (flags_of (l_shared l) f) (l_off l) f 0
  end.

(* the tests at the head of add_missing_cb, mmap.c:1459-1500: which line, if any, is to be
   considered *)
Definition considered (l : line) : option line :=
  let size := (l_second l - l_first l) mod W64 in
  if biggest <? size then None
  else if (size =? 0) || (2 ^ 63 <=? l_first l) then None
  else match l_rest l with
       | RHeap => if l_first l <? xend then Some (mkL (l_first l) xend (l_prot l) (l_shared l) (l_off l) REmpty) else None
       | _ => Some l
       end.

(* add_missing_cb, mmap.c:1457-1515 *)
Definition add_missing (w : scan) (l0 : line) : res scan :=
  match considered l0 with
  | None => Ok w
  | Some l =>
      do '(q, ok) <- extend_current (sc_cur w) l ;
      if ok then Ok (mkSc (sc_m w) q (sc_our w)) else
      do '(S1, our) <- if_absent (sc_m w) (sc_our w) q ;
      do '(q1, ok1) <- extend_current seq0 l ;
      if ok1 then Ok (mkSc S1 q1 our) else Abort
  end.

Fixpoint scan_loop (w : scan) (ls : list line) : res scan :=
  match ls with
  | [] => Ok w
  | l :: r => do w' <- add_missing w l ; scan_loop w' r
  end.

(* add_missing_mappings_from_proc, mmap.c:919-966, from the point where the lines have been
   read.  Left out: reading the file (at most 1024 lines and 80kB). *)
Definition scan_proc (S : mst) (our : nat) (ls : list line) : res (mst * nat) :=
  do w <- scan_loop (mkSc S seq0 our) ls ;
  if Nat.eqb (q_nused (sc_cur w)) 0 then Ok (sc_m w, sc_our w)
  else if_absent (sc_m w) (sc_our w) (sc_cur w).
End Scan.
