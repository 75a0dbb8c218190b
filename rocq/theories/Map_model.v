(* Model of the memory-mapping layer: src/allocators/mmap.c, on top of the big-allocation
   forest of Big_model.  Definitions only. *)
From Verif Require Import Base Big_model.

(* struct mapping_entry (include/allocmeta.h) and struct mapping_sequence
   (liballocs_private.h:79-89).  File names are ids; the array has all eight slots,
   used or not. *)
Record entry := mkE {
  e_begin : Z; e_end : Z; e_prot : Z; e_flags : Z; e_off : Z; e_anon : bool; e_caller : Z }.
Record mseq := mkM { q_begin : Z; q_end : Z; q_file : option Z; q_nused : nat; q_maps : list entry }.

Definition MAXLEN : nat := 8.                 (* MAPPING_SEQUENCE_MAX_LEN, liballocs_private.h:78 *)
Definition ent0 : entry := mkE 0 0 0 0 0 false 0.
Definition seq0 : mseq := mkM 0 0 None 0 (repeat ent0 MAXLEN).
Definition MMAP : nat := 1.                   (* &__mmap_allocator *)
Definition MAP_FIXED : Z := 16.
Definition PROT_NONE : Z := 0.

(* array accesses; outside the eight slots they are undefined *)
Definition slot (l : list entry) (i : nat) : entry := nth i l ent0.
Definition store (l : list entry) (i : nat) (e : entry) : res (list entry) :=
  if Nat.ltb i MAXLEN then Ok (firstn i l ++ e :: skipn (S i) l) else UB.
Definition memmove (l : list entry) (dst src n : nat) : res (list entry) :=
  if Nat.leb (dst + n) MAXLEN && Nat.leb (src + n) MAXLEN
  then Ok (firstn dst l ++ firstn n (skipn src l) ++ skipn (dst + n) l) else UB.

Definition w_maps (q : mseq) (l : list entry) : mseq := mkM (q_begin q) (q_end q) (q_file q) (q_nused q) l.
Definition w_used (q : mseq) (n : nat) (l : list entry) : mseq := mkM (q_begin q) (q_end q) (q_file q) n l.
Definition e_w_begin (e : entry) (x : Z) : entry := mkE x (e_end e) (e_prot e) (e_flags e) (e_off e) (e_anon e) (e_caller e).
Definition e_w_end (e : entry) (x : Z) : entry := mkE (e_begin e) x (e_prot e) (e_flags e) (e_off e) (e_anon e) (e_caller e).

(* check_mapping_sequence_sanity, mmap.c:1136-1149 *)
Fixpoint contiguous (l : list entry) (from : Z) : bool :=
  match l with
  | [] => true
  | e :: l' => negb (e_begin e =? 0) && negb (e_end e =? 0) && (e_begin e <? e_end e)
               && (e_begin e =? from) && contiguous l' (e_end e)
  end.
Definition seq_sane (q : mseq) : bool :=
  Nat.eqb (q_nused q) 0
  || (contiguous (firstn (q_nused q) (q_maps q)) (q_begin q)
      && (q_end q =? e_end (slot (q_maps q) (q_nused q - 1)))).

Section Map.
Variables (nb : nat) (biggest : Z) (dbg : bool).
(* get_highest_loaded_object_below *)
Variable obj_of : Z -> Z.

Notation asrt := (asrt dbg).

(* One iteration of the loop over the slots in delete_mapping_sequence_span,
   mmap.c:450-492, on slot i.  Pointer sums are taken not to wrap. *)
Definition del_slot (q : mseq) (i : nat) (addr len : Z) : res mseq :=
  let e := slot (q_maps q) i in
  if (e_begin e <=? addr + len) && (addr <? e_end e) then
    if (e_begin e <? addr) && (addr + len <? e_end e) then Abort
    else
      let left_at_beginning := if e_begin e <? addr then addr - e_begin e else 0 in
      let left_at_end := if e_end e <? addr + len then 0 else e_end e - (addr + len) in
      if (left_at_beginning =? 0) && (left_at_end =? 0) then
        do l <- store (q_maps q) i ent0 ; Ok (w_maps q l)
      else
        let current_length := e_end e - e_begin e in
        if left_at_beginning =? 0 then
          let b := e_begin e + (current_length - left_at_end) in
          do l <- store (q_maps q) i (e_w_begin e b) ;
          Ok (mkM (if Nat.eqb i 0 then b else q_begin q) (q_end q) (q_file q) (q_nused q) l)
        else
          let x := e_end e - (current_length - left_at_beginning) in
          do l <- store (q_maps q) i (e_w_end e x) ;
          Ok (mkM (q_begin q) (if Nat.eqb (S i) (q_nused q) then x else q_end q) (q_file q) (q_nused q) l)
  else Ok q.

Fixpoint del_slots (q : mseq) (is : list nat) (addr len : Z) : res mseq :=
  match is with
  | [] => Ok q
  | i :: is' => do q' <- del_slot q i addr len ; del_slots q' is' addr len
  end.

(* the compaction loop, mmap.c:495-508 *)
Fixpoint compact (fuel : nat) (q : mseq) (i : nat) : res mseq :=
  if Nat.ltb i (q_nused q) then
    match fuel with
    | O => Fuel
    | S f =>
        if e_begin (slot (q_maps q) i) =? 0 then
          do l <- memmove (q_maps q) i (S i) (q_nused q - S i) ;
          do l' <- store l (q_nused q - 1) ent0 ;
          compact f (w_used q (q_nused q - 1) l') i
        else compact f q (S i)
    end
  else Ok q.

(* delete_mapping_sequence_span, mmap.c:444-524 *)
Definition delete_span (q : mseq) (addr len : Z) : res mseq :=
  do _ <- asrt (seq_sane q) ;
  do q1 <- del_slots q (seq 0 MAXLEN) addr len ;
  do q2 <- compact (S (2 * MAXLEN)) q1 0 ;
  let b := if (addr <=? q_begin q2) && (q_begin q2 <? addr + len) then addr + len else q_begin q2 in
  let x := if (addr <? q_end q2) && (q_end q2 <=? addr + len) then addr else q_end q2 in
  let q3 := mkM b x (q_file q2) (q_nused q2) (q_maps q2) in
  do _ <- asrt (seq_sane q3) ;
  Ok q3.

(* __mmap_allocator_find_entry, mmap.c:615-626 *)
Definition find_entry (q : mseq) (addr : Z) : option entry :=
  find (fun e => (e_begin e <=? addr) && (addr <? e_end e)) (firstn (q_nused q) (q_maps q)).

(* OVERLAPS, mmap.c:1159-1161 (touching at the front counts) *)
Definition OVERLAPS (b1 e1 b2 e2 : Z) : bool := (b1 <? e2) && (b2 <=? e1).

(* the two index searches, mmap.c:1224-1232; running off the array is undefined *)
Fixpoint first_overlapped (fuel : nat) (l : list entry) (i : nat) (b x : Z) : res nat :=
  match fuel with
  | O => UB
  | S f => if OVERLAPS (e_begin (slot l i)) (e_end (slot l i)) b x then Ok i else first_overlapped f l (S i) b x
  end.
(* [n] is one more than the index looked at *)
Fixpoint last_overlapped (l : list entry) (n : nat) (b x : Z) : res nat :=
  match n with
  | O => UB
  | S i => if OVERLAPS (e_begin (slot l i)) (e_end (slot l i)) b x then Ok i else last_overlapped l i b x
  end.

(* copy_all_left_from_by and copy_all_right_from_by, mmap.c:1122-1134 *)
Definition copy_left (q : mseq) (from by_ : nat) : res mseq :=
  do l <- memmove (q_maps q) (from - by_) from (q_nused q - from) ; Ok (w_used q (q_nused q - by_) l).
Definition copy_right (q : mseq) (from by_ : nat) : res mseq :=
  do l <- memmove (q_maps q) (from + by_) from (q_nused q - from) ; Ok (w_used q (q_nused q + by_) l).

Definition is_none {A} (o : option A) : bool := match o with None => true | _ => false end.
Definition same_file (f g : option Z) : bool := match f, g with Some a, Some b => a =? b | _, _ => false end.

(* the clean-extension branch of augment_sequence, mmap.c:1177-1221 *)
Definition augment_clean (q : mseq) (b x prot flags off : Z) (file : option Z) (caller : Z) : res (mseq * bool) :=
  let last := slot (q_maps q) (q_nused q - 1) in
  let consistent :=
    (is_none file && is_none (q_file q))
    || Nat.eqb (q_nused q) 0
    || ((prot =? PROT_NONE) && is_none file)
    || (is_none file && negb (is_none (q_file q)) && negb (e_anon last)
        && (((caller =? 0) && (e_caller last =? 0)) || (obj_of caller =? obj_of (e_caller last))))
    || same_file file (q_file q) in
  if negb consistent then Ok (q, false) else
  do l <- store (q_maps q) (q_nused q) (mkE b x prot flags off (is_none file) caller) ;
  Ok (mkM (if q_begin q =? 0 then b else q_begin q) x (if is_none (q_file q) then file else q_file q)
          (S (q_nused q)) l, true).

(* the overlap branch, mmap.c:1222-1377; the array work from line 1314 on is separate *)
Definition replace_span (q : mseq) (fo lo : nat) (bpart epart : bool) (b x : Z) (e : entry) : res (mseq * bool) :=
  if Nat.ltb (MAXLEN - q_nused q) ((if bpart then 1 else 0) + (if epart then 1 else 0)) then Ok (q, false) else
  do '(q1, fo1, lo1) <-
    (if bpart then
       do q1 <- copy_right q fo 1 ;
       do l1 <- store (q_maps q1) fo (e_w_end (slot (q_maps q1) fo) b) ;
       do l2 <- store l1 (S fo) (e_w_begin (slot l1 (S fo)) b) ;
       Ok (w_maps q1 l2, S fo, S lo)
     else Ok (q, fo, lo)) ;
  do q2 <-
    (if epart then
       do q2 <- copy_right q1 lo1 1 ;
       do l1 <- store (q_maps q2) (S lo1) (e_w_begin (slot (q_maps q2) (S lo1)) x) ;
       do l2 <- store l1 lo1 (e_w_end (slot l1 lo1) x) ;
       Ok (w_maps q2 l2)
     else Ok q1) ;
  do q3 <- (if Nat.ltb fo1 lo1 then copy_left q2 (S lo1) (lo1 - fo1) else Ok q2) ;
  do l <- store (q_maps q3) fo1 e ;
  Ok (w_maps q3 l, true).

Definition augment_overlap (q : mseq) (b x prot flags off : Z) (file : option Z) (caller : Z) : res (mseq * bool) :=
  do fo <- first_overlapped (S MAXLEN) (q_maps q) 0 b x ;
  do lo <- last_overlapped (q_maps q) (q_nused q) b x ;
  let bpart := negb (e_begin (slot (q_maps q) fo) =? b) in
  let epart := negb (e_end (slot (q_maps q) lo) =? x) in
  let consistent :=
    if (is_none file && is_none (q_file q)) || Nat.eqb (q_nused q) 0 then true
    else if negb (is_none file) && negb (is_none (q_file q)) && negb (same_file file (q_file q)) then false
    else
      (* the entry before and the entry after the overlap, if any *)
      let preceding := if bpart then Some fo else match fo with O => None | S i => Some i end in
      let following := if epart then Some lo else if Nat.ltb (S lo) (q_nused q) then Some (S lo) else None in
      let edge := match preceding with Some i => e_anon (slot (q_maps q) i) && negb (is_none file) | None => false end
               || match following with Some i => is_none file && negb (e_anon (slot (q_maps q) i)) | None => false end in
      negb edge
      && ((caller =? 0) || (e_caller (slot (q_maps q) fo) =? 0)
          || (obj_of caller =? obj_of (e_caller (slot (q_maps q) fo)))) in
  if negb consistent then Ok (q, false)
  else replace_span q fo lo bpart epart b x (mkE b x prot flags off (is_none file) caller).

(* augment_sequence, mmap.c:1151-1407 *)
Definition augment (q : mseq) (b x prot flags off : Z) (file : option Z) (caller : Z) : res (mseq * bool) :=
  do _ <- asrt (seq_sane q) ;
  let clean := (q_end q =? 0) || (q_end q =? b) in
  do '(q', ok) <-
    (if (clean || OVERLAPS (q_begin q) (q_end q) b x) && (q_begin q <=? b) && negb (Nat.eqb (q_nused q) MAXLEN) then
       if clean then augment_clean q b x prot flags off file caller
       else augment_overlap q b x prot flags off file caller
     else Ok (q, false)) ;
  do _ <- asrt (seq_sane q') ;
  Ok (q', ok).

(* The forest together with the heap of mapping sequences; [b_priv] of a big allocation
   made here is the id of its sequence, and ids are handed out in order (the private
   nommap malloc). *)
Record mst := mkS { fo : st; seqs : nat -> mseq; fresh : nat }.
Definition set_fo (S : mst) (s : st) : mst := mkS s (seqs S) (fresh S).
Definition set_seq (S : mst) (p : nat) (q : mseq) : mst :=
  mkS (fo S) (fun i => if Nat.eqb i p then q else seqs S i) (fresh S).
Definition alloc_seq (S : mst) (q : mseq) : mst * nat :=
  (mkS (fo S) (fun i => if Nat.eqb i (fresh S) then q else seqs S i) (1 + fresh S), fresh S).
Definition priv_of (S : mst) (n : nat) : nat := b_priv (bigs (fo S) n).

(* the loop of do_munmap, mmap.c:533-605 *)
Fixpoint munmap_loop (fuel : nat) (S : mst) (addr eff cur remaining : Z) : res mst :=
  if cur <? addr + eff then
    match fuel with
    | O => Fuel
    | Datatypes.S f =>
        do n <- find_from_root nb (fo S) cur MMAP false ;
        if Nat.eqb n 0 then munmap_loop f S addr eff (cur + PAGE) (remaining - PAGE)
        else
          let b := bigs (fo S) n in
          let p := b_priv b in
          do _ <- asrt (b_begin b <=? cur) ;
          if cur =? b_begin b then
            if b_end b <=? cur + remaining then
              do '(s1, _) <- delete_at nb biggest dbg (fo S) (b_begin b) MMAP ;
              munmap_loop f (set_fo S s1) addr eff (b_end b) (remaining - (b_end b - cur))
            else
              do s1 <- truncate_begin biggest dbg (fo S) n (cur + remaining) ;
              do q <- delete_span (seqs S p) cur remaining ;
              Ok (set_seq (set_fo S s1) p q)
          else
            if b_end b <=? cur + remaining then
              let removed := b_end b - cur in
              do s1 <- truncate_end biggest dbg (fo S) n cur ;
              do q <- delete_span (seqs S p) cur removed ;
              munmap_loop f (set_seq (set_fo S s1) p q) addr eff (cur + removed) (remaining - removed)
            else
              do '(s1, n2) <- split nb dbg (fo S) n (addr + eff) ;
              do s2 <- truncate_end biggest dbg s1 n addr ;
              let q0 := seqs S p in
              do q1 <- delete_span q0 addr (b_end b - addr) ;
              do q2 <- delete_span q0 (b_begin b) (addr + eff - b_begin b) ;
              let '(S1, p2) := alloc_seq (set_seq (set_fo S s2) p q1) q2 in
              munmap_loop f (set_fo S1 (set_priv s2 n2 p2)) addr eff cur remaining
    end
  else Ok S.

(* do_munmap, mmap.c:526-532; __mmap_allocator_notify_munmap, 608-613.  Each turn of the
   loop but one consumes a page. *)
Definition do_munmap (S : mst) (addr len : Z) : res mst :=
  let eff := RUP len in
  munmap_loop (2 + Z.to_nat (eff / PAGE)) S addr eff addr eff.

(* do_mmap, mmap.c:795-901.  Simplified: the debug output is left out. *)
Definition do_mmap (S : mst) (addr len prot flags : Z) (file : option Z) (off caller : Z) : res mst :=
  if addr =? 0 then Abort else
  let mlen := RUP len in
  let saw := existsb (fun i => negb (Nat.eqb (pidx (fo S) i) 0)) (zrange (PAGENUM addr) (mlen / PAGE)) in
  if saw && (Z.land flags MAP_FIXED =? 0) then Abort else
  do bb0 <- find_from_root nb (fo S) (addr - 1) MMAP false ;
  do bb <-
    (if negb (Nat.eqb bb0 0) then Ok bb0
     else
       do ob <- find_from_root nb (fo S) addr MMAP false ;
       do oe <- find_from_root nb (fo S) (addr + mlen - 1) MMAP false ;
       Ok (if negb (Nat.eqb ob 0) && (Nat.eqb oe 0 || Nat.eqb ob oe) then ob else 0%nat)) ;
  do '(S1, done) <-
    (if Nat.eqb bb 0 then Ok (S, false)
     else
       let p := priv_of S bb in
       do '(q, ok) <- augment (seqs S p) addr (addr + mlen) prot flags off file caller ;
       let S1 := set_seq S p q in
       if ok && (b_end (bigs (fo S) bb) <? addr + mlen) then
         do s1 <- extend biggest dbg (fo S1) bb (addr + mlen) ;
         do _ <- asrt ((q_begin q =? b_begin (bigs s1 bb)) && (q_end q =? b_end (bigs s1 bb))) ;
         Ok (set_fo S1 s1, true)
       else Ok (S1, ok)) ;
  if done then Ok S1
  else
    do '(q, ok) <- augment seq0 addr (addr + mlen) prot flags off file caller ;
    if negb ok then Abort else
    let '(S2, p) := alloc_seq S1 q in
    (* add_mapping_sequence_bigalloc_with_seq, mmap.c:77-85 *)
    do '(s3, n) <- new_bigalloc nb biggest dbg (fo S2) (q_begin q) (q_end q - q_begin q) 0 0 MMAP ;
    Ok (set_fo S2 (set_priv s3 n p)).

(* __mmap_allocator_notify_brk, mmap.c:1517-1572, for the mapping record n
   (brk_mapping_bigalloc, 0 when not yet set). *)
Definition mmap_notify_brk (S : mst) (n : nat) (new_curbrk : Z) : res mst :=
  if Nat.eqb n 0 then Ok S else
  let old_end := b_end (bigs (fo S) n) in
  let new_end := RUP new_curbrk in
  let p := priv_of S n in
  let q := seqs S p in
  if old_end <? new_end then
    do s1 <- adjust_end biggest dbg (fo S) n new_end ;
    match q_nused q with
    | O => UB
    | Datatypes.S k =>
        let last := slot (q_maps q) k in
        do q' <-
          (if e_anon last then
             do l <- store (q_maps q) k (e_w_end last new_end) ;
             Ok (mkM (q_begin q) new_end (q_file q) (q_nused q) l)
           else
             do l <- store (q_maps q) (q_nused q) (mkE (e_end last) new_end 3 0 0 true 0) ;
             Ok (mkM (q_begin q) new_end (q_file q) (1 + q_nused q) l)) ;
        do _ <- asrt (seq_sane q') ;
        Ok (set_fo (set_seq S p q') s1)
    end
  else if new_end <? old_end then
    do q' <- delete_span q new_end (old_end - new_end) ;
    do s1 <- adjust_end biggest dbg (fo S) n new_end ;
    do _ <- asrt (seq_sane q') ;
    Ok (set_fo (set_seq S p q') s1)
  else Ok S.

(* What a client sees of an address: the sequence of the mapping found from the root, and
   the entry in it. *)
Definition query (S : mst) (a : Z) : res (option (mseq * entry)) :=
  do n <- find_from_root nb (fo S) a MMAP false ;
  if Nat.eqb n 0 then Ok None
  else let q := seqs S (priv_of S n) in
       Ok (match find_entry q a with Some e => Some (q, e) | None => None end).
End Map.

(* __mmap_allocator_notify_mprotect, mmap.c:908-911: does nothing *)
Definition notify_mprotect (S : mst) (addr len prot : Z) : res mst := Ok S.
