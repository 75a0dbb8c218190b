(* Model of sorted metadata vectors with a bitmap of starts and a shortcut vector:
   include/metavec.h:56-209.  Definitions only.  A raw record is its address and its data; a
   metadata record maps back to the raw record's address.  A bitmap is the list of its set bits. *)
From Verif Require Import Base Big_model.

(* parameters of DEFINE_META_VEC_FUNCS, metavec.h:78-80: log2 of the alignment, of the bound on
   entries, and of the shortcut scale *)
Record mvp := mkMvp { mla : Z; mlmax : Z; msc : Z }.
Record mv := mkMv { mv_recs : list (Z * Z); mv_bits : list Z; mv_short : list (Z * Z * Z) }.

(* tag_ptrcompare, metavec.h:85-88: a pointer difference returned as an int *)
Definition int32 (x : Z) : Z := let m := x mod W32 in if m <? 2 ^ 31 then m else m - W32.
Definition mcmp (a b : Z * Z) : Z := int32 (fst a - fst b).
(* qsort (C library): by insertion *)
Fixpoint minsert (x : Z * Z) (l : list (Z * Z)) : list (Z * Z) :=
  match l with [] => [x] | y :: t => if mcmp x y <=? 0 then x :: l else y :: minsert x t end.
Definition msort (l : list (Z * Z)) : list (Z * Z) := fold_right minsert [] l.

(* BITMAP_UNIT and SHORTCUT_UNIT, metavec.h:89-92 *)
Definition unit (p : mvp) : Z := Z.shiftl 64 (mla p).
(* shortcut_vec_size_bytes, metavec.h:93-100: in elements *)
Definition nshort (p : mvp) (a0 range : Z) : Z := Z.shiftr (rup (a0 + range) (unit p) - rdown a0 (unit p)) (msc p).
(* bitmap_size_bytes, metavec.h:101-108: in bits *)
Definition nbits (p : mvp) (a0 range : Z) : Z := Z.shiftr (rup (a0 + range) (unit p) - rdown a0 (unit p)) (mla p).
(* the bit set by set_bit_for_addr, metavec.h:109-130: the word there is of unsigned int *)
Definition bit_for (p : mvp) (a0 addr : Z) : Z := (Z.shiftr (addr - rdown a0 (Z.shiftl 32 (mla p))) (mla p)) mod W32.

Definition sidx_of (p : mvp) (a0 addr : Z) : Z := (Z.shiftr addr (msc p) - Z.shiftr a0 (msc p)) mod W32.
(* the shortcut vector as the ranges of elements written, newest first; unwritten ones are 0 *)
Fixpoint sget (l : list (Z * Z * Z)) (i : Z) : Z :=
  match l with [] => 0 | (lo, hi, v) :: t => if (lo <=? i) && (i <=? hi) then v else sget t i end.

(* the main loop of generate_meta, metavec.h:146-175.  [last] is the address of the last record
   used and [lw] last_written_shortcut_idx. *)
Fixpoint gen_loop (dbg : bool) (p : mvp) (a0 range cap : Z) (l : list (Z * Z)) (m : mv) (last : Z) (lw : option Z) : res (mv * option Z) :=
  match l with
  | [] => Ok (m, lw)
  | r :: t =>
      if negb (Z.of_nat (length (mv_recs m)) <? cap) then Ok (m, lw) else
      if fst r =? 0 then gen_loop dbg p a0 range cap t m last lw else
      let recs := mv_recs m ++ [r] in
      let outidx := Z.of_nat (length recs) in
      let b := bit_for p a0 (fst r) in
      if negb (b <? nbits p a0 range) then UB else
      let m1 := mkMv recs (mv_bits m ++ [b]) (mv_short m) in
      if (outidx =? 1) || negb (Z.shiftr last (msc p) =? Z.shiftr (fst r) (msc p)) then
        let first := if outidx =? 1 then 0 else (1 + Z.shiftr last (msc p) - Z.shiftr a0 (msc p)) mod W32 in
        let lastu := sidx_of p a0 (fst r) in
        do _ <- asrt dbg (first <=? lastu) ;
        if (first <=? lastu) && negb (lastu <? nshort p a0 range) then UB
        else gen_loop dbg p a0 range cap t (mkMv recs (mv_bits m1) ((first, lastu, (outidx - 1) mod 2 ^ mlmax p) :: mv_short m)) (fst r) (Some lastu)
      else gen_loop dbg p a0 range cap t m1 (fst r) lw
  end.
(* generate_meta, metavec.h:131-184 *)
Definition generate (dbg : bool) (p : mvp) (a0 range cap : Z) (raws : list (Z * Z)) : res mv :=
  do ' (m, lw) <- gen_loop dbg p a0 range cap (msort raws) (mkMv [] [] []) 0 None ;
  let from := match lw with None => 0 | Some x => x + 1 end in
  let upto := Z.shiftr range (msc p) in
  Ok (mkMv (mv_recs m) (mv_bits m) (if from <? upto then (from, upto - 1, 2 ^ mlmax p - 1) :: mv_short m else mv_short m)).

(* bitmap_count_set_l over [lo, hi) *)
Definition cnt (l : list Z) (lo hi : Z) : Z := Z.of_nat (length (filter (fun b => (lo <=? b) && (b <? hi)) l)).
(* meta_idx_le_addr, metavec.h:185-209; None is (unsigned) -1 *)
Definition idx_le (p : mvp) (a0 range : Z) (m : mv) (addr : Z) : res (option Z) :=
  let s := sidx_of p a0 addr in
  if s =? 2 ^ mlmax p - 1 then Ok None else
  if negb (s <? nshort p a0 range) then UB else
  let startidx := sget (mv_short m) s in
  match nth_error (mv_recs m) (Z.to_nat startidx) with
  | None => UB
  | Some (ea, _) =>
      if (addr <=? ea) && (startidx =? 0) then Ok None
      else if addr <? ea then Ok (Some (startidx - 1))
      else if ea =? addr then Ok (Some startidx)
      else let base := rdown a0 (unit p) in
           Ok (Some (startidx + cnt (mv_bits m) (ea - base + 1) (addr - base + 1)))
  end.
