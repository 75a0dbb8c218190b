(* Model of packed sequences: src/allocators/packed-seq.c:51-116, 211-468.  Definitions only.
   The bitmap operations are librunt's, absent from /repo; a bitmap is its number of words and
   the list of its set bits. *)
From Verif Require Import Base Big_model.

(* struct packed_sequence_family, packed-seq.c:78-87.  [mwidths]: the widths of type_idx,
   size_nalign and size_delta_nbytes in the family's metavector records (51-62), if it has a
   metavector.  [enum] is the enumerate function over the sequence's contents: size and type of
   the element at a position. *)
Record fam := mkFam { la : Z; mwidths : option (Z * Z * Z); types : list Z; enum : Z -> option (Z * Z) }.
Definition rec16 := Some (4, 9, 3).
Definition rec32 := Some (10, 18, 4).
(* struct packed_sequence, allocmeta.h:567-586 *)
Record seq := mkSeq { cached : Z; nwords : Z; bits : list Z; mv : list (Z * Z * Z) }.
Definition seq0 : seq := mkSeq 0 0 [] [].
Definition align (f : fam) : Z := 2 ^ la f.

(* find_idx, packed-seq.c:211-218 *)
Fixpoint find_idx (i : Z) (u : Z) (l : list Z) : Z :=
  match l with [] => W32 - 1 | t :: r => if t =? u then i else find_idx (i + 1) u r end.

Definition entry_for (f : fam) (cur cend cnext ty : Z) : list (Z * Z * Z) :=
  match mwidths f with
  | Some (w1, w2, w3) => [(find_idx 0 ty (types f) mod 2 ^ w1, (Z.shiftr (cnext - cur) (la f)) mod 2 ^ w2, (cnext - cend) mod 2 ^ w3)]
  | None => []
  end.

(* the loop of ensure_cached_up_to, packed-seq.c:255-299.  A bit beyond the bitmap is UB. *)
Fixpoint cache_loop (fuel : nat) (f : fam) (beg base target cur : Z) (s : seq) : res seq :=
  match fuel with
  | O => Fuel
  | S k =>
      match enum f cur with
      | None => Ok s
      | Some (sz, ty) =>
          let cend := cur + sz in
          let cnext := rup cend (align f) in
          let bit := Z.shiftr (cur - base) (la f) in
          if bit <? nwords s * 64 then
            let s' := mkSeq (cnext - beg) (nwords s) (bits s ++ [bit]) (mv s ++ entry_for f cur cend cnext ty) in
            if target <=? cend then Ok s' else cache_loop k f beg base target cnext s'
          else UB
      end
  end.

(* ensure_cached_up_to, packed-seq.c:227-302 *)
Definition divup (a b : Z) : Z := (a + (b - 1)) / b.
Definition ensure (dbg : bool) (f : fam) (beg en : Z) (s : seq) (offset : Z) : res seq :=
  do s' <- (if cached s <? offset then
              let base := rdown beg (align f) in
              let target := beg + (Z.min (en - beg) (Z.max ((2 * cached s) mod W32) offset)) mod W32 in
              let nw := divup (divup (target + 1 - base) (align f)) 64 in
              cache_loop (S (Z.to_nat (en - beg))) f beg base target (beg + cached s)
                (mkSeq (cached s) (if nwords s <? nw then nw else nwords s) (bits s) (mv s))
            else Ok s) ;
  do _ <- asrt dbg (offset <=? cached s') ; Ok s'.

(* bitmap_rfind_first_set_leq_l, bitmap_find_first_set1_geq_l, bitmap_count_set_l *)
Definition rfind_leq (l : list Z) (q : Z) : option Z :=
  fold_left (fun m b => if b <=? q then match m with None => Some b | Some x => Some (Z.max x b) end else m) l None.
Definition find_geq (l : list Z) (q : Z) : option Z :=
  fold_left (fun m b => if q <=? b then match m with None => Some b | Some x => Some (Z.min x b) end else m) l None.
Definition count_set (l : list Z) (hi : Z) : nat := length (filter (fun b => b <? hi) l).

(* get_info, packed-seq.c:304-402: type, base and size, before array types are given a length.
   With no metavector, line 377 shifts by -1, which is UB. *)
Definition get_info (dbg : bool) (f : fam) (beg en : Z) (s : seq) (obj : Z) : res (seq * option (Z * Z * Z)) :=
  let off := (obj - beg) mod W32 in
  do s' <- ensure dbg f beg en s (off + 1) ;
  let base := rdown beg (align f) in
  match rfind_leq (bits s') (Z.shiftr (beg + off - base) (la f)) with
  | None => Ok (s', None)
  | Some idx =>
      match mwidths f with
      | None => UB
      | Some _ =>
          match nth_error (mv s') (count_set (bits s') idx) with
          | None => UB
          | Some (ti, na, d) =>
              match nth_error (types f) (Z.to_nat ti) with
              | None => UB
              | Some t => Ok (s', Some (t, base + Z.shiftl idx (la f), Z.shiftl na (la f) - d))
              end
          end
      end
  end.

(* walk_allocations, packed-seq.c:404-468: what each call of the callback gets: object, type, size
   and coordinate.  The range ends are optional; [cb] is what the callback returns. *)
Record visit := mkV { v_obj : Z; v_type : Z; v_size : Z; v_coord : Z }.
Fixpoint walk_loop (fuel : nat) (f : fam) (en base : Z) (s : seq) (rend : option Z) (n : nat) (cb : visit -> Z)
    (coord : Z) (cur : option Z) (acc : list visit) : res (list visit * Z) :=
  match fuel with
  | O => Fuel
  | S k =>
      match cur with
      | None => Ok (acc, 0)
      | Some b =>
          let coord' := coord + 1 in
          let obj := base + Z.shiftl b (la f) in
          if match rend with Some e => e <=? obj | None => false end then Ok (acc, 0) else
          let next := find_geq (bits s) (b + 1) in
          let padded := match next with None => en - obj | Some b' => Z.shiftl (b' - b) (la f) end in
          do ' (t, sz) <-
            match mwidths f with
            | Some _ => match nth_error (mv s) n with
                        | None => UB
                        | Some (ti, _, d) => match nth_error (types f) (Z.to_nat ti) with
                                             | None => UB
                                             | Some t => Ok (t, padded - d)
                                             end
                        end
            | None => match nth_error (types f) 0 with None => UB | Some t => Ok (t, padded) end
            end ;
          let v := mkV obj t sz coord' in
          let ret := cb v in
          if negb (ret =? 0) then Ok (acc ++ [v], ret)
          else walk_loop k f en base s rend n cb coord' next (acc ++ [v])
      end
  end.
Definition walk (dbg : bool) (f : fam) (beg en : Z) (s : seq) (rbeg rend : option Z) (cb : visit -> Z) : res (seq * (list visit * Z)) :=
  do s' <- ensure dbg f beg en s ((match rend with Some e => e | None => en end) - beg) ;
  let base := rdown beg (align f) in
  let start := Z.shiftr (match rbeg with Some b => b | None => beg end - base) (la f) in
  let pre := count_set (bits s') start in
  do r <- walk_loop (S (S (length (bits s')))) f en base s' rend pre cb (Z.of_nat pre) (Some start) [] ;
  Ok (s', r).

(* histories of use *)
Inductive pop := PQuery (obj : Z) | PWalk (rbeg rend : option Z) (cb : visit -> Z).
Definition pstep (dbg : bool) (f : fam) (beg en : Z) (s : seq) (o : pop) : res seq :=
  match o with
  | PQuery obj => do ' (s', _) <- get_info dbg f beg en s obj ; Ok s'
  | PWalk b e cb => do ' (s', _) <- walk dbg f beg en s b e cb ; Ok s'
  end.
Fixpoint prun (dbg : bool) (f : fam) (beg en : Z) (s : seq) (h : list pop) : res seq :=
  match h with [] => Ok s | o :: h' => do s' <- pstep dbg f beg en s o ; prun dbg f beg en s' h' end.

(* ---- the one existing family: null-terminated strings, packed-seq.c:88-116 ---- *)
(* enumerate_string8_nulterm over memory [m]: the length includes the null, if there is one *)
Fixpoint str_len (fuel : nat) (m : Z -> Z) (pos en : Z) : Z :=
  match fuel with
  | O => 0
  | S k => if pos =? en then 0 else if m pos =? 0 then 1 else 1 + str_len k m (pos + 1) en
  end.
Definition enum_string8 (m : Z -> Z) (en : Z) (pos : Z) : option (Z * Z) :=
  if pos =? en then None else Some (str_len (Z.to_nat (en - pos)) m pos en, 1).
Definition string8 (m : Z -> Z) (en : Z) : fam := mkFam 0 None [1] (enum_string8 m en).
