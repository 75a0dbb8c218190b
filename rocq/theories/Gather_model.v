(* Model of how the types of allocation sites get from the sources into the table used at run time:
   tools/objdumpmeta.awk (calls in a disassembly), tools/objdumpallocs (their sorting),
   tools/gather-srcallocs.sh (sorting of source-level sites), tools/merge-allocs.sh (matching the
   two), tools/allocsites.cpp (the table), and the lookup of a type in it, src/allocsites.c:105-122
   and include/generic_malloc_index.h:776-779.  Definitions only.

   Lines of text are taken by the class that the awk script's patterns give them; fields are taken
   to have no blanks in them, which is how the shell separates them.  Diagnostics are left out. *)
From Verif Require Import Base Meta_model Allocsites_model.

(* LANG=C sort: bytes, a prefix first *)
Fixpoint str_cmp (a b : str) : comparison :=
  match a, b with
  | [], [] => Eq
  | [], _ :: _ => Lt
  | _ :: _, [] => Gt
  | x :: a', y :: b' => match x ?= y with Eq => str_cmp a' b' | c => c end
  end.

(* printf %06d of a number that is not negative *)
Fixpoint digits (k : nat) (n : Z) : str :=
  match k with O => [] | S k' => digits k' (n / 10) ++ [48 + n mod 10] end.
Fixpoint width (fuel : nat) (n : Z) : nat :=
  match fuel with O => O | S f => if n <? 10 then 1%nat else S (width f (n / 10)) end.
Definition pad (n : Z) : str := digits (Nat.max 6 (width 20 n)) n.
Definition line_cmp (a b : Z) : comparison := str_cmp (pad a) (pad b).

(* lexicographic_compare_le and so on, merge-allocs.sh:14-52 *)
Definition cle (c : comparison) : bool := match c with Gt => false | _ => true end.
Definition clt (c : comparison) : bool := match c with Lt => true | _ => false end.

(* ---- objdumpmeta.awk ---- *)
(* The first pattern that a line matches, in the script's order (36-148): the name of a file's
   format; nothing but blanks; a section's heading; file and line number; something ending in ():;
   three dots; an instruction; anything else.  Of an instruction, its address and whether it may be
   a call to an allocation function. *)
Inductive cls :=
| CHeader | CBlank | CSection | CFile (f : str) (n : Z) | CFun | CDots | CIns (addr : Z) (meta : bool) | CText.

Record aw := mkAw {
  a_state : Z;
  a_new : bool;                        (* start_new_source_fragment *)
  a_loc : option (str * Z);            (* filename_line, None if empty *)
  a_off : Z;                           (* source_offset *)
  a_meta : option (option (str * Z) * Z);   (* next_disas_line_is_meta_return_addr, with what was latched *)
  a_out : list (Z * str * Z * Z);      (* return address, file, line, next line; latest first *)
}.
Definition aw0 : aw := mkAw 0 true None 0 None [].

(* a source line: 45-53, 82-91, 115-125, 136-147 *)
Definition a_source (w : aw) : aw :=
  mkAw 1 false (a_loc w) ((if a_new w then 0 else a_off w) + 1) (a_meta w) (a_out w).

Definition question : str := [63; 63].
Definition a_line (w : aw) (c : cls) : aw :=
  match c with
  | CHeader => mkAw 0 (a_new w) (a_loc w) (a_off w) (a_meta w) (a_out w)
  | CBlank => if a_state w =? 0 then w else a_source w
  | CSection => mkAw 4 false None 0 (a_meta w) (a_out w)
  | CFile f n =>
      if (a_state w =? 4) || (a_state w =? 2)
      then mkAw (if a_state w =? 4 then 3 else 1) false (Some (f, n)) 0 (a_meta w) (a_out w)
      else a_source w
  | CFun =>
      if (a_state w =? 3) || (a_state w =? 4)
      then mkAw 2 false None 0 (a_meta w) (a_out w)
      else a_source w
  | CDots => mkAw 4 (a_new w) (a_loc w) (a_off w) (a_meta w) (a_out w)
  | CText => a_source w
  | CIns addr meta =>
      let out :=
        match a_meta w with
        | None => a_out w
        | Some (l, off) =>
            let '(f, n) := match l with Some fn => fn | None => (question, 0) end in
            (addr, f, n, n + (if off =? 0 then 1 else off)) :: a_out w
        end in
      mkAw 4 (a_new w) (a_loc w) (a_off w) (if meta then Some (a_loc w, a_off w) else None) out
  end.
Definition awk (l : list cls) : list (Z * str * Z * Z) := rev (a_out (fold_left a_line l aw0)).

(* ---- sorting ---- *)
Fixpoint ins {A} (le : A -> A -> bool) (x : A) (l : list A) : list A :=
  match l with [] => [x] | y :: r => if le x y then x :: l else y :: ins le x r end.
Fixpoint isort {A} (le : A -> A -> bool) (l : list A) : list A :=
  match l with [] => [] | x :: r => ins le x (isort le r) end.

(* a call in the binary: return address, file, line, line after *)
Record obj := mkO { o_addr : Z; o_file : str; o_lo : Z; o_hi : Z }.
(* sort -s -k5 -k6, objdumpallocs:123: from the file name to the end of the line.  What follows the
   line numbers is left out: it makes no difference to the order by file and line. *)
Definition obj_le (a b : obj) : bool :=
  match str_cmp (o_file a) (o_file b) with
  | Lt => true | Gt => false
  | Eq => match line_cmp (o_lo a) (o_lo b) with
          | Lt => true | Gt => false
          | Eq => cle (line_cmp (o_hi a) (o_hi b)) end
  end.
Definition objects (l : list cls) : list obj :=
  isort obj_le (map (fun '(a, f, lo, hi) => mkO a f lo hi) (awk l)).

(* an allocation in the sources: file, line, and the rest: function and type *)
Record src := mkS { s_file : str; s_line : Z; s_type : str }.
(* sort -k1 -k2, gather-srcallocs.sh:103, in the order [coll] of the user's locale *)
Definition src_le (coll : str -> str -> comparison) (a b : src) : bool :=
  match coll (s_file a) (s_file b) with
  | Lt => true | Gt => false
  | Eq => match coll (pad (s_line a)) (pad (s_line b)) with
          | Lt => true | Gt => false
          | Eq => cle (coll (s_type a) (s_type b)) end
  end.
Definition sources (coll : str -> str -> comparison) (l : list src) : list src := isort (src_le coll) l.

(* ---- merge-allocs.sh:62-137 ---- *)
Definition matches (s : src) (o : obj) : bool :=
  str_eqb (s_file s) (o_file o) && cle (line_cmp (o_lo o) (s_line s)) && clt (line_cmp (s_line s) (o_hi o)).
Definition skips (s : src) (o : obj) : bool :=
  clt (str_cmp (s_file s) (o_file o)) ||
  (str_eqb (s_file s) (o_file o) && clt (line_cmp (s_line s) (o_hi o))).
(* the inner loop: the source line used, if any, and the source lines left, the one kept first *)
Fixpoint merge1 (o : obj) (ss : list src) : option src * list src :=
  match ss with
  | [] => (None, [])
  | s :: r =>
      if matches s o then (Some s, ss)
      else if skips s o then merge1 o r
      else (None, ss)
  end.
Fixpoint merge (os : list obj) (ss : list src) : list (obj * option src) :=
  match os with
  | [] => []
  | o :: r => let '(m, ss') := merge1 o ss in (o, m) :: merge r ss'
  end.

(* ---- allocsites.cpp:61-101 ---- *)
(* The lines of one object file; [resolve] stands for the search for the named type in the
   debugging information, which is in a library that the repository does not contain. *)
Definition table (resolve : str -> option Z) (l : list (obj * option src)) : list (Z * Z) :=
  flat_map (fun '(a, m) => match m with
                           | None => []
                           | Some s => match resolve (s_type s) with Some t => [(a, t)] | None => [] end
                           end)
    (isort (fun x y => fst x <=? fst y) (map (fun '(o, m) => (o_addr o, m)) l)).

Definition tables_for (resolve : str -> option Z) (coll : str -> str -> comparison) (l : list cls) (ss : list src) : list (Z * Z) :=
  table resolve (merge (objects l) (sources coll ss)).

(* ---- at run time ---- *)
(* entry->uniqtype of what find_allocsite_entry_at finds; [types] are the uniqtype fields of a
   file's table *)
Definition type_at (types : file -> list Z) (s : st) (a : Z) : option Z :=
  match get_file s a, find_entry s a with
  | Some (f, _), Some (_, i) => nth_error (types f) i
  | _, _ => None
  end.
