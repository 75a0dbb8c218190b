(* Model of static-object lookup, src/allocators/static-symbol.c:259-433 and
   include/allocmeta.h:508-522, and of the tables it searches, as generated by
   tools/metavector.cpp:212-513.  Definitions only. *)
From Verif Require Import Base Big_model Allocsites_model.

(* ELF symbols: st_value and st_size *)
Record sym := mkSym { s_val : Z; s_size : Z }.
Inductive skind := KDyn | KSym | KExtra.        (* REC_DYNSYM, REC_SYMTAB, REC_EXTRASYM *)
Definition skind_eqb (a b : skind) : bool :=
  match a, b with KDyn, KDyn | KSym, KSym | KExtra, KExtra => true | _, _ => false end.
(* union sym_or_reloc_rec; its header is absent from /repo, and widths of fields are not modelled.
   A type is an address, 0 being none. *)
Inductive rec := RReloc (base size : Z) | RSym (k : skind) (idx : nat) (ty : Z).
(* struct allocs_file_metadata: load address and symbol tables *)
Record sfile := mkSF { sf_load : Z; sf_dyn : list sym; sf_sym : list sym; sf_extra : list sym }.
Definition symtab (f : sfile) (k : skind) : list sym :=
  match k with KDyn => sf_dyn f | KSym => sf_sym f | KExtra => sf_extra f end.
Definition UBYTE : Z := 8.                      (* pointer_to___uniqtype____uninterpreted_byte *)

Definition symbol (f : sfile) (k : skind) (i : nat) : res sym :=
  match nth_error (symtab f k) i with Some s => Ok s | None => UB end.
(* vaddr_from_rec, allocmeta.h:508-522 *)
Definition vaddr_of (f : sfile) (r : rec) : res Z :=
  match r with
  | RReloc b _ => Ok b
  | RSym k i _ => do s <- symbol f k i ; Ok (s_val s)
  end.
(* static-symbol.c:317-348 *)
Definition limit_of (f : sfile) (r : rec) : res Z :=
  match r with
  | RReloc b n => Ok (b + n)
  | RSym k i _ => do s <- symbol f k i ; Ok (s_val s + s_size s)
  end.
(* static-symbol.c:366-373 *)
Definition size_of (f : sfile) (r : rec) : res Z :=
  match r with
  | RReloc b n => Ok (b + n)
  | RSym k i _ => do s <- symbol f k i ; Ok (s_size s)
  end.
Definition type_of (r : rec) : Z := match r with RReloc _ _ => UBYTE | RSym _ _ t => t end.

Fixpoint vaddrs (f : sfile) (l : list rec) : res (list Z) :=
  match l with
  | [] => Ok []
  | r :: t => do v <- vaddr_of f r ; do vs <- vaddrs f t ; Ok (v :: vs)
  end.

(* What the bigalloc passed in, if any, is: a segment with its file and table, a section or symbol
   with its parent, or something else. *)
Inductive place := PSegment (f : sfile) (tab : list rec) | PSection (p : place) | PSymbol (p : place) | PElse.
Definition NBIG : Z := 32768.                   (* NBIGALLOCS, pageindex.h:62 *)

(* static-symbol.c:289-299.  [arr] is what is in each slot of big_allocations. *)
Definition segment_of (dbg : bool) (arr : Z -> place) (mb : option place) (obj : Z) : res (sfile * list rec) :=
  do p <- match mb with
          | Some p => Ok p
          | None => if PAGENUM obj <? NBIG then Ok (arr (PAGENUM obj)) else UB
          end ;
  let b := match p with PSymbol q => q | _ => p end in
  match b with
  | PSegment f t => Ok (f, t)
  | PSection (PSegment f t) => Ok (f, t)
  | _ => if dbg then Abort else UB
  end.

(* do_lookup, static-symbol.c:301-356.  Evaluating all entries' addresses, rather than those the
   search probes, is a simplification. *)
Definition do_lookup (dbg : bool) (arr : Z -> place) (obj : Z) (mb : option place) : res (option (sfile * rec)) :=
  do ' (f, tab) <- segment_of dbg arr mb obj ;
  let target := (obj - sf_load f) mod W64 in
  do ks <- vaddrs f tab ;
  match bsearch_leq ks target with
  | None => Ok None
  | Some k =>
      match nth_error tab k with
      | None => UB
      | Some r => do lim <- limit_of f r ;
                  if target >? lim then Ok None else Ok (Some (f, r))
      end
  end.

(* get_info, static-symbol.c:358-382; None is an error.  The site is the file's load site. *)
Definition get_info (dbg : bool) (arr : Z -> place) (obj : Z) (mb : option place) : res (option (Z * Z * Z)) :=
  do l <- do_lookup dbg arr obj mb ;
  match l with
  | None => Ok None
  | Some (f, r) => do v <- vaddr_of f r ; do n <- size_of f r ; Ok (Some (type_of r, sf_load f + v, n))
  end.
(* get_name, static-symbol.c:396-399: only which record it names *)
Definition get_name (dbg : bool) (arr : Z -> place) (obj : Z) : res (option rec) :=
  do l <- do_lookup dbg arr obj None ; Ok (option_map snd l).

(* ---- generating the tables ---- *)
(* a sanely described static (get_sanely_described_statics is not in /repo): its interval, how it
   is described, its index if not an extra symbol, its type *)
Record static := mkSt { t_lo : Z; t_hi : Z; t_kind : skind; t_idx : nat; t_ty : Z }.
Inductive grec := GSym (k : skind) (idx : nat) (ty : Z) | GReloc.

(* std::map::insert: no effect if the key is there *)
Fixpoint minsert (a : Z) (g : grec) (m : list (Z * grec)) : list (Z * grec) :=
  match m with
  | [] => [(a, g)]
  | (b, h) :: t => if a <? b then (a, g) :: m else if a =? b then m else (b, h) :: minsert a g t
  end.

(* generate_recs, metavector.cpp:378-400: extra symbols, numbered as they come *)
Fixpoint add_extra (ss : list static) (n : nat) (m : list (Z * grec)) : list (Z * grec) :=
  match ss with
  | [] => m
  | s :: t => if skind_eqb (t_kind s) KExtra then add_extra t (S n) (minsert (t_lo s) (GSym KExtra (S n) (t_ty s)) m)
              else add_extra t n m
  end.
(* metavector.cpp:401-420 *)
Fixpoint add_others (ss : list static) (m : list (Z * grec)) : list (Z * grec) :=
  match ss with
  | [] => m
  | s :: t => add_others t (if skind_eqb (t_kind s) KExtra then m
                            else minsert (t_lo s) (GSym (t_kind s) (t_idx s) (t_ty s)) m)
  end.
(* the conversion of a target to Elf64_Sword and back to Dwarf_Addr, metavector.cpp:281, 318 *)
Definition through_sword (x : Z) : Z :=
  let y := x mod W32 in if y <? 2 ^ 31 then y else W64 - W32 + y.
(* add_sane_reloc_intervals, metavector.cpp:305-373; the lengths it works out are not used *)
Fixpoint add_relocs (ss : list static) (targets : list Z) (m : list (Z * grec)) : list (Z * grec) :=
  match targets with
  | [] => m
  | x :: t => let a := through_sword x in
              add_relocs ss t (if existsb (fun s => (t_lo s <=? a) && (a <? t_hi s)) ss then m else minsert a GReloc m)
  end.
Definition generate (ss : list static) (targets : list Z) : list (Z * grec) :=
  add_relocs ss targets (add_others ss (add_extra ss 1 [])).

(* output_one_segment_metavec, metavector.cpp:467-508, for the segment [lo, hi) *)
Fixpoint emit (lo hi : Z) (m : list (Z * grec)) : list rec :=
  match m with
  | [] => []
  | (a, g) :: t =>
      (if (lo <=? a) && (a <? hi) then
         [match g with
          | GSym k i ty => RSym k i ty
          | GReloc => RReloc a (match t with [] => hi - a | (b, _) :: _ => b - a end)
          end]
       else []) ++ emit lo hi t
  end.
