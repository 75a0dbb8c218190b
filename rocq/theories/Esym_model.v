(* Model of the extra symbol table: its making by tools/extrasyms.cpp:98-206, what the C compiler
   and assembler make of that file, its finding at load time (src/allocators/static-file.c:233-234)
   and the walk over the dynamic linker's one (allocsld/allocinstr.c:229-240).  Definitions only. *)
From Verif Require Import Base Static_model.

Definition bytes := list Z.

(* One symbol as the tool has it: an element of get_extrasyms(), which is not in /repo. *)
Record esym := mkE { e_name : option bytes; e_value : Z; e_size : Z; e_info : Z; e_other : Z }.

(* The statements of the C file for the symbols after the first (extrasyms.cpp:165-203): for each
   a string, if it has a name, written between quotes as it is; and the fields.  Numbers are taken
   to be printed and read back as they are; ELF64_ST_INFO of the two halves of st_info
   (187-192) is st_info. *)
Inductive stmt :=
| SStr (name : bytes)                               (* APPEND_STRING, 102-104 *)
| SSym (nameoff value size info other : Z).         (* ASSEMBLE_ELF64_SYM, 106-116 *)
(* stroff is an unsigned int *)
Fixpoint emit (stroff : Z) (l : list esym) : list stmt * Z :=
  match l with
  | [] => ([], stroff)
  | e :: t =>
      let nameoff := match e_name e with Some _ => stroff | None => 0 end in
      let stroff' := match e_name e with Some n => (stroff + Z.of_nat (length n) + 1) mod W32 | None => stroff end in
      let '(ss, z) := emit stroff' t in
      (match e_name e with Some n => [SStr n] | None => [] end ++
       SSym nameoff (e_value e) (e_size e) (e_info e) (e_other e) :: ss, z)
  end.

(* Reading a name back as C reads string literals: what is between quotes, adjacent literals
   being joined.  None: the file does not compile, or (backslashes) is not modelled.
   [inside]: the reader is between quotes. *)
Fixpoint clit (inside : bool) (s : bytes) : option bytes :=
  match s with
  | [] => if inside then None else Some []
  | c :: t =>
      if c =? 34 then clit (negb inside) t
      else if inside then
        if (c =? 92) || (c =? 10) then None
        else match clit true t with Some r => Some (c :: r) | None => None end
      else if c =? 32 then clit false t else None
  end.
Definition literal (name : bytes) : option bytes := clit true (name ++ [34]).

(* little-endian numbers *)
Fixpoint le (n : nat) (v : Z) : bytes := match n with O => [] | S m => v mod 256 :: le m (v / 256) end.
Fixpoint unle (b : bytes) : Z := match b with [] => 0 | c :: t => c + 256 * unle t end.

(* Assembling, 106-116: sections .extrasymtab and .extrastrtab.  Simplified: the two variables
   (100-101), each giving the first entry of its section, are put out before the statements. *)
Record secs := mkSecs { symtab_ : bytes; strtab : bytes }.
Definition sym_bytes (nameoff value size info other : Z) : bytes :=
  le 4 nameoff ++ le 1 info ++ le 1 other ++ le 2 0 ++ le 8 value ++ le 8 size.
Fixpoint assemble (l : list stmt) (s : secs) : option secs :=
  match l with
  | [] => Some s
  | SStr n :: t => match literal n with Some b => assemble t (mkSecs (symtab_ s) (strtab s ++ b ++ [0])) | None => None end
  | SSym a b c d e :: t => assemble t (mkSecs (symtab_ s ++ sym_bytes a b c d e) (strtab s))
  end.
Definition secs0 : secs := mkSecs (repeat 0 24) [0].

(* The symbols the metadata object defines: name, size (.size, 205-206) and contents. *)
Definition EXTRASYMS : bytes := [101;120;116;114;97;115;121;109;115].
Definition EXTRASYM : bytes := [101;120;116;114;97;115;121;109].
Definition EXTRASTR : bytes := [101;120;116;114;97;115;116;114].
Definition dso := list (bytes * (Z * bytes)).
(* the whole tool; the list's first element is dropped (165) and must be there (127) *)
Definition tool (l : list esym) : option dso :=
  match l with
  | [] => None
  | _ :: t =>
      let '(ss, stroff) := emit 1 t in
      match assemble ss secs0 with
      | Some s => Some [(EXTRASYMS, (24 * Z.of_nat (length l), symtab_ s)); (EXTRASTR, (stroff, strtab s))]
      | None => None
      end
  end.
Fixpoint beq (a b : bytes) : bool :=
  match a, b with [], [] => true | x :: a, y :: b => (x =? y) && beq a b | _, _ => false end.
(* dlsym *)
Fixpoint dlsym (d : dso) (n : bytes) : option (Z * bytes) :=
  match d with [] => None | (m, v) :: t => if beq m n then Some v else dlsym t n end.

(* One Elf64_Sym, at index i of a table; None outside what is there. *)
Definition slice (b : bytes) (from n : nat) : bytes := firstn n (skipn from b).
Record elfsym := mkElf { st_name : Z; st_info : Z; st_other : Z; st_shndx : Z; st_value : Z; st_size : Z }.
Definition read_sym (tab : bytes) (i : nat) : option elfsym :=
  if (24 * i + 24 <=? length tab)%nat then
    let r := slice tab (24 * i) 24 in
    Some (mkElf (unle (slice r 0 4)) (unle (slice r 4 1)) (unle (slice r 5 1)) (unle (slice r 6 2)) (unle (slice r 8 8)) (unle (slice r 16 8)))
  else None.
(* the string at an offset *)
Fixpoint cstr (b : bytes) : bytes := match b with [] => [] | c :: t => if c =? 0 then [] else c :: cstr t end.
Definition name_at (str : bytes) (off : Z) : bytes := cstr (skipn (Z.to_nat off) str).

(* static-file.c:233: the table that queries use, which is null if the symbol [asked] for is not
   there.  As in Static_model a null table is one without entries: reading it is undefined. *)
Fixpoint read_all (tab : bytes) (n : nat) : list sym :=
  match n with
  | O => []
  | S m => read_all tab m ++ match read_sym tab m with Some e => [mkSym (st_value e) (st_size e)] | None => [] end
  end.
Definition load_extra (asked : bytes) (d : dso) : list sym :=
  match dlsym d asked with Some (_, tab) => read_all tab (length tab / 24) | None => [] end.
Definition load_file (load : Z) (dyn sym_ : list sym) (d : dso) : sfile :=
  mkSF load dyn sym_ (load_extra EXTRASYM d).

(* ITERATE_SYMTAB over the extra symbols, allocinstr.c:204-209, 229-240: what the callback, which
   goes on while it answers true, is given.  Abort: no such symbol. *)
Fixpoint iterate (tab str : bytes) (cb : elfsym -> bytes -> bool) (i n : nat) : res (list (elfsym * bytes)) :=
  match n with
  | O => Ok []
  | S m => match read_sym tab i with
           | None => UB
           | Some e =>
               let nm := name_at str (st_name e) in
               if cb e nm then do l <- iterate tab str cb (S i) m ; Ok ((e, nm) :: l) else Ok [(e, nm)]
           end
  end.
Definition walk_extra (d : dso) (cb : elfsym -> bytes -> bool) : res (list (elfsym * bytes)) :=
  match dlsym d EXTRASYMS, dlsym d EXTRASTR with
  | Some (z, tab), Some (_, str) => iterate tab str cb 0 (Z.to_nat (z / 24))
  | _, _ => Abort
  end.
