(* Model of how the loader redirects the dynamic linker's own allocation functions:
   allocsld/allocinstr.c:57-184 (prologue_get_first_non_displaced, write_monopoline_and_detour),
   204-209, 240 and 523-569 (ITERATE_SYMTAB, instr_cb), and
   allocsld/asmutil.h:76-121 (apply_one_reloc, read_one_relocated_field, memcpy_and_relocate); and
   of how it redirects _dl_debug_state and renames the interpreter, allocsld/chain.c:116-155 and
   222-233.  Definitions only.

   Memory is a function from addresses to bytes.  Addresses are taken not to wrap around.  Messages
   are left out. *)
From Verif Require Import Base Meta_model.

Definition mem := Z -> Z.
(* little-endian, as x86-64 is *)
Definition get4 (m : mem) (a : Z) : Z :=
  m a + 256 * m (a + 1) + 65536 * m (a + 2) + 16777216 * m (a + 3).
Definition get8 (m : mem) (a : Z) : Z := get4 m a + 4294967296 * get4 m (a + 4).
Definition put (m : mem) (a n v : Z) : mem :=
  fun x => if (a <=? x) && (x <? a + n) then (v / 256 ^ (x - a)) mod 256 else m x.
(* memcpy; of overlapping ranges it is undefined *)
Definition copy (m : mem) (dst src n : Z) : res mem :=
  if (dst <? src + n) && (src <? dst + n) then UB
  else Ok (fun x => if (dst <=? x) && (x <? dst + n) then m (src + (x - dst)) else m x).

(* int32_t of a 32-bit word *)
Definition sext (x : Z) : Z := if x <? 2 ^ 31 then x else x - 2 ^ 32.

Definition R_64 : Z := 1.
Definition R_PC32 : Z := 2.
Definition R_32 : Z := 10.
Definition R_32S : Z := 11.
Definition R_TPOFF32 : Z := 23.

(* apply_one_reloc, asmutil.h:76-93; [s] is the only symbol's address.  The 32S case adds ints; the sum
   is taken to wrap around. *)
Definition apply_reloc (m : mem) (tgt ty s a : Z) : res mem :=
  if ty =? R_PC32 then Ok (put m tgt 4 ((s - tgt + a) mod W64))
  else if ty =? R_64 then Ok (put m tgt 8 ((s + a) mod W64))
  else if ty =? R_32 then Ok (put m tgt 4 ((s + a) mod W64))
  else if ty =? R_32S then Ok (put m tgt 4 ((sext (s mod 2 ^ 32) + sext (a mod 2 ^ 32)) mod W64))
  else if ty =? R_TPOFF32 then Ok (put m tgt 4 ((s + a) mod W64))
  else Abort.
(* read_one_relocated_field, asmutil.h:95-111.  Note that nothing is sign-extended. *)
Definition read_reloc (m : mem) (tgt ty : Z) : res Z :=
  if ty =? R_PC32 then Ok ((tgt + get4 m tgt) mod W64)
  else if ty =? R_64 then Ok (get8 m tgt)
  else if ty =? R_32 then Ok (get4 m tgt)
  else if ty =? R_32S then Ok (get4 m tgt)
  else if ty =? R_TPOFF32 then Ok (get4 m tgt)
  else Abort.

(* struct relocatable_field_info and decoded_insn_info, as far as they are used; libsystrap is not
   part of the repository.  Offsets are in bytes (fieldoff_nbits / 8); type 0 is no field. *)
Record field := mkF { f_off : Z; f_type : Z }.
Record insn := mkI { i_len : Z; i_f0 : field; i_f1 : field }.

Definition CLOBBER : Z := 5.           (* NBYTES_TO_CLOBBER *)
Definition MAXFIELDS : nat := 4.

(* memcpy_and_relocate of "jmp 0" with its PC32 relocation, asmutil.h:112-121 and
   allocinstr.c:144-150 and 168-174: opcode 0xe9, then the displacement *)
Definition put_jump (m : mem) (at_ to : Z) : res mem :=
  apply_reloc (put m at_ 5 0xe9) (at_ + 1) R_PC32 to (-4).

Section Detour.
(* the decoder: memory, address, limit *)
Variable decode : mem -> Z -> Z -> insn.

(* MAYBE_APPEND_ONE_FIELD, allocinstr.c:62-66 *)
Definition append (fs : list (Z * field)) (at_ : Z) (f : field) : list (Z * field) :=
  if negb (f_type f =? 0) && Nat.ltb (length fs) MAXFIELDS then fs ++ [(at_, f)] else fs.

(* prologue_get_first_non_displaced, allocinstr.c:57-85: bytes displaced, and the fields in them with
   their instructions' offsets; None for a null pointer *)
Fixpoint prologue (fuel : nat) (m : mem) (func limit nb : Z) (fs : list (Z * field))
    : res (option (Z * list (Z * field))) :=
  if nb <? CLOBBER then
    match fuel with
    | O => Fuel
    | S fuel' =>
        let i := decode m (func + nb) limit in
        if i_len i =? 0 then Ok None
        else prologue fuel' m func limit (nb + i_len i) (append (append fs nb (i_f0 i)) nb (i_f1 i))
    end
  else Ok (Some (nb, fs)).

(* allocinstr.c:132-143 *)
Fixpoint relocate (m : mem) (func tramp : Z) (fs : list (Z * field)) : res mem :=
  match fs with
  | [] => Ok m
  | (o, f) :: r =>
      do s <- read_reloc m (func + (o + f_off f)) (f_type f) ;
      do m1 <- apply_reloc m (tramp + (o + f_off f)) (f_type f) s 0 ;
      relocate m1 func tramp r
  end.

(* write_monopoline_and_detour, allocinstr.c:103-184: the memory, and the end of the trampoline.  With
   a null pointer from the decoder, the number of bytes is minus the function's address and the
   fields are uninitialised.  The buffer's limit is not used. *)
Definition detour (m : mem) (func limit dfunc slot tramp : Z) : res (mem * Z) :=
  do p <- prologue 5 m func limit 0 [] ;
  match p with
  | None => UB
  | Some (n, fs) =>
      do m1 <- copy m tramp func n ;
      do m2 <- relocate m1 func tramp fs ;
      do m3 <- put_jump m2 (tramp + n) (func + n) ;
      let m4 := put m3 slot 8 tramp in
      do m5 <- put_jump m4 func dfunc ;
      Ok (m5, tramp + n + 5)
  end.

(* A symbol, as far as instr_cb uses it: address, size, and which of the four functions its name
   makes it: that function's detour and slot. *)
Record lsym := mkLs { l_addr : Z; l_size : Z; l_kind : option (Z * Z) }.

(* instr_cb over a table, allocinstr.c:204-209 and 523-569.  The pages from the
   function to five bytes on are made writable and then executable. *)
Fixpoint instrument (l : list lsym) (m : mem) (next : Z) : res (mem * Z) :=
  match l with
  | [] => Ok (m, next)
  | y :: r =>
      match l_kind y with
      | None => instrument r m next
      | Some (d, slot) =>
          do '(m1, next1) <- detour m (l_addr y) (l_addr y + l_size y) d slot next ;
          instrument r m1 next1
      end
  end.
End Detour.

(* The decoder as it is called: the call is commented out (allocinstr.c:75), so nothing is decoded. *)
Definition as_built : mem -> Z -> Z -> insn := fun _ _ _ => mkI 0 (mkF 0 0) (mkF 0 0).

(* chain_dl_debug_state_function, chain.c:222-233, the writing: page_size bytes from the start of
   the function's page are made writable; [w] says what else is.  movabs $to, %rax; jmpq *%rax *)
Definition DSTATE : Z := 12.
Definition dl_state (m : mem) (w : Z -> bool) (f to : Z) : res mem :=
  let page := RDOWN f in
  let w1 x := ((page <=? x) && (x <? page + PAGE)) || w x in
  if forallb (fun k => w1 (f + Z.of_nat k)) (seq 0 (Z.to_nat DSTATE)) then
    let m1 := put m f 2 0xb848 in
    apply_reloc (put m1 (f + 10) 2 0xe0ff) (f + 2) R_64 to 0
  else UB.

(* A program header as far as fix_link_map_paths reads it. *)
Inductive pkind := Phdr | Interp | Pother.
Record ph := mkPh { p_kind : pkind; p_vaddr : Z; p_filesz : Z; p_writable : bool }.
Fixpoint last_of (f : ph -> option Z) (l : list ph) (d : option Z) : option Z :=
  match l with
  | [] => d
  | p :: r => last_of f r (match f p with Some v => Some v | None => d end)
  end.
(* the second loop: chain.c:135-148 *)
Fixpoint find_interp (base : Z) (l : list ph) (d : Z * Z) : res (Z * Z) :=
  match l with
  | [] => Ok d
  | p :: r =>
      match p_kind p with
      | Interp => if p_writable p then find_interp base r ((base + p_vaddr p) mod W64, p_filesz p) else Abort
      | _ => find_interp base r d
      end
  end.
(* the bytes of a string and its terminator *)
Fixpoint put_str (m : mem) (a : Z) (s : str) : mem :=
  match s with [] => put m a 1 0 | c :: r => put_str (put m a 1 c) (a + 1) r end.

(* fix_link_map_paths, chain.c:116-155, when the loader was requested by the program rather than
   run itself; [at_] is where the program headers are.  A refusal exits. *)
Definition fix_path (m : mem) (at_ : Z) (l : list ph) (path : str) : res mem :=
  if at_ =? 0 then Abort
  else
    match last_of (fun p => match p_kind p with Phdr => Some ((at_ - p_vaddr p) mod W64) | _ => None end) l None with
    | None => Abort
    | Some base =>
        do '(a, sz) <- find_interp base l (0, 0) ;
        if a =? 0 then Abort
        else if sz <? len path + 1 then Abort
        else Ok (put_str m a path)
    end.
