(* Model of initial-stack lookup: src/allocators/auxv.c:23-104.  Definitions only. *)
From Verif Require Import Base.

(* What __runt_auxv_init (librunt, absent from /repo) finds: addresses, with [_term] that of a
   vector's terminating element. *)
Record auxv := mkAuxv {
  argcp : Z; argc : Z;                 (* __auxv_program_argcountp and what it points to *)
  argv : Z; argv_term : Z; env : Z; env_term : Z; aux : Z; aux_term : Z;
  strs : Z; strs_end : Z }.            (* __auxv_asciiz_start, __auxv_asciiz_end *)
Definition AUXENT : Z := 16.           (* sizeof (Elf64_auxv_t) *)
Definition PTR : Z := 8.

Inductive elt := TAux | TCharPtr | TChar.
Definition elt_size (t : elt) : Z := match t with TAux => AUXENT | TCharPtr => PTR | TChar => 1 end.
Inductive aty := TArray (e : elt) (n : Z) | TIntptr.
Definition aty_size (t : aty) : Z := match t with TArray e n => n * elt_size e | TIntptr => PTR end.

(* init_uniqtypes, auxv.c:23-35 (pointer differences are in elements) *)
Definition aux_type (a : auxv) : aty := TArray TAux ((aux_term a - aux a) / AUXENT + 1).
Definition env_type (a : auxv) : aty := TArray TCharPtr ((env_term a - env_term a) / PTR + 1).
Definition argv_type (a : auxv) : aty := TArray TCharPtr (argc a + 1).
Definition strs_type (a : auxv) : aty := TArray TChar (strs_end a - strs a).

(* get_info, auxv.c:47-104; the site is always the program's entry point.  None is
   __liballocs_err_object_of_unknown_storage. *)
Definition get_info (a : auxv) (obj : Z) : option (aty * Z * Z) :=
  if (aux a <=? obj) && (obj <=? aux_term a) then
    Some (aux_type a, aux a, ((aux_term a - aux a) / AUXENT + 1) * AUXENT)
  else if (argv a <=? obj) && (obj <=? argv_term a) then
    Some (argv_type a, argv a, ((argv_term a - argv a) / PTR + 1) * PTR)
  else if (env a <=? obj) && (obj <=? env_term a) then
    Some (env_type a, env a, ((env_term a - env a) / PTR + 1) * PTR)
  else if (strs a <=? obj) && (obj <=? strs_end a) then
    Some (strs_type a, strs a, strs_end a - strs a)
  else if (argcp a <=? obj) && (obj <=? argcp a + PTR) then
    Some (TIntptr, argcp a, PTR)
  else None.
