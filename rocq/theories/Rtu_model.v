(* Model of the built-in types: src/rt-uniqtypes.c:60-217 (init_rt_uniqtypes_obj).  Definitions
   only.  The process's types are a list, as in Intern_model, here with what each has for related
   types; dlalloc and dlbind append to it; dlsym finds the first of a name. *)
From Verif Require Import Base Intern_model.

Inductive rkind := KVoid | KBase (enc : Z) | KAddr (level : Z) | KComp (n : Z) | KArr (len : Z).
(* r_rel: the related[] array as long as it was allocated, each entry an offset and a type or null *)
Record rt := mkRt { r_sym : str; r_size : Z; r_kind : rkind; r_rel : list (Z * option nat) }.
Definition rworld := list rt.

Fixpoint rfind (s : str) (w : rworld) (i : nat) : option nat :=
  match w with [] => None | t :: w' => if eqs (r_sym t) s then Some i else rfind s w' (S i) end.
Definition rdlsym (w : rworld) (s : str) : option nat := rfind s w 0.

(* the pointer_to_... variables *)
Inductive var := Vvoid | Vbyte | Vsc | Vuc | Vul | Vl | Vpsc | Vppsc | Vauxv | Varr | Vintptr.
Definition veqb (a b : var) : bool :=
  match a, b with
  | Vvoid, Vvoid | Vbyte, Vbyte | Vsc, Vsc | Vuc, Vuc | Vul, Vul | Vl, Vl | Vpsc, Vpsc | Vppsc, Vppsc
  | Vauxv, Vauxv | Varr, Varr | Vintptr, Vintptr => true
  | _, _ => false
  end.
Definition env := var -> option nat.            (* None: null *)
Definition set_v (e : env) (v : var) (x : option nat) : env := fun u => if veqb u v then x else e u.

Inductive rstep :=
(* p = dlsym(look); if (!p) { CREATE(p, bind, nrel, {size, kind}); p->related[j] = { t: rel[j] } ... }.
   No offset is ever given. *)
| Ensure (v : var) (look bind_ : str) (size : Z) (k : rkind) (nrel : nat) (rel : list var)
(* if (!a->related[0].un.t.ptr) a->related[0] = { t: b } *)
| Fill (a b : var)
(* p = dlsym(look), and nothing more *)
| Look (v : var) (look : str).

Definition relate (e : env) (nrel : nat) (rel : list var) : list (Z * option nat) :=
  map (fun v => (0, e v)) rel ++ repeat (0, None) (nrel - length rel).

Definition set_rel0 (t : rt) (x : option nat) : rt := mkRt (r_sym t) (r_size t) (r_kind t) ((0, x) :: tl (r_rel t)).
Fixpoint upd_nth (w : rworld) (i : nat) (t : rt) : rworld :=
  match w, i with [], _ => [] | _ :: w', O => t :: w' | x :: w', S j => x :: upd_nth w' j t end.

Definition rstep1 (st_ : rworld * env) (s : rstep) : res (rworld * env) :=
  let (w, e) := st_ in
  match s with
  | Ensure v look b size k nrel rel =>
      match rdlsym w look with
      | Some i => Ok (w, set_v e v (Some i))
      | None => Ok (w ++ [mkRt b size k (relate e nrel rel)], set_v e v (Some (length w)))
      end
  | Fill a b =>
      match e a with
      | None => UB
      | Some i =>
          match nth_error w i with
          | None => UB
          | Some t =>
              match r_rel t with
              | [] => UB
              | (_, Some _) :: _ => Ok (w, e)
              | (_, None) :: _ => Ok (upd_nth w i (set_rel0 t (e b)), e)
              end
          end
      end
  | Look v look => Ok (w, set_v e v (rdlsym w look))
  end.
Fixpoint rrun (l : list rstep) (x : rworld * env) : res (rworld * env) :=
  match l with [] => Ok x | s :: l' => do x' <- rstep1 x s ; rrun l' x' end.

(* rt-uniqtypes.c:77-212, in order; DW_ATE_signed_char 6, DW_ATE_unsigned_char 8, DW_ATE_unsigned 7,
   DW_ATE_signed 5 *)
Definition make_byte := Ensure Vbyte (L "__uniqtype____uninterpreted_byte") (L "__uniqtype____uninterpreted_byte") 1 (KBase 0) 1 [].
Definition make_arr := Ensure Varr (L "__uniqtype____ARR0_signed_char$$8") (L "__uniqtype____ARR0_signed_char") UNBMAX (KArr UNBLEN) 2 [Vsc].
Definition steps : list rstep :=
  [ Ensure Vvoid (L "__uniqtype__void") (L "__uniqtype__void") 0 KVoid 1 [];
    make_byte;
    Ensure Vsc (L "__uniqtype__signed_char$$8") (L "__uniqtype__signed_char$$8") 1 (KBase 6) 1 [];
    Ensure Vuc (L "__uniqtype__unsigned_char$$8") (L "__uniqtype__unsigned_char$$8") 1 (KBase 8) 1 [];
    make_byte;
    Fill Vuc Vsc; Fill Vsc Vuc;
    Ensure Vul (L "__uniqtype__uint$$64") (L "__uniqtype__uint$$64") 8 (KBase 7) 1 [];
    Ensure Vl (L "__uniqtype__int$$64") (L "__uniqtype__int$$64") 8 (KBase 5) 1 [];
    Fill Vul Vl; Fill Vl Vul;
    Ensure Vpsc (L "__uniqtype____PTR_signed_char$$8") (L "__uniqtype____PTR_signed_char$$8") 8 (KAddr 1) 1 [Vsc];
    Ensure Vppsc (L "__uniqtype____PTR___PTR_signed_char$$8") (L "__uniqtype____PTR___PTR_signed_char$$8") 8 (KAddr 2) 1 [Vpsc];
    Ensure Vauxv (L "__uniqtype__Elf64_auxv_t") (L "__uniqtype__Elf64_auxv_t") 16 (KComp 2) 2 [Vul; Vul];
    make_arr;
    Look Vintptr (L "__uniqtype__intptr_t") ].
Definition no_env : env := fun _ => None.
Definition rt_init (w : rworld) : res (rworld * env) := rrun steps (w, no_env).

(* UNIQTYPE_ULTIMATE_POINTEE_TYPE as used by __liballocs_get_or_create_address_type
   (uniqtype-util.c:164-173): related[1] of a pointer type *)
Definition ultimate (w : rworld) (i : nat) : res (option nat) :=
  match nth_error w i with
  | Some t => match r_kind t with
              | KAddr _ => match nth_error (r_rel t) 1 with Some (_, x) => Ok x | None => UB end
              | _ => Ok (Some i)
              end
  | None => UB
  end.
