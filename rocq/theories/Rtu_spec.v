(* What the library relies on of its built-in types, apart from how they are set up. *)
From Verif Require Import Base Intern_model Rtu_model.

(* the type a program's own definitions give to a name: the first one *)
Definition first_named (w : rworld) (s : str) (i : nat) : Prop :=
  (exists t, nth_error w i = Some t /\ r_sym t = s) /\
  forall j t, (j < i)%nat -> nth_error w j = Some t -> r_sym t <> s.
Definition unnamed (w : rworld) (s : str) : Prop := forall t, In t w -> r_sym t <> s.

(* t' is t with nothing changed but empty related entries filled in *)
Definition filled (t t' : rt) : Prop :=
  r_sym t' = r_sym t /\ r_size t' = r_size t /\ r_kind t' = r_kind t /\
  Forall2 (fun a b => snd a = None \/ b = a) (r_rel t) (r_rel t').
(* the types of w are still there *)
Definition kept (w w' : rworld) : Prop :=
  forall i t, nth_error w i = Some t -> exists t', nth_error w' i = Some t' /\ filled t t'.

(* The built-in types: the variable, the name, size and kind, and what they refer to. *)
Definition table : list (var * str * Z * rkind * list var) :=
  [ (Vvoid, L "__uniqtype__void", 0, KVoid, []);
    (Vbyte, L "__uniqtype____uninterpreted_byte", 1, KBase 0, []);
    (Vsc, L "__uniqtype__signed_char$$8", 1, KBase 6, []);
    (Vuc, L "__uniqtype__unsigned_char$$8", 1, KBase 8, []);
    (Vul, L "__uniqtype__uint$$64", 8, KBase 7, []);
    (Vl, L "__uniqtype__int$$64", 8, KBase 5, []);
    (Vpsc, L "__uniqtype____PTR_signed_char$$8", 8, KAddr 1, [Vsc]);
    (Vppsc, L "__uniqtype____PTR___PTR_signed_char$$8", 8, KAddr 2, [Vpsc]);
    (Vauxv, L "__uniqtype__Elf64_auxv_t", 16, KComp 2, [Vul; Vul]);
    (Varr, L "__uniqtype____ARR0_signed_char$$8", UNBMAX, KArr UNBLEN, [Vsc]) ].

(* A type is as a row of the table says. *)
Definition as_said (e : env) (size : Z) (k : rkind) (rel : list var) (t : rt) : Prop :=
  r_size t = size /\ r_kind t = k /\
  forall j u, nth_error rel j = Some u -> exists x o, e u = Some x /\ nth_error (r_rel t) j = Some (o, Some x).

(* Types of the program under the four names that get a counterpart have room for it. *)
Definition roomy (w : rworld) : Prop :=
  forall t, In t w ->
    r_sym t = L "__uniqtype__signed_char$$8" \/ r_sym t = L "__uniqtype__unsigned_char$$8" \/
    r_sym t = L "__uniqtype__uint$$64" \/ r_sym t = L "__uniqtype__int$$64" -> r_rel t <> [].
