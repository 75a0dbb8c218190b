(* Specification: symbols of types, their names, and the types of a library. *)
From Coq Require Import String Ascii.
From Verif Require Import Base Meta_spec Tname_model.

(* The symbol of a type: a name, with or without a code of eight hexadecimal digits. *)
Definition hexdig (c : Z) : Prop := In c (text "0123456789abcdef").
Definition is_code (c : list Z) : Prop := length c = 8%nat /\ forall d, In d c -> hexdig d.
Inductive symbol_of (name : list Z) : option (list Z) -> list Z -> Prop :=
| sym_plain : symbol_of name None (text "__uniqtype__" ++ name)
| sym_code c : is_code c -> symbol_of name (Some c) (text "__uniqtype_" ++ c ++ text "_" ++ name).

(* a string begins or ends with another *)
Definition begins (p s : list Z) : Prop := exists r, s = p ++ r.
Definition ends (p s : list Z) : Prop := exists r, s = r ++ p.

(* calling a function on each of a list until it answers other than 0 *)
Inductive calls {A : Type} (cb : A -> Z -> A * Z) : A -> list Z -> A -> Z -> Prop :=
| calls_done a : calls cb a [] a 0
| calls_stop a u r a' v : cb a u = (a', v) -> v <> 0 -> calls cb a (u :: r) a' v
| calls_next a u r a' a'' v : cb a u = (a', 0) -> calls cb a' r a'' v -> calls cb a (u :: r) a'' v.

(* the string at an offset of a string table *)
Definition string_at (tab : list Z) (off : Z) (s : list Z) : Prop :=
  exists pre post, tab = pre ++ s ++ 0 :: post /\ off = Z.of_nat (length pre) /\ forall c, In c s -> c <> 0.

(* The symbols that define types: objects defined, named __uniqty... but not ..._subobj_names, and
   with sane contents. *)
Section Types.
Variables (sane : Z -> bool) (tab : list Z) (load : Z).
Definition wanted (p : sym) : Prop :=
  st_object p = true /\ st_undef p = false /\
  exists s, string_at tab (st_name p) s /\
    begins (text "__uniqty") s /\ ~ ends (text "_subobj_names") s /\ sane (load + st_value p) = true.
(* every object defined has a name; a type's does not start within the first few bytes *)
Definition named (p : sym) : Prop :=
  st_object p = true -> st_undef p = false ->
  exists s, string_at tab (st_name p) s /\ 0 < st_name p /\
    (begins (text "__uniqty") s -> 13 <= st_name p + Z.of_nat (length s)).
(* the types of the symbols wanted, in order *)
Inductive types_of : list sym -> list Z -> Prop :=
| to_nil : types_of [] []
| to_skip p l us : ~ wanted p -> types_of l us -> types_of (p :: l) us
| to_take p l us : wanted p -> types_of l us -> types_of (p :: l) (load + st_value p :: us).
End Types.
