(* Model of how types and their names are looked up: src/meta-dso-util.c:24-60
   (__liballocs_typestr_to_uniqtype) and 181-272 (__liballocs_iterate_types), and
   src/uniqtype-util.c:389-419 (__liballocs_uniqtype_symbol_name, __liballocs_uniqtype_name).
   Definitions only.

   A string is the list of its bytes, without the terminator. *)
From Coq Require Import String Ascii.
From Verif Require Import Base Big_model Meta_model.

Definition PREFIX : str := of_string "__uniqtype_".

(* the rest of [s] after [p], if [s] begins so: strncmp (s, p, strlen p) == 0 *)
Fixpoint strip (p s : str) : option str :=
  match p, s with
  | [], _ => Some s
  | x :: p', y :: s' => if x =? y then strip p' s' else None
  | _ :: _, [] => None
  end.

(* %d of sscanf: white space, a sign, decimal digits.  None: no match.  A number that an int cannot
   hold makes the behaviour undefined. *)
Definition is_space (c : Z) : bool := (c =? 32) || ((9 <=? c) && (c <=? 13)).
Definition is_digit (c : Z) : bool := (48 <=? c) && (c <=? 57).
Fixpoint skip_spaces (s : str) : str :=
  match s with c :: r => if is_space c then skip_spaces r else s | [] => [] end.
Fixpoint digits (s : str) (acc : Z) : Z :=
  match s with c :: r => if is_digit c then digits r (10 * acc + (c - 48)) else acc | [] => acc end.
Definition scan_int (s : str) : res (option Z) :=
  let s1 := skip_spaces s in
  let '(neg, s2) := match s1 with
                    | c :: r => if c =? 45 then (true, r) else if c =? 43 then (false, r) else (false, s1)
                    | [] => (false, s1)
                    end in
  match s2 with
  | c :: _ =>
      if is_digit c then
        let v := if neg then - digits s2 0 else digits s2 0 in
        if (- 2 ^ 31 <=? v) && (v <? 2 ^ 31) then Ok (Some v) else UB
      else Ok None
  | [] => Ok None
  end.

(* __liballocs_typestr_to_uniqtype, meta-dso-util.c:26-60.  [dl]: dlsym in the default scope (0: no
   such symbol).  The pointer arithmetic of line 46 is undefined past the terminator and before
   the start; strncat's terminator is not counted in its limit. *)
Section Lookup.
Variables (dbg : bool) (dl : str -> Z).
Notation asrt := (asrt dbg).
Definition typestr (arg : option str) : res Z :=
  match arg with
  | None => Ok 0
  | Some s =>
      do _ <- asrt (match strip PREFIX s with Some _ => true | None => false end) ;
      match strip PREFIX s with
      | None => Ok (dl s)
      | Some rest =>
          do n <- scan_int rest ;
          match n with
          | None => Ok (dl s)
          | Some h =>
              do _ <- asrt ((0 <? h) && (h <? 4096)) ;
              if (11 + h <? 0) || (len rest <? h) then UB
              else
                do t <- strncat PREFIX (skipn (Z.to_nat (11 + h)) s) (4096 - 11) ;
                Ok (dl t)
          end
      end
  end.
End Lookup.

(* __liballocs_uniqtype_symbol_name, uniqtype-util.c:389-398.  [dladdr a]: start and name of the
   symbol that a falls in. *)
Definition symbol_name (dladdr : Z -> option (Z * str)) (u : Z) : option str :=
  if u =? 0 then None
  else match dladdr (u + 1) with
       | Some (a, n) => if a =? u then Some n else None
       | None => None
       end.

(* __liballocs_uniqtype_name, uniqtype-util.c:400-419.  A pointer past the terminator is undefined
   (to use). *)
Definition type_name (dladdr : Z -> option (Z * str)) (u : Z) : res str :=
  if u =? 0 then Ok (of_string "(no type)")
  else match symbol_name dladdr u with
       | None => Ok (of_string "(unnamed type)")
       | Some s =>
           match strip (of_string "__uniqtype__") s with
           | Some r => Ok r
           | None =>
               match strip PREFIX s with
               | Some r => if len r <? 9 then UB else Ok (skipn 9 r)
               | None => Ok s
               end
           end
       end.

(* An Elf64_Sym as far as it is read, with STT_OBJECT and SHN_UNDEF decided. *)
Record sym := mkSym { st_name : Z; st_object : bool; st_undef : bool; st_value : Z }.

(* the string at an offset of the string table, to the first null byte (or the end) *)
Fixpoint to_null (s : str) : str :=
  match s with c :: r => if c =? 0 then [] else c :: to_null r | [] => [] end.
Definition c_str (dynstr : str) (off : Z) : str := to_null (skipn (Z.to_nat off) dynstr).
Definition NAMES : str := of_string "_subobj_names".

(* the loop's condition, meta-dso-util.c:243-251.  strncmp of a null pointer is undefined, as is
   reading before the string table. *)
Definition is_type (dynstr : str) (p : sym) : res bool :=
  if negb (st_object p) then Ok false
  else if st_undef p then Ok false
  else if st_name p =? 0 then UB
  else
    let name := c_str dynstr (st_name p) in
    match strip (of_string "__uniqty") name with
    | None => Ok false
    | Some _ =>
        let at_ := st_name p + len name - 13 in
        if at_ <? 0 then UB
        else Ok (negb (str_eqb NAMES (c_str dynstr at_)))
    end.

Section Iterate.
Context {A : Type}.
Variable cb : A -> Z -> A * Z.       (* the callback: state, type to state, answer *)
Variable sane : Z -> bool.           (* UNIQTYPE_IS_SANE *)
Variables (dynstr : str) (load : Z).

(* the loop, meta-dso-util.c:241-263 *)
Fixpoint each_sym (l : list sym) (a : A) : res (A * Z) :=
  match l with
  | [] => Ok (a, 0)
  | p :: r =>
      do b <- is_type dynstr p ;
      if b && sane (load + st_value p) then
        let '(a1, v) := cb a (load + st_value p) in
        if negb (v =? 0) then Ok (a1, v) else each_sym r a1
      else each_sym r a
  end.
End Iterate.

(* __liballocs_iterate_types, meta-dso-util.c:181-272: the guards, and the loop.  [symtab], [hash]:
   the addresses found in the dynamic section (hash 0 if absent).  That the table starts with a
   null symbol is asserted; that there is a string table too. *)
Definition MINUSER : Z := 4194304.    (* MINIMUM_USER_ADDRESS *)
Definition iterate {A} (dbg : bool) (cb : A -> Z -> A * Z) (sane : Z -> bool) (dynstr : str) (load symtab hash : Z)
    (null_first : bool) (l : list sym) (a : A) : res (A * Z) :=
  if (load =? 0) || (2 ^ 63 <=? load) then Ok (a, 0)
  else
    do _ <- asrt dbg (negb (symtab =? 0)) ;
    if (symtab =? 0) || (2 ^ 63 <=? symtab) then Ok (a, 0)
    else if 2 ^ 63 <=? hash then Ok (a, 0)
    else
      do _ <- asrt dbg null_first ;
      if (symtab <? MINUSER) || (negb (hash =? 0) && (hash <? MINUSER)) then Ok (a, 0)
      else each_sym cb sane dynstr load l a.
