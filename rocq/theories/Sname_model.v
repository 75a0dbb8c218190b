(* Model of how C types are named at compile time: identFromString, barenameFromSig and
   symnameFromSig in tools/lang/c/cilallocs/cilallocs.ml:237-352, and the names the library gives
   arrays at run time, src/uniqtype-util.c:31-48.  Definitions only. *)
From Coq Require Import String Ascii Decimal.
From Verif Require Import Base.

Definition bytes := list Z.
Definition lit (s : string) : bytes := map (fun c => Z.of_N (N_of_ascii c)) (list_ascii_of_string s).

Definition USC : Z := 95.  Definition DOLLAR : Z := 36.  Definition BSL : Z := 92.
Definition is_digit (c : Z) : bool := (48 <=? c) && (c <=? 57).
Definition is_alpha (c : Z) : bool := ((65 <=? c) && (c <=? 90)) || ((97 <=? c) && (c <=? 122)).
Definition is_ident (c : Z) : bool := is_digit c || is_alpha c || (c =? USC).

(* identFromString, 239-244.  First every dollar is doubled; then whatever is not in the class
   [^a-zA-Z0-9_\$], in which Str takes the backslash for itself, becomes a dollar and two hex digits. *)
Definition hex (d : Z) : Z := if d <? 10 then 48 + d else 87 + d.
Definition escape1 (c : Z) : bytes :=
  if is_ident c || (c =? DOLLAR) || (c =? BSL) then [c] else [DOLLAR; hex (c / 16); hex (c mod 16)].
Definition double_dollar (s : bytes) : bytes := flat_map (fun c => if c =? DOLLAR then [DOLLAR; DOLLAR] else [c]) s.
Definition ident (s : bytes) : bytes := flat_map escape1 (double_dollar s).

(* string_of_int, which lines 289, 304 and 307 call, of what is not negative *)
Fixpoint digits (d : uint) : bytes :=
  match d with
  | Nil => []
  | D0 d => 48 :: digits d | D1 d => 49 :: digits d | D2 d => 50 :: digits d | D3 d => 51 :: digits d
  | D4 d => 52 :: digits d | D5 d => 53 :: digits d | D6 d => 54 :: digits d | D7 d => 55 :: digits d
  | D8 d => 56 :: digits d | D9 d => 57 :: digits d
  end.
Definition dec (n : N) : bytes := digits (N.to_uint n).

(* base types, with the sizes of x86-64, where char is signed: dwarfEncodingForBaseType 268-284,
   baseTypeRawStr 286-289, baseTypeStr 291 *)
Inductive kind := KChar | KSChar | KUChar | KBool | KInt | KUInt | KShort | KUShort
  | KLong | KULong | KLongLong | KULongLong | KFloat | KDouble | KLongDouble.
Definition encoding (k : kind) : bytes :=
  match k with
  | KChar | KSChar => lit "signed_char"
  | KUChar => lit "unsigned_char"
  | KBool => lit "boolean"
  | KInt | KShort | KLong | KLongLong => lit "int"
  | KUInt | KUShort | KULong | KULongLong => lit "uint"
  | KFloat | KDouble | KLongDouble => lit "float"
  end.
Definition bits (k : kind) : N :=
  match k with
  | KChar | KSChar | KUChar | KBool => 8
  | KShort | KUShort => 16
  | KInt | KUInt | KFloat => 32
  | KLong | KULong | KLongLong | KULongLong | KDouble => 64
  | KLongDouble => 128
  end%N.
Definition base_name (k : kind) : bytes := ident (encoding k ++ DOLLAR :: dec (bits k)).

(* CIL's signatures of types, matched by barenameFromSig at 306-320; attributes are left out.  Array bounds are taken not to be negative. *)
Inductive tag_kind := TStruct | TUnion | TEnum.
Inductive ty :=
| Void | VaList | Base (k : kind)
| Ptr (t : ty)
| Arr (t : ty) (bound : option N)
| Tag (k : tag_kind) (name : bytes)
| Fun (ret : ty) (args : option (list ty)) (va : bool).

(* barenameFromSig, 297-320 *)
Fixpoint barename (t : ty) : bytes :=
  let labelled := fix go (l : list ty) (i : N) : bytes :=
    match l with
    | [] => []
    | t :: l => lit "__ARG" ++ dec i ++ USC :: barename t ++ go l (N.succ i)
    end in
  match t with
  | Arr t b => lit "__ARR" ++ (match b with Some n => dec n | None => lit "0" end) ++ USC :: barename t
  | Ptr t => lit "__PTR_" ++ barename t
  | Tag _ n => n
  | Fun r (Some l) false => lit "__FUN_FROM_" ++ labelled l 0%N ++ lit "__FUN_TO_" ++ barename r
  | Fun r (Some l) true => lit "__FUN_FROM_" ++ labelled l 0%N ++ lit "__VA___FUN_TO_" ++ barename r
  | Fun r None true => lit "__FUN_FROM___VA___FUN_TO_" ++ barename r
  | Fun r None false => lit "__FUN_FROM___FUN_TO_" ++ barename r
  | Void => lit "void"
  | VaList => ident (lit "__builtin_va_list")
  | Base k => base_name k
  end.
(* symnameFromSig, 352 *)
Definition symname (t : ty) : bytes := lit "__uniqtype__" ++ barename t.

(* what get_or_create_array_type looks for, and else creates, at run time: uniqtype-util.c:36-48.
   element: the element type's name.  Names do not exceed 4095 bytes; %d is given an unsigned
   below 2^31. *)
Definition rt_array (element : bytes) (len : option N) : bytes :=
  match len with
  | None => lit "__uniqtype____ARR_" ++ element
  | Some n => lit "__uniqtype____ARR" ++ dec n ++ USC :: element
  end.
