(* Model of how allocation sites are given types at compile time:
   tools/lang/c/dumpallocs/dumpallocs.ml and the helpers it uses from
   tools/lang/c/cilallocs/cilallocs.ml.  Definitions only. *)
From Verif Require Import Base.

Definition bytes := list Z.

(* ---- type signatures (CIL's typsig).  Simplified: no attributes; struct, union and enum names,
   kinds of float and function types are numbers. *)
Inductive ikind := IBool | IChar | ISChar | IUChar | IInt | IUInt | IShort | IUShort
  | ILong | IULong | ILongLong | IULongLong.
Inductive tsig :=
| TSVoid | TSInt (k : ikind) | TSFloat (k : Z) | TSEnum (n : Z) | TSFun (n : Z)
| TSPtr (t : tsig)
| TSArray (t : tsig) (bound : option Z)
| TSComp (is_struct : bool) (name : Z).
Definition ikind_eq (a b : ikind) : {a = b} + {a <> b}.
Proof. decide equality. Defined.
Definition tsig_eq (a b : tsig) : {a = b} + {a <> b}.
Proof. decide equality; try apply Z.eq_dec; try apply ikind_eq; try apply Bool.bool_dec;
       decide equality; apply Z.eq_dec. Defined.
Definition tseqb (a b : tsig) : bool := if tsig_eq a b then true else false.

(* decayArrayInTypesig, cilallocs.ml:378-380 *)
Fixpoint decay (t : tsig) : tsig := match t with TSArray t _ => decay t | _ => t end.

(* tsMatchModuloSignedness, cilallocs.ml:744-765 *)
Definition make_unsigned (k : ikind) : ikind :=
  match k with
  | IChar | ISChar => IUChar | IInt => IUInt | IShort => IUShort | ILong => IULong
  | ILongLong => IULongLong | _ => k
  end.
Definition bound_eqb (a b : option Z) : bool :=
  match a, b with Some x, Some y => x =? y | None, None => true | _, _ => false end.
Fixpoint ts_match (a b : tsig) : bool :=
  tseqb a b ||
  match a, b with
  | TSInt k, TSInt l => if ikind_eq (make_unsigned k) (make_unsigned l) then true else false
  | TSPtr a, TSPtr b => ts_match a b
  | TSArray a n, TSArray b m => bound_eqb n m && ts_match a b
  | _, _ => false
  end.

(* ---- expressions.  A field: its type and whether it is a bitfield. *)
Record field := mkF { f_type : tsig; f_bits : bool }.
(* an lvalue's offset: field number i of a struct or union; an index into an array *)
Inductive off := NoOff | Fld (is_struct : bool) (comp : Z) (i : nat) (o : off) | Idx (o : off).
Inductive bop := Mult | PlusA | MinusA | Div | OtherOp.
Inductive exp :=
| Const (n : Z)
| SizeOf (t : tsig)                          (* also of an expression, by its type *)
| SizeOfStr (n : Z)                          (* n: its size *)
| LVar (glob : bool) (v : Z) (part : Z)      (* a variable, or the part of it at some offset *)
| LMem (n : Z)                               (* what a pointer points to: n says which *)
| BinOp (o : bop) (e1 e2 : exp)
| CastE (e : exp)
| AddrNull (t : tsig) (o : off)              (* &((t * )0)->o; isStaticallyNullPtr is not modelled *)
| OtherE (n : Z).

(* dumpallocs.ml:70-74 *)
Inductive sz := Undet | Existing (t : tsig) (complete : bool) | Synthetic (l : list tsig) | TooComplex.
Definition complexity_threshold : nat := 100.          (* 76 *)
Definition env := list (Z * sz).
Fixpoint assoc (v : Z) (e : env) : option sz :=
  match e with [] => None | (u, s) :: e => if u =? v then Some s else assoc v e end.
Fixpoint remove_assoc (v : Z) (e : env) : env :=
  match e with [] => [] | (u, s) :: e => if u =? v then e else (u, s) :: remove_assoc v e end.

Section Size.
(* the file's definitions: the fields of a struct or union.  Simplified: it has one for every
   name, so the failures called impossible at 262 and 265 are left out. *)
Variable fields : bool -> Z -> list field.

(* isTrailingField (91-97) and isTrailingFieldOffsetExpr (114-126); the type signature which
   the latter passes on is used for nothing else *)
Fixpoint trailing (o : off) : bool :=
  match o with
  | NoOff => false
  | Fld s c i NoOff => Nat.eqb (S i) (length (fields s c))
  | Idx o => trailing o
  | Fld s c i o => trailing o
  end.

(* maybeDecayArrayTypesig, 85-87 *)
Definition maybe_decay (s : sz) : sz := match s with Existing t c => Existing (decay t) c | _ => Undet end.
Definition mult_sz (a b : sz) : sz := match a, b with Undet, _ => b | _, _ => a end.     (* 180-191 *)
(* 192-229 *)
Definition plus_sz (a b : sz) : sz :=
  match a, b with
  | Undet, _ => b
  | _, Undet => a
  | TooComplex, _ | _, TooComplex => TooComplex
  | Existing s1 c1, Existing s2 _ =>
      if tsig_eq (decay s1) (decay s2) then Existing (decay s1) c1 else Synthetic [s1; TSArray s2 None]
  | Synthetic l, Existing s _ => if (complexity_threshold <=? length l)%nat then TooComplex else Synthetic (l ++ [s])
  | Existing s _, Synthetic l => if (complexity_threshold <=? length l)%nat then TooComplex else Synthetic (s :: l)
  | Synthetic l1, Synthetic l2 =>
      if list_eq_dec tsig_eq l1 l2 then Synthetic l1
      else if (complexity_threshold <? length l1 + length l2)%nat then TooComplex
      else Synthetic (l1 ++ l2)
  end.
(* 230-242 *)
Definition div_sz (a b : sz) : sz :=
  match maybe_decay a, maybe_decay b with
  | Existing d1 c1, Existing d2 _ => if tsig_eq d1 d2 then Undet else Existing d1 c1
  | Existing s c, Undet => Existing s c
  | _, _ => Undet
  end.
(* 243-293 *)
Definition minus_sz (a b : sz) : sz :=
  match a, b with
  | Existing (TSComp true n) true, Existing t2 true =>
      match fields true n with
      | [] => Undet
      | f0 :: fs =>
          let f := last fs f0 in
          if negb (f_bits f) &&
             (ts_match (f_type f) t2 ||
              match f_type f with TSArray u (Some k) => (k =? 1) && ts_match u t2 | _ => false end)
          then Existing (TSComp true n) false else Undet
      end
  | _, _ => Undet
  end.

(* getSizeExpr, 89-334.  Types whose size is taken are complete. *)
Fixpoint get_size (e : exp) (E : env) : sz :=
  match e with
  | BinOp Mult a b => mult_sz (get_size a E) (get_size b E)
  | BinOp PlusA a b => plus_sz (get_size a E) (get_size b E)
  | BinOp Div a b => div_sz (get_size a E) (get_size b E)
  | BinOp MinusA a b => minus_sz (get_size a E) (get_size b E)
  | SizeOf t => Existing t true
  | SizeOfStr _ => Existing (TSInt IChar) true
  | LVar glob v _ => if glob then Undet else match assoc v E with Some s => s | None => Undet end
  | CastE e => get_size e E
  | AddrNull t o => if trailing o then Existing t false else Undet
  | _ => Undet
  end.

(* ---- which locals hold sizes, 599-656 *)
Inductive instr := Set_ (glob : bool) (v part : Z) (e : exp) | OtherI.
Inductive stmt := Instr (l : list instr) | Block (b : list stmt) | If (b1 b2 : list stmt)
  | Switch (b ss : list stmt) | Loop (b : list stmt) | OtherS.
Definition acc_instr (E : env) (i : instr) : env :=
  match i with
  | Set_ false v _ e => match get_size e E with Undet => E | s => (v, s) :: remove_assoc v E end
  | _ => E
  end.
Definition acc_instrs (E : env) (l : list instr) : env := fold_left acc_instr l E.
Fixpoint acc_stmt (E : env) (s : stmt) : env :=
  let stmts := fix go (E : env) (l : list stmt) : env := match l with [] => E | s :: l => go (acc_stmt E s) l end in
  match s with
  | Instr l => acc_instrs E l
  | Block b => stmts E b
  | If b1 b2 => stmts (stmts E b2) b1
  | Switch b ss => stmts (stmts E ss) b
  | Loop b => stmts E b
  | OtherS => E
  end.
Definition acc_stmts (E : env) (l : list stmt) : env := fold_left acc_stmt l E.

(* untilFixedPoint, 588-597, as vfunc uses it (701): over all the statements of a function,
   which CIL lists in sallstmts; nested ones are come to again from those around them.
   Fuel: more passes are needed. *)
Definition sz_eq (a b : sz) : {a = b} + {a <> b}.
Proof. decide equality; try apply Bool.bool_dec; try apply tsig_eq; apply (list_eq_dec tsig_eq). Defined.
Definition env_eq (a b : env) : {a = b} + {a <> b}.
Proof. apply list_eq_dec. decide equality; [apply sz_eq | apply Z.eq_dec]. Defined.
Fixpoint until (fuel : nat) (sts : list stmt) (E : env) : res env :=
  match fuel with
  | O => Fuel
  | S n => let E' := acc_stmts E sts in if env_eq E' E then Ok E else until n sts E'
  end.
Definition analyse (fuel : nat) (sts : list stmt) : res env := until fuel sts [].

(* ---- calls *)
Definition LP : Z := 40.  Definition RP : Z := 41.  Definition BS : Z := 92.
Fixpoint span (p : Z -> bool) (s : bytes) : bytes :=
  match s with [] => [] | c :: t => if p c then c :: span p t else [] end.
Fixpoint beq (a b : bytes) : bool :=
  match a, b with [], [] => true | x :: a, y :: b => (x =? y) && beq a b | _, _ => false end.
(* parseSignature, 436-452: the name, if any, and the characters for the arguments.  Abort: the
   second string_match is asked to start beyond the end, and raises Invalid_argument. *)
Definition parse_sig (s : bytes) : res (option bytes * bytes) :=
  let name := span (fun c => negb ((c =? LP) || (c =? BS))) s in
  let from := match name with [] => O | _ => S (length name) end in
  if (length s <? from)%nat then Abort
  else Ok (match name with [] => None | _ => Some name end,
           span (fun c => negb ((c =? RP) || (c =? BS))) (skipn from s)).
(* the fragment matching "(.star)", 378-389: from the first left bracket having a right one after
   it to the last right one; the empty string if there is none.  Newlines are not considered. *)
Fixpoint upto_last_rp (s : bytes) : option bytes :=
  match s with
  | [] => None
  | c :: t => match upto_last_rp t with
              | Some r => Some (c :: r)
              | None => if c =? RP then Some [c] else None
              end
  end.
Fixpoint arg_spec (s : bytes) : bytes :=
  match s with
  | [] => []
  | c :: t => if c =? LP then match upto_last_rp t with Some r => c :: r | None => arg_spec t end else arg_spec t
  end.
Definition is_capital (c : Z) : bool := (65 <=? c) && (c <=? 90).
(* 390-393 *)
Fixpoint first_capital (s : bytes) (i : nat) : option nat :=
  match s with [] => None | c :: t => if is_capital c then Some i else first_capital t (S i) end.
Definition size_arg (s : bytes) : option Z :=
  match first_capital (arg_spec s) 0 with Some i => Some (Z.of_nat i - 1) | None => None end.

(* matchUserAllocArgs, 377-429; ret: what the function returns *)
Definition match_args (args : list exp) (sg : bytes) (E : env) (ret : tsig) : sz :=
  match size_arg sg with
  | Some i => match nth_error args (Z.to_nat i) with Some e => get_size e E | None => Undet end
  | None => match ret with TSPtr t => Existing t true | _ => Undet end
  end.
(* getUserAllocExpr, 504-532, with extractUserAllocMatchingSignature, 470-486.  fn: the name, for
   a direct call.  None: not an allocation call. *)
Fixpoint alloc_expr (fn : option bytes) (args : list exp) (E : env) (ret : tsig) (cands : list bytes) : res (option sz) :=
  match cands with
  | [] => Ok None
  | sg :: more =>
      do '(name, chars) <- parse_sig sg ;
      let count := Nat.eqb (length args) (length chars) in
      match fn with
      | Some f =>
          if match name with Some n => beq f n | None => false end && count
          then Ok (Some (match_args args sg E ret)) else alloc_expr fn args E ret more
      | None =>
          if count then match match_args args sg E ret with Undet => alloc_expr fn args E ret more | s => Ok (Some s) end
          else alloc_expr fn args E ret more
      end
  end.
(* what is written for a call, 813-824: the type's name and whether it may be one of an array *)
Inductive site_type := GenericPtr | Named (t : tsig) | Composite (l : list tsig) | RawBytes.
Definition recorded (s : sz) : site_type * bool :=
  match s with
  | Existing (TSPtr TSVoid) _ | Existing (TSPtr (TSInt IChar)) _ => (GenericPtr, true)
  | Existing t c => (Named t, c)
  | Synthetic l => (Composite l, false)
  | Undet | TooComplex => (RawBytes, true)
  end.
Definition alloc_call (fn : option bytes) (args : list exp) (E : env) (ret : tsig) (cands : list bytes) : res (option (site_type * bool)) :=
  do r <- alloc_expr fn args E ret cands ;
  Ok (match r with Some s => Some (recorded s) | None => None end).
End Size.

(* ---- running a function.  What sizes are, where offsets lead, and all else, is given. *)
Definition store := Z -> Z -> Z.
Section Run.
Variables (sizeof : tsig -> Z) (offsetof : tsig -> off -> Z) (globs : Z -> Z -> Z) (mem : Z -> Z) (oth : Z -> Z)
          (othop : Z -> Z -> Z).
Fixpoint eval (e : exp) (s : store) : Z :=
  match e with
  | Const n => n
  | SizeOf t => sizeof t
  | SizeOfStr n => n * sizeof (TSInt IChar)
  | LVar true v p => globs v p
  | LVar false v p => s v p
  | LMem n => mem n
  | BinOp Mult a b => eval a s * eval b s
  | BinOp PlusA a b => eval a s + eval b s
  | BinOp MinusA a b => eval a s - eval b s
  | BinOp Div a b => eval a s / eval b s
  | BinOp OtherOp a b => othop (eval a s) (eval b s)
  | CastE e => eval e s
  | AddrNull t o => offsetof t o
  | OtherE n => oth n
  end.
Definition exec1 (s : store) (i : instr) : store :=
  match i with
  | Set_ false v p e => let x := eval e s in fun u q => if (u =? v) && (q =? p) then x else s u q
  | _ => s
  end.
Definition exec (s : store) (path : list instr) : store := fold_left exec1 path s.
End Run.
