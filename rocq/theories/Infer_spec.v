(* What the types given to allocation sites ought to be, said of expressions and of functions and
   not of the analysis. *)
From Verif Require Import Base Infer_model.

(* The assignments of a function, in the order in which its statements are written except that
   the else branch comes before the then branch. *)
Fixpoint flat (s : stmt) : list instr :=
  let flats := fix go (l : list stmt) : list instr := match l with [] => [] | s :: l => flat s ++ go l end in
  match s with
  | Instr l => l
  | Block b => flats b
  | If b1 b2 => flats b2 ++ flats b1
  | Switch b ss => flats ss ++ flats b
  | Loop b => flats b
  | OtherS => []
  end.
Definition flats (l : list stmt) : list instr := flat_map flat l.

(* the locals an expression reads *)
Fixpoint reads (e : exp) : list Z :=
  match e with
  | LVar false v _ => [v]
  | BinOp _ a b => reads a ++ reads b
  | CastE e => reads e
  | _ => []
  end.
Definition assigns (l : list instr) (v : Z) : Prop := exists p e, In (Set_ false v p e) l.
(* no local is computed from itself, directly or through others *)
Definition acyclic (rank : Z -> nat) (l : list instr) : Prop :=
  forall v p e, In (Set_ false v p e) l -> forall u, In u (reads e) -> (rank u < rank v)%nat.

Section Kinds.
(* [T v]: the type that local v holds sizes of, if it holds sizes *)
Variable T : Z -> option tsig.

(* an expression whose value is a plain number, not a size *)
Inductive plain : exp -> Prop :=
| pl_const n : plain (Const n)
| pl_glob v p : plain (LVar true v p)
| pl_var v p : T v = None -> plain (LVar false v p)
| pl_mem n : plain (LMem n)
| pl_other n : plain (OtherE n)
| pl_op o a b : plain a -> plain b -> plain (BinOp o a b)
| pl_cast e : plain e -> plain (CastE e)
  (* a number of elements, as in sizeof(a) / sizeof(a[0]) *)
| pl_count t a b : whole t a -> whole t b -> reads b = [] -> plain (BinOp Div a b)
(* an expression which counts the bytes of some number of t's *)
with whole : tsig -> exp -> Prop :=
| wh_sizeof t u : decay u = t -> whole t (SizeOf u)
| wh_str t n : t = TSInt IChar -> whole t (SizeOfStr n)
| wh_var t v p : T v = Some t -> whole t (LVar false v p)
| wh_times t a b : whole t a -> plain b -> whole t (BinOp Mult a b)
| wh_of t a b : plain a -> whole t b -> whole t (BinOp Mult a b)
| wh_plus t a b : whole t a -> whole t b -> whole t (BinOp PlusA a b)
| wh_cast t e : whole t e -> whole t (CastE e).

Scheme plain_mut := Minimality for plain Sort Prop
  with whole_mut := Minimality for whole Sort Prop.
Combined Scheme kinds_ind from plain_mut, whole_mut.

(* every assignment keeps to that *)
Definition keeps (l : list instr) : Prop :=
  forall v p e, In (Set_ false v p e) l -> match T v with Some t => whole t e | None => plain e end.
(* every local holding sizes that is read has been assigned somewhere *)
Definition grounded (l : list instr) (e : exp) : Prop :=
  forall v, In v (reads e) -> T v <> None -> assigns l v.
End Kinds.

(* the types whose size, or an offset in which, an expression mentions *)
Fixpoint taken (e : exp) : list tsig :=
  match e with
  | SizeOf t => [t]
  | SizeOfStr _ => [TSInt IChar]
  | AddrNull t _ => [t]
  | BinOp _ a b => taken a ++ taken b
  | CastE e => taken e
  | _ => []
  end.
(* t is u, or what u is an array of *)
Definition elem_of (t u : tsig) : Prop := t = u \/ t = decay u.
Definition within (t : tsig) (l : list tsig) : Prop := exists u, In u l /\ elem_of t u.

(* an offset at which the outermost type ends with the field reached *)
Fixpoint at_end (fields : bool -> Z -> list field) (o : off) : Prop :=
  match o with
  | NoOff => True
  | Fld s c i o => S i = length (fields s c) /\ at_end fields o
  | Idx o => at_end fields o
  end.

(* one which leads to a field, not to an element *)
Fixpoint to_field (o : off) : Prop :=
  match o with NoOff => False | Fld _ _ _ NoOff => True | Fld _ _ _ o => to_field o | Idx o => to_field o end.

(* A signature: name, a character for each argument, and the rest. *)
Record sigd := mkSig { s_name : bytes; s_args : bytes; s_tail : bytes }.
Definition render (d : sigd) : bytes := s_name d ++ LP :: s_args d ++ RP :: s_tail d.
Definition wf_sig (d : sigd) : Prop :=
  s_name d <> [] /\ ~ In LP (s_name d) /\ ~ In BS (s_name d) /\
  ~ In RP (s_args d) /\ ~ In BS (s_args d) /\ ~ In RP (s_tail d).
(* the first argument given a capital letter *)
Inductive capital_at : bytes -> nat -> Prop :=
| ca_here c s : 65 <= c <= 90 -> capital_at (c :: s) 0
| ca_later c s i : ~ (65 <= c <= 90) -> capital_at s i -> capital_at (c :: s) (S i).

(* how a type is written for a site: pointers to void and to char as a generic pointer, others as
   they are, arrays included *)
Inductive written : tsig -> site_type -> Prop :=
| wr_void : written (TSPtr TSVoid) GenericPtr
| wr_char : written (TSPtr (TSInt IChar)) GenericPtr
| wr_other t : t <> TSPtr TSVoid -> t <> TSPtr (TSInt IChar) -> written t (Named t).
