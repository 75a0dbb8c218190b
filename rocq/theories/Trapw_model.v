(* Model of the compile-time rewriting of pointer stores, tools/lang/c/trapptrwrites/trapptrwrites.ml:40-131,
   and of running C functions before and after it.  Definitions only.

   Functions are a fragment of CIL: side-effect-free expressions, lists of instructions, structured
   statements.  Memory is words, each holding a scalar whatever its type; sizes and offsets are in
   words.  Volatile accesses, gotos, switches and inline assembly are left out. *)
From Verif Require Import Base.

Notation var := nat (only parsing).
(* TComp: is it a union, its size, its fields with their offsets.  TNamed: a typedef. *)
Inductive ty :=
| TInt | TPtr | TFun
| TComp (union : bool) (sz : nat) (fs : list (nat * ty))
| TArr (t : ty) (n : option nat)
| TNamed (t : ty).
Fixpoint size (t : ty) : nat :=
  match t with
  | TInt | TPtr | TFun => 1
  | TComp _ sz _ => sz
  | TArr t (Some n) => n * size t
  | TArr _ None => 0
  | TNamed t => size t
  end.
(* Lv v i: word i of local v *)
Inductive expr := Const (z : Z) | Lv (v : var) (i : nat) | Add (a b : expr) | Mul (a b : expr) | Load (a : expr).
(* Loc: a local, or part of one, whose address the program does not take.  Mem: all else, by its
   address; [true] if it is written as a local variable or part of one. *)
Inductive lval := Loc (v : var) (off : nat) (t : ty) | Mem (local : bool) (a : expr) (t : ty).
Definition lty (l : lval) : ty := match l with Loc _ _ t => t | Mem _ _ t => t end.
(* addOffsetLval *)
Definition sub (l : lval) (o : nat) (t : ty) : lval :=
  match l with Loc v k _ => Loc v (k + o) t | Mem b a _ => Mem b (Add a (Const (Z.of_nat o))) t end.
Inductive rhs := RLval (l : lval) | RVal (e : expr).
Inductive instr :=
| Set_ (l : lval) (r : rhs)
| Call (tgt : option lval) (f : Z) (args : list expr)
| NotePtr (l r : lval)                (* __notify_ptr_write(&l, r) *)
| NoteCopy (l r : lval) (n : nat).    (* __notify_copy(&l, &r, n words) *)
Inductive stmt :=
| Skip | Ins (l : list instr) | Seq (a b : stmt) | If (e : expr) (a b : stmt)
| Loop (a : stmt) | Break | Return (e : expr).

(* ---- the rewriting *)
(* typNeedTrapCalls, 73-82 *)
Fixpoint needs (t : ty) : bool :=
  match t with
  | TPtr | TFun => true
  | TComp _ _ fs => (fix go l := match l with [] => false | (_, t) :: l => needs t || go l end) fs
  | TArr t (Some _) => needs t
  | TNamed t => needs t
  | _ => false
  end.
(* lvNeedTrapCalls, 84-87 *)
Definition lv_needs (l : lval) : bool := match l with Mem false _ t => needs t | _ => false end.
(* addTrapCallsForLval, 89-108: the calls for a field come before those for the fields before it *)
Fixpoint add_traps (t : ty) (l r : lval) (tail : list instr) : list instr :=
  match t with
  | TPtr | TFun => NotePtr l r :: tail
  | TComp _ _ fs =>
      (fix go fs acc := match fs with [] => acc | (o, t) :: fs => go fs (add_traps t (sub l o t) (sub r o t) acc) end) fs tail
  | TArr t (Some n) => if needs t then NoteCopy l r (n * size t) :: tail else tail
  | TNamed t => add_traps t l r tail
  | _ => tail
  end.
(* vinst, 110-130; n is the next variable *)
Definition vinst (n : var) (i : instr) : var * list instr :=
  match i with
  | Set_ l (RLval r) =>
      if lv_needs l then (n, add_traps (lty l) l r [Set_ l (RLval r)]) else (n, [i])
  | Set_ l (RVal e) =>
      if lv_needs l then
        let tmp := Loc n 0 (lty l) in (S n, Set_ tmp (RVal e) :: add_traps (lty l) l tmp [Set_ l (RLval tmp)])
      else (n, [i])
  | Call (Some l) f args =>
      if lv_needs l then
        let tmp := Loc n 0 (lty l) in (S n, Call (Some tmp) f args :: add_traps (lty l) l tmp [Set_ l (RLval tmp)])
      else (n, [i])
  | _ => (n, [i])
  end.
Fixpoint vinsts (n : var) (l : list instr) : var * list instr :=
  match l with
  | [] => (n, [])
  | i :: l => let '(n, a) := vinst n i in let '(n, b) := vinsts n l in (n, a ++ b)
  end.
(* CIL's traversal of statements, in order *)
Fixpoint vstmt (n : var) (s : stmt) : var * stmt :=
  match s with
  | Ins l => let '(n, l) := vinsts n l in (n, Ins l)
  | Seq a b => let '(n, a) := vstmt n a in let '(n, b) := vstmt n b in (n, Seq a b)
  | If e a b => let '(n, a) := vstmt n a in let '(n, b) := vstmt n b in (n, If e a b)
  | Loop a => let '(n, a) := vstmt n a in (n, Loop a)
  | _ => (n, s)
  end.

(* ---- running *)
Inductive event :=
| EStore (local : bool) (a : Z) (t : ty) (vs : list Z)   (* a store to memory *)
| ECall (f : Z) (args : list Z)
| ENote (a v : Z)                                        (* told: v is about to be stored at a *)
| ECopy (a : Z) (vs : list Z).                           (* told: vs are about to be copied to a *)
Record st := mkS { vars : var -> nat -> Z; mem : Z -> Z; ncall : nat; tr : list event }.
(* what is outside the function *)
Record world := mkW {
  w_ret : nat -> nat -> Z;               (* the words the k-th call returns, *)
  w_eff : nat -> (Z -> Z) -> Z -> Z;     (* and what it does to memory *)
  w_note : event -> (Z -> Z) -> Z -> Z   (* memory after a notification *) }.

Section Run.
Variable w : world.
Fixpoint eval (s : st) (e : expr) : Z :=
  match e with
  | Const z => z
  | Lv v i => vars s v i
  | Add a b => eval s a + eval s b
  | Mul a b => eval s a * eval s b
  | Load a => mem s (eval s a)
  end.
Definition addr (s : st) (l : lval) : Z := match l with Mem _ a _ => eval s a | Loc _ _ _ => 0 end.
Definition word (s : st) (l : lval) (i : nat) : Z :=
  match l with Loc v k _ => vars s v (k + i) | Mem _ a _ => mem s (eval s a + Z.of_nat i) end.
Definition words (s : st) (l : lval) (n : nat) : list Z := map (word s l) (seq 0 n).
Definition emit (e : event) (s : st) : st := mkS (vars s) (mem s) (ncall s) (tr s ++ [e]).
Definition store (l : lval) (vs : list Z) (s : st) : st :=
  match l with
  | Loc v k _ =>
      mkS (fun u i => if Nat.eqb u v && (k <=? i)%nat && (i <? k + length vs)%nat then nth (i - k) vs 0 else vars s u i)
          (mem s) (ncall s) (tr s)
  | Mem b e t =>
      let a := eval s e in
      emit (EStore b a t vs)
        (mkS (vars s) (fun x => if (a <=? x) && (x <? a + Z.of_nat (length vs)) then nth (Z.to_nat (x - a)) vs 0 else mem s x)
             (ncall s) (tr s))
  end.
Definition note (e : event) (s : st) : st := emit e (mkS (vars s) (w_note w e (mem s)) (ncall s) (tr s)).
(* The place for the result of a call is worked out after the call, one of the orders C allows. *)
Definition exec1 (s : st) (i : instr) : st :=
  match i with
  | Set_ l (RLval r) => store l (words s r (size (lty l))) s
  | Set_ l (RVal e) => store l [eval s e] s
  | Call t f args =>
      let k := ncall s in
      let s' := emit (ECall f (map (eval s) args)) (mkS (vars s) (w_eff w k (mem s)) (S k) (tr s)) in
      match t with None => s' | Some l => store l (map (w_ret w k) (seq 0 (size (lty l)))) s' end
  | NotePtr l r => note (ENote (addr s l) (word s r 0)) s
  | NoteCopy l r n => note (ECopy (addr s l) (words s r n)) s
  end.
Definition execs (s : st) (l : list instr) : st := fold_left exec1 l s.
Inductive out := Norm | Brk | Ret (z : Z).
Fixpoint exec (f : nat) (s : st) (c : stmt) : option (out * st) :=
  match f with
  | O => None
  | S f =>
      match c with
      | Skip => Some (Norm, s)
      | Ins l => Some (Norm, execs s l)
      | Seq a b => match exec f s a with Some (Norm, s) => exec f s b | r => r end
      | If e a b => if eval s e =? 0 then exec f s b else exec f s a
      | Loop a =>
          match exec f s a with
          | Some (Norm, s) => exec f s (Loop a)
          | Some (Brk, s) => Some (Norm, s)
          | r => r
          end
      | Break => Some (Brk, s)
      | Return e => Some (Ret (eval s e), s)
      end
  end.
End Run.
