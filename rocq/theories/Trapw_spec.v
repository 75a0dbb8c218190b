(* What notifying pointer stores ought to mean, said of the layout of types and of what is stored,
   not of the rewriting. *)
From Verif Require Import Base Trapw_model.

(* a t has a pointer at offset k *)
Inductive holds : ty -> nat -> Prop :=
| ho_ptr : holds TPtr 0
| ho_fun : holds TFun 0
| ho_field u sz fs o t k : In (o, t) fs -> holds t k -> holds (TComp u sz fs) (o + k)
| ho_elem t n i k : (i < n)%nat -> holds t k -> holds (TArr t (Some n)) (i * size t + k)
| ho_named t k : holds t k -> holds (TNamed t) k.

(* fields lie within their type, those of structures come one after another, and arrays have
   elements *)
Fixpoint wf (t : ty) : Prop :=
  match t with
  | TComp u sz fs =>
      (fix go (l : list (nat * ty)) : Prop := match l with [] => True | (o, t) :: l => wf t /\ (o + size t <= sz)%nat /\ go l end) fs
      /\ (u = false -> ForallOrdPairs (fun x y => fst x + size (snd x) <= fst y)%nat fs)
  | TArr t n => wf t /\ n <> Some 0%nat
  | TNamed t => wf t
  | _ => True
  end.
(* no union, outside arrays *)
Fixpoint nounion (t : ty) : Prop :=
  match t with
  | TComp u _ fs => u = false /\ (fix go (l : list (nat * ty)) : Prop := match l with [] => True | (_, t) :: l => nounion t /\ go l end) fs
  | TNamed t => nounion t
  | _ => True
  end.

(* a notification tells that v is about to be at b *)
Definition tells (e : event) (b v : Z) : Prop :=
  match e with
  | ENote a x => b = a /\ v = x
  | ECopy a vs => exists i, b = a + Z.of_nat i /\ nth_error vs i = Some v
  | _ => False
  end.
(* or is about b at all *)
Definition about (b : Z) (e : event) : bool :=
  match e with
  | ENote a _ => a =? b
  | ECopy a vs => (a <=? b) && (b <? a + Z.of_nat (length vs))
  | _ => false
  end.
(* the notifications due before a t whose words are g is stored at a: of all its pointers, each
   once if there are no unions, and of nothing but what is to be stored *)
Record due (t : ty) (a : Z) (g : nat -> Z) (ns : list event) : Prop := {
  du_all : forall k, holds t k -> exists e, In e ns /\ tells e (a + Z.of_nat k) (g k);
  du_only : forall e, In e ns ->
    (exists k, holds t k /\ about (a + Z.of_nat k) e = true) /\
    (forall b v, tells e b v -> exists k, (k < size t)%nat /\ b = a + Z.of_nat k /\ v = g k) /\
    (forall b v, e = ENote b v -> exists k, holds t k /\ b = a + Z.of_nat k);
  du_once : nounion t -> forall k, holds t k -> length (filter (about (a + Z.of_nat k)) ns) = 1%nat }.
Definition is_note (e : event) : Prop := match e with ENote _ _ | ECopy _ _ => True | _ => False end.
(* the second trace is the first, with each store to memory that is not written as one to a local
   preceded by the notifications due *)
Inductive announced : list event -> list event -> Prop :=
| an_nil : announced [] []
| an_local a t vs l l' : announced l l' -> announced (EStore true a t vs :: l) (EStore true a t vs :: l')
| an_other e l l' : (forall b a t vs, e <> EStore b a t vs) -> announced l l' -> announced (e :: l) (e :: l')
| an_store a t vs ns l l' : Forall is_note ns -> due t a (fun k => nth k vs 0) ns -> announced l l' ->
    announced (EStore false a t vs :: l) (ns ++ EStore false a t vs :: l').

(* programs which mention only variables below n, of well-formed types, and whose expressions that
   are not lvalues are scalars *)
Fixpoint ebelow (n : var) (e : expr) : Prop :=
  match e with Const _ => True | Lv v _ => (v < n)%nat | Add a b | Mul a b => ebelow n a /\ ebelow n b | Load a => ebelow n a end.
Definition lbelow (n : var) (l : lval) : Prop :=
  wf (lty l) /\ match l with Loc v _ _ => (v < n)%nat | Mem _ a _ => ebelow n a end.
Definition ibelow (n : var) (i : instr) : Prop :=
  match i with
  | Set_ l (RLval r) => lbelow n l /\ lbelow n r
  | Set_ l (RVal e) => lbelow n l /\ ebelow n e /\ size (lty l) = 1%nat
  | Call t _ args => match t with Some l => lbelow n l | None => True end /\ Forall (ebelow n) args
  | NotePtr l r => lbelow n l /\ lbelow n r
  | NoteCopy l r _ => lbelow n l /\ lbelow n r
  end.
Fixpoint sbelow (n : var) (c : stmt) : Prop :=
  match c with
  | Ins l => Forall (ibelow n) l
  | Seq a b => sbelow n a /\ sbelow n b
  | If e a b => ebelow n e /\ sbelow n a /\ sbelow n b
  | Loop a => sbelow n a
  | Return e => ebelow n e
  | Skip | Break => True
  end.
