(* Model of the compile-time rewriting of calls of alloca, tools/lang/c/monalloca/monalloca.ml:79-242,
   and of running C functions before and after it.  Definitions only.

   Functions are a fragment of CIL: expressions without side effects, instructions, and structured
   statements.  Gotos, switches and variables whose address the program takes (which live in memory,
   and are reached by [Mem] and [Poke]) are left out, as are types. *)
From Coq Require Import String.
From Verif Require Import Base Insert_model Alloca_model.

Definition var := nat.
Inductive expr :=
| Const (z : Z) | Lv (v : var) | AddrOf (v : var) | Add (a b : expr) | Mul (a b : expr)
| Mem (a : expr)              (* a load *)
| Vol (n : nat).              (* a load of the volatile variable n *)
Inductive callee := Named (f : string) | Computed (e : expr).
Inductive instr :=
| Set_ (v : var) (e : expr)
| Poke (a e : expr)
| Call (tgt : option var) (f : callee) (args : list expr) (loc : Z)
| Asm (v : var) (loc : Z).    (* call label; label: pop v.  The address is taken to be the location's. *)
Inductive stmt :=
| Skip | Ins (i : instr) | Seq (a b : stmt) | If (e : expr) (a b : stmt)
| Loop (a : stmt) | Break | Return (e : expr).
(* the locals: is it named __liballocs_alloca_cleanup_local, has it the cleanup attribute *)
Record local := mkL { l_var : var; l_named : bool; l_cleanup : bool }.
(* f_next: the least number no variable has *)
Record fundec := mkF { f_name : string; f_locals : list local; f_next : var; f_body : stmt }.

(* ---- the rewriting *)
(* findCleanupLocal, 79-83 *)
Fixpoint find_cleanup (l : list local) : option var :=
  match l with [] => None | x :: l => if l_named x then Some (l_var x) else find_cleanup l end.
(* what the visitor has done so far: the next variable, and the locals *)
Definition vst := (var * list local)%type.
(* ensureCleanupLocal, 85-96, without the statement it puts first: see [instrument] *)
Definition ensure (x : vst) : vst * var :=
  let '(n, ls) := x in
  match find_cleanup ls with
  | Some v => (x, v)
  | None => ((S n, ls ++ [mkL n true true]), n)
  end.
(* isAllocaFun, 109-114 *)
Definition is_alloca (fn : string) (c : callee) : bool :=
  match c with
  | Named f => negb (fn =? "__liballocs_unindex_stack_objects_counted_by")%string
            && negb (fn =? "__liballocs_alloca")%string
            && ((f =? "alloca")%string || (f =? "__builtin_alloca")%string)
  | Computed _ => false
  end.
Definition temp (n : var) : local := mkL n false false.
(* vinst, 108-183 *)
Definition vinst (fn : string) (x : vst) (i : instr) : vst * list instr :=
  match i with
  | Call tgt f [size] loc =>
      if is_alloca fn f then
        let '((n, ls), counter) := ensure x in
        let site := n in let fixed := S n in let ptr := S (S n) in
        ((S (S (S n)), ls ++ [temp site; temp fixed; temp ptr]),
         [ Call (Some fixed) (Named "__liballocs_alloca_size") [size] loc;
           Asm site loc;
           Call (Some ptr) (Named "__builtin_alloca") [Lv fixed] loc;
           Call tgt (Named "__liballocs_notify_and_adjust_alloca")
             [Lv ptr; size; Lv fixed; AddrOf counter; Lv site] loc ])
      else (x, [i])
  | _ => (x, [i])
  end.
Fixpoint seq (l : list instr) : stmt :=
  match l with [] => Skip | [i] => Ins i | i :: l => Seq (Ins i) (seq l) end.
(* CIL's traversal of statements, in order *)
Fixpoint vstmt (fn : string) (x : vst) (s : stmt) : vst * stmt :=
  match s with
  | Ins i => let '(x, l) := vinst fn x i in (x, seq l)
  | Seq a b => let '(x, a) := vstmt fn x a in let '(x, b) := vstmt fn x b in (x, Seq a b)
  | If e a b => let '(x, a) := vstmt fn x a in let '(x, b) := vstmt fn x b in (x, If e a b)
  | Loop a => let '(x, a) := vstmt fn x a in (x, Loop a)
  | _ => (x, s)
  end.
(* vfunc, 213-240.  [keeps]: whether the statement which ensureCleanupLocal puts first (94-95)
   survives the visit; the comment there doubts it. *)
Definition instrument (keeps : bool) (f : fundec) : fundec :=
  let '((n, ls), b) := vstmt (f_name f) (f_next f, f_locals f) (f_body f) in
  let created := match find_cleanup (f_locals f) with Some _ => false | None => true end in
  mkF (f_name f) ls n
    match find_cleanup ls with
    | None => b
    | Some v => Seq (Ins (Set_ v (Const 0))) (if keeps && created then Seq (Ins (Set_ v (Const 0))) b else b)
    end.

(* ---- running *)
Inductive event :=
| ECall (f : string) (args : list Z)
| EPtr (f : Z) (args : list Z)
| EAlloca (n p site : Z)
| ENotify (a orig fixed ctr site : Z)
| ECleanup (total : Z).
Record st := mkS { vars : var -> Z; mem : Z -> Z; nvol : nat; ncall : nat; nall : nat; tr : list event }.
Definition upd (f : var -> Z) (v : var) (z : Z) : var -> Z := fun w => if Nat.eqb w v then z else f w.
(* what is outside the function *)
Record world := mkW {
  w_vol : nat -> nat -> Z;             (* volatile variables, read for the k-th time *)
  w_ret : nat -> Z;                    (* what the k-th other call returns, *)
  w_eff : nat -> (Z -> Z) -> Z -> Z;   (* and does to memory *)
  w_adr : var -> Z;                    (* where locals are *)
  w_give : nat -> Z;                   (* what the k-th alloca returns *)
  w_fill : nat -> (Z -> Z) -> Z -> Z;  (* memory after the k-th alloca *)
  w_note : nat -> (Z -> Z) -> Z -> Z   (* memory after the notification of the k-th *) }.

Section Run.
Variable w : world.
Fixpoint eval (s : st) (e : expr) : Z * st :=
  match e with
  | Const z => (z, s)
  | Lv v => (vars s v, s)
  | AddrOf v => (w_adr w v, s)
  | Add a b => let '(x, s) := eval s a in let '(y, s) := eval s b in (w64 (x + y), s)
  | Mul a b => let '(x, s) := eval s a in let '(y, s) := eval s b in (w64 (x * y), s)
  | Mem a => let '(x, s) := eval s a in (mem s x, s)
  | Vol n => (w_vol w n (nvol s), mkS (vars s) (mem s) (S (nvol s)) (ncall s) (nall s) (tr s))
  end.
Fixpoint evals (s : st) (l : list expr) : list Z * st :=
  match l with
  | [] => ([], s)
  | e :: l => let '(z, s) := eval s e in let '(zs, s) := evals s l in (z :: zs, s)
  end.
Definition assign (t : option var) (z : Z) (s : st) : st :=
  match t with Some v => mkS (upd (vars s) v z) (mem s) (nvol s) (ncall s) (nall s) (tr s) | None => s end.
Definition emit (e : event) (s : st) : st := mkS (vars s) (mem s) (nvol s) (ncall s) (nall s) (tr s ++ [e]).
Definition other (t : option var) (e : event) (s : st) : st :=
  let k := ncall s in
  assign t (w_ret w k) (emit e (mkS (vars s) (w_eff w k (mem s)) (nvol s) (S k) (nall s) (tr s))).
Definition do_alloc (t : option var) (n loc : Z) (s : st) : st :=
  let k := nall s in
  assign t (w_give w k) (emit (EAlloca n (w_give w k) loc) (mkS (vars s) (w_fill w k (mem s)) (nvol s) (ncall s) (S k) (tr s))).
(* the three functions of include/liballocs_cil_inlines.h:122-172, as far as the caller sees them;
   what the last does to the records is do_alloca in Alloca_model.  The counter is a local; it is
   found by its address. *)
Definition notify (c : var) (t : option var) (a n fixed site : Z) (s : st) : st :=
  let s := mkS (upd (vars s) c (w64 (vars s c + usable_of a fixed))) (w_note w (pred (nall s)) (mem s))
               (nvol s) (ncall s) (nall s) (tr s) in
  assign t (user_of a) (emit (ENotify a n fixed (w_adr w c) site) s).
Definition is_builtin (f : string) : bool := (f =? "alloca")%string || (f =? "__builtin_alloca")%string.
Definition exec_call (t : option var) (f : string) (args : list expr) (loc : Z) (s : st) : st :=
  match args with
  | [a] =>
      let '(n, s) := eval s a in
      if is_builtin f then do_alloc t n loc s
      else if (f =? "__liballocs_alloca_size")%string then assign t (alloca_size n) s
      else other t (ECall f [n]) s
  | [a; b] =>
      let '(n, s) := eval s a in let '(m, s) := eval s b in
      if (f =? "__builtin_alloca_with_align")%string then do_alloc t n loc s else other t (ECall f [n; m]) s
  | [a; b; c; AddrOf v; e] =>
      let '(zs, s) := evals s args in
      if (f =? "__liballocs_notify_and_adjust_alloca")%string
      then notify v t (nth 0 zs 0) (nth 1 zs 0) (nth 2 zs 0) (nth 4 zs 0) s
      else other t (ECall f zs) s
  | _ => let '(zs, s) := evals s args in other t (ECall f zs) s
  end.
Definition exec1 (i : instr) (s : st) : st :=
  match i with
  | Set_ v e => let '(z, s) := eval s e in assign (Some v) z s
  | Poke a e => let '(x, s) := eval s a in let '(z, s) := eval s e in
                mkS (vars s) (wr (mem s) x z) (nvol s) (ncall s) (nall s) (tr s)
  | Call t (Named f) args loc => exec_call t f args loc s
  | Call t (Computed e) args loc => let '(p, s) := eval s e in let '(zs, s) := evals s args in other t (EPtr p zs) s
  | Asm v loc => assign (Some v) loc s
  end.
Inductive outcome := Normal | Broke | Returned (z : Z).
(* [fuel] bounds the turns of each loop *)
Fixpoint exec (fuel : nat) (c : stmt) (s : st) : option (outcome * st) :=
  match c with
  | Skip => Some (Normal, s)
  | Ins i => Some (Normal, exec1 i s)
  | Seq a b => match exec fuel a s with
               | Some (Normal, s) => exec fuel b s
               | r => r
               end
  | If e a b => let '(z, s) := eval s e in if z =? 0 then exec fuel b s else exec fuel a s
  | Loop a => (fix turn (n : nat) (s : st) : option (outcome * st) :=
                 match n with
                 | O => None
                 | S n => match exec fuel a s with
                          | Some (Normal, s) => turn n s
                          | Some (Broke, s) => Some (Normal, s)
                          | r => r
                          end
                 end) fuel s
  | Break => Some (Broke, s)
  | Return e => let '(z, s) := eval s e in Some (Returned z, s)
  end.
(* calling a function; locals with the attribute are cleaned up on leaving *)
Definition leave (ls : list local) (s : st) : st :=
  fold_left (fun s l => if l_cleanup l then emit (ECleanup (vars s (l_var l))) s else s) ls s.
Definition run (fuel : nat) (f : fundec) (s : st) : option (outcome * st) :=
  match exec fuel (f_body f) s with Some (o, s) => Some (o, leave (f_locals f) s) | None => None end.
End Run.
