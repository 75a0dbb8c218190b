(* What allocations should be attributed to, without thread-local variables: to the outermost
   allocation function in progress. *)
From Verif Require Import Base Wrap_model.

(* a call to an allocation function: where from, and the size asked for *)
Record frame := mkF { f_ret : Z; f_size : Z }.

(* something an index is to be told of *)
Inductive what :=
| WHeap (caller size : Z) | WResize (caller modified : Z) | WSmall (fn ptr : Z) | WUnsmall (fn ptr : Z).

(* What happens when a program runs, in order, each with the allocation calls in progress, the
   outermost first; and whether the program is left by a jump. *)
Fixpoint happen (ch : list frame) (a : act) : list (list frame * what) * bool :=
  let fix happens (ch : list frame) (l : list act) : list (list frame * what) * bool :=
    match l with
    | [] => ([], false)
    | x :: r => let '(h, j) := happen ch x in if j then (h, true) else let '(h', j') := happens ch r in (h ++ h', j')
    end in
  match a with
  | Malloc c s => ([(ch, WHeap c s)], false)
  | Realloc c m => ([(ch, WResize c m)], false)
  | Call _ r s _ body => happens (ch ++ [mkF r s]) body
  | Sub f r s body p =>
      let ch' := ch ++ [mkF r s] in
      let '(h, j) := happens ch' body in
      if j then (h, true) else (h ++ [(ch', WSmall f p)], false)
  | Free body => happens ch body
  | SubFree f p body => let '(h, j) := happens ch body in ((ch, WUnsmall f p) :: h, j)
  | Catch body => (fst (happens ch body), false)
  | Jump => ([], true)
  end.
Fixpoint happens (ch : list frame) (l : list act) : list (list frame * what) * bool :=
  match l with
  | [] => ([], false)
  | x :: r => let '(h, j) := happen ch x in if j then (h, true) else let '(h', j') := happens ch r in (h ++ h', j')
  end.

(* The outermost call's site, or, if there is none, the caller.  The size is that of the request;
   it is not known for a chunk resized outside any allocation function, nor for a small object
   other than from the call. *)
Definition attributed (x : list frame * what) : ev :=
  match x with
  | ([], WHeap c s) => EHeap c s
  | ([], WResize c m) => EResize c ((m - INSERT_SIZE) mod W64)
  | ([], WSmall _ p) => ESmall p 0 0
  | (f :: _, WHeap _ s) => EHeap (f_ret f) s
  | (f :: _, WResize _ m) => EResize (f_ret f) (if f_size f =? 0 then (m - INSERT_SIZE) mod W64 else f_size f)
  | (f :: _, WSmall _ p) => ESmall p (f_ret f) (f_size f mod W32)
  | (_, WUnsmall _ p) => EUnsmall p
  end.
(* an event without its size *)
Inductive mark := MHeap (site : Z) | MResize (site : Z) | MSmall (ptr site : Z) | MUnsmall (ptr : Z).
Definition unsized (e : ev) : mark :=
  match e with EHeap s _ => MHeap s | EResize s _ => MResize s | ESmall p s _ => MSmall p s | EUnsmall p => MUnsmall p end.

(* no jump leaves a wrapped function *)
Fixpoint escapes (a : act) : bool :=
  match a with
  | Jump => true
  | Call _ _ _ _ b | Sub _ _ _ b _ | Free b | SubFree _ _ b => existsb escapes b
  | _ => false
  end.
Fixpoint tame (a : act) : bool :=
  match a with
  | Call _ _ _ _ b | Sub _ _ _ b _ | Free b | SubFree _ _ b => negb (existsb escapes b) && forallb tame b
  | Catch b => forallb tame b
  | _ => true
  end.
(* functions and return addresses are not null *)
Fixpoint proper (a : act) : bool :=
  match a with
  | Call f r _ _ b => negb (f =? 0) && negb (r =? 0) && forallb proper b
  | Sub f r _ b _ => negb (f =? 0) && negb (r =? 0) && forallb proper b
  | Free b | SubFree _ _ b | Catch b => forallb proper b
  | _ => true
  end.
(* no function is declared to leave its size set *)
Fixpoint sizeless (a : act) : bool :=
  match a with
  | Call _ _ _ k b => negb k && forallb sizeless b
  | Sub _ _ _ b _ | Free b | SubFree _ _ b | Catch b => forallb sizeless b
  | _ => true
  end.

(* each small object is freed by a function whose allocation function has returned before *)
Definition freed_after (h : list (list frame * what)) : Prop :=
  forall h1 c f p h2, h = h1 ++ (c, WUnsmall f p) :: h2 -> exists c' q, In (c', WSmall f q) h1.
