(* Model of the breadth-first object-graph walk: src/uniqtype-bfs.c and
   include/uniqtype-bfs.h.  Definitions only. *)
From Verif Require Import Base Type_model.

(* (int) of an unsigned long difference, as compar returns it, uniqtype-bfs.c:50-53 *)
Definition s32 (x : Z) : Z := (x + 2 ^ 31) mod 2 ^ 32 - 2 ^ 31.
Definition compar (a b : Z) : Z := s32 (a - b).

(* The tsearch(3) tree of struct pair, uniqtype-bfs.c:37-48.  Simplified: no rebalancing
   (rotations do not change what is found when compar is a linear order). *)
Inductive tree := Lf | Nd (l : tree) (k v : Z) (r : tree).

(* treemap_get, uniqtype-bfs.c:55-66 *)
Fixpoint tget (t : tree) (k : Z) : Z :=
  match t with
  | Lf => 0
  | Nd l k' v r => if compar k k' =? 0 then v else if compar k k' <? 0 then tget l k else tget r k
  end.

(* treemap_set, uniqtype-bfs.c:68-89: an equal key keeps its node and gets the new value *)
Fixpoint tset (t : tree) (k x : Z) : tree :=
  match t with
  | Lf => Nd Lf k x Lf
  | Nd l k' v r => if compar k k' =? 0 then Nd l k' x r
                   else if compar k k' <? 0 then Nd (tset l k x) k' v r else Nd l k' v (tset r k x)
  end.

(* enum node_colour, uniqtype-bfs.c:33 *)
Definition WHITE : Z := 0.
Definition GREY : Z := 1.
Definition BLACK : Z := 2.

(* IS_PLAUSIBLE_POINTER, uniqtype-bfs.c:97 *)
Definition ALL1 : Z := 2 ^ 64 - 1.
Definition plausible (p : Z) : bool :=
  (p =? 0) || (p =? ALL1) || ((4194304 <=? p) && (p <? 140737488355328)).

(* What the walk reads: the pointer stored at an address; the descriptor and pointee
   descriptor of a type id (pointee for pointer types only; types refer to each other
   cyclically, hence by id); the follow_ptr hook, which may redirect a pointer and its
   type, or drop it by making it null. *)
Record world := mkWorld {
  load : Z -> Z;
  desc : Z -> option ty;
  pointee : Z -> option Z;
  follow : Z -> Z -> Z * Z
}.

Definition node := (Z * Z)%type.      (* object address, type id *)

Section Adjacency.
  Context (W : world) (obj : Z).

  (* the pointer case of visit_one_subobject, uniqtype-bfs.c:121-158, for the pointer
     stored at [at_] whose static pointee type is [pt] *)
  Definition visit_pointer (at_ pt : Z) : list node :=
    let p := load W at_ in
    if negb (p =? 0) && plausible p
    then let '(p', t') := follow W p pt in if p' =? 0 then [] else [(p', t')]
    else [].

  (* build_adjacency_list_recursive and visit_one_subobject, uniqtype-bfs.c:108-209, for
     the subobjects of a t at offset [start]: only composites are descended into. *)
  Fixpoint adjacency (t : ty) (start : Z) : list node :=
    let visit m off :=
      match pointee W (tid m) with
      | Some pt => visit_pointer (obj + off) pt
      | None => match m with TComp _ _ _ => adjacency m off | _ => [] end
      end in
    match t with
    | TLeaf _ _ => []
    | TArr _ _ len e => flat_map (fun i => visit e (start + Z.of_nat i * tsize e)) (seq 0 (Z.to_nat len))
    | TComp _ _ ms => flat_map (fun p => visit (snd p) (start + fst p)) ms
    end.
End Adjacency.

(* the adjacency list of a node; an unknown (or void) type has none *)
Definition adj (W : world) (n : node) : list node :=
  match desc W (snd n) with Some t => adjacency W (fst n) t 0 | None => [] end.

(* the inner while loop, uniqtype-bfs.c:236-257.  The distance and predecessor maps are
   never read by anything outside the loop and are not modelled. *)
Fixpoint enqueue_white (c : tree) (q vs : list node) : tree * list node :=
  match vs with
  | [] => (c, q)
  | v :: vs' => if tget c (fst v) =? WHITE
                then enqueue_white (tset c (fst v) GREY) (q ++ [v]) vs'
                else enqueue_white c q vs'
  end.

(* process_bfs_queue_and_maps, uniqtype-bfs.c:211-272: the nodes passed to on_blacken, in
   order.  The queue is a list here (see Queue below for its linked representation);
   on_blacken is taken not to change the graph. *)
Fixpoint process (fuel : nat) (W : world) (c : tree) (q : list node) (done : list node)
  : res (list node) :=
  match q with
  | [] => Ok done
  | u :: q' =>
      match fuel with
      | O => Fuel
      | S f =>
          let c1 := tset c (fst u) GREY in
          let '(c2, q2) := enqueue_white c1 q' (adj W u) in
          process f W (tset c2 (fst u) BLACK) q2 (done ++ [u])
      end
  end.

(* __uniqtype_walk_bfs_from_object, uniqtype-bfs.c:289-321 *)
Definition walk_bfs (fuel : nat) (W : world) (object t : Z) : res (list node) :=
  if object =? 0 then Ok [] else process fuel W Lf [(object, t)] [].

(* The linked queue, include/uniqtype-bfs.h:14-46: [qnext] is each record's next field. *)
Record queue := mkQ { qhead : option nat; qtail : option nat; qnext : nat -> option nat }.

Definition set_nxt (f : nat -> option nat) (i : nat) (x : option nat) : nat -> option nat :=
  fun j => if Nat.eqb j i then x else f j.

(* __uniqtype_node_queue_push_tail, uniqtype-bfs.h:14-27 *)
Definition push_tail (q : queue) (n : nat) : res queue :=
  match qnext q n with
  | Some _ => Abort
  | None =>
      match qtail q with
      | Some o => Ok (mkQ (qhead q) (Some n) (set_nxt (qnext q) o (Some n)))
      | None => match qhead q with
                | Some _ => Abort
                | None => Ok (mkQ (Some n) (Some n) (qnext q))
                end
      end
  end.

(* __uniqtype_node_queue_pop_head, uniqtype-bfs.h:29-41 *)
Definition pop_head (q : queue) : queue * option nat :=
  match qhead q with
  | None => (q, None)
  | Some h =>
      let hd := qnext q h in
      (mkQ hd (match hd with None => None | _ => qtail q end) (set_nxt (qnext q) h None), Some h)
  end.

(* a sequence of pushes ([Some n]) and pops ([None]) by the caller, with what each returned *)
Fixpoint queue_run (q : queue) (ops : list (option nat)) : res (list (option nat)) :=
  match ops with
  | [] => Ok []
  | Some n :: ops' => do q' <- push_tail q n ; do rs <- queue_run q' ops' ; Ok (None :: rs)
  | None :: ops' => let '(q', r) := pop_head q in do rs <- queue_run q' ops' ; Ok (r :: rs)
  end.
