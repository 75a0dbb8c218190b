(* Model of the subobject searches over type descriptors: include/liballocs.h:322-592 and
   the descent loop of src/query.c:102-144.  Definitions only.

   struct uniqtype is defined in liballocstool (absent from /repo).  The searches use of it:
   the descriptor's address (identity), pos_maxoff, whether it is an array with a length and
   an element type, or a composite with members sorted by offset; any other kind has no
   members (UNIQTYPE_COMPOSITE_MEMBER_COUNT is then 0).  Containment between descriptors is
   acyclic, so a descriptor with everything it contains is a finite tree. *)
From Verif Require Import Base.

Inductive ty :=
| TLeaf (id size : Z)
| TArr (id size len : Z) (elem : ty)
| TComp (id size : Z) (members : list (Z * ty)).  (* (un.memb.off, un.memb.ptr) *)

Definition tid (t : ty) : Z := match t with TLeaf i _ | TArr i _ _ _ | TComp i _ _ => i end.
Definition tsize (t : ty) : Z := match t with TLeaf _ s | TArr _ s _ _ | TComp _ s _ => s end.
Definition members (t : ty) : list (Z * ty) := match t with TComp _ _ ms => ms | _ => [] end.

(* unsigned int arithmetic *)
Definition u32 (x : Z) : Z := x mod W32.

(* The bisection loop, liballocs.h:361-373 and 463-475: lower and upper index at exit.
   Fuel counts iterations. *)
Fixpoint bisect (fuel : nat) (ms : list (Z * ty)) (target : Z) (lo hi : nat) : res (nat * nat) :=
  match fuel with
  | O => Fuel
  | S f =>
      if (lo + 1 <? hi)%nat then
        let mid := Nat.div2 (hi + lo) in
        match nth_error ms mid with
        | None => UB
        | Some (off, _) => if off >? target then bisect f ms target lo mid
                           else bisect f ms target mid hi
        end
      else Ok (lo, hi)
  end.

(* scan backwards over members with the same offset, liballocs.h:390-392 and 491-496 *)
Fixpoint back_up (ms : list (Z * ty)) (off : Z) (lo : nat) : nat :=
  match lo with
  | O => O
  | S k => match nth_error ms k with
           | Some (o, _) => if o =? off then back_up ms off k else lo
           | None => lo
           end
  end.

(* Both searches: the lowest index of the members at the greatest offset not exceeding the
   target, with that offset; None when the first member already overshoots, or there are
   no members (liballocs.h:375-392, 415-419; 477-496, 509-515). *)
Definition nearest (ms : list (Z * ty)) (target : Z) : res (option (nat * Z)) :=
  do ' (lo, hi) <- bisect (S (length ms)) ms target 0 (length ms) ;
  if (lo + 1 =? hi)%nat then
    match nth_error ms lo with
    | None => UB
    | Some (off, _) => if off >? target then Ok None else Ok (Some (back_up ms off lo, off))
    end
  else Ok None.

(* __liballocs_first_subobject_spanning, liballocs.h:433-517: index of the contained
   position, contained type, new target offset *)
Definition first_spanning (t : ty) (target : Z) : res (option (nat * ty * Z)) :=
  match t with
  | TArr _ _ len e =>
      if negb (tsize e =? 0) && (len >? target / tsize e)
      then Ok (Some (O, e, target mod tsize e)) else Ok None
  | _ =>
      do r <- nearest (members t) target ;
      match r with
      | None => Ok None
      | Some (i, off) =>
          match nth_error (members t) i with
          | None => UB
          | Some (_, m) => Ok (Some (i, m, u32 (target - off)))
          end
      end
  end.

(* the do-while loop of find_matching_subobject over later members at the same offset,
   liballocs.h:556-588, starting at the head of [ms] *)
Fixpoint try_all (rec : ty -> Z -> res bool) (ms : list (Z * ty)) (off sub : Z) : res bool :=
  match ms with
  | [] => Ok false
  | (o, m) :: ms' =>
      if o =? off then
        do b <- rec m sub ;
        if b : bool then Ok true else try_all rec ms' off sub
      else Ok false
  end.

(* __liballocs_find_matching_subobject, liballocs.h:521-592: the returned flag; [test] is
   the requested descriptor, None for NULL.  The output parameters (last attempted type,
   cumulative offset, containing type) are not modelled. *)
Fixpoint find_matching (fuel : nat) (target : Z) (t : ty) (test : option Z) : res bool :=
  match fuel with
  | O => Fuel
  | S f =>
      if (target =? 0) && match test with None => true | Some u => tid t =? u end then Ok true
      else
        do r <- first_spanning t target ;
        match r with
        | None => Ok false
        | Some (i, sub, off') =>
            match t with
            | TComp _ _ ms =>
                match nth_error ms i with
                | None => UB
                | Some (off, _) => try_all (fun m o => find_matching f o m test) (skipn i ms) off off'
                end
            | _ => find_matching f off' sub test
            end
        end
  end.

(* the descent loop of __liballocs_get_inner_type, query.c:128-137: final and containing
   descriptor, and the final offset *)
Fixpoint descend (fuel : nat) (t : ty) (target : Z) (cont : option ty) : res (ty * Z * option ty) :=
  match fuel with
  | O => Fuel
  | S f =>
      do r <- first_spanning t target ;
      match r with
      | None => Ok (t, target, cont)
      | Some (_, sub, off') => descend f sub off' (Some t)
      end
  end.

(* What the spanning walk passes to its callback: type, start offset, depth, the index of
   the contained position, and the containing type's start offset. *)
Record visit := mkV { v_type : ty; v_start : Z; v_depth : Z; v_pos : nat; v_cstart : Z }.

(* the forward scan of the walk, liballocs.h:393-413: [rec] is the recursive call,
   [size] the composite's pos_maxoff *)
Fixpoint walk_all {St : Type} (cb : St -> visit -> St * Z)
    (rec : ty -> Z -> Z -> Z -> St -> res (St * Z))
    (ms : list (Z * ty)) (i : nat) (off target size accum depth : Z) (s : St) : res (St * Z) :=
  match ms with
  | [] => Ok (s, 0)
  | (o, m) :: ms' =>
      if o =? off then
        if target <? size then
          let '(s1, r1) := cb s (mkV m (u32 (accum + off)) (u32 (depth + 1)) i accum) in
          if r1 =? 0 then
            do ' (s2, r2) <- rec m (u32 (target - off)) (u32 (accum + off)) (u32 (depth + 1)) s1 ;
            if r2 =? 0 then walk_all cb rec ms' (S i) off target size accum depth s2
            else Ok (s2, r2)
          else Ok (s1, r1)
        else walk_all cb rec ms' (S i) off target size accum depth s
      else Ok (s, 0)
  end.

(* __liballocs_walk_subobjects_spanning_rec, liballocs.h:322-421.  The division by the
   element size precedes the test that it is non-zero.  Simplified: the assertion that the
   offset is inside the array is not modelled (it is disabled in the release build). *)
Fixpoint walk_spanning {St : Type} (fuel : nat) (cb : St -> visit -> St * Z)
    (t : ty) (target accum depth : Z) (s : St) : res (St * Z) :=
  match fuel with
  | O => Fuel
  | S f =>
      match t with
      | TArr _ _ len e =>
          if tsize e =? 0 then UB else
          let div := target / tsize e in
          if len >? div then
            let start := u32 (accum + u32 (div * tsize e)) in
            let '(s1, r1) := cb s (mkV e start (u32 (depth + 1)) O accum) in
            if r1 =? 0 then walk_spanning f cb e (target mod tsize e) start (u32 (depth + 1)) s1
            else Ok (s1, r1)
          else Ok (s, 0)
      | _ =>
          do r <- nearest (members t) target ;
          match r with
          | None => Ok (s, 0)
          | Some (i, off) =>
              walk_all cb (fun m o a d s => walk_spanning f cb m o a d s)
                       (skipn i (members t)) i off target (tsize t) accum depth s
          end
      end
  end.
