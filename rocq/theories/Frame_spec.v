(* What stack-frame lookup should say, independently of the walk. *)
From Verif Require Import Base Frame_model.

Section S.
Variable desc : Z -> option (ftype * Z).
(* The active frames innermost first, each with the stack pointer of its caller: a frame's
   described extent starts the given distance below that. *)
Fixpoint extents (fs : list uframe) : list (Z * Z * Z * ftype) :=
  match fs with
  | [] => []
  | f :: rest =>
      let hsp := match rest with g :: _ => u_sp g | [] => TOP end in
      match desc (u_ip f) with
      | Some (t, o) => [(hsp - o, t_maxoff t, u_ip f, t)]
      | None => []
      end ++ extents rest
  end.
Definition inside (x : Z) (e : Z * Z * Z * ftype) : Prop :=
  let '(base, size, _, _) := e in base <= x < base + size.

(* Extents of inner frames start no higher than addresses in outer ones. *)
Fixpoint ascending (l : list (Z * Z * Z * ftype)) : Prop :=
  match l with
  | [] => True
  | (base, size, _, _) :: t => (forall e x, In e t -> inside x e -> base + size <= x) /\ 0 <= size /\ ascending t
  end.

(* Frame-pointer discipline: a frame's extent does not go above its caller's base pointer, if that is
   known. *)
Fixpoint pointers (fs : list uframe) : Prop :=
  match fs with
  | [] => True
  | f :: rest =>
      match rest with
      | g :: _ => u_sp g <> TOP /\
                  (forall b' t o, u_bp g = Some b' -> desc (u_ip f) = Some (t, o) -> u_sp g - o + t_maxoff t <= b' + 1)
      | [] => True
      end /\ pointers rest
  end.
End S.

(* Functions' ranges of program counters are apart. *)
Definition all_ivals (p : list subp) : list ival := concat p.
Definition disjoint (p : list subp) : Prop :=
  (forall v, In v (all_ivals p) -> v_lo v < v_hi v) /\
  ForallOrdPairs (fun v w => v_hi v <= v_lo w \/ v_hi w <= v_lo v) (all_ivals p).
(* elements do not overlap *)
Definition apart_elems (l : list elem) : Prop :=
  (forall e, In e l -> 0 <= e_size e) /\
  forall e d, In e l -> In d l -> e_off e <= e_off d -> e = d \/ e_off e + e_size e <= e_off d + e_size d.
