(* What static-object lookup should say, independently of the search. *)
From Verif Require Import Base Static_model.

(* the object a record stands for, if its symbol exists: start, size and type *)
Definition object (f : sfile) (r : rec) : option (Z * Z * Z) :=
  match r with
  | RReloc b n => Some (b, n, UBYTE)
  | RSym k i ty => match nth_error (symtab f k) i with Some s => Some (s_val s, s_size s, ty) | None => None end
  end.

(* every record's object exists, none is empty, each ends before the next starts *)
Fixpoint sorted_from (f : sfile) (lo : Z) (l : list rec) : Prop :=
  match l with
  | [] => True
  | r :: t => exists b n ty, object f r = Some (b, n, ty) /\ lo <= b /\ 0 < n /\ sorted_from f (b + n) t
  end.

(* the statics are apart and in order, each described by a symbol that has its range; extra
   symbols are numbered from 2 in the same order *)
Fixpoint statics_apart (lo : Z) (ss : list static) : Prop :=
  match ss with
  | [] => True
  | s :: t => lo <= t_lo s /\ t_lo s < t_hi s /\ statics_apart (t_hi s) t
  end.
Fixpoint described (f : sfile) (n : nat) (ss : list static) : Prop :=
  match ss with
  | [] => True
  | s :: t =>
      nth_error (symtab f (t_kind s)) (match t_kind s with KExtra => n | _ => t_idx s end)
        = Some (mkSym (t_lo s) (t_hi s - t_lo s)) /\
      described f (match t_kind s with KExtra => S n | _ => n end) t
  end.
