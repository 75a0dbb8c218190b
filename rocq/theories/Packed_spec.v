(* Packed sequences, independently of caching: consecutive aligned elements. *)
From Verif Require Import Base Packed_model.

Record el := mkEl { l_start : Z; l_size : Z; l_type : Z }.
Definition nextpos (f : fam) (e : el) : Z := rup (l_start e + l_size e) (align f).
(* from [pos] to the end of the range, the sequence is the elements [l] *)
Fixpoint tile (f : fam) (pos en : Z) (l : list el) : Prop :=
  match l with
  | [] => enum f pos = None /\ en <= pos
  | e :: t => l_start e = pos /\ enum f pos = Some (l_size e, l_type e) /\ 0 < l_size e /\ pos + l_size e <= en /\
              tile f (nextpos f e) en t
  end.
(* the elements' types are the family's, and fields are wide enough for their sizes *)
Definition fits (f : fam) (e : el) : Prop :=
  match mwidths f with
  | None => True
  | Some (w1, w2, w3) =>
      (exists i, (i < Z.to_nat (2 ^ w1))%nat /\ nth_error (types f) i = Some (l_type e)) /\
      nextpos f e - l_start e < 2 ^ w2 * align f /\ nextpos f e - (l_start e + l_size e) < 2 ^ w3 /\ 0 <= w1 /\ 0 <= w2 /\ 0 <= w3
  end.
(* no padding *)
Definition tight (f : fam) (e : el) : Prop := nextpos f e = l_start e + l_size e.

Definition legal (beg en : Z) (o : pop) : Prop :=
  match o with
  | PQuery obj => beg <= obj < en
  | PWalk rb re _ => (match rb with Some b => beg <= b <= en | None => True end) /\
                     (match re with Some e => beg <= e <= en | None => True end)
  end.
