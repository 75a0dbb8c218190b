(* Model of the notification of copies and frees: src/lifetime_policies.c:109-227.
   Definitions only.

   uniqtypes are modelled by their tree of kinds; all kinds other than pointer, array and
   composite (struct, class, union) are [Base].  A notification is the pair of the address
   written and the address the new value is read from (none: null).  What it does is
   Life_model.write's business. *)
From Verif Require Import Base.

Inductive ty :=
| BaseT (sz : Z)
| Ptr
| Arr (n : Z) (e : ty)              (* n: UNIQTYPE_ARRAY_LENGTH, as an unsigned *)
| Comp (sz : Z) (ms : list (Z * ty)).

(* UNIQTYPE_SIZE_IN_BYTES *)
Fixpoint sizeof (t : ty) : Z :=
  match t with BaseT sz => sz | Ptr => 8 | Arr n e => n * sizeof e | Comp sz _ => sz end.

(* need_copy_notification, lifetime_policies.c:109-126 *)
Fixpoint need (t : ty) : bool :=
  match t with
  | BaseT _ => false
  | Ptr => true
  | Arr _ e => need e
  | Comp _ ms => (fix any l := match l with [] => false | (_, m) :: r => need m || any r end) ms
  end.

Definition note : Type := (Z * option Z)%type.
Definition adv (src : option Z) (k : Z) : option Z := match src with Some s => Some (s + k) | None => None end.

(* the loop of lifetime_policies.c:145-153; f handles one element *)
Fixpoint arr_loop (f : Z -> option Z -> Z -> list note) (elem : Z) (n : nat) (dest : Z) (src : option Z) (remain : Z) : Z * list note :=
  match n with
  | O => (remain, [])
  | S k =>
      if remain =? 0 then (remain, []) else
      let cur := if remain >? elem then elem else remain in
      let '(r, l) := arr_loop f elem k (dest + cur) (adv src cur) (remain - cur) in
      (r, f dest src cur ++ l)
  end.

(* notify_copy_for_type, lifetime_policies.c:129-177: the size handled and the notifications.
   The abort() of line 175 cannot be reached, since [need] is false of other kinds. *)
Fixpoint for_type (t : ty) (dest : Z) (src : option Z) (size : Z) : Z * list note :=
  if need t then
    match t with
    | BaseT sz => (sz, [])
    | Ptr => if size <? 8 then (size, []) else (8, [(dest, src)])
    | Arr n e =>
        let '(remain, l) := arr_loop (fun d s c => snd (for_type e d s c)) (sizeof e) (Z.to_nat n) dest src size in
        (size - remain, l)
    | Comp sz ms =>
        ((if sz <? size then sz else size),
         (fix members l := match l with
            | [] => []
            | (off, m) :: r =>
                let maxmemb := (size - off) mod W64 in
                let membsize := if maxmemb <? sizeof m then maxmemb else sizeof m in
                snd (for_type m (dest + off) (adv src off) membsize) ++ members r
            end) ms)
    end
  else (sizeof t, []).

(* __notify_copy, lifetime_policies.c:201-219.  tyat stands for try_get_alloc_type (180-199):
   the type of the allocation containing an address, if known. *)
Fixpoint notify_copy (tyat : Z -> option ty) (fuel : nat) (dest src n : Z) : res (list note) :=
  match fuel with
  | O => Fuel
  | S k =>
      if n <? 8 then Ok [] else
      match tyat dest with
      | None => Ok []
      | Some t =>
          let '(handled, l) := for_type t dest (Some src) n in
          do r <- notify_copy tyat k ((dest + handled) mod W64) ((src + handled) mod W64) ((n - handled) mod W64) ;
          Ok (l ++ r)
      end
  end.

(* __notify_free, lifetime_policies.c:221-227 *)
Definition notify_free (tyat : Z -> option ty) (dest : Z) : list note :=
  match tyat dest with None => [] | Some t => snd (for_type t dest None (sizeof t)) end.
