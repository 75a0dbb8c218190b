(* Model of growable address lists: src/addrlist.c, struct addrlist in
   src/liballocs_private.h:166-171.  Definitions only. *)
From Verif Require Import Base.

(* count and allocsz are C unsigned ints; [store] is the block addrs points to, with
   None for storage not yet written. *)
Record alist := mkL { count : Z; allocsz : Z; store : list (option Z) }.

(* { 0, 0, NULL }, src/counters.c:8 *)
Definition empty : alist := mkL 0 0 [].

(* __private_realloc: keeps the common prefix.  Simplified: never returns NULL. *)
Definition realloc (b : list (option Z)) (n : Z) : list (option Z) :=
  firstn (Z.to_nat n) b ++ repeat None (Z.to_nat n - length b).

(* store to addrs[i] *)
Definition write (b : list (option Z)) (i x : Z) : res (list (option Z)) :=
  if (0 <=? i) && (i <? Z.of_nat (length b))
  then Ok (firstn (Z.to_nat i) b ++ Some x :: skipn (S (Z.to_nat i)) b)
  else UB.

(* __liballocs_addrlist_add, addrlist.c:22-33 *)
Definition add (l : alist) (x : Z) : res alist :=
  let l1 := if count l =? allocsz l
            then let n := (2 * ((allocsz l + 1) mod W32)) mod W32 in
                 mkL (count l) n (realloc (store l) n)
            else l in
  do b <- write (store l1) (count l1) x ;
  Ok (mkL ((count l1 + 1) mod W32) (allocsz l1) b).

(* the loop of __liballocs_addrlist_contains, addrlist.c:13-20, from index i with
   [n] iterations to go; reading unwritten or unallocated storage is UB.  Simplified: the
   result is not converted to int. *)
Fixpoint scan (b : list (option Z)) (x i : Z) (n : nat) : res Z :=
  match n with
  | O => Ok 0
  | S n' => match nth_error b (Z.to_nat i) with
            | Some (Some y) => if y =? x then Ok (1 + i) else scan b x (i + 1) n'
            | _ => UB
            end
  end.
Definition contains (l : alist) (x : Z) : res Z := scan (store l) x 0 (Z.to_nat (count l)).

Fixpoint adds (l : alist) (xs : list Z) : res alist :=
  match xs with
  | [] => Ok l
  | x :: xs' => do l' <- add l x ; adds l' xs'
  end.
