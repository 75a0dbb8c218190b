(* Model of types made at run time: src/uniqtype-util.c:14-375, 391-420.  Definitions only.
   Types are numbered; the process's types are a list.  libdlbind's dlalloc and dlbind append to it;
   dlsym(NULL, .) is taken to see all of it, including types made earlier. *)
From Verif Require Import Base Big_model.
From Coq Require Export Ascii String DecimalString.
From Coq Require Export List.
Open Scope list_scope.
Open Scope Z_scope.

Definition str := list ascii.
Definition L (s : string) : str := list_ascii_of_string s.

Definition UNBMAX : Z := 4294967295. (* UNIQTYPE_POS_MAXOFF_UNBOUNDED *)
Definition UNBLEN : Z := 2147483647. (* UNIQTYPE_ARRAY_LENGTH_UNBOUNDED *)

(* what the uniqtype's [un] and [related] say (59-77, 123-139, 179-195, 233-262, 343-367) *)
Inductive tkind :=
| TBase                                           (* any type this code does not make *)
| TArr (elt : nat) (n : Z) (refines : bool)       (* [refines]: make_precise is set *)
| TPtr (pointee : nat) (level : Z) (ultimate : nat)
| TFun (ret : nat) (args : list nat)
| TUnion (membs : list nat).
Record typ := mkT { t_sym : option str; t_rt : bool; t_max : Z; t_kind : tkind }.
Definition world := list typ.

Fixpoint eqs (a b : str) : bool :=
  match a, b with [], [] => true | x :: a', y :: b' => Ascii.eqb x y && eqs a' b' | _, _ => false end.
Fixpoint pre (p s : str) : bool :=
  match p, s with [] , _ => true | x :: p', y :: s' => Ascii.eqb x y && pre p' s' | _, [] => false end.

(* __liballocs_uniqtype_name, 401-420 *)
Definition tname (t : typ) : str :=
  match t_sym t with
  | None => L "(unnamed type)"
  | Some s => if pre (L "__uniqtype__") s then skipn 12 s
              else if pre (L "__uniqtype_") s then skipn 20 s else s
  end.

Fixpoint find_idx (f : typ -> bool) (w : world) (i : nat) : option nat :=
  match w with [] => None | t :: w' => if f t then Some i else find_idx f w' (S i) end.
Definition named (s : str) (t : typ) : bool := match t_sym t with Some s' => eqs s' s | None => false end.
Definition dlsym (w : world) (s : str) : option nat := find_idx (named s) w 0.
(* get_type_from_symname, 14-29 *)
Definition lookup (w : world) (s : str) : option nat :=
  match find_idx (fun t => t_rt t && named s t) w 0 with Some i => Some i | None => dlsym w s end.

(* printf's %d of an unsigned int *)
Definition dec (n : Z) : str := L (NilZero.string_of_uint (N.to_uint (Z.to_N n))).
Definition decd (n : Z) : str := if n <? 2 ^ 31 then dec n else L "-" ++ dec (W32 - n).
(* snprintf into a buffer of 4096 *)
Definition snp (s : str) : str := firstn 4095 s.

Definition bind_type (w : world) (s : str) (mx : Z) (k : tkind) : world * option nat :=
  (w ++ [mkT (Some s) true mx k], Some (length w)).

(* get_or_create_array_type, 31-84 *)
Definition array_type (w : world) (e : nat) (et : typ) (n : Z) : world * option nat :=
  let s := snp (if n =? UNBLEN then L "__uniqtype____ARR_" ++ tname et
                else L "__uniqtype____ARR" ++ decd n ++ L "_" ++ tname et) in
  match lookup w s with
  | Some i => (w, Some i)
  | None => bind_type w s (if n =? UNBLEN then UNBMAX else (n * t_max et) mod W32) (TArr e (n mod 2 ^ 31) false)
  end.

(* the name of a function type, 210-222: the pieces are added at a position which keeps counting
   when the buffer is full; past its end the room left wraps round *)
Fixpoint fun_pieces (names : list str) (i : Z) (acc : str) : res str :=
  match names with
  | [] => Ok acc
  | a :: t => if 4096 <? Z.of_nat (length acc) then UB
              else fun_pieces t (i + 1) (acc ++ L "__ARG" ++ decd i ++ L "_" ++ a)
  end.
Definition fun_name (ret : str) (args : list str) : res str :=
  do s <- fun_pieces args 0 (L "__uniqtype____FUN_FROM_") ;
  if 4096 <? Z.of_nat (length s) then UB else Ok (snp (s ++ L "__FUN_TO_" ++ ret)).

(* the name of a union type, 308-330: the length so far, [cur_len], stays 0 *)
Fixpoint union_name (names : list str) (acc : str) : res (option str) :=
  match names with
  | [] => Ok (Some (L "__uniqtype____SYNTHUNION_" ++ acc))
  | a :: t => if 4096 <=? 0 + Z.of_nat (length a) then Ok None
              else if 4096 <=? Z.of_nat (length (acc ++ a)) then UB
              else union_name t (acc ++ a)
  end.

Inductive req :=
| RArr (e : nat) (n : Z)          (* __liballocs_get_or_create_array_type, 86-94 *)
| RUnb (e : nat)                  (* ..._unbounded_array_type, 95-102 *)
| RFlex (e : nat)                 (* ..._flexible_array_type, 103-146 *)
| RPtr (p : nat)                  (* ..._address_type, 148-202 *)
| RFun (ret : nat) (args : list nat) (* ..._subprogram_type, 204-269 *)
| RUnion (membs : list nat).      (* ..._union_type, 302-375 *)

Fixpoint types_of (w : world) (ids : list nat) : option (list typ) :=
  match ids with
  | [] => Some []
  | i :: t => match nth_error w i, types_of w t with Some x, Some r => Some (x :: r) | _, _ => None end
  end.

(* a type number that is not of a type is not a pointer to one: UB *)
Definition step (dbg : bool) (w : world) (r : req) : res (world * option nat) :=
  match r with
  | RArr e n =>
      match nth_error w e with
      | None => UB
      | Some et =>
          do _ <- asrt dbg (n <? UNBLEN) ;
          if (t_max et =? 0) || (t_max et =? UNBMAX) then Ok (w, None) else Ok (array_type w e et n)
      end
  | RUnb e =>
      match nth_error w e with
      | None => UB
      | Some et => if (t_max et =? 0) || (t_max et =? UNBMAX) then Ok (w, None) else Ok (array_type w e et UNBLEN)
      end
  | RFlex e =>
      match nth_error w e with
      | None => UB
      | Some et =>
          if (t_max et =? 0) || (t_max et =? UNBMAX) then Ok (w, None) else
          let s := snp (L "__uniqtype____ARR_" ++ tname et) in
          match lookup w s with
          | Some i => Ok (w, Some i)
          | None => Ok (bind_type w s UNBMAX (TArr e UNBLEN true))
          end
      end
  | RPtr p =>
      match nth_error w p with
      | None => UB
      | Some pt =>
          let s := snp (L "__uniqtype____PTR_" ++ tname pt) in
          match lookup w s with
          | Some i => Ok (w, Some i)
          | None =>
              let (lv, ul) := match t_kind pt with TPtr _ l u => (1 + l, u) | _ => (1, p) end in
              Ok (bind_type w s 8 (TPtr p lv ul))
          end
      end
  | RFun ret args =>
      match nth_error w ret, types_of w args with
      | Some rt, Some ats =>
          do s <- fun_name (tname rt) (map tname ats) ;
          match lookup w s with
          | Some i => Ok (w, Some i)
          | None => Ok (bind_type w s UNBMAX (TFun ret args))
          end
      | _, _ => UB
      end
  | RUnion ms =>
      match ms with [] => Ok (w, None) | _ =>
      match types_of w ms with
      | None => UB
      | Some mts =>
          do _ <- asrt dbg (forallb (fun t => (0 <? t_max t) && negb (t_max t =? UNBMAX)) mts) ;
          do o <- union_name (map tname mts) [] ;
          match o with
          | None => Ok (w, None)
          | Some s =>
              match dlsym w s with
              | Some i => Ok (w, Some i)
              | None => Ok (bind_type w s (fold_left (fun m t => Z.max m (t_max t)) mts 0) (TUnion ms))
              end
          end
      end end
  end.
Fixpoint run (dbg : bool) (w : world) (h : list req) : res (world * list (option nat)) :=
  match h with
  | [] => Ok (w, [])
  | r :: t => do ' (w1, o) <- step dbg w r ; do ' (w2, os) <- run dbg w1 t ; Ok (w2, o :: os)
  end.

(* __liballocs_make_array_precise_with_memory_bounds, 271-287: the type of the rest of a memory range
   from [obj] on as an array of [in]'s elements; the count is passed as an unsigned int *)
Definition make_precise (dbg : bool) (w : world) (it : typ) (obj base sz : Z) : res (world * option nat) :=
  let psize := (base + sz - obj) mod W64 in
  match t_kind it with
  | TArr e _ _ =>
      match nth_error w e with
      | None => UB
      | Some et => if t_max et =? 0 then UB
                   else step dbg w (RArr e ((psize / t_max et) mod W32))
      end
  | _ => UB
  end.
