(* Model of allocation-site ids: src/allocsites.c, include/allocsites.h.  Definitions only. *)
From Verif Require Import Base.

(* A loaded object: the address range its file allocation covers, its load address, and
   the allocsite_vaddr fields of its "allocsites" array, if its metadata has one. *)
Record file := mkFile { f_lo : Z; f_hi : Z; f_base : Z; f_sites : option (list Z) }.

(* struct allocsites_vectors_by_base_id_entry, allocsites.h:78-84; [e_ptr] is the array
   that ptr points to *)
Record entry := mkEntry { e_start : Z; e_count : Z; e_base : Z; e_ptr : list Z }.

Definition INDEX_SIZE : Z := 256.       (* ALLOCSITES_INDEX_SIZE, allocsites.h:85 *)
Definition u16 (x : Z) : Z := x mod 65536. (* allocsite_id_t, allocmeta.h:485 *)
Definition NOID : Z := 65535.           (* (allocsite_id_t) -1 *)

(* The spine (its used slots in order) and the live files, each with its spine slot *)
Record st := mkSt { spine : list entry; files : list (file * option nat) }.
Definition init : st := mkSt [] [].

(* bsearch_leq_generic is a librunt macro (absent from /repo): the last element whose key
   is at most the target. *)
Fixpoint leq_from (keys : list Z) (t : Z) (i : nat) (best : option nat) : option nat :=
  match keys with
  | [] => best
  | k :: ks => leq_from ks t (S i) (if k <=? t then Some i else best)
  end.
Definition bsearch_leq (keys : list Z) (t : Z) : option nat := leq_from keys t 0 None.

(* init_allocsites_info, allocsites.c:57-94, when a file is loaded.  Writing slot 256 of
   the 256-slot array is UB; the check that should prevent it is off by one. *)
Definition load (s : st) (f : file) : res st :=
  match f_sites f with
  | None => Ok (mkSt (spine s) ((f, None) :: files s))
  | Some l =>
      let slot := Z.of_nat (length (spine s)) in
      if slot >? INDEX_SIZE then Abort else
      if slot =? INDEX_SIZE then UB else
      let prev := last (spine s) (mkEntry 0 0 0 []) in
      let start := if slot =? 0 then 0 else u16 (e_start prev + e_count prev) in
      if negb (slot =? 0) && (start <? e_start prev) then Abort else
      Ok (mkSt (spine s ++ [mkEntry start (u16 (Z.of_nat (length l))) (f_base f) l])
               ((f, Some (length (spine s))) :: files s))
  end.

(* the file is unloaded: its file allocation goes, its spine entry stays *)
Definition unload (s : st) (lo : Z) : st :=
  mkSt (spine s) (filter (fun p => negb (f_lo (fst p) =? lo)) (files s)).

(* get_file, allocsites.c:96-103: the file allocation containing the address *)
Definition get_file (s : st) (a : Z) : option (file * option nat) :=
  find (fun p => (f_lo (fst p) <=? a) && (a <? f_hi (fst p))) (files s).

(* __liballocs_find_allocsite_entry_at, allocsites.c:105-122: (spine entry, index) *)
Definition find_entry (s : st) (a : Z) : option (entry * nat) :=
  match get_file s a with
  | Some (f, Some k) =>
      match nth_error (spine s) k with
      | Some e => match bsearch_leq (firstn (Z.to_nat (e_count e)) (e_ptr e)) (a - f_base f) with
                  | Some i => Some (e, i)
                  | None => None
                  end
      | None => None
      end
  | _ => None
  end.

(* __liballocs_allocsite_id, allocsites.c:124-132 *)
Definition site_id (s : st) (a : Z) : Z :=
  match get_file s a with
  | None => 0
  | Some _ => match find_entry s a with
              | None => NOID
              | Some (e, i) => u16 (e_start e + Z.of_nat i)
              end
  end.

(* __liballocs_allocsite_entry_by_id and __liballocs_allocsite_by_id, allocsites.c:134-158;
   None is the NULL result; reading an array element that does not exist is UB *)
Definition site_by_id (s : st) (id : Z) : res (option Z) :=
  match bsearch_leq (map e_start (spine s)) id with
  | None => Ok None
  | Some k =>
      match nth_error (spine s) k with
      | None => UB
      | Some e => match nth_error (e_ptr e) (Z.to_nat (id - e_start e)) with
                  | None => UB
                  | Some v => Ok (Some (e_base e + v))
                  end
      end
  end.

Inductive aop := Load (f : file) | Unload (lo : Z).
Definition astep (s : st) (o : aop) : res st :=
  match o with Load f => load s f | Unload lo => Ok (unload s lo) end.
Fixpoint arun (s : st) (h : list aop) : res st :=
  match h with [] => Ok s | o :: h' => do s' <- astep s o ; arun s' h' end.
