(* What the queries about an address should answer. *)
From Verif Require Import Base Big_model Big_spec Map_model Map_spec Brk_model File_model Scan_model Query_model.

(* What is to be known about the object at an address: everything; everything but the type,
   because its allocation site is in no table; or nothing, for the reason e. *)
Inductive known := Known (t b z s : Z) | NoType_ (b z s : Z) | Unknown (e : qerr).

(* Function g gives that account, whichever results it is asked for. *)
Definition accounts (g : ask -> res (option qerr * outs)) (x : known) : Prop :=
  forall k, exists e o, g k = Ok (e, o) /\
  match x with
  | Known t b z s => e = None /\
      o = mkOuts (if k_type k then Some t else None) (if k_base k then Some b else None)
                 (if k_size k then Some z else None) (if k_site k then Some s else None)
  | NoType_ b z s => e = (if k_type k || k_site k then Some Esite else None) /\
      o_base o = (if k_base k then Some b else None) /\ o_size o = (if k_size k then Some z else None) /\
      o_site o = (if k_site k then Some s else None)
  | Unknown err => e = Some err /\ err <> Esite /\ o = mkOuts None None None None
  end.

(* The answers of the single-value queries, 0 standing for NULL. *)
Definition base_of (x : known) : Z := match x with Known _ b _ _ => b | NoType_ b _ _ => b | Unknown _ => 0 end.
Definition size_of (x : known) : Z := match x with Known _ _ z _ => z | NoType_ _ z _ => z | Unknown _ => 0 end.
Definition type_of (x : known) : Z := match x with Known t _ _ _ => t | _ => 0 end.
Definition site_in (x : known) : Z := match x with Known _ _ _ s => s | NoType_ _ _ s => s | Unknown _ => 0 end.
Definition alloc_of (a : nat) (x : known) : nat :=
  match x with Unknown Estatic => a | Unknown _ => 0%nat | _ => a end.

(* The allocator responsible inside record n: the one that has parcelled it out, if any. *)
Definition responsible (s : st) (n : nat) : nat :=
  match b_sub (bigs s n) with O => b_alloc (bigs s n) | S x => S x end.

(* The innermost record n is itself the object asked about: who answers, and the type.  The
   heap segment counts if it is the one segment there is; what of a file lies in no segment of
   it is answered for by the segments' allocator. *)
Inductive itself (B : bst) (BYTE : Z) (n : nat) : nat -> Z -> Prop :=
| it_map : b_alloc (bigs (fo (bm B)) n) = MMAP -> b_sub (bigs (fo (bm B)) n) = 0%nat -> itself B BYTE n MMAP 0
| it_brk : b_alloc (bigs (fo (bm B)) n) = BRK -> b_sub (bigs (fo (bm B)) n) = 0%nat -> n = b_brk B -> itself B BYTE n BRK 0
| it_file : b_alloc (bigs (fo (bm B)) n) = FILE -> b_sub (bigs (fo (bm B)) n) = 0%nat -> itself B BYTE n FILE BYTE
| it_rest : b_alloc (bigs (fo (bm B)) n) = FILE -> b_sub (bigs (fo (bm B)) n) = SEGM -> itself B BYTE n SEGM BYTE
| it_seg : b_alloc (bigs (fo (bm B)) n) = SEGM -> b_sub (bigs (fo (bm B)) n) = 0%nat -> itself B BYTE n SEGM BYTE
| it_sec : b_alloc (bigs (fo (bm B)) n) = SECT -> b_sub (bigs (fo (bm B)) n) = 0%nat -> itself B BYTE n SECT BYTE.

(* The metadata of the file that a record made for it, or for a segment or section of it,
   belongs to. *)
Inductive file_for (s : st) (fmeta : nat -> option fmd) (n : nat) : fmd -> Prop :=
| ff_file m : b_alloc (bigs s n) = FILE -> fmeta (b_priv (bigs s n)) = Some m -> file_for s fmeta n m
| ff_seg m f : b_alloc (bigs s n) = SEGM -> b_parent (bigs s n) = f ->
    fmeta (b_priv (bigs s f)) = Some m -> file_for s fmeta n m
| ff_sec m g f : b_alloc (bigs s n) = SECT -> b_parent (bigs s n) = g -> b_parent (bigs s g) = f ->
    fmeta (b_priv (bigs s f)) = Some m -> file_for s fmeta n m.

(* A section header in memory that covers obj, none before it doing so. *)
Definition section_at (la obj : Z) (l : list (bool * Z * Z)) (b z : Z) : Prop :=
  exists l1 l2 ad, l = l1 ++ (true, ad, z) :: l2 /\ b = la + ad /\ b <= obj < b + z /\
    forall ad' z', In (true, ad', z') l1 -> ~ (la + ad' <= obj < la + ad' + z').
