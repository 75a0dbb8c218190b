(* Specification of the walk over the executable's program headers. *)
From Verif Require Import Base Exe_model.

Definition loads (l : list phdr) : list phdr := filter (fun p => match p_type p with PT_LOAD => true | _ => false end) l.

(* the pages of a segment when the executable is loaded at la *)
Definition in_seg (la : Z) (p : phdr) (a : Z) : Prop :=
  exists k, k * 4096 <= a < (k + 1) * 4096 /\ exists b, k * 4096 <= b < (k + 1) * 4096 /\ la + p_vaddr p <= b < la + p_vaddr p + p_memsz p.

(* An executable as linkers make them and the kernel loads it at the page address la: its
   headers are themselves in memory, at at_, if the first header says so; the segments to be loaded
   are not empty, are in increasing order and share no page. *)
Record exe (la at_ : Z) (l : list phdr) : Prop := {
  ex_page : la mod 4096 = 0;
  ex_some : loads l <> [];
  ex_seg : forall p, In p (loads l) -> 0 <= p_vaddr p /\ 0 < p_memsz p /\ 0 <= la /\ la + p_vaddr p + p_memsz p < 2 ^ 63;
  ex_order : ForallOrdPairs (fun p q => forall k, ~ (exists a b, k * 4096 <= a < (k + 1) * 4096 /\ k * 4096 <= b < (k + 1) * 4096 /\
                 p_vaddr p <= a < p_vaddr p + p_memsz p /\ p_vaddr q <= b < p_vaddr q + p_memsz q) /\ p_vaddr p < p_vaddr q) (loads l);
  ex_phdr : (exists p r, l = p :: r /\ p_type p = PT_PHDR /\ at_ = la + p_vaddr p) \/
            ((forall p, In p l -> p_type p <> PT_PHDR) /\ la = 0) }.

(* a request to the kernel covers an address *)
Definition asked (hs : list (Z * Z)) (a : Z) : Prop := exists b n, In (b, n) hs /\ b <= a < b + n.

(* What the walk answers: the end is the least page address above all the segments; the data
   segment is the one that ends there; and the kernel is asked for exactly the pages between
   segments that are in none. *)
Record walked (la : Z) (l : list phdr) (e d : Z) (hs : list (Z * Z)) : Prop := {
  wk_above : forall p a, In p (loads l) -> in_seg la p a -> a < e;
  wk_last : exists p, In p (loads l) /\ in_seg la p (e - 1) /\ d = la + p_vaddr p;
  wk_holes : forall a, asked hs a <->
      (forall p, In p (loads l) -> ~ in_seg la p a) /\ (exists p b, In p (loads l) /\ in_seg la p b /\ b < a) /\ a < e;
  wk_page : forall b n, In (b, n) hs -> 0 < n /\ b mod 4096 = 0 /\ n mod 4096 = 0;
  wk_once : ForallOrdPairs (fun x y => fst x + snd x <= fst y) hs }.
