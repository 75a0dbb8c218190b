(* What redirecting a function should do, in terms of what a processor would execute.

   The meaning of an instruction is its bytes other than its relocatable fields, and what each field
   refers to: for a PC-relative field, an address; otherwise the number itself. *)
From Verif Require Import Base Detour_model.

Definition fsize (ty : Z) : Z := if ty =? R_64 then 8 else 4.
Definition fields (i : insn) : list field :=
  List.filter (fun f => negb (f_type f =? 0)) [i_f0 i; i_f1 i].
Definition known (ty : Z) : Prop := ty = R_64 \/ ty = R_PC32 \/ ty = R_32 \/ ty = R_32S \/ ty = R_TPOFF32.

Definition refers (m : mem) (a ty : Z) : Z :=
  if ty =? R_PC32 then (a + sext (get4 m a)) mod W64
  else if ty =? R_64 then get8 m a
  else get4 m a.

Definition in_field (i : insn) (k : Z) : bool :=
  existsb (fun f => (f_off f <=? k) && (k <? f_off f + fsize (f_type f))) (fields i).

Record meaning := mkM { m_bytes : list (option Z); m_refs : list (field * Z) }.
Definition means (m : mem) (p : Z) (i : insn) : meaning :=
  mkM (map (fun k => let k := Z.of_nat k in if in_field i k then None else Some (m (p + k))) (seq 0 (Z.to_nat (i_len i))))
      (map (fun f => (f, refers m (p + f_off f) (f_type f))) (fields i)).

(* The instructions from [p] to [q], in order. *)
Inductive straight (decode : mem -> Z -> Z -> insn) (m : mem) (limit : Z) : Z -> list meaning -> Z -> Prop :=
| s_done p : straight decode m limit p [] p
| s_insn p ms q : 0 < i_len (decode m p limit) ->
    straight decode m limit (p + i_len (decode m p limit)) ms q ->
    straight decode m limit p (means m p (decode m p limit) :: ms) q.

(* At [p] there is a jump to [q]. *)
Definition jumps (m : mem) (p q : Z) : Prop := m p = 0xe9 /\ (p + 5 + sext (get4 m (p + 1))) mod W64 = q.

(* What is asked of a decoder: that it find what is there.  Its answer depends only on the
   instruction, not on the contents of its relocatable fields, nor on where it is; fields are within
   the instruction, apart from each other, and behind the opcode. *)
Definition field_ok (i : insn) (f : field) : Prop :=
  known (f_type f) /\ 1 <= f_off f /\ f_off f + fsize (f_type f) <= i_len i.
Definition decoder_ok (decode : mem -> Z -> Z -> insn) : Prop :=
  (forall m p limit, let i := decode m p limit in
     i_len i = 0 \/
     (1 <= i_len i <= 15 /\ p + i_len i <= limit /\ (forall f, In f (fields i) -> field_ok i f) /\
      (forall f g, fields i = [f; g] ->
         f_off f + fsize (f_type f) <= f_off g \/ f_off g + fsize (f_type g) <= f_off f))) /\
  (forall m p limit m' p' limit', let i := decode m p limit in
     0 < i_len i -> p' + i_len i <= limit' ->
     (forall k, 0 <= k < i_len i -> in_field i k = false -> m' (p' + k) = m (p + k)) ->
     decode m' p' limit' = i).

(* [t] is close enough to what the PC-relative fields of the instructions from [p] refer to *)
Definition near (from to : Z) : Prop := exists d, - 2 ^ 31 <= d < 2 ^ 31 /\ (from + d) mod W64 = to mod W64.
Inductive in_reach (t : Z) : list meaning -> Prop :=
| r_nil : in_reach t []
| r_cons x r :
    (forall f v, In (f, v) (m_refs x) -> f_type f = R_PC32 -> near (t + f_off f) v) ->
    in_reach (t + Z.of_nat (length (m_bytes x))) r -> in_reach t (x :: r).

Definition apart (a n b k : Z) : Prop := a + n <= b \/ b + k <= a.

(* A function at [func], whose first [n] bytes had the meaning [ms], has been redirected. *)
Record redirected (decode : mem -> Z -> Z -> insn) (m : mem) (func dfunc slot tramp n : Z) (ms : list meaning) : Prop := {
  rd_entry : jumps m func dfunc;
  rd_slot : get8 m slot = tramp;
  rd_body : straight decode m (tramp + n) tramp ms (tramp + n);
  rd_back : jumps m (tramp + n) (func + n);
}.

(* The first [n] bytes, at least five, are just enough whole instructions. *)
Definition displaced (decode : mem -> Z -> Z -> insn) (m : mem) (limit func : Z) (ms : list meaning) (n : Z) : Prop :=
  straight decode m limit func ms (func + n) /\ 5 <= n /\
  exists ms0 x, ms = ms0 ++ [x] /\ n - Z.of_nat (length (m_bytes x)) < 5.
Definition bytes_ok (m : mem) : Prop := forall x, 0 <= m x < 256.

(* A function to be redirected: where it is and ends, to what, where its new entry is left; and its
   displaced bytes. *)
Record target := mkTg { t_func : Z; t_limit : Z; t_d : Z; t_slot : Z; t_n : Z; t_ms : list meaning }.
(* the functions among the symbols, in order *)
Inductive picks : list lsym -> list target -> Prop :=
| p_nil : picks [] []
| p_skip y l ts : l_kind y = None -> picks l ts -> picks (y :: l) ts
| p_take y l t ts : l_addr y = t_func t -> l_addr y + l_size y = t_limit t -> l_kind y = Some (t_d t, t_slot t) ->
    picks l ts -> picks (y :: l) (t :: ts).
(* a function that can be redirected by way of any part of the buffer *)
Definition can (decode : mem -> Z -> Z -> insn) (m : mem) (lo hi : Z) (t : target) : Prop :=
  displaced decode m (t_limit t) (t_func t) (t_ms t) (t_n t) /\
  0 <= t_func t /\ t_func t + t_n t < W64 /\ 0 <= t_d t < W64 /\ near (t_func t + 5) (t_d t) /\
  (forall tr, lo <= tr -> tr + t_n t + 5 <= hi -> near (tr + t_n t + 5) (t_func t + t_n t) /\ in_reach tr (t_ms t)) /\
  apart (t_func t) (t_n t) lo (hi - lo) /\ apart (t_slot t) 8 lo (hi - lo) /\ apart (t_slot t) 8 (t_func t) (t_n t).
Definition separate (t u : target) : Prop :=
  apart (t_func t) (t_n t) (t_func u) (t_n u) /\ apart (t_slot t) 8 (t_func u) (t_n u) /\
  apart (t_slot u) 8 (t_func t) (t_n t) /\ apart (t_slot t) 8 (t_slot u) 8.

(* the string [s] is at [a] *)
Definition holds (m : mem) (a : Z) (s : list Z) : Prop :=
  (forall k, (k < length s)%nat -> m (a + Z.of_nat k) = nth k s 0) /\ m (a + Z.of_nat (length s)) = 0.
