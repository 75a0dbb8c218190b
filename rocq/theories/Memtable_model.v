(* Model of include/memtable.h: the linear tables with one entry per bucket of address
   space.  Definitions only.  Addresses and sizes are Z; C's conversions are explicit. *)
From Verif Require Import Base.

(* reduction to unsigned long and to (signed) long / ptrdiff_t *)
Definition u64 (x : Z) : Z := x mod 2 ^ 64.
Definition s64 (x : Z) : Z := (x + 2 ^ 63) mod 2 ^ 64 - 2 ^ 63.

(* is_power_of_two and integer_log2 come from bitops.h (librunt, absent); taken to be the
   mathematical ones *)
Definition is_power_of_two (n : Z) : bool := (0 <? n) && (2 ^ Z.log2 n =? n).

(* memtable_mapping_size, memtable.h:69-96; the asserts are the Abort outcomes *)
Definition mapping_size (esz cov b e : Z) : res Z :=
  if negb (is_power_of_two cov) then Abort else
  let range := u64 (s64 (e - b)) in
  if range =? 0 then
    let sh := 64 - Z.log2 cov in
    if 64 <=? sh then UB                       (* 1ULL << 64 *)
    else Ok (u64 (2 ^ sh * esz))
  else if negb (range mod cov =? 0) then Abort
  else Ok (u64 (range / cov * esz)).

(* memtable_index, memtable.h:217-226: unsigned arithmetic, then pointer addition *)
Definition table_index (tab esz idx : Z) : Z := u64 (tab + u64 (esz * idx)).

(* memtable_addr, memtable.h:231-242: the pointer difference is signed and is divided as a
   signed long (truncating), then converted to unsigned long *)
Definition table_addr (tab esz cov b e a : Z) : res Z :=
  if (b <=? a) && ((e =? 0) || (a <? e))
  then if cov =? 0 then UB else Ok (table_index tab esz (u64 (Z.quot (s64 (a - b)) cov)))
  else Abort.

(* memtable_entry_range_base, memtable.h:248-264 *)
Definition entry_range_base (tab esz cov b p : Z) : res Z :=
  if esz =? 0 then UB
  else Ok (u64 (s64 (Z.quot (s64 (p - tab)) esz * cov) + b)).

(* memtable_addr_range_base, memtable.h:271-289 *)
Definition addr_range_base (tab esz cov b e a : Z) : res Z :=
  do p <- table_addr tab esz cov b e a ;
  entry_range_base tab esz cov b p.

(* memtable_addr_range_offset, memtable.h:294-303 *)
Definition addr_range_offset (tab esz cov b e a : Z) : res Z :=
  do base <- addr_range_base tab esz cov b e a ;
  Ok (s64 (a - base)).
