(* Model of the small-object index: src/allocators/generic_small.c.  Definitions only.
   The assertions, check_bucket_sanity and the checking look-ups of index_small_alloc_internal are
   compiled out (src/Makefile:94) and are not represented. *)
From Verif Require Import Base.

(* struct entry, 18-52: the 48-bit discriminator and two 8-bit fields *)
Record ent := mkE { e_discr : Z; e_off : Z; e_tsz : Z }.
Definition MINUSER : Z := 4194304. (* MINIMUM_USER_ADDRESS (librunt) *)
Definition is_cont (e : ent) : bool := negb (e_discr e =? 0) && (e_discr e <? MINUSER). (* 55-56 *)
Definition start_ent (site off tsz : Z) : ent := mkE (site mod 2 ^ 47) (off mod 256) (tsz mod 256).
Definition cont_ent (size tsz : Z) : ent := mkE (size mod 2 ^ 22) 0 (tsz mod 256).

(* struct chunk_rec, 86-94, with the container's start and the number of buckets (the entries of one
   layer).  A bucket's entries are those of its layers
   down to the first null one; there are as many layers as the pitch *)
Record chunk := mkC { c_base : Z; c_pitch : Z; c_nb : Z }.
Record st := mkS { s_b : Z -> list ent; s_big : Z }.
Definition upd (b : Z -> list ent) (k : Z) (l : list ent) : Z -> list ent := fun i => if i =? k then l else b i.
Definition nbucket (c : chunk) (a : Z) : Z := (a - c_base c) / c_pitch c.      (* 125-129 *)
Definition boffset (c : chunk) (a : Z) : Z := (a - c_base c) mod c_pitch c.    (* 131-135 *)
Definition bbase (c : chunk) (k : Z) : Z := c_base c + k * c_pitch c.          (* 143-162 *)
Definition bend (c : chunk) (k : Z) : Z := bbase c k + c_pitch c.              (* 164-165 *)
(* a layer as many as the pitch is outside the table *)
Definition room (c : chunk) (l : list ent) : bool := Z.of_nat (length l) <? c_pitch c.

(* make_suballocated_chunk, 189-247: the pitch *)
Fixpoint pow2_ge (n : nat) (p x : Z) : Z := match n with O => p | S m => if x <=? p then p else pow2_ge m (2 * p) x end.
Definition next_pow2 (x : Z) : Z := pow2_ge 64 1 x.
Definition make_pitch (chunk_size guess : Z) : Z :=
  let g := if 256 <? guess then 256 else guess in
  let p2 := next_pow2 chunk_size in
  let pitch := next_pow2 g in
  if 8 * (p2 / pitch) <? PAGE then (8 * p2) / PAGE else pitch.

(* writing an entry in the first free layer: a null entry leaves the layer free *)
Definition put (c : chunk) (l : list ent) (e : ent) : res (list ent) :=
  if room c l then Ok (if e_discr e =? 0 then l else l ++ [e]) else UB.

(* get_start_from_continuation, 502-542: the start entry with the biggest offset in bucket k-1 *)
Fixpoint biggest (l : list ent) (pos : nat) (best : option (nat * Z)) : option (nat * Z) :=
  match l with
  | [] => best
  | e :: t =>
      if is_cont e then biggest t (S pos) best
      else match best with
           | None => biggest t (S pos) (Some (pos, e_off e))
           | Some (_, o) => biggest t (S pos) (if o <? e_off e then Some (pos, e_off e) else best)
           end
  end.
Definition get_start (c : chunk) (s : st) (k : Z) : res (nat * Z) :=
  if k <? 1 then UB else
  if negb (room c (s_b s (k - 1))) then UB else
  match biggest (s_b s (k - 1)) 0 None with Some r => Ok r | None => UB end.

(* lookup_small_alloc, 622-707: the entry's place, the object's start, and the size written out if
   any is *)
Definition hit := ((Z * nat) * Z * option Z)%type.
Inductive sres := Hit (h : hit) | Miss | Fail.
Fixpoint scan (c : chunk) (s : st) (k ptr : Z) (must : bool) (l : list ent) (pos : nat) : res sres :=
  match l with
  | [] => if Z.of_nat pos <? c_pitch c then Ok Miss else UB
  | e :: t =>
      if is_cont e then
        do ' (bp, off) <- get_start c s k ;
        let os := bbase c (k - 1) + off in
        if ptr <? os + e_discr e mod 2 ^ 22 then Ok (Hit ((k - 1, bp), os, None))
        else if must then Ok Fail else scan c s k ptr must t (S pos)
      else
        let os := bbase c k + e_off e in
        if (os <=? ptr) && (ptr <? os + e_tsz e) then Ok (Hit ((k, pos), os, Some (e_tsz e)))
        else scan c s k ptr must t (S pos)
  end.
Fixpoint walk (c : chunk) (s : st) (ptr : Z) (n : nat) (must : bool) : res (option hit) :=
  do r <- scan c s (Z.of_nat n) ptr must (s_b s (Z.of_nat n)) 0 ;
  match r with
  | Hit h => Ok (Some h)
  | Fail => Ok None
  | Miss => match n with
            | O => Ok None
            | S m => if (ptr - s_big s) mod W64 <? bend c (Z.of_nat m) then walk c s ptr m true else Ok None
            end
  end.
Definition lookup (c : chunk) (s : st) (ptr : Z) : res (option hit) := walk c s ptr (Z.to_nat (nbucket c ptr)) false.

(* remove_one_entry, 709-720 *)
Definition drop (l : list ent) (pos : nat) : list ent := firstn pos l ++ skipn (S pos) l.
(* the first continuation of a bucket, 758-768 *)
Fixpoint drop_cont (l : list ent) : list ent :=
  match l with [] => [] | e :: t => if is_cont e then t else e :: drop_cont t end.
(* the bucket after bucket k: the last one's is the first bucket from its second layer on *)
Definition next_of (c : chunk) (b : Z -> list ent) (k : Z) : list ent :=
  if k + 1 =? c_nb c then tl (b 0) else b (k + 1).
Definition set_next (c : chunk) (b : Z -> list ent) (k : Z) (l : list ent) : Z -> list ent :=
  if k + 1 =? c_nb c then upd b 0 (firstn 1 (b 0) ++ l) else upd b (k + 1) l.
(* unindex_small_alloc_internal_with_ent, 736-772 *)
Definition unindex_ent (c : chunk) (s : st) (loc : Z * nat) : res st :=
  let (k, pos) := loc in
  let l := s_b s k in
  match nth_error l pos with
  | None => UB
  | Some e =>
      if negb (room c l) then UB else
      let we_are := forallb (fun i => e_off i <=? e_off e) l in
      let b1 := upd (s_b s) k (drop l pos) in
      if we_are then
        if negb (room c (next_of c b1 k)) then UB
        else Ok (mkS (set_next c b1 k (drop_cont (next_of c b1 k))) (s_big s))
      else Ok (mkS b1 (s_big s))
  end.
(* unindex_small_alloc_internal, 723-734 *)
Definition unindex (c : chunk) (s : st) (ptr : Z) : res st :=
  do r <- lookup c s ptr ;
  match r with Some (loc, _, _) => unindex_ent c s loc | None => UB end.

(* unindex_all_overlapping, 373-433: one bucket, then the buckets from [k] on below [hi] *)
Fixpoint over_bucket (c : chunk) (s : st) (k lo hi : Z) (pos : nat) (fuel : nat) : res st :=
  match fuel with
  | O => Fuel
  | S f =>
      match nth_error (s_b s k) pos with
      | None => if Z.of_nat pos <? c_pitch c then Ok s else UB
      | Some e =>
          let os := bbase c k + e_off e in
          if negb (is_cont e) && (os <? hi) && (lo <? os + e_tsz e)
          then do s1 <- unindex_ent c s (k, pos) ; over_bucket c s1 k lo hi pos f
          else over_bucket c s k lo hi (S pos) f
      end
  end.
Fixpoint over_buckets (c : chunk) (s : st) (k lo hi : Z) (n : nat) : res st :=
  match n with
  | O => Ok s
  | S m => do s1 <- over_bucket c s k lo hi 0 (S (length (s_b s k))) ; over_buckets c s1 (k + 1) lo hi m
  end.
Definition unindex_overlapping (c : chunk) (s : st) (lo hi : Z) : res st :=
  do r <- lookup c s lo ;
  do s1 <- match r with Some (loc, _, _) => unindex_ent c s loc | None => Ok s end ;
  let k := nbucket c lo in
  over_buckets c s1 k lo hi (Z.to_nat ((hi - bbase c k + (c_pitch c - 1)) / c_pitch c)).

(* index_small_alloc_internal, 250-372 *)
Definition index_internal (c : chunk) (s : st) (ptr size site : Z) : res st :=
  let off := boffset c ptr in
  let k := nbucket c ptr in
  let tsz := if nbucket c (ptr + size) =? k then size else c_pitch c - off in
  do l <- put c (s_b s k) (start_ent site off tsz) ;
  let b1 := upd (s_b s) k l in
  do b2 <- (if bend c k <? ptr + size then
              let after := size - tsz in
              do l2 <- put c (b1 (k + 1)) (cont_ent size (if c_pitch c <? after then 0 else after)) ;
              Ok (upd b1 (k + 1) l2)
            else Ok b1) ;
  Ok (mkS b2 (Z.max (s_big s) size)).

(* __index_small_alloc, 435-500, once the container is suballocated; __unindex_small_alloc, 775-790 *)
Inductive sop := SIndex (ptr size site : Z) | SUnindex (ptr : Z).
Definition sstep (c : chunk) (s : st) (o : sop) : res st :=
  match o with
  | SIndex ptr size site => do s1 <- unindex_overlapping c s ptr (ptr + size) ; index_internal c s1 ptr size site
  | SUnindex ptr => unindex c s ptr
  end.
Fixpoint srun (c : chunk) (s : st) (h : list sop) : res st :=
  match h with [] => Ok s | o :: t => do s1 <- sstep c s o ; srun c s1 t end.
Definition empty : st := mkS (fun _ => []) 0.

(* get_info, 792-846: start, size if it is written, allocation site *)
Definition get_info (c : chunk) (s : st) (ptr : Z) : res (option (Z * option Z * Z)) :=
  do r <- lookup c s ptr ;
  match r with
  | None => Ok None
  | Some ((k, pos), os, sz) =>
      match nth_error (s_b s k) pos with Some e => Ok (Some (os, sz, e_discr e)) | None => UB end
  end.
