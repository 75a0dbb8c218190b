(* What recording a loaded file amounts to, stated on the records alone. *)
From Verif Require Import Base Big_model Big_spec Map_model File_model.

(* The range of memory of a segment or section of a file loaded at [base]. *)
Definition lo_of (base : Z) (x : Z * Z) : Z := base + fst x.
Definition hi_of (base : Z) (x : Z * Z) : Z := base + fst x + snd x.
Definition apart (x y : Z * Z) : Prop := fst x + snd x <= fst y \/ fst y + snd y <= fst x.
Definition inside (x y : Z * Z) : Prop := fst y <= fst x /\ fst x + snd x <= fst y + snd y.
Definition nonempty (l : list (Z * Z)) : list (Z * Z) := filter (fun x => 0 <? snd x) l.

(* A sane file whose first LOAD byte is at [low] and last before [lim]: segments are non-empty and
   apart, sections are apart and each in one segment. *)
Record file_ok (o : obj) (low lim : Z) : Prop := {
  fk_low : In low (map fst (o_segs o)) /\ forall g, In g (o_segs o) -> low <= fst g;
  fk_lim : In lim (map (fun g => fst g + snd g) (o_segs o)) /\ forall g, In g (o_segs o) -> fst g + snd g <= lim;
  fk_pos : 0 <= low /\ 0 < lim /\ 0 <= o_base o /\ o_base o + lim < W64;
  fk_segs : forall g, In g (o_segs o) -> 0 < snd g;
  fk_segs_apart : ForallOrdPairs apart (o_segs o);
  fk_secs : forall c, In c (nonempty (o_secs o)) -> exists g, In g (o_segs o) /\ inside c g;
  fk_secs_apart : ForallOrdPairs apart (nonempty (o_secs o)) }.

(* The table has [k] free records. *)
Definition spare (nb : nat) (s : st) (k : nat) : Prop :=
  exists l, NoDup l /\ length l = k /\ forall n, In n l -> (1 <= n < nb)%nat /\ in_use (bigs s n) = false.

(* The file's memory is free for it: its mapping is a top-level record with a mapping sequence, and
   nothing in the mapping meets the range from the mapping's beginning to the file's end. *)
Definition clear_for (s : st) (m : nat) (e : Z) : Prop :=
  live s m /\ b_parent (bigs s m) = 0%nat /\ b_alloc (bigs s m) = MMAP /\ b_priv (bigs s m) <> 0%nat /\
  e <= b_end (bigs s m) /\
  forall c, live s c -> b_parent (bigs s c) = m -> e <= b_begin (bigs s c).

(* The records of the file, whose mapping is [m] and whose record spans [b,e): [f] its own, [ls] its
   segments', [lc] its sections'. *)
Record held (s : st) (o : obj) (data b : Z) (m : nat) (e : Z) (f : nat) (ls lc : list nat) : Prop := {
  hd_file : view s f = Some (mkAttrs b e m FILE SEGM (o_meta o) 0);
  hd_segs : Forall2 (fun g n => view s n = Some (mkAttrs (lo_of (o_base o) g) (hi_of (o_base o) g) f SEGM
                (if lo_of (o_base o) g =? data then SYMB else 0%nat) 0 0)) (o_segs o) ls;
  hd_secs : Forall2 (fun c n => exists g k, In (g, k) (combine (o_segs o) ls) /\ inside c g /\
                view s n = Some (mkAttrs (lo_of (o_base o) c) (hi_of (o_base o) c) k SECT SYMB 0 0)) (nonempty (o_secs o)) lc }.

(* Going from s to s' made those records, none of which was in use. *)
Definition recorded (s s' : st) (o : obj) (data : Z) (m : nat) (e : Z) (f : nat) (ls lc : list nat) : Prop :=
  (NoDup (f :: ls ++ lc) /\ forall n, In n (f :: ls ++ lc) -> n <> 0%nat /\ view s n = None) /\
  held s' o data (b_begin (bigs s m)) m e f ls lc.

(* Files' records: each has its metadata and lies directly in a top-level record that is not a file. *)
Definition files_ok (s : st) : Prop :=
  forall n, live s n -> b_alloc (bigs s n) = FILE ->
    b_priv (bigs s n) <> 0%nat /\ b_parent (bigs s n) <> 0%nat /\
    b_parent (bigs s (b_parent (bigs s n))) = 0%nat /\ b_alloc (bigs s (b_parent (bigs s n))) <> FILE.
