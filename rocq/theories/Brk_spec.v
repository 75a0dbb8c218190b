(* What is required of program-break notifications (C13). *)
From Verif Require Import Base Big_model Big_spec Big_hist Map_model Map_spec Map_hist Brk_model.

Definition with_end (v : attrs) (e : Z) : attrs :=
  mkAttrs (a_begin v) e (a_parent v) (a_alloc v) (a_sub v) (a_priv v) (a_subpriv v).

(* Record n, with attributes v, is the mapping at whose end the break is; record m, with
   attributes w, directly inside it, is the heap segment. *)
Record heap (T : mst) (n m : nat) (v w : attrs) : Prop := {
  hp_map : view (fo T) n = Some v;
  hp_mal : a_alloc v = MMAP;
  hp_brk : view (fo T) m = Some w;
  hp_bal : a_alloc w = BRK;
  hp_par : a_parent w = n }.

(* The break may move to k: it stays above the segment's base; what other allocators have put
   in the segment ends by k; the mapping's other contents lie below the segment; any memory
   gained is unoccupied; the record is not too big; its sequence has a spare entry or ends in
   anonymous memory.  [ht_page]: the segment's base is on an earlier page than the part that
   changes, or the change is within a page.  [ht_order]: if the break moves up with respect to
   the C library's value then it moves up with respect to the record. *)
Record may_move (biggest : Z) (T : mst) (n m : nat) (v w : attrs) (cur k : Z) : Prop := {
  ht_base : a_begin w < k;
  ht_kids : forall c x, view (fo T) c = Some x -> a_parent x = m -> a_end x <= k;
  ht_sibs : forall c x, view (fo T) c = Some x -> a_parent x = n -> c <> m -> a_end x <= a_begin w;
  ht_clear : forall c, live (fo T) c -> ~ meets (fo T) c (a_end v) (RUP k);
  ht_size : RUP k - a_begin v <= biggest;
  ht_room : a_end v < RUP k -> (length (used (seqs T (a_priv v))) < MAXLEN)%nat \/
     forall t, recorded T (a_end v - 1) t -> at_file t = None;
  ht_page : a_begin w <= RDOWN (Z.min k (a_end w)) \/ RDOWN k = RDOWN (a_end w);
  ht_order : cur < k -> a_end w <= RUP k }.

(* Going from T to T', records n and m ended up ending at e and k, and nothing else changed. *)
Definition heap_moved (T T' : mst) (n m : nat) (v w : attrs) (e k : Z) : Prop :=
  (forall c, view (fo T') c = if Nat.eqb c n then Some (with_end v e) else if Nat.eqb c m then Some (with_end w k) else view (fo T) c).

(* The first program break, k, of a process: inside a mapping that is free from k on, or at
   the end of a mapping that has free space after it. *)
Record may_start (nb : nat) (biggest : Z) (T : mst) (n : nat) (v : attrs) (k : Z) : Prop := {
  st_map : view (fo T) n = Some v;
  st_mal : a_alloc v = MMAP;
  st_free : has_free nb (fo T);
  st_in : a_begin v <= k < a_end v \/
    (k = a_end v /\ (forall c, live (fo T) c -> ~ meets (fo T) c k (RUP (k + 1))) /\ RUP (k + 1) - a_begin v <= biggest /\ 1 < biggest /\
     ((length (used (seqs T (a_priv v))) < MAXLEN)%nat \/ forall t, recorded T (k - 1) t -> at_file t = None));
  st_kids : forall c x, view (fo T) c = Some x -> a_parent x = n -> a_end x <= k }.
