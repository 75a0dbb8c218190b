(* What threads which allocate, free and look up small chunks rely on.  Chunks are known by
   their addresses; nothing here mentions the bitmap except [marked], which says that the
   index holds a chunk, and [ready], that the arena has its info. *)
From Verif Require Import Base Conc_model Conc_spec Hconc_model.

Section Spec.
Variables (abegin : Z).
Definition abase : Z := rdown abegin SPAN.

(* the arena has been given its info, and nobody is changing it *)
Definition ready (i : nat) (s : hs) : Prop :=
  exists n b u w, i <> 0%nat /\ h_sub s = true /\ h_priv s = i /\
    h_inf s i = mkI (Some abase) (Some n) (Some b) (Some u) /\ 0 <= n /\ h_buf s 0 = None /\
    (b < h_nextb s)%nat /\ ((b = 0%nat /\ n = 0) \/ (b <> 0%nat /\ h_buf s b = Some (n, w))).

Definition marked (i : nat) (s : hs) (p : Z) : bool :=
  match f_bm (h_inf s i) with
  | Some b => match h_buf s b with
      | Some (n, w) => let k := (p - abase) / MALLOC_ALIGN in inside n (k / NBITS) && Z.testbit (w (k / NBITS)) (k mod NBITS)
      | None => false end
  | None => false
  end.

(* an address at which a chunk may start *)
Definition chunk_at (p : Z) : Prop := abase <= p /\ p mod MALLOC_ALIGN = 0.

(* which chunks are live after some calls have taken effect *)
Definition after (L : Z -> bool) (x : hcall) : Z -> bool :=
  match x with
  | HAlloc p _ _ => fun q => (q =? p) || L q
  | HFree p => fun q => negb (q =? p) && L q
  | HLook _ => L
  end.
Definition live_after (L : Z -> bool) (l : list (nat * hcall * Z)) : Z -> bool :=
  fold_left (fun L e => after L (snd (fst e))) l L.

(* the heap's side: chunks are aligned and not empty, and what is freed is live *)
Definition fits (L : Z -> bool) (x : hcall) : Prop :=
  match x with
  | HAlloc p req _ => chunk_at p /\ 0 < req
  | HFree p => chunk_at p /\ L p = true
  | HLook _ => False
  end.
Definition honest (L : Z -> bool) (t0 : nat -> list hcall) : Prop :=
  forall l i x rest, (forall j, exists r, t0 j = calls j l ++ r) -> t0 i = calls i l ++ x :: rest -> fits (live_after L l) x.
End Spec.

(* For lookups beside writers: calls which leave alone the chunk at X, of cu bytes, and stay
   within the n words of bitmap there are. *)
Definition stays (abegin X cu n : Z) (x : hcall) : Prop :=
  match x with
  | HAlloc p req _ => chunk_at abegin p /\ 0 < req /\ p + req <= abase abegin + n * SPAN /\ (p < X \/ X + cu <= p)
  | HFree p => chunk_at abegin p /\ p <> X /\ p < abase abegin + n * SPAN
  | HLook m => X <= m < X + cu
  end.
(* the chunk is in the index, nothing else is inside it, and the index is large enough *)
Record settled (abegin : Z) (i : nat) (X cu n : Z) (s : hs) : Prop := {
  se_ready : ready abegin i s;
  se_nw : f_nw (h_inf s i) = Some n;
  se_bu : exists u, f_bu (h_inf s i) = Some u /\ cu <= u;
  se_at : chunk_at abegin X; se_cu : 0 < cu;
  se_in : X + cu <= abase abegin + n * SPAN; se_32 : n * NBITS <= W32;
  se_marked : marked abegin i s X = true;
  se_alone : forall q, chunk_at abegin q -> X < q < X + cu -> marked abegin i s q = false }.
