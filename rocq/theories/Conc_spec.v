(* What callers on several threads rely on: each call acts at one instant between being made
   and returning.  Independent of the code of the calls. *)
From Verif Require Import Base Big_model Big_hist Big_spec Conc_model.

Section Spec.
Variables (S_ C R : Type).
(* what one call does to the state and answers, on its own *)
Variable sem : C -> S_ -> res (S_ * R).

(* a serial execution: who called what, and the answer *)
Inductive serial (s0 : S_) : list (nat * C * R) -> S_ -> Prop :=
| serial_nil : serial s0 [] s0
| serial_snoc l s i x r s' : serial s0 l s -> sem x s = Ok (s', r) -> serial s0 (l ++ [(i, x, r)]) s'.

Definition mine (i : nat) (l : list (nat * C * R)) := filter (fun e => Nat.eqb (fst (fst e)) i) l.
Definition calls (i : nat) (l : list (nat * C * R)) : list C := map (fun e => snd (fst e)) (mine i l).
Definition answers (i : nat) (l : list (nat * C * R)) : list R := map snd (mine i l).

(* [l] accounts for a moment [c] of a run of the threads [t0]: each thread's calls come in
   its own order; those which have returned are in [l] with the answers they gave; of the
   others at most the one under way; and if nobody is inside the lock the memory is as [l]
   leaves it. *)
Record accounts (s0 : S_) (t0 : nat -> list C) (c : config S_ C R) (l : list (nat * C * R)) (s : S_) : Prop := {
  ac_serial : serial s0 l s;
  ac_order : forall i, exists rest, t0 i = calls i l ++ rest;
  ac_answers : forall i, exists more, answers i l = done_ c i ++ more /\ (length more <= 1)%nat /\ (cur c i = None -> more = []);
  ac_end : forall i, cur c i = None -> todo c i = [] -> calls i l = t0 i;
  ac_state : own c = None -> sh c = s }.
End Spec.
Arguments serial {S_ C R}. Arguments calls {C R}. Arguments answers {C R}. Arguments mine {C R}. Arguments accounts {S_ C R}.

(* What each call on the table of big allocations does, from the model of C01-C08. *)
Section Sem.
Variables (nb : nat) (biggest : Z) (dbg : bool) (al : nat -> Z) (lcur lmax : Z).

(* the calls which hold the lock throughout, and those which do not *)
Definition in_lock (c : call) : bool :=
  match c with CLeaf _ | CLeafAlloc _ | CTop _ | CAdjustEnd _ _ | CSetSub _ _ _ => false | _ => true end.

(* the operation of Big_hist performed, if any *)
Definition op_of (c : call) : option op :=
  match c with
  | CNew p z pr mp a => Some (New p z pr mp a)
  | CDelAt a x => Some (DelAt a x)
  | CDelRange lo hi => Some (DelRange lo hi)
  | CExtend n e => Some (Extend n e)
  | CPreExtend n b => Some (PreExtend n b)
  | CTruncEnd n e => Some (TruncEnd n e)
  | CTruncBegin n b => Some (TruncBegin n b)
  | CSplit n sp => Some (Split n sp)
  | CDeepest stacks a => Some (Touch stacks a)
  | CAdjustEnd n e => Some (AdjustEnd n e)
  | CSetSub n u p => Some (SetSub n u p)
  | _ => None
  end.

Definition with_ans (r : res st) (n : nat) : res (st * nat) := do s' <- r ; Ok (s', n).
Definition look (s : st) (r : res nat) : res (st * nat) := do n <- r ; Ok (s, n).

Definition sem (c : call) (s : st) : res (st * nat) :=
  match c with
  | CNew p z pr mp a => new_bigalloc nb biggest dbg s p z pr mp a
  | CDelAt a x => do '(s', t) <- delete_at nb biggest dbg s a x ; Ok (s', if t then 1%nat else 0%nat)
  | CDelRange lo hi => with_ans (delete_overlapping nb biggest dbg s lo hi) 0
  | CExtend n e => with_ans (extend biggest dbg s n e) 1
  | CPreExtend n b => with_ans (pre_extend nb biggest dbg s n b) 1
  | CTruncEnd n e => with_ans (truncate_end biggest dbg s n e) 1
  | CTruncBegin n b => with_ans (truncate_begin biggest dbg s n b) 1
  | CSplit n sp => split nb dbg s n sp
  | CDeepest stacks a => find_deepest_adopt nb biggest dbg al lcur lmax s stacks a
  | CFind a x bs => look s (find_from_root nb s a x bs)
  | CAbove a => look s (mapping_at_or_above nb dbg s a)
  | CBelow a => look s (mapping_below nb dbg s a)
  | CLeaf a => look s (leaf_bigalloc nb s a)
  | CLeafAlloc a => look s (leaf_allocator nb s a)
  | CTop a => look s (lookup_top_level nb s a)
  | CAdjustEnd n e => with_ans (adjust_end biggest dbg s n e)
       (if b_end (bigs s n) =? e then 0 else 1)
  | CSetSub n u p => Ok (set_sub s n u p, 0%nat)
  end.
End Sem.

(* The callers' side: every call is within its contract at whatever point of whatever order
   it takes effect. *)
Section Contract.
Variables (nb : nat) (biggest : Z) (dbg : bool) (al : nat -> Z) (lcur lmax : Z).
Definition legalc (s : st) (x : call) : Prop := match op_of x with Some o => legal nb biggest al s o | None => True end.
Definition honest (s0 : st) (t0 : nat -> list call) : Prop :=
  forall l s i x rest, serial (sem nb biggest dbg al lcur lmax) s0 l s ->
    (forall j, exists r, t0 j = calls j l ++ r) -> t0 i = calls i l ++ x :: rest -> legalc s x.

(* the right answer to a lookup made when the table was s1 and left it s2 *)
Definition right (x : call) (s1 s2 : st) (r : nat) : Prop :=
  match x with
  | CFind a u bysub => s2 = s1 /\
      ((r = 0%nat /\ forall m, live s1 m -> covers s1 m a -> ~ has_alloc s1 bysub m u) \/ outermost s1 bysub a u r)
  | CDeepest _ a => lookup_answer s2 a r
  | CBelow a => s2 = s1 /\
      ((r = 0%nat /\ forall y, toplevel s1 y -> a < b_end (bigs s1 y)) \/
       (toplevel s1 r /\ b_end (bigs s1 r) <= a /\
        forall y, toplevel s1 y -> b_end (bigs s1 y) <= a -> y = r \/ b_end (bigs s1 y) <= b_begin (bigs s1 r)))
  | CLeaf a => s2 = s1 /\ lookup_answer s1 a r
  | CTop a => s2 = s1 /\ ((r = 0%nat /\ forall m, live s1 m -> ~ covers s1 m a) \/
       (live s1 r /\ b_parent (bigs s1 r) = 0%nat /\ covers s1 r a))
  | CLeafAlloc a => s2 = s1 /\ exists n, lookup_answer s1 a n /\
       r = (if Nat.eqb n 0 then 0 else if Nat.eqb (b_sub (bigs s1 n)) 0 then b_alloc (bigs s1 n) else b_sub (bigs s1 n))%nat
  | _ => True
  end.
End Contract.
