(* Rewriting lemmas for the field updates of Big_model, and doubly-linked lists. *)
From Verif Require Import Base Big_model.

Lemma s_end_begin s n v m : b_begin (bigs (s_end s n v) m) = b_begin (bigs s m).
Proof. unfold s_end, put, set_bigs, upd, w_end, w_begin, w_range, w_end; cbn [bigs]; destruct (Nat.eqb_spec m n); subst; reflexivity. Qed.
Lemma s_end_end s n v m : b_end (bigs (s_end s n v) m) = if Nat.eqb m n then v else b_end (bigs s m).
Proof. unfold s_end, put, set_bigs, upd, w_end, w_begin, w_range, w_end; cbn [bigs]; destruct (Nat.eqb m n); reflexivity. Qed.
Lemma s_end_parent s n v m : b_parent (bigs (s_end s n v) m) = b_parent (bigs s m).
Proof. unfold s_end, put, set_bigs, upd, w_end, w_begin, w_range, w_end; cbn [bigs]; destruct (Nat.eqb_spec m n); subst; reflexivity. Qed.
Lemma s_end_first s n v m : b_first (bigs (s_end s n v) m) = b_first (bigs s m).
Proof. unfold s_end, put, set_bigs, upd, w_end, w_begin, w_range, w_end; cbn [bigs]; destruct (Nat.eqb_spec m n); subst; reflexivity. Qed.
Lemma s_end_next s n v m : b_next (bigs (s_end s n v) m) = b_next (bigs s m).
Proof. unfold s_end, put, set_bigs, upd, w_end, w_begin, w_range, w_end; cbn [bigs]; destruct (Nat.eqb_spec m n); subst; reflexivity. Qed.
Lemma s_end_prev s n v m : b_prev (bigs (s_end s n v) m) = b_prev (bigs s m).
Proof. unfold s_end, put, set_bigs, upd, w_end, w_begin, w_range, w_end; cbn [bigs]; destruct (Nat.eqb_spec m n); subst; reflexivity. Qed.
Lemma s_end_alloc s n v m : b_alloc (bigs (s_end s n v) m) = b_alloc (bigs s m).
Proof. unfold s_end, put, set_bigs, upd, w_end, w_begin, w_range, w_end; cbn [bigs]; destruct (Nat.eqb_spec m n); subst; reflexivity. Qed.
Lemma s_end_sub s n v m : b_sub (bigs (s_end s n v) m) = b_sub (bigs s m).
Proof. unfold s_end, put, set_bigs, upd, w_end, w_begin, w_range, w_end; cbn [bigs]; destruct (Nat.eqb_spec m n); subst; reflexivity. Qed.
Lemma s_end_priv s n v m : b_priv (bigs (s_end s n v) m) = b_priv (bigs s m).
Proof. unfold s_end, put, set_bigs, upd, w_end, w_begin, w_range, w_end; cbn [bigs]; destruct (Nat.eqb_spec m n); subst; reflexivity. Qed.
Lemma s_end_subpriv s n v m : b_subpriv (bigs (s_end s n v) m) = b_subpriv (bigs s m).
Proof. unfold s_end, put, set_bigs, upd, w_end, w_begin, w_range, w_end; cbn [bigs]; destruct (Nat.eqb_spec m n); subst; reflexivity. Qed.
Lemma s_end_pidx s n v : pidx (s_end s n v) = pidx s.
Proof. reflexivity. Qed.
Lemma s_end_start s n v : start (s_end s n v) = start s.
Proof. reflexivity. Qed.
Lemma s_end_log s n v : log (s_end s n v) = log s.
Proof. reflexivity. Qed.
Lemma s_begin_begin s n v m : b_begin (bigs (s_begin s n v) m) = if Nat.eqb m n then v else b_begin (bigs s m).
Proof. unfold s_begin, put, set_bigs, upd, w_end, w_begin, w_range, w_begin; cbn [bigs]; destruct (Nat.eqb m n); reflexivity. Qed.
Lemma s_begin_end s n v m : b_end (bigs (s_begin s n v) m) = b_end (bigs s m).
Proof. unfold s_begin, put, set_bigs, upd, w_end, w_begin, w_range, w_begin; cbn [bigs]; destruct (Nat.eqb_spec m n); subst; reflexivity. Qed.
Lemma s_begin_parent s n v m : b_parent (bigs (s_begin s n v) m) = b_parent (bigs s m).
Proof. unfold s_begin, put, set_bigs, upd, w_end, w_begin, w_range, w_begin; cbn [bigs]; destruct (Nat.eqb_spec m n); subst; reflexivity. Qed.
Lemma s_begin_first s n v m : b_first (bigs (s_begin s n v) m) = b_first (bigs s m).
Proof. unfold s_begin, put, set_bigs, upd, w_end, w_begin, w_range, w_begin; cbn [bigs]; destruct (Nat.eqb_spec m n); subst; reflexivity. Qed.
Lemma s_begin_next s n v m : b_next (bigs (s_begin s n v) m) = b_next (bigs s m).
Proof. unfold s_begin, put, set_bigs, upd, w_end, w_begin, w_range, w_begin; cbn [bigs]; destruct (Nat.eqb_spec m n); subst; reflexivity. Qed.
Lemma s_begin_prev s n v m : b_prev (bigs (s_begin s n v) m) = b_prev (bigs s m).
Proof. unfold s_begin, put, set_bigs, upd, w_end, w_begin, w_range, w_begin; cbn [bigs]; destruct (Nat.eqb_spec m n); subst; reflexivity. Qed.
Lemma s_begin_alloc s n v m : b_alloc (bigs (s_begin s n v) m) = b_alloc (bigs s m).
Proof. unfold s_begin, put, set_bigs, upd, w_end, w_begin, w_range, w_begin; cbn [bigs]; destruct (Nat.eqb_spec m n); subst; reflexivity. Qed.
Lemma s_begin_sub s n v m : b_sub (bigs (s_begin s n v) m) = b_sub (bigs s m).
Proof. unfold s_begin, put, set_bigs, upd, w_end, w_begin, w_range, w_begin; cbn [bigs]; destruct (Nat.eqb_spec m n); subst; reflexivity. Qed.
Lemma s_begin_priv s n v m : b_priv (bigs (s_begin s n v) m) = b_priv (bigs s m).
Proof. unfold s_begin, put, set_bigs, upd, w_end, w_begin, w_range, w_begin; cbn [bigs]; destruct (Nat.eqb_spec m n); subst; reflexivity. Qed.
Lemma s_begin_subpriv s n v m : b_subpriv (bigs (s_begin s n v) m) = b_subpriv (bigs s m).
Proof. unfold s_begin, put, set_bigs, upd, w_end, w_begin, w_range, w_begin; cbn [bigs]; destruct (Nat.eqb_spec m n); subst; reflexivity. Qed.
Lemma s_begin_pidx s n v : pidx (s_begin s n v) = pidx s.
Proof. reflexivity. Qed.
Lemma s_begin_start s n v : start (s_begin s n v) = start s.
Proof. reflexivity. Qed.
Lemma s_begin_log s n v : log (s_begin s n v) = log s.
Proof. reflexivity. Qed.
Lemma s_parent_begin s n v m : b_begin (bigs (s_parent s n v) m) = b_begin (bigs s m).
Proof. unfold s_parent, put, set_bigs, upd, w_end, w_begin, w_range, w_parent; cbn [bigs]; destruct (Nat.eqb_spec m n); subst; reflexivity. Qed.
Lemma s_parent_end s n v m : b_end (bigs (s_parent s n v) m) = b_end (bigs s m).
Proof. unfold s_parent, put, set_bigs, upd, w_end, w_begin, w_range, w_parent; cbn [bigs]; destruct (Nat.eqb_spec m n); subst; reflexivity. Qed.
Lemma s_parent_parent s n v m : b_parent (bigs (s_parent s n v) m) = if Nat.eqb m n then v else b_parent (bigs s m).
Proof. unfold s_parent, put, set_bigs, upd, w_end, w_begin, w_range, w_parent; cbn [bigs]; destruct (Nat.eqb m n); reflexivity. Qed.
Lemma s_parent_first s n v m : b_first (bigs (s_parent s n v) m) = b_first (bigs s m).
Proof. unfold s_parent, put, set_bigs, upd, w_end, w_begin, w_range, w_parent; cbn [bigs]; destruct (Nat.eqb_spec m n); subst; reflexivity. Qed.
Lemma s_parent_next s n v m : b_next (bigs (s_parent s n v) m) = b_next (bigs s m).
Proof. unfold s_parent, put, set_bigs, upd, w_end, w_begin, w_range, w_parent; cbn [bigs]; destruct (Nat.eqb_spec m n); subst; reflexivity. Qed.
Lemma s_parent_prev s n v m : b_prev (bigs (s_parent s n v) m) = b_prev (bigs s m).
Proof. unfold s_parent, put, set_bigs, upd, w_end, w_begin, w_range, w_parent; cbn [bigs]; destruct (Nat.eqb_spec m n); subst; reflexivity. Qed.
Lemma s_parent_alloc s n v m : b_alloc (bigs (s_parent s n v) m) = b_alloc (bigs s m).
Proof. unfold s_parent, put, set_bigs, upd, w_end, w_begin, w_range, w_parent; cbn [bigs]; destruct (Nat.eqb_spec m n); subst; reflexivity. Qed.
Lemma s_parent_sub s n v m : b_sub (bigs (s_parent s n v) m) = b_sub (bigs s m).
Proof. unfold s_parent, put, set_bigs, upd, w_end, w_begin, w_range, w_parent; cbn [bigs]; destruct (Nat.eqb_spec m n); subst; reflexivity. Qed.
Lemma s_parent_priv s n v m : b_priv (bigs (s_parent s n v) m) = b_priv (bigs s m).
Proof. unfold s_parent, put, set_bigs, upd, w_end, w_begin, w_range, w_parent; cbn [bigs]; destruct (Nat.eqb_spec m n); subst; reflexivity. Qed.
Lemma s_parent_subpriv s n v m : b_subpriv (bigs (s_parent s n v) m) = b_subpriv (bigs s m).
Proof. unfold s_parent, put, set_bigs, upd, w_end, w_begin, w_range, w_parent; cbn [bigs]; destruct (Nat.eqb_spec m n); subst; reflexivity. Qed.
Lemma s_parent_pidx s n v : pidx (s_parent s n v) = pidx s.
Proof. reflexivity. Qed.
Lemma s_parent_start s n v : start (s_parent s n v) = start s.
Proof. reflexivity. Qed.
Lemma s_parent_log s n v : log (s_parent s n v) = log s.
Proof. reflexivity. Qed.
Lemma s_first_begin s n v m : b_begin (bigs (s_first s n v) m) = b_begin (bigs s m).
Proof. unfold s_first, put, set_bigs, upd, w_end, w_begin, w_range, w_first; cbn [bigs]; destruct (Nat.eqb_spec m n); subst; reflexivity. Qed.
Lemma s_first_end s n v m : b_end (bigs (s_first s n v) m) = b_end (bigs s m).
Proof. unfold s_first, put, set_bigs, upd, w_end, w_begin, w_range, w_first; cbn [bigs]; destruct (Nat.eqb_spec m n); subst; reflexivity. Qed.
Lemma s_first_parent s n v m : b_parent (bigs (s_first s n v) m) = b_parent (bigs s m).
Proof. unfold s_first, put, set_bigs, upd, w_end, w_begin, w_range, w_first; cbn [bigs]; destruct (Nat.eqb_spec m n); subst; reflexivity. Qed.
Lemma s_first_first s n v m : b_first (bigs (s_first s n v) m) = if Nat.eqb m n then v else b_first (bigs s m).
Proof. unfold s_first, put, set_bigs, upd, w_end, w_begin, w_range, w_first; cbn [bigs]; destruct (Nat.eqb m n); reflexivity. Qed.
Lemma s_first_next s n v m : b_next (bigs (s_first s n v) m) = b_next (bigs s m).
Proof. unfold s_first, put, set_bigs, upd, w_end, w_begin, w_range, w_first; cbn [bigs]; destruct (Nat.eqb_spec m n); subst; reflexivity. Qed.
Lemma s_first_prev s n v m : b_prev (bigs (s_first s n v) m) = b_prev (bigs s m).
Proof. unfold s_first, put, set_bigs, upd, w_end, w_begin, w_range, w_first; cbn [bigs]; destruct (Nat.eqb_spec m n); subst; reflexivity. Qed.
Lemma s_first_alloc s n v m : b_alloc (bigs (s_first s n v) m) = b_alloc (bigs s m).
Proof. unfold s_first, put, set_bigs, upd, w_end, w_begin, w_range, w_first; cbn [bigs]; destruct (Nat.eqb_spec m n); subst; reflexivity. Qed.
Lemma s_first_sub s n v m : b_sub (bigs (s_first s n v) m) = b_sub (bigs s m).
Proof. unfold s_first, put, set_bigs, upd, w_end, w_begin, w_range, w_first; cbn [bigs]; destruct (Nat.eqb_spec m n); subst; reflexivity. Qed.
Lemma s_first_priv s n v m : b_priv (bigs (s_first s n v) m) = b_priv (bigs s m).
Proof. unfold s_first, put, set_bigs, upd, w_end, w_begin, w_range, w_first; cbn [bigs]; destruct (Nat.eqb_spec m n); subst; reflexivity. Qed.
Lemma s_first_subpriv s n v m : b_subpriv (bigs (s_first s n v) m) = b_subpriv (bigs s m).
Proof. unfold s_first, put, set_bigs, upd, w_end, w_begin, w_range, w_first; cbn [bigs]; destruct (Nat.eqb_spec m n); subst; reflexivity. Qed.
Lemma s_first_pidx s n v : pidx (s_first s n v) = pidx s.
Proof. reflexivity. Qed.
Lemma s_first_start s n v : start (s_first s n v) = start s.
Proof. reflexivity. Qed.
Lemma s_first_log s n v : log (s_first s n v) = log s.
Proof. reflexivity. Qed.
Lemma s_next_begin s n v m : b_begin (bigs (s_next s n v) m) = b_begin (bigs s m).
Proof. unfold s_next, put, set_bigs, upd, w_end, w_begin, w_range, w_next; cbn [bigs]; destruct (Nat.eqb_spec m n); subst; reflexivity. Qed.
Lemma s_next_end s n v m : b_end (bigs (s_next s n v) m) = b_end (bigs s m).
Proof. unfold s_next, put, set_bigs, upd, w_end, w_begin, w_range, w_next; cbn [bigs]; destruct (Nat.eqb_spec m n); subst; reflexivity. Qed.
Lemma s_next_parent s n v m : b_parent (bigs (s_next s n v) m) = b_parent (bigs s m).
Proof. unfold s_next, put, set_bigs, upd, w_end, w_begin, w_range, w_next; cbn [bigs]; destruct (Nat.eqb_spec m n); subst; reflexivity. Qed.
Lemma s_next_first s n v m : b_first (bigs (s_next s n v) m) = b_first (bigs s m).
Proof. unfold s_next, put, set_bigs, upd, w_end, w_begin, w_range, w_next; cbn [bigs]; destruct (Nat.eqb_spec m n); subst; reflexivity. Qed.
Lemma s_next_next s n v m : b_next (bigs (s_next s n v) m) = if Nat.eqb m n then v else b_next (bigs s m).
Proof. unfold s_next, put, set_bigs, upd, w_end, w_begin, w_range, w_next; cbn [bigs]; destruct (Nat.eqb m n); reflexivity. Qed.
Lemma s_next_prev s n v m : b_prev (bigs (s_next s n v) m) = b_prev (bigs s m).
Proof. unfold s_next, put, set_bigs, upd, w_end, w_begin, w_range, w_next; cbn [bigs]; destruct (Nat.eqb_spec m n); subst; reflexivity. Qed.
Lemma s_next_alloc s n v m : b_alloc (bigs (s_next s n v) m) = b_alloc (bigs s m).
Proof. unfold s_next, put, set_bigs, upd, w_end, w_begin, w_range, w_next; cbn [bigs]; destruct (Nat.eqb_spec m n); subst; reflexivity. Qed.
Lemma s_next_sub s n v m : b_sub (bigs (s_next s n v) m) = b_sub (bigs s m).
Proof. unfold s_next, put, set_bigs, upd, w_end, w_begin, w_range, w_next; cbn [bigs]; destruct (Nat.eqb_spec m n); subst; reflexivity. Qed.
Lemma s_next_priv s n v m : b_priv (bigs (s_next s n v) m) = b_priv (bigs s m).
Proof. unfold s_next, put, set_bigs, upd, w_end, w_begin, w_range, w_next; cbn [bigs]; destruct (Nat.eqb_spec m n); subst; reflexivity. Qed.
Lemma s_next_subpriv s n v m : b_subpriv (bigs (s_next s n v) m) = b_subpriv (bigs s m).
Proof. unfold s_next, put, set_bigs, upd, w_end, w_begin, w_range, w_next; cbn [bigs]; destruct (Nat.eqb_spec m n); subst; reflexivity. Qed.
Lemma s_next_pidx s n v : pidx (s_next s n v) = pidx s.
Proof. reflexivity. Qed.
Lemma s_next_start s n v : start (s_next s n v) = start s.
Proof. reflexivity. Qed.
Lemma s_next_log s n v : log (s_next s n v) = log s.
Proof. reflexivity. Qed.
Lemma s_prev_begin s n v m : b_begin (bigs (s_prev s n v) m) = b_begin (bigs s m).
Proof. unfold s_prev, put, set_bigs, upd, w_end, w_begin, w_range, w_prev; cbn [bigs]; destruct (Nat.eqb_spec m n); subst; reflexivity. Qed.
Lemma s_prev_end s n v m : b_end (bigs (s_prev s n v) m) = b_end (bigs s m).
Proof. unfold s_prev, put, set_bigs, upd, w_end, w_begin, w_range, w_prev; cbn [bigs]; destruct (Nat.eqb_spec m n); subst; reflexivity. Qed.
Lemma s_prev_parent s n v m : b_parent (bigs (s_prev s n v) m) = b_parent (bigs s m).
Proof. unfold s_prev, put, set_bigs, upd, w_end, w_begin, w_range, w_prev; cbn [bigs]; destruct (Nat.eqb_spec m n); subst; reflexivity. Qed.
Lemma s_prev_first s n v m : b_first (bigs (s_prev s n v) m) = b_first (bigs s m).
Proof. unfold s_prev, put, set_bigs, upd, w_end, w_begin, w_range, w_prev; cbn [bigs]; destruct (Nat.eqb_spec m n); subst; reflexivity. Qed.
Lemma s_prev_next s n v m : b_next (bigs (s_prev s n v) m) = b_next (bigs s m).
Proof. unfold s_prev, put, set_bigs, upd, w_end, w_begin, w_range, w_prev; cbn [bigs]; destruct (Nat.eqb_spec m n); subst; reflexivity. Qed.
Lemma s_prev_prev s n v m : b_prev (bigs (s_prev s n v) m) = if Nat.eqb m n then v else b_prev (bigs s m).
Proof. unfold s_prev, put, set_bigs, upd, w_end, w_begin, w_range, w_prev; cbn [bigs]; destruct (Nat.eqb m n); reflexivity. Qed.
Lemma s_prev_alloc s n v m : b_alloc (bigs (s_prev s n v) m) = b_alloc (bigs s m).
Proof. unfold s_prev, put, set_bigs, upd, w_end, w_begin, w_range, w_prev; cbn [bigs]; destruct (Nat.eqb_spec m n); subst; reflexivity. Qed.
Lemma s_prev_sub s n v m : b_sub (bigs (s_prev s n v) m) = b_sub (bigs s m).
Proof. unfold s_prev, put, set_bigs, upd, w_end, w_begin, w_range, w_prev; cbn [bigs]; destruct (Nat.eqb_spec m n); subst; reflexivity. Qed.
Lemma s_prev_priv s n v m : b_priv (bigs (s_prev s n v) m) = b_priv (bigs s m).
Proof. unfold s_prev, put, set_bigs, upd, w_end, w_begin, w_range, w_prev; cbn [bigs]; destruct (Nat.eqb_spec m n); subst; reflexivity. Qed.
Lemma s_prev_subpriv s n v m : b_subpriv (bigs (s_prev s n v) m) = b_subpriv (bigs s m).
Proof. unfold s_prev, put, set_bigs, upd, w_end, w_begin, w_range, w_prev; cbn [bigs]; destruct (Nat.eqb_spec m n); subst; reflexivity. Qed.
Lemma s_prev_pidx s n v : pidx (s_prev s n v) = pidx s.
Proof. reflexivity. Qed.
Lemma s_prev_start s n v : start (s_prev s n v) = start s.
Proof. reflexivity. Qed.
Lemma s_prev_log s n v : log (s_prev s n v) = log s.
Proof. reflexivity. Qed.
Lemma set_pidx_bigs s p : bigs (set_pidx s p) = bigs s.
Proof. reflexivity. Qed.
Lemma set_pidx_start s p : start (set_pidx s p) = start s.
Proof. reflexivity. Qed.
Lemma set_pidx_log s p : log (set_pidx s p) = log s.
Proof. reflexivity. Qed.
Lemma set_pidx_pidx s p : pidx (set_pidx s p) = p.
Proof. reflexivity. Qed.
Lemma add_log_bigs s p : bigs (add_log s p) = bigs s.
Proof. reflexivity. Qed.
Lemma add_log_start s p : start (add_log s p) = start s.
Proof. reflexivity. Qed.
Lemma add_log_pidx s p : pidx (add_log s p) = pidx s.
Proof. reflexivity. Qed.
Lemma put_pidx s n b : pidx (put s n b) = pidx s.
Proof. reflexivity. Qed.
Lemma put_start s n b : start (put s n b) = start s.
Proof. reflexivity. Qed.
Lemma put_log s n b : log (put s n b) = log s.
Proof. reflexivity. Qed.
Lemma put_bigs s n b m : bigs (put s n b) m = if Nat.eqb m n then b else bigs s m.
Proof. reflexivity. Qed.
Global Hint Rewrite s_end_begin
  s_end_end
  s_end_parent
  s_end_first
  s_end_next
  s_end_prev
  s_end_alloc
  s_end_sub
  s_end_priv
  s_end_subpriv
  s_end_pidx
  s_end_start
  s_end_log
  s_begin_begin
  s_begin_end
  s_begin_parent
  s_begin_first
  s_begin_next
  s_begin_prev
  s_begin_alloc
  s_begin_sub
  s_begin_priv
  s_begin_subpriv
  s_begin_pidx
  s_begin_start
  s_begin_log
  s_parent_begin
  s_parent_end
  s_parent_parent
  s_parent_first
  s_parent_next
  s_parent_prev
  s_parent_alloc
  s_parent_sub
  s_parent_priv
  s_parent_subpriv
  s_parent_pidx
  s_parent_start
  s_parent_log
  s_first_begin
  s_first_end
  s_first_parent
  s_first_first
  s_first_next
  s_first_prev
  s_first_alloc
  s_first_sub
  s_first_priv
  s_first_subpriv
  s_first_pidx
  s_first_start
  s_first_log
  s_next_begin
  s_next_end
  s_next_parent
  s_next_first
  s_next_next
  s_next_prev
  s_next_alloc
  s_next_sub
  s_next_priv
  s_next_subpriv
  s_next_pidx
  s_next_start
  s_next_log
  s_prev_begin
  s_prev_end
  s_prev_parent
  s_prev_first
  s_prev_next
  s_prev_prev
  s_prev_alloc
  s_prev_sub
  s_prev_priv
  s_prev_subpriv
  s_prev_pidx
  s_prev_start
  s_prev_log
  set_pidx_bigs
  set_pidx_start
  set_pidx_log
  set_pidx_pidx
  add_log_bigs
  add_log_start
  add_log_pidx
  put_pidx
  put_start
  put_log
  put_bigs : big.
Global Opaque s_end s_begin s_parent s_first s_next s_prev set_pidx add_log put.
