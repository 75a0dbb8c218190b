(* The code of each call, run alone, does what the sequential model says; and which calls
   hold the lock throughout. *)
From Verif Require Import Base Big_model Big_hist Big_spec Conc_model Conc_spec Conc_proof.

Section Code.
Variables (nb : nat) (biggest : Z) (dbg : bool) (al : nat -> Z) (lcur lmax : Z).
Notation P := (prog st).

Ltac rb := rewrite ?run_bind, ?run_locked.
(* compute one sequential step at a time *)
Lemma run_rd {A} (f : st -> A) s : run (rd f) s = Ok (s, f s). Proof. reflexivity. Qed.
Lemma run_wr f s : run (wr f) s = Ok (f s, tt). Proof. reflexivity. Qed.
Lemma run_chk f s : run (chk dbg f) s = do _ <- asrt dbg (f s) ; Ok (s, tt).
Proof. unfold chk; cbn. destruct (asrt dbg (f s)); reflexivity. Qed.
Lemma run_rdr {A} (f : st -> res A) s : run (rdr f) s = do a <- f s ; Ok (s, a).
Proof. unfold rdr; cbn. destruct (f s); reflexivity. Qed.
Lemma run_die {A} (r : res A) s : run (die r : P A) s = do a <- r ; Ok (s, a).
Proof. apply run_rdr. Qed.
Lemma run_ret {A} (a : A) s : run (Ret a : P A) s = Ok (s, a). Proof. reflexivity. Qed.

Definition wu (r : res st) : res (st * unit) := do s' <- r ; Ok (s', tt).
Lemma run_memset q num old n s : run (p_memset biggest dbg q num old n) s = wu (memset_bigalloc biggest dbg s q num old n).
Proof. unfold p_memset, wu; cbn. destruct (memset_bigalloc biggest dbg s q num old n); reflexivity. Qed.
Hint Rewrite @run_bind @run_locked @run_rd run_wr run_chk @run_rdr @run_die @run_ret run_memset : runp.

Lemma wu_bind {B} (r : res st) (k : st -> res B) : (do '(s', _) <- wu r ; k s') = (do s' <- r ; k s').
Proof. destruct r; reflexivity. Qed.

Ltac norm := repeat progress (autorewrite with runp; cbn [bind fst snd]).
Ltac hd t := match t with
  | bind ?x _ => hd x
  | asrt dbg ?b => destruct (asrt dbg b)
  | run (if Nat.eqb ?a ?b then _ else _) _ => destruct (Nat.eqb a b)
  end.
Ltac go := norm; try reflexivity;
  repeat (match goal with |- ?t = _ => hd t; cbn [bind wu]; try reflexivity end; norm; try reflexivity).

Lemma ok_add_child c p s : run (p_add_child dbg c p) s = wu (add_child dbg s c p).
Proof. unfold p_add_child, add_child, wu. go. Qed.
Lemma ok_unlink_child c s : run (p_unlink_child dbg c) s = wu (unlink_child dbg s c).
Proof. unfold p_unlink_child, unlink_child, wu. go. Qed.
Lemma ok_unlink_toplevel c s : run (p_unlink_toplevel c) s = wu (Ok (unlink_toplevel s c)).
Proof. unfold p_unlink_toplevel, unlink_toplevel, wu. go. Qed.
Lemma ok_add_toplevel b s : run (p_add_toplevel nb dbg b) s = wu (add_toplevel nb dbg s b).
Proof.
  unfold p_add_toplevel, add_toplevel, wu. autorewrite with runp; cbn [bind].
  autorewrite with runp. destruct (toplevel_lowest_ge nb dbg s (b_end (bigs s b))) as [nx| | |]; cbn [bind]; try reflexivity.
  autorewrite with runp; cbn [bind]. autorewrite with runp; cbn [bind].
  destruct (if Nat.eqb nx 0 then toplevel_highest_lt nb dbg (s_next s b nx) (b_begin (bigs (s_next s b nx) b))
            else Ok (b_prev (bigs (s_next s b nx) nx))) as [pv| | |]; cbn [bind]; try reflexivity.
  go.
Qed.
Hint Rewrite ok_add_child ok_unlink_child ok_unlink_toplevel ok_add_toplevel @wu_bind : runp.

Lemma ok_init_nomemset n ptr z p a u pr sp s :
  run (p_init_nomemset nb dbg n ptr z p a u pr sp) s = wu (init_nomemset nb dbg s n ptr z p a u pr sp).
Proof.
  unfold p_init_nomemset, init_nomemset. go; cbn [wu bind].
  - destruct (add_toplevel nb dbg _ n) as [s1| | |]; cbn; try reflexivity. go.
  - destruct (add_child dbg _ n p) as [s1| | |]; cbn; try reflexivity. go.
Qed.
Hint Rewrite ok_init_nomemset : runp.
Lemma ok_init n ptr z p a u pr sp s :
  run (p_init nb biggest dbg n ptr z p a u pr sp) s = wu (bigalloc_init nb biggest dbg s n ptr z p a u pr sp).
Proof.
  unfold p_init, bigalloc_init. go.
  destruct (init_nomemset nb dbg s n ptr z p a u pr sp) as [s1| | |]; cbn [bind wu]; try reflexivity. go.
  destruct (memset_bigalloc biggest dbg s1 _ _ _ _) as [s2| | |]; cbn [bind wu]; try reflexivity. go.
Qed.
Hint Rewrite ok_init : runp.

Lemma ok_new ptr z pr mp a s : run (p_new nb biggest dbg ptr z pr mp a) s = new_bigalloc nb biggest dbg s ptr z pr mp a.
Proof.
  unfold p_new, new_bigalloc. rewrite run_locked. destruct (biggest <? z); [reflexivity|].
  autorewrite with runp. change (if negb (Nat.eqb mp 0) then Ok mp else _) with (new_parent nb s ptr z mp).
  destruct (new_parent nb s ptr z mp) as [p| | |]; cbn [bind]; try reflexivity. go.
  destruct (find_free nb s) as [n| | |]; cbn [bind]; try reflexivity. go.
  destruct (bigalloc_init nb biggest dbg s n ptr z p a 0 pr 0) as [s1| | |]; cbn [bind]; try reflexivity. go.
Qed.

Lemma ok_del_leaf n s : run (p_del_leaf biggest dbg n) s = wu (del_leaf biggest dbg s n).
Proof.
  unfold p_del_leaf, del_leaf. go.
  - cbn [wu bind]. destruct (memset_bigalloc biggest dbg _ _ _ _ _); reflexivity.
  - destruct (unlink_child dbg _ n) as [s1| | |]; cbn [bind wu]; try reflexivity. go.
    destruct (memset_bigalloc biggest dbg _ _ _ _ _); reflexivity.
Qed.
Hint Rewrite ok_del_leaf : runp.
Definition kids2 (d : st -> nat -> res st) : nat -> st -> nat -> res st :=
  fix go (g : nat) (s : st) (c : nat) : res st :=
  match g with
  | O => Fuel
  | S g' => if Nat.eqb c 0 then Ok s
            else let nx := b_next (bigs s c) in do s' <- d s c ; go g' s' nx
  end.
Lemma del_eq f s n : del nb biggest dbg (S f) s n =
  do _ <- asrt dbg (sanity s n) ; do s1 <- kids2 (del nb biggest dbg f) (S nb) s (b_first (bigs s n)) ; del_leaf biggest dbg s1 n.
Proof. reflexivity. Qed.
Lemma p_del_eq f n : p_del nb biggest dbg (S f) n =
  (pdo _ <- chk dbg (fun s => sanity s n) ; pdo c0 <- rd (fun s => b_first (bigs s n)) ;
   pdo _ <- p_kids (p_del nb biggest dbg f) (S nb) c0 ; p_del_leaf biggest dbg n).
Proof. reflexivity. Qed.
Lemma ok_del f : forall n s, run (p_del nb biggest dbg f n) s = wu (del nb biggest dbg f s n).
Proof.
  induction f as [|f IH]; intros n s; [reflexivity|].
  rewrite del_eq, p_del_eq. rewrite run_bind, run_chk. destruct (asrt dbg (sanity s n)); cbn [bind]; try reflexivity.
  rewrite run_bind, run_rd. cbn [bind]. rewrite run_bind.
  assert (Hk : forall g c u, run (p_kids (p_del nb biggest dbg f) g c) u = wu (kids2 (del nb biggest dbg f) g u c)).
  { induction g as [|g IHg]; intros c u; [reflexivity|]. cbn [p_kids kids2].
    destruct (Nat.eqb c 0) eqn:Ec; [reflexivity|].
    rewrite run_bind, run_rd; cbn [bind]. rewrite run_bind, IH.
    destruct (del nb biggest dbg f u c) as [u1| | |]; cbn [bind wu]; try reflexivity. apply IHg. }
  rewrite Hk. destruct (kids2 (del nb biggest dbg f) (S nb) s (b_first (bigs s n))) as [s1| | |]; cbn [bind wu]; try reflexivity.
  rewrite ok_del_leaf. reflexivity.
Qed.
Hint Rewrite ok_del : runp.

Lemma ok_delete_at a x s : run (p_delete_at nb biggest dbg a x) s =
  do '(s', t) <- delete_at nb biggest dbg s a x ; Ok (s', if t then 1%nat else 0%nat).
Proof.
  unfold p_delete_at, delete_at. go.
  destruct (find_from_root nb s a x false) as [n| | |]; cbn [bind]; try reflexivity. go.
  unfold bigalloc_del. destruct (del nb biggest dbg (S nb) s n); reflexivity.
Qed.
Lemma ok_delete_range f : forall u l s, run (p_delete_range nb biggest dbg f u l) s = wu (delete_range nb biggest dbg f s u l).
Proof.
  induction f as [|f IH]; intros u l s; [reflexivity|]. cbn [p_delete_range delete_range].
  destruct (l <=? u); [reflexivity|]. rewrite run_bind, run_rdr.
  destruct (skip_zero _ s _ _) as [q| | |]; cbn [bind]; try reflexivity.
  destruct (l <=? _); [reflexivity|]. rewrite run_bind, run_rd; cbn [bind].
  destruct (Nat.eqb (pidx s _) 0); [reflexivity|]. rewrite run_bind, run_rd; cbn [bind].
  destruct (_ || _); [reflexivity|]. rewrite run_bind, run_rdr.
  destruct (climb (S nb) s _) as [r| | |]; cbn [bind]; try reflexivity. rewrite run_bind, run_rd; cbn [bind].
  destruct (b_end (bigs s r) <=? _); [reflexivity|]. rewrite run_bind, ok_del. unfold bigalloc_del.
  destruct (del nb biggest dbg (S nb) s r) as [s1| | |]; cbn [bind wu]; try reflexivity. apply IH.
Qed.

Lemma ok_extend n e s : run (p_extend biggest dbg n e) s = with_ans (extend biggest dbg s n e) 1.
Proof.
  unfold p_extend, extend, with_ans. go.
  destruct (memset_bigalloc biggest dbg _ _ _ _ _) as [s1| | |]; cbn [bind wu]; try reflexivity. go.
Qed.
Lemma ok_trunc_end n e s : run (p_trunc_end biggest dbg n e) s = with_ans (truncate_end biggest dbg s n e) 1.
Proof.
  unfold p_trunc_end, truncate_end, with_ans. go.
  destruct (memset_bigalloc biggest dbg _ _ _ _ _) as [s1| | |]; cbn [bind wu]; try reflexivity. go.
Qed.
Lemma ok_trunc_begin n e s : run (p_trunc_begin biggest dbg n e) s = with_ans (truncate_begin biggest dbg s n e) 1.
Proof.
  unfold p_trunc_begin, truncate_begin, with_ans. go.
  destruct (memset_bigalloc biggest dbg _ _ _ _ _) as [s1| | |]; cbn [bind wu]; try reflexivity. go.
Qed.
Lemma ok_pre_extend n e s : run (p_pre_extend nb biggest dbg n e) s = with_ans (pre_extend nb biggest dbg s n e) 1.
Proof.
  unfold p_pre_extend, pre_extend, with_ans. rewrite run_locked, run_bind, run_chk.
  destruct (asrt dbg (sanity s n)); cbn [bind]; try reflexivity. rewrite run_bind, run_rd; cbn [bind]. rewrite run_bind.
  destruct (e <? b_begin (bigs s n)).
  - rewrite run_bind, run_wr; cbn [bind]. rewrite run_bind, run_rdr.
    match goal with |- context [if PAGENUM ?x <? PAGENUM ?y then ?p else ?q] => destruct (if PAGENUM x <? PAGENUM y then p else q) as [up| | |]; cbn [bind]; try reflexivity end.
    rewrite run_memset. destruct (memset_bigalloc biggest dbg _ _ _ _ _) as [s1| | |]; cbn [bind wu]; try reflexivity. go.
  - rewrite run_ret; cbn [bind]. go.
Qed.
Lemma ok_pre_extend_rec f : forall n e s, run (p_pre_extend_rec nb biggest dbg al f n e) s =
  with_ans (pre_extend_rec nb biggest dbg f al s n e) 1.
Proof.
  induction f as [|f IH]; intros n e s; [reflexivity|]. cbn [p_pre_extend_rec pre_extend_rec].
  rewrite run_bind, run_rd; cbn [bind]. rewrite run_bind. destruct (Nat.eqb (b_parent (bigs s n)) 0).
  - rewrite run_ret; cbn [bind]. apply ok_pre_extend.
  - rewrite run_bind, run_rd; cbn [bind]. rewrite IH. unfold with_ans at 1.
    destruct (pre_extend_rec nb biggest dbg f al s _ _) as [s1| | |]; cbn [bind]; try reflexivity. apply ok_pre_extend.
Qed.
Lemma ok_stack_notify l : forall a s, run (p_stack_notify nb biggest dbg al lcur lmax l a) s =
  do '(s', _) <- stack_notify nb biggest dbg al lcur lmax s l a ; Ok (s', tt).
Proof.
  induction l as [|b l IH]; intros a s; [reflexivity|]. cbn [p_stack_notify stack_notify].
  rewrite run_bind, run_rd; cbn [bind]. destruct (stack_claims lcur lmax s b a); [|apply IH].
  rewrite run_bind, ok_pre_extend_rec. unfold with_ans.
  destruct (pre_extend_rec nb biggest dbg (S nb) al s b (RDOWN a)) as [s1| | |]; reflexivity.
Qed.
Lemma ok_deepest l a s : run (p_deepest nb biggest dbg al lcur lmax l a) s = find_deepest_adopt nb biggest dbg al lcur lmax s l a.
Proof.
  unfold p_deepest, find_deepest_adopt. rewrite run_locked, run_bind, run_rd; cbn [bind]. rewrite run_bind.
  destruct (Nat.eqb (pidx s (PAGENUM a)) 0).
  - rewrite ok_stack_notify. destruct (stack_notify nb biggest dbg al lcur lmax s l a) as [[s1 t]| | |]; cbn [bind]; try reflexivity.
    rewrite run_rdr. reflexivity.
  - rewrite run_ret; cbn [bind]. rewrite run_rdr. reflexivity.
Qed.
Lemma ok_move_kids f : forall b nw sp c s, run (p_move_kids dbg f b nw sp c) s = wu (move_kids dbg f s b nw sp c).
Proof.
  induction f as [|f IH]; intros b nw sp c s; [reflexivity|]. cbn [p_move_kids move_kids].
  destruct (Nat.eqb c 0); [reflexivity|]. rewrite run_bind, run_rd; cbn [bind]. rewrite run_bind, run_rd; cbn [bind].
  destruct (((b_begin (bigs s b) <=? b_begin (bigs s c)) && (b_end (bigs s c) <=? sp)) && _); [reflexivity|].
  rewrite run_bind. destruct ((sp <=? b_begin (bigs s c)) && (b_end (bigs s c) <=? b_end (bigs s b))).
  - rewrite run_bind, ok_unlink_child. destruct (unlink_child dbg s c) as [s1| | |]; cbn [bind wu]; try reflexivity.
    rewrite ok_add_child. destruct (add_child dbg s1 c nw) as [s2| | |]; cbn [bind wu]; try reflexivity. apply IH.
  - rewrite run_ret; cbn [bind]. apply IH.
Qed.
Lemma ok_split b sp s : run (p_split nb dbg b sp) s = split nb dbg s b sp.
Proof.
  unfold p_split, split. rewrite run_locked, run_bind, run_rd; cbn [bind]. rewrite run_bind, run_rdr.
  destruct (find_free nb s) as [nw| | |]; cbn [bind]; try reflexivity.
  rewrite run_bind, ok_init_nomemset. destruct (init_nomemset nb dbg s nw _ _ _ _ _ _ _) as [s1| | |]; cbn [bind wu]; try reflexivity.
  rewrite run_bind, run_rd; cbn [bind]. rewrite run_bind, ok_move_kids.
  destruct (move_kids dbg (S nb) s1 b nw sp (b_first (bigs s1 b))) as [s2| | |]; cbn [bind wu]; try reflexivity.
  rewrite run_bind, run_wr; cbn [bind]. rewrite run_bind, run_wr; cbn [bind]. go.
Qed.
Lemma ok_last f : forall c a acc s, run (p_last f c a acc) s = look s (last_child_containing f s c a acc).
Proof.
  induction f as [|f IH]; intros c a acc s; [reflexivity|]. cbn [p_last last_child_containing].
  destruct (Nat.eqb c 0); [reflexivity|]. rewrite run_bind, run_rd; cbn [bind]. rewrite run_bind, run_rd; cbn [bind]. apply IH.
Qed.
Lemma ok_leaf_rec f : forall c a s, run (p_leaf_rec nb f c a) s = look s (leaf_rec nb f s c a).
Proof.
  induction f as [|f IH]; intros c a s; [reflexivity|]. cbn [p_leaf_rec leaf_rec].
  rewrite run_bind, run_rd; cbn [bind]. rewrite run_bind, ok_last.
  destruct (last_child_containing (S nb) s (b_first (bigs s c)) a c) as [r| | |]; cbn [bind look]; try reflexivity.
  destruct (Nat.eqb r c); [reflexivity|apply IH].
Qed.
Lemma ok_leaf a s : run (p_leaf nb a) s = look s (leaf_bigalloc nb s a).
Proof.
  unfold p_leaf, leaf_bigalloc. rewrite run_bind, run_rd; cbn [bind]. destruct (Nat.eqb (pidx s (PAGENUM a)) 0); [reflexivity|apply ok_leaf_rec].
Qed.
Lemma ok_leaf_allocator a s : run (p_leaf_allocator nb a) s = look s (leaf_allocator nb s a).
Proof.
  unfold p_leaf_allocator, leaf_allocator. rewrite run_bind, ok_leaf.
  destruct (leaf_bigalloc nb s a) as [n| | |]; cbn [bind look]; try reflexivity.
  destruct (Nat.eqb n 0); [reflexivity|]. rewrite run_bind, run_rd; cbn [bind look]. destruct (Nat.eqb (b_sub (bigs s n)) 0); reflexivity.
Qed.
Lemma ok_climb f : forall n s, run (p_climb f n) s = look s (climb f s n).
Proof.
  induction f as [|f IH]; intros n s; [reflexivity|]. cbn [p_climb climb]. rewrite run_bind, run_rd; cbn [bind].
  destruct (Nat.eqb (b_parent (bigs s n)) 0); [reflexivity|apply IH].
Qed.
Lemma ok_top a s : run (p_top nb a) s = look s (lookup_top_level nb s a).
Proof.
  unfold p_top, lookup_top_level. rewrite run_bind, run_locked, run_rd; cbn [bind].
  destruct (Nat.eqb (pidx s (PAGENUM a)) 0); [reflexivity|apply ok_climb].
Qed.
Lemma ok_adjust_end n e s : run (p_adjust_end biggest dbg n e) s =
  with_ans (adjust_end biggest dbg s n e) (if b_end (bigs s n) =? e then 0 else 1).
Proof.
  unfold p_adjust_end, adjust_end. rewrite run_bind, run_rd; cbn [bind].
  destruct (Z.ltb_spec e (b_end (bigs s n))).
  - rewrite ok_trunc_end, (proj2 (Z.eqb_neq _ _)) by lia. reflexivity.
  - destruct (Z.ltb_spec (b_end (bigs s n)) e).
    + rewrite ok_extend, (proj2 (Z.eqb_neq _ _)) by lia. reflexivity.
    + rewrite (proj2 (Z.eqb_eq _ _)) by lia. reflexivity.
Qed.

Theorem code_run c s : run (code nb biggest dbg al lcur lmax c) s = sem nb biggest dbg al lcur lmax c s.
Proof.
  destruct c; cbn [code sem].
  - apply ok_new.
  - apply ok_delete_at.
  - unfold p_delete_overlapping, delete_overlapping, with_ans. rewrite run_locked, run_bind, ok_delete_range.
    destruct (delete_range nb biggest dbg _ s lo hi); reflexivity.
  - apply ok_extend.
  - apply ok_pre_extend.
  - apply ok_trunc_end.
  - apply ok_trunc_begin.
  - apply ok_split.
  - apply ok_deepest.
  - unfold p_find. rewrite run_locked. rewrite run_rdr. reflexivity.
  - unfold p_above. rewrite run_locked. rewrite run_rdr. reflexivity.
  - unfold p_below. rewrite run_locked. rewrite run_rdr. reflexivity.
  - apply ok_leaf.
  - apply ok_leaf_allocator.
  - apply ok_top.
  - apply ok_adjust_end.
  - reflexivity.
Qed.

(* ---- which calls hold the lock throughout ---- *)
Ltac bl := repeat first
  [ match goal with |- bal _ _ (bindp _ _) => apply bal_bind | |- bal _ _ (locked _) => apply bal_locked end | progress (intros) | (cbn [bal rd wr chk rdr die p_memset]; solve [auto])
  | match goal with |- bal _ _ (if ?b then _ else _) => destruct b end | assumption ].
Lemma b_add_child c p : bal st 0 (p_add_child dbg c p). Proof. unfold p_add_child. bl. Qed.
Lemma b_unlink_child c : bal st 0 (p_unlink_child dbg c). Proof. unfold p_unlink_child. bl. Qed.
Lemma b_add_toplevel c : bal st 0 (p_add_toplevel nb dbg c). Proof. unfold p_add_toplevel. bl. Qed.
Lemma b_unlink_toplevel c : bal st 0 (p_unlink_toplevel c). Proof. unfold p_unlink_toplevel. bl. Qed.
Lemma b_init_nomemset n ptr z p a u pr sp : bal st 0 (p_init_nomemset nb dbg n ptr z p a u pr sp).
Proof. unfold p_init_nomemset. bl; first [apply b_add_toplevel|apply b_add_child]. Qed.
Lemma b_init n ptr z p a u pr sp : bal st 0 (p_init nb biggest dbg n ptr z p a u pr sp).
Proof. unfold p_init. bl; apply b_init_nomemset. Qed.
Lemma b_del_leaf n : bal st 0 (p_del_leaf biggest dbg n).
Proof. unfold p_del_leaf. bl; first [apply b_unlink_toplevel|apply b_unlink_child]. Qed.
Lemma b_del f : forall n, bal st 0 (p_del nb biggest dbg f n).
Proof.
  induction f as [|f IH]; intro n; [cbn; auto|]. rewrite p_del_eq.
  assert (Hk : forall g c, bal st 0 (p_kids (p_del nb biggest dbg f) g c)).
  { induction g as [|g IHg]; intro c; [cbn; auto|]. cbn [p_kids]. destruct (Nat.eqb c 0); [reflexivity|]. bl; first [apply IH|apply IHg]. }
  bl; first [apply Hk|apply b_del_leaf].
Qed.
Lemma b_delete_range f : forall u l, bal st 0 (p_delete_range nb biggest dbg f u l).
Proof. induction f as [|f IH]; intros u l; [cbn; auto|]. cbn [p_delete_range]. bl; first [apply b_del|apply IH]. Qed.
Lemma b_pre_extend n e : bal st 0 (p_pre_extend nb biggest dbg n e).
Proof. unfold p_pre_extend. bl. Qed.
Lemma b_pre_extend_rec f : forall n e, bal st 0 (p_pre_extend_rec nb biggest dbg al f n e).
Proof.
  induction f as [|f IH]; intros n e; [cbn; auto|]. cbn [p_pre_extend_rec].
  apply bal_bind; [cbn; auto|]. intro p. apply bal_bind; [|intros _; apply b_pre_extend].
  destruct (Nat.eqb p 0); [reflexivity|]. apply bal_bind; [cbn; auto|]. intro. apply IH.
Qed.
Lemma b_stack_notify l a : bal st 0 (p_stack_notify nb biggest dbg al lcur lmax l a).
Proof.
  induction l as [|b l IH]; [reflexivity|]. cbn [p_stack_notify]. apply bal_bind; [cbn; auto|]. intros [|]; [|exact IH].
  apply bal_bind; [apply b_pre_extend_rec|reflexivity].
Qed.
Lemma b_move_kids f : forall b nw sp c, bal st 0 (p_move_kids dbg f b nw sp c).
Proof.
  induction f as [|f IH]; intros b nw sp c; [cbn; auto|]. cbn [p_move_kids].
  bl; first [apply b_unlink_child|apply b_add_child|apply IH|apply IH].
Qed.

Theorem code_locked c : in_lock c = true -> wl st 0 (code nb biggest dbg al lcur lmax c).
Proof.
  destruct c; cbn [in_lock code]; try discriminate; intros _; apply wl_locked.
  - bl; apply b_init.
  - bl; apply b_del.
  - bl; apply b_delete_range.
  - bl.
  - bl.
  - bl.
  - bl.
  - bl; first [apply b_init_nomemset|apply b_move_kids].
  - bl; apply b_stack_notify.
  - bl.
  - bl.
  - bl.
Qed.
End Code.
