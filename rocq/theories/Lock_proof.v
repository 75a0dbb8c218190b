(* Proofs about locking order. *)
From Verif Require Import Base Lock_model.

Lemma lk_eqb_spec x y : reflect (x = y) (lk_eqb x y).
Proof. destruct x, y; cbn; try (constructor; congruence). destruct (Nat.eqb_spec a a0); constructor; congruence. Qed.
Lemma lk_dec (x y : lk) : {x = y} + {x <> y}.
Proof. destruct (lk_eqb_spec x y); auto. Qed.

Definition rank (l : lk) : nat := match l with Small => 0 | Arena _ => 1 | Table => 2 | Stream => 3 end.

(* p, run by a thread holding h (latest first), takes only locks that it has or that come
   later than all it has, releases in reverse order, and ends holding nothing *)
Fixpoint ord (h : list lk) (p : prog) : Prop :=
  match p with
  | Ret => h = []
  | Lock l k => (In l h \/ forall x, In x h -> (rank x < rank l)%nat) /\ ord (l :: h) k
  | Unlock l k => match h with x :: h' => x = l /\ ord h' k | [] => False end
  | Any k => forall n, ord h (k n)
  end.
(* the same for a fragment which ends holding what it began with: any continuation will do *)
Definition bal (h : list lk) (p : prog) : Prop := forall q, ord h q -> ord h (seqp p q).

Lemma bal_ret h : bal h Ret. Proof. intros q H. exact H. Qed.
Lemma bal_seq h p q : bal h p -> bal h q -> bal h (seqp p q).
Proof.
  intros H1 H2 r Hr. assert (E : seqp (seqp p q) r = seqp (seqp p q) r) by reflexivity.
  revert H1. assert (forall g, (forall x, ord h x -> ord g (seqp p x)) -> ord g (seqp (seqp p q) r)) as X; [|intro H1; apply X; exact H1].
  clear E. specialize (H2 r Hr). revert H2. generalize dependent h. intros h Hr H2. induction p as [|l k IH|l k IH|k IH]; intros g H; cbn in *.
  - apply H. exact H2.
  - assert (Y := H (seqp q r) H2). destruct Y as [Y _]. split; [exact Y|]. apply IH. intros x Hx. exact (proj2 (H x Hx)).
  - assert (Y := H (seqp q r) H2). destruct g as [|x g]; [contradiction|]. split; [exact (proj1 Y)|]. apply IH. intros z Hz. exact (proj2 (H z Hz)).
  - intro n. apply IH. intros x Hx. exact (H x Hx n).
Qed.
Lemma bal_rep h p n : bal h p -> bal h (rep n p).
Proof. intro H. induction n; [apply bal_ret|]. cbn. apply bal_seq; assumption. Qed.
Lemma bal_any h k : (forall n, bal h (k n)) -> bal h (Any k).
Proof. intros H q Hq n. cbn. apply H, Hq. Qed.
Lemma bal_many h p : bal h p -> bal h (many p).
Proof. intro H. apply bal_any. intro n. apply bal_rep, H. Qed.
Lemma bal_maybe h p : bal h p -> bal h (maybe p).
Proof. intro H. apply bal_any. intros [|n]; [apply bal_ret|exact H]. Qed.
Lemma bal_or h p q : bal h p -> bal h q -> bal h (orelse p q).
Proof. intros H1 H2. apply bal_any. intros [|n]; assumption. Qed.
Lemma seqp_assoc_ord p q r g : ord g (seqp p (seqp q r)) -> ord g (seqp (seqp p q) r).
Proof.
  revert g. induction p as [|l k IH|l k IH|k IH]; intros g H; cbn in *; auto.
  - destruct H. split; auto.
  - destruct g; [contradiction|]. destruct H. split; auto.
Qed.
Lemma bal_locked h l p : (In l h \/ forall x, In x h -> (rank x < rank l)%nat) -> bal (l :: h) p -> bal h (locked l p).
Proof. intros H1 H2 q Hq. cbn. split; [exact H1|]. apply seqp_assoc_ord. apply H2. cbn. auto. Qed.
Lemma bal_all h l : (forall p, In p l -> bal h p) -> bal h (all l).
Proof. induction l as [|p l IH]; intro H; cbn; [apply bal_ret|]. apply bal_seq; [apply H; left; reflexivity|apply IH; intros; apply H; right; assumption]. Qed.

(* ---- the library's code *)
(* the library's locks a caller may hold when it uses the table: no message stream *)
Definition low (h : list lk) : Prop := forall x, In x h -> (rank x < 3)%nat.
Lemma low_table h : low h -> low (Table :: h).
Proof. intros H x [<-|Hx]; [cbn; lia|auto]. Qed.
Lemma table_free h : low h -> In Table h \/ forall x, In x h -> (rank x < rank Table)%nat.
Proof.
  intro H. destruct (in_dec lk_dec Table h); [left; assumption|right]. intros x Hx. specialize (H x Hx). destruct x; cbn in *; try lia. contradiction.
Qed.
Lemma b_table h p : low h -> bal (Table :: h) p -> bal h (locked Table p).
Proof. intros H. apply bal_locked. apply table_free, H. Qed.
Lemma b_op h : low h -> bal h table_op.
Proof. intro H. apply b_table; [exact H|apply bal_ret]. Qed.
Lemma b_ops h : low h -> bal h (many table_op).
Proof. intro H. apply bal_many, b_op, H. Qed.
Lemma b_rec h : low h -> bal h find_rec.
Proof. intro H. apply bal_maybe, bal_seq; [apply b_op, H|apply b_ops, H]. Qed.
Lemma b_say h : low h -> bal h (say false).
Proof. intro H. apply bal_locked; [right; exact H|apply bal_ret]. Qed.
Lemma b_deep h : low h -> bal h (find_deepest false).
Proof. intro H. apply bal_maybe, bal_or; [apply bal_seq; [apply b_ops, H|apply b_say, H]|apply b_ops, H]. Qed.
Lemma b_new h b : low h -> bal h (new_bigalloc false b).
Proof. intro H. apply b_table; [exact H|]. destruct b; [apply bal_ret|]. apply bal_seq; apply b_deep, low_table, H. Qed.
Lemma b_del h : low h -> bal h bigalloc_del.
Proof. intro H. apply bal_many, b_ops, H. Qed.
Lemma b_delat h : low h -> bal h delete_at.
Proof. intro H. apply b_table; [exact H|]. apply bal_seq; [apply b_rec, low_table, H|apply bal_maybe, b_del, low_table, H]. Qed.
Lemma b_lookup h : low h -> bal h lookup.
Proof. intro H. apply b_table; [exact H|apply b_rec, low_table, H]. Qed.
Lemma b_ldeep h : low h -> bal h (lookup_deepest false).
Proof. intro H. apply b_table; [exact H|apply b_deep, low_table, H]. Qed.
Lemma b_info h : low h -> bal h ensure_info.
Proof. intro H. apply bal_maybe, b_ops, H. Qed.
Lemma b_arena h : low h -> bal h (arena_for_userptr false).
Proof. intro H. apply bal_seq; [apply b_lookup, H|]. apply bal_maybe, bal_seq; [apply b_ldeep, H|apply b_info, H]. Qed.
Lemma b_insert a : bal [] (insert false a).
Proof.
  assert (L : low [Arena a]) by (intros x [<-|[]]; cbn; lia).
  apply bal_locked; [right; intros x []|]. apply bal_all. intros p [<-|[<-|[<-|[]]]].
  - apply bal_seq; [apply b_lookup, L|apply bal_maybe, b_ops, L].
  - apply b_lookup, L.
  - apply bal_maybe, b_new, L.
Qed.
Lemma low_nil : low []. Proof. intros x []. Qed.
Lemma b_delete a : bal [] (delete a).
Proof.
  apply bal_seq; [apply b_lookup, low_nil|]. apply bal_or; [apply b_delat, low_nil|].
  apply bal_locked; [right; intros x []|]. apply b_lookup. intros x [<-|[]]; cbn; lia.
Qed.
Lemma b_big h : low h -> bal h (ensure_big false).
Proof. intro H. apply bal_seq; [apply b_lookup, H|]. apply bal_maybe, bal_seq; [apply b_ldeep, H|apply b_new, H]. Qed.

Lemma b_code c : bal [] (code false c).
Proof.
  assert (N := low_nil).
  destruct c; cbn [code];
    try (apply bal_all; cbn [In]; intros p Hp; repeat (destruct Hp as [<-|Hp]; [first [apply b_arena, N|apply b_info, N|apply b_insert|apply b_delete|apply b_lookup, N|apply bal_maybe, b_op, N]|]); contradiction).
  - apply b_op, N.
  - apply b_ops, N.
  - apply bal_any. intro n. apply b_new, N.
  - apply b_delat, N.
  - apply b_table; [exact N|]. apply bal_many, b_del, low_table, N.
  - apply b_lookup, N.
  - apply b_ldeep, N.
  - apply b_ops, N.
  - assert (L : low [Small]) by (intros x [<-|[]]; cbn; lia).
    apply bal_locked; [right; intros x []|]. apply bal_all. intros p [<-|[<-|[<-|[]]]].
    + apply b_ldeep, L.
    + apply bal_maybe, bal_seq; [apply bal_maybe, b_arena, L|apply b_big, L].
    + apply bal_maybe, b_ops, L.
  - apply bal_locked; [right; intros x []|]. apply b_ldeep. intros x [<-|[]]; cbn; lia.
  - apply bal_seq; [apply bal_maybe, b_ldeep, N|]. apply bal_seq; [apply bal_maybe, b_arena, N|apply bal_many, b_lookup, N].
  - apply b_arena, N.
  - apply bal_maybe, bal_seq; [apply b_say, N|]. apply b_table; [exact N|]. apply bal_many, b_say, low_table, N.
  - apply b_table; [exact N|]. apply bal_many, b_say, low_table, N.
  - apply b_say, N.
Qed.
Lemma seqp_ret p g : ord g (seqp p Ret) -> ord g p.
Proof.
  revert g. induction p as [|l k IH|l k IH|k IH]; intros g H; cbn in *; auto.
  - destruct H. split; auto.
  - destruct g; [contradiction|]. destruct H. split; auto.
Qed.
Lemma ord_thread cs : ord [] (thread false cs).
Proof.
  apply seqp_ret. assert (B : bal [] (thread false cs)); [|apply B; reflexivity].
  apply bal_all. intros p Hp. apply in_map_iff in Hp. destruct Hp as (c & <- & _). apply b_code.
Qed.

(* ---- the invariant *)
Definition holds (c : config) (l : lk) (t : nat) : nat :=
  match own c l with Some (u, d) => if Nat.eqb u t then d else 0%nat | None => 0%nat end.
Record inv (c : config) (hs : nat -> list lk) : Prop := {
  i_ord : forall t p, nth_error (cur c) t = Some p -> ord (hs t) p;
  i_out : forall t, nth_error (cur c) t = None -> hs t = [];
  i_own : forall t l, count_occ lk_dec (hs t) l = holds c l t;
  i_pos : forall l u d, own c l = Some (u, d) -> (0 < d)%nat }.

Lemma put_same ps t p q : nth_error ps t = Some q -> nth_error (put ps t p) t = Some p.
Proof. revert t. induction ps as [|x ps IH]; intros [|t] H; cbn in *; try discriminate; auto. Qed.
Lemma put_other ps t u p : u <> t -> nth_error (put ps t p) u = nth_error ps u.
Proof. revert t u. induction ps as [|x ps IH]; intros [|t] [|u] H; cbn; auto; try contradiction. Qed.

Definition upd (hs : nat -> list lk) (t : nat) (h : list lk) : nat -> list lk := fun u => if Nat.eqb u t then h else hs u.

Lemma inv_change c hs t p q h o : inv c hs -> nth_error (cur c) t = Some p -> ord h q ->
  (forall u l, count_occ lk_dec (upd hs t h u) l = holds (mkL o (put (cur c) t q)) l u) -> (forall l u d, o l = Some (u, d) -> (0 < d)%nat) ->
  inv (mkL o (put (cur c) t q)) (upd hs t h).
Proof.
  intros [I1 I2 I3 I4] Hp Hq Hc Ho. constructor; cbn [cur own].
  - intros u r. unfold upd. destruct (Nat.eqb_spec u t) as [->|N].
    + rewrite (put_same _ _ _ _ Hp). intros [= <-]. exact Hq.
    + rewrite put_other by exact N. apply I1.
  - intros u. unfold upd. destruct (Nat.eqb_spec u t) as [->|N]; [rewrite (put_same _ _ _ _ Hp); discriminate|rewrite put_other by exact N; apply I2].
  - exact Hc.
  - exact Ho.
Qed.

Lemma step_inv c c' hs : inv c hs -> step c c' -> exists hs', inv c' hs'.
Proof.
  intros HI S. assert (HI' := HI). destruct HI' as [I1 I2 I3 I4]. destruct S as [c t l k E O|c t l k d E O|c t l k E O|c t l k d E O|c t k n E].
  - destruct (I1 _ _ E) as [_ X]. exists (upd hs t (l :: hs t)). apply (inv_change c hs t _ k _ _ HI E X).
    + intros u x. unfold upd, holds, set_own. cbn [own]. specialize (I3 u x). unfold holds in I3. destruct (Nat.eqb_spec u t) as [->|N].
      * cbn [count_occ]. destruct (lk_dec l x) as [->|Nx].
        -- destruct (lk_eqb_spec x x); [|contradiction]. rewrite Nat.eqb_refl. rewrite O in I3. lia.
        -- destruct (lk_eqb_spec x l); [congruence|exact I3].
      * destruct (lk_eqb_spec x l) as [->|]; [|exact I3]. rewrite O in I3. destruct (Nat.eqb_spec t u); [congruence|exact I3].
    + intros x u d. unfold set_own. destruct (lk_eqb_spec x l); [intros [= _ <-]; lia|apply I4].
  - destruct (I1 _ _ E) as [_ X]. exists (upd hs t (l :: hs t)). apply (inv_change c hs t _ k _ _ HI E X).
    + intros u x. unfold upd, holds, set_own. cbn [own]. specialize (I3 u x). unfold holds in I3. destruct (Nat.eqb_spec u t) as [->|N].
      * cbn [count_occ]. destruct (lk_dec l x) as [->|Nx].
        -- destruct (lk_eqb_spec x x); [|contradiction]. rewrite Nat.eqb_refl. rewrite O, Nat.eqb_refl in I3. lia.
        -- destruct (lk_eqb_spec x l); [congruence|exact I3].
      * destruct (lk_eqb_spec x l) as [->|]; [|exact I3]. rewrite O in I3. destruct (Nat.eqb_spec t u); [congruence|exact I3].
    + intros x u d0. unfold set_own. destruct (lk_eqb_spec x l); [intros [= _ <-]; lia|apply I4].
  - assert (X := I1 _ _ E). cbn in X. destruct (hs t) as [|y h] eqn:Eh; [contradiction|]. destruct X as [-> X]. exists (upd hs t h). apply (inv_change c hs t _ k _ _ HI E X).
    + intros u x. unfold upd, holds, set_own. cbn [own]. specialize (I3 u x). unfold holds in I3. destruct (Nat.eqb_spec u t) as [->|N].
      * rewrite Eh in I3. cbn [count_occ] in I3. destruct (lk_dec l x) as [->|Nx].
        -- destruct (lk_eqb_spec x x); [|contradiction]. rewrite O, Nat.eqb_refl in I3. lia.
        -- destruct (lk_eqb_spec x l); [congruence|exact I3].
      * destruct (lk_eqb_spec x l) as [->|]; [|exact I3]. rewrite O in I3. destruct (Nat.eqb_spec t u); [congruence|exact I3].
    + intros x u d0. unfold set_own. destruct (lk_eqb_spec x l); [discriminate|apply I4].
  - assert (X := I1 _ _ E). cbn in X. destruct (hs t) as [|y h] eqn:Eh; [contradiction|]. destruct X as [-> X]. exists (upd hs t h). apply (inv_change c hs t _ k _ _ HI E X).
    + intros u x. unfold upd, holds, set_own. cbn [own]. specialize (I3 u x). unfold holds in I3. destruct (Nat.eqb_spec u t) as [->|N].
      * rewrite Eh in I3. cbn [count_occ] in I3. destruct (lk_dec l x) as [->|Nx].
        -- destruct (lk_eqb_spec x x); [|contradiction]. rewrite Nat.eqb_refl. rewrite O, Nat.eqb_refl in I3. lia.
        -- destruct (lk_eqb_spec x l); [congruence|exact I3].
      * destruct (lk_eqb_spec x l) as [->|]; [|exact I3]. rewrite O in I3. destruct (Nat.eqb_spec t u); [congruence|exact I3].
    + intros x u d0. unfold set_own. destruct (lk_eqb_spec x l); [intros [= _ <-]; lia|apply I4].
  - assert (X := I1 _ _ E n). exists (upd hs t (hs t)). apply (inv_change c hs t _ (k n) _ _ HI E X).
    + intros u x. unfold upd. destruct (Nat.eqb_spec u t) as [->|]; apply I3.
    + exact I4.
Qed.
Lemma start_inv ts : inv (start false ts) (fun _ => []).
Proof.
  constructor; cbn.
  - intros t p E. apply nth_error_In in E. apply in_map_iff in E. destruct E as (cs & <- & _). apply ord_thread.
  - reflexivity.
  - reflexivity.
  - discriminate.
Qed.
Lemma steps_inv c c' hs : inv c hs -> steps c c' -> exists hs', inv c' hs'.
Proof. intros HI S. revert hs HI. induction S as [c|c c1 c2 S IH S1]; intros hs HI; [eauto|]. destruct (IH hs HI) as (h1 & I1). exact (step_inv _ _ _ I1 S1). Qed.

(* ---- someone can go on *)
Lemma held_own c hs t l : inv c hs -> In l (hs t) -> exists d, own c l = Some (t, d).
Proof.
  intros HI Hl. assert (X := i_own _ _ HI t l). apply (count_occ_In lk_dec) in Hl. unfold holds in X. destruct (own c l) as [[u d]|]; [|lia].
  destruct (Nat.eqb_spec u t); [subst; eauto|lia].
Qed.
Lemma move_or_wait c hs t p : inv c hs -> nth_error (cur c) t = Some p -> p <> Ret ->
  (exists c', step c c') \/ exists l k u d, p = Lock l k /\ own c l = Some (u, d) /\ u <> t /\ forall x, In x (hs t) -> (rank x < rank l)%nat.
Proof.
  intros HI E N. assert (X := i_ord _ _ HI t p E). destruct p as [|l k|l k|k].
  - contradiction.
  - destruct (own c l) as [[u d]|] eqn:O.
    + destruct (Nat.eq_dec u t) as [->|Nu]; [left; eexists; eapply s_again; eauto|]. right. exists l, k, u, d. split; [reflexivity|]. split; [exact O|]. split; [exact Nu|].
      destruct (proj1 X) as [Y|Y]; [|exact Y]. destruct (held_own _ _ _ _ HI Y) as (d' & O'). congruence.
    + left. eexists. eapply s_take; eauto.
  - left. cbn in X. destruct (hs t) as [|y h] eqn:Eh; [contradiction|]. destruct X as [-> X].
    destruct (held_own c hs t l HI) as (d & O); [rewrite Eh; left; reflexivity|]. assert (P := i_pos _ _ HI _ _ _ O). destruct d as [|[|d]]; [lia| |]; eexists; [eapply s_drop|eapply s_less]; eauto.
  - left. eexists. apply (s_any c t k 0 E).
Qed.
Lemma held_live c hs t l : inv c hs -> In l (hs t) -> exists p, nth_error (cur c) t = Some p /\ p <> Ret.
Proof.
  intros HI Hl. destruct (nth_error (cur c) t) as [p|] eqn:E.
  - exists p. split; [reflexivity|]. intros ->. assert (X := i_ord _ _ HI t _ E). cbn in X. rewrite X in Hl. contradiction.
  - rewrite (i_out _ _ HI t E) in Hl. contradiction.
Qed.
Lemma progress_from c hs n : inv c hs -> forall t p, nth_error (cur c) t = Some p -> p <> Ret ->
  (forall l k, p = Lock l k -> (3 - rank l < n)%nat) -> exists c', step c c'.
Proof.
  intro HI. induction n as [|n IH]; intros t p E N B; destruct (move_or_wait c hs t p HI E N) as [M|(l & k & u & d & -> & O & Nu & R)]; try exact M.
  - specialize (B l k eq_refl). lia.
  - specialize (B l k eq_refl). assert (Hl : In l (hs u)).
    { apply (count_occ_In lk_dec). rewrite (i_own _ _ HI u l). unfold holds. rewrite O, Nat.eqb_refl. assert (P := i_pos _ _ HI _ _ _ O). lia. }
    destruct (held_live c hs u l HI Hl) as (q & Eq & Nq). destruct (move_or_wait c hs u q HI Eq Nq) as [M|(l' & k' & u' & d' & -> & O' & Nu' & R')]; [exact M|].
    apply (IH u _ Eq Nq). intros l0 k0 [= <- <-]. specialize (R' l Hl). assert (rank l' <= 3)%nat by (destruct l'; cbn; lia). lia.
Qed.

(* ---- runs end *)
Inductive sub : prog -> prog -> Prop :=
| sub_l l k : sub k (Lock l k) | sub_u l k : sub k (Unlock l k) | sub_a k n : sub (k n) (Any k).
Lemma sub_wf p : Acc sub p.
Proof. induction p; constructor; intros q S; inversion S; subst; auto. Qed.
Definition lsub (l' l : list prog) : Prop := exists t p q, nth_error l t = Some p /\ sub q p /\ l' = put l t q.
Lemma lsub_wf l : Acc lsub l.
Proof.
  induction l as [|p l IH].
  - constructor. intros l' (t & p & q & E & _). destruct t; discriminate.
  - revert l IH. induction (sub_wf p) as [p _ IHp]. intros l Hl. induction Hl as [l Hl IHl].
    constructor. intros l' (t & p0 & q & E & S & ->). destruct t as [|t]; cbn in *.
    + injection E as ->. apply IHp; [exact S|]. constructor. exact Hl.
    + apply IHl. exists t, p0, q. auto.
Qed.
Lemma step_sub c c' : step c c' -> lsub (cur c') (cur c).
Proof. intros [? t l k E _|? t l k d E _|? t l k E _|? t l k d E _|? t k n E]; cbn [cur]; eexists t, _, _; (split; [exact E|]; split; [constructor|reflexivity]). Qed.
Lemma step_acc c : Acc (fun c' c => step c c') c.
Proof.
  remember (cur c) as l eqn:E. revert c E. induction (lsub_wf l) as [l _ IH]. intros c ->. constructor. intros c' S. exact (IH (cur c') (step_sub _ _ S) c' eq_refl).
Qed.
