(* Single calls on the heap index of C70, and what they keep. *)
From Verif Require Import Base Conc_model Conc_spec Conc_proof Hconc_gen Hconc_model Hconc_spec.

Section Proof.
Variables (dbg : bool) (abegin : Z) (junk : Z -> Z).
Notation P := (prog hs).
Notation base := (abase abegin).

Lemma run_rd {A B} (f : hs -> A) (k : A -> P B) s : run (bindp (rd f) k) s = run (k (f s)) s.
Proof. reflexivity. Qed.
Lemma run_rdo {A B} (f : hs -> option A) (k : A -> P B) s a : f s = Some a -> run (bindp (rdo f) k) s = run (k a) s.
Proof. intro H. cbn. rewrite H. reflexivity. Qed.
Lemma run_chk {B} b (k : unit -> P B) s : b = true -> run (bindp (chk dbg b) k) s = run (k tt) s.
Proof. intros ->. cbn. unfold asrt. rewrite andb_false_r. reflexivity. Qed.
Lemma run_wr {B} f (k : unit -> P B) s : run (bindp (wr f) k) s = run (k tt) (f s).
Proof. reflexivity. Qed.
Lemma run_act {A B} (f : hs -> res (hs * A)) (k : A -> P B) s s' a : f s = Ok (s', a) -> run (bindp (Act f Ret) k) s = run (k a) s'.
Proof. intro H. cbn. rewrite H. reflexivity. Qed.

Record is_ (i : nat) (s : hs) (n : Z) (b : nat) (u : Z) (w : Z -> Z) : Prop := {
  is_i : i <> 0%nat; is_sub : h_sub s = true; is_priv : h_priv s = i;
  is_inf : h_inf s i = mkI (Some base) (Some n) (Some b) (Some u);
  is_n : 0 <= n; is_0 : h_buf s 0 = None; is_lt : (b < h_nextb s)%nat;
  is_buf : (b = 0%nat /\ n = 0) \/ (b <> 0%nat /\ h_buf s b = Some (n, w)) }.
Lemma ready_is i s : ready abegin i s <-> exists n b u w, is_ i s n b u w.
Proof.
  split.
  - intros (n & b & u & w & A1 & A2 & A3 & A4 & A5 & A6 & A7 & A8). exists n, b, u, w. constructor; assumption.
  - intros (n & b & u & w & [A1 A2 A3 A4 A5 A6 A7 A8]). exists n, b, u, w. repeat split; assumption.
Qed.
Definition mk (n : Z) (w : Z -> Z) (q : Z) : bool :=
  let k := (q - base) / MALLOC_ALIGN in inside n (k / NBITS) && Z.testbit (w (k / NBITS)) (k mod NBITS).
Lemma marked_is i s n b u w q : is_ i s n b u w -> marked abegin i s q = mk n w q.
Proof. clear junk.
  intros [A1 A2 A3 A4 A5 A6 A7 A8]. unfold marked, mk. rewrite A4. cbn [f_bm]. destruct A8 as [[-> ->] | [Hb ->]]; [|reflexivity].
  rewrite A6. unfold inside. destruct (0 <=? _) eqn:E1, (_ <? 0) eqn:E2; cbn; auto; lia.
Qed.

Lemma get_inf i s g : h_inf (upd_inf s i g) i = g (h_inf s i).
Proof. cbn. rewrite Nat.eqb_refl. reflexivity. Qed.

(* the bitmap grown to [total] words *)
Definition grown (n total : Z) (w : Z -> Z) : Z -> Z :=
  fun k => if (n <=? k) && (k <? total) then 0 else if k <? n then w k else junk k.
Lemma run_grow i s n b u w e {B} (k : unit -> P B) : is_ i s n b u w -> base < e ->
  exists s' n' b' w', run (bindp (p_grow dbg abegin junk i e) k) s = run (k tt) s' /\ is_ i s' n' b' u w' /\
    (rup e SPAN - base) / SPAN <= n' /\ b' <> 0%nat /\ h_buf s' b' = Some (n', w') /\ forall q, mk n' w' q = mk n w q.
Proof.
  intros H He. destruct H as [A1 A2 A3 A4 A5 A6 A7 A8]. unfold p_grow.
  set (total := (rup e SPAN - base) / SPAN).
  assert (Ht : 1 <= total).
  { unfold total, rup, abase, rdown, SPAN in *. replace (((e + (1024 - 1)) / 1024 * 1024 - abegin / 1024 * 1024)) with (((e + (1024-1))/1024 - abegin/1024) * 1024) by lia.
    rewrite Z.div_mul by lia. revert He. clear. intros. Z.div_mod_to_equations. lia. }
  assert (G : forall (X : Z) {B} (p : P B) s0, run (bindp p (fun a => Ret a)) s0 = run p s0).
  { intros X B0 p s0. rewrite run_bind. destruct (run p s0) as [[? ?]| | |]; reflexivity. }
  rewrite run_bind. rewrite (run_rdo _ _ _ base) by (rewrite A4; reflexivity).
  rewrite run_chk by (apply Z.eqb_refl). cbv zeta. fold total.
  rewrite (run_rdo _ _ _ n) by (rewrite A4; reflexivity).
  destruct (Z.ltb_spec n total) as [Hn|Hn].
  - rewrite (run_rdo _ _ _ b) by (rewrite A4; reflexivity).
    set (w0 := if Nat.eqb b 0 then junk else w).
    assert (E : (if Nat.eqb b 0 then Some (0, junk) else h_buf s b) = Some (if Nat.eqb b 0 then 0 else n, w0)).
    { unfold w0. destruct A8 as [[-> _] | [Hb E]]; [reflexivity|]. destruct (Nat.eqb_spec b 0); [contradiction|]. exact E. }
    erewrite run_act by (rewrite E; reflexivity).
    unfold w_bm. rewrite run_wr.
    erewrite run_act.
    2:{ unfold upd_inf; cbn [h_buf]. rewrite Nat.eqb_refl. reflexivity. }
    unfold w_nw, wr. cbn [run bind]. eexists. exists total, (h_nextb s), (grown n total w0). split; [reflexivity|].
    assert (Hw : h_nextb s <> 0%nat) by lia.
    split; [|split; [lia|split; [exact Hw|split]]].
    + constructor; cbn [upd_inf upd_buf h_sub h_priv h_inf h_buf h_nextb]; auto; try lia.
      * rewrite !Nat.eqb_refl, A4. reflexivity.
      * destruct (Nat.eqb_spec 0 (h_nextb s)); [lia|]. destruct (Nat.eqb 0 b); [reflexivity|exact A6].
      * right. split; [exact Hw|]. rewrite Nat.eqb_refl. reflexivity.
    + cbn [upd_inf upd_buf h_buf]. rewrite Nat.eqb_refl. reflexivity.
    + intro q. unfold mk, inside, grown, w0. set (k0 := (q - base) / MALLOC_ALIGN).
      destruct (Z.leb_spec 0 (k0 / NBITS)); cbn [andb]; [|reflexivity].
      destruct (Z.ltb_spec (k0 / NBITS) n) as [H1|H1].
      * destruct (Z.ltb_spec (k0 / NBITS) total); [|lia]. destruct (Z.leb_spec n (k0 / NBITS)); [lia|]. cbn [andb].
        destruct A8 as [[_ ->] | [Hb _]]; [lia|]. destruct (Nat.eqb_spec b 0); [contradiction|]. reflexivity.
      * destruct (Z.leb_spec n (k0 / NBITS)); [|lia]. destruct (Z.ltb_spec (k0 / NBITS) total); [|reflexivity]. cbn [andb]. apply Z.bits_0.
  - destruct A8 as [[-> ->] | [Hb E]]; [lia|].
    exists s, n, b, w. split; [reflexivity|]. split; [constructor; auto|]. auto.
Qed.

(* a bit of a word *)
Lemma bit_or w a c : 0 <= a -> 0 <= c -> Z.testbit (Z.lor w (2 ^ a)) c = (c =? a) || Z.testbit w c.
Proof. clear. intros Ha Hc. rewrite Z.lor_spec, Z.pow2_bits_eqb by lia. rewrite (Z.eqb_sym a c). apply orb_comm. Qed.
Lemma bit_ldiff w a c : 0 <= a -> 0 <= c -> Z.testbit (Z.ldiff w (2 ^ a)) c = negb (c =? a) && Z.testbit w c.
Proof. clear. intros Ha Hc. rewrite Z.ldiff_spec, Z.pow2_bits_eqb by lia. rewrite (Z.eqb_sym a c). apply andb_comm. Qed.
Lemma same_bit p q : chunk_at abegin p -> chunk_at abegin q ->
  (((q - base) / MALLOC_ALIGN) / NBITS =? ((p - base) / MALLOC_ALIGN) / NBITS) &&
  (((q - base) / MALLOC_ALIGN) mod NBITS =? ((p - base) / MALLOC_ALIGN) mod NBITS) = (q =? p).
Proof.
  intros [Hp Mp] [Hq Mq].
  assert (Ep : (p - base) = 16 * ((p - base) / MALLOC_ALIGN)).
  { unfold abase, rdown, SPAN, MALLOC_ALIGN in *. clear - Mp. Z.div_mod_to_equations. lia. }
  assert (Eq : (q - base) = 16 * ((q - base) / MALLOC_ALIGN)).
  { unfold abase, rdown, SPAN, MALLOC_ALIGN in *. clear - Mq. Z.div_mod_to_equations. lia. }
  set (x := (p - base) / MALLOC_ALIGN) in *. set (y := (q - base) / MALLOC_ALIGN) in *. unfold NBITS.
  destruct (Z.eqb_spec (y / 64) (x / 64)) as [E1|E1], (Z.eqb_spec (y mod 64) (x mod 64)) as [E2|E2], (Z.eqb_spec q p) as [E3|E3]; cbn; auto; exfalso.
  - apply E3. assert (y = x) by (rewrite (Z.div_mod y 64), (Z.div_mod x 64) by lia; rewrite E1, E2; reflexivity). lia.
  - apply E2. subst q. reflexivity.
  - apply E1. subst q. reflexivity.
  - apply E1. subst q. reflexivity.
Qed.
Lemma mk_or n w p q : chunk_at abegin p -> chunk_at abegin q -> inside n ((p - base) / MALLOC_ALIGN / NBITS) = true ->
  let k := (p - base) / MALLOC_ALIGN in
  mk n (fun j => if j =? k / NBITS then Z.lor (w (k / NBITS)) (2 ^ (k mod NBITS)) else w j) q = (q =? p) || mk n w q.
Proof.
  intros Hp Hq Hin k. unfold mk. rewrite <- (same_bit p q Hp Hq). fold k. set (y := (q - base) / MALLOC_ALIGN).
  assert (B1 : 0 <= y mod NBITS) by (apply Z.mod_pos_bound; reflexivity). assert (B2 : 0 <= k mod NBITS) by (apply Z.mod_pos_bound; reflexivity).
  destruct (Z.eqb_spec (y / NBITS) (k / NBITS)) as [E|E]; cbn [andb orb]; [|reflexivity].
  rewrite E. fold k in Hin. rewrite Hin. cbn [andb]. apply bit_or; assumption.
Qed.
Lemma mk_ldiff n w p q : chunk_at abegin p -> chunk_at abegin q ->
  let k := (p - base) / MALLOC_ALIGN in
  mk n (fun j => if j =? k / NBITS then Z.ldiff (w (k / NBITS)) (2 ^ (k mod NBITS)) else w j) q = negb (q =? p) && mk n w q.
Proof.
  intros Hp Hq k. unfold mk. rewrite <- (same_bit p q Hp Hq). fold k. set (y := (q - base) / MALLOC_ALIGN).
  assert (B1 : 0 <= y mod NBITS) by (apply Z.mod_pos_bound; reflexivity). assert (B2 : 0 <= k mod NBITS) by (apply Z.mod_pos_bound; reflexivity).
  destruct (Z.eqb_spec (y / NBITS) (k / NBITS)) as [E|E]; cbn [andb orb negb]; [|reflexivity].
  rewrite E. rewrite bit_ldiff by assumption. destruct (inside n (k / NBITS)); cbn [andb]; [reflexivity|]. rewrite andb_false_r. reflexivity.
Qed.

Lemma run_ensure s i n b u w {B} (k : nat -> P B) : is_ i s n b u w -> run (bindp (p_ensure dbg abegin) k) s = run (k i) s.
Proof.
  intros [A1 A2 A3 A4 A5 A6 A7 A8]. unfold p_ensure, p_arena, p_ensure_info. cbn. rewrite A2. cbn. rewrite A3.
  destruct (Nat.eqb_spec i 0); [contradiction|]. cbn. rewrite A3. reflexivity.
Qed.

Lemma in_words p e : chunk_at abegin p -> p < e -> inside ((rup e SPAN - base) / SPAN) ((p - base) / MALLOC_ALIGN / NBITS) = true.
Proof.
  intros [Hp _] He. unfold inside, rup, abase, rdown, SPAN, MALLOC_ALIGN, NBITS in *. rewrite Z.div_div by lia. change (16 * 64) with 1024.
  apply andb_true_intro. split.
  - apply Z.leb_le. apply Z.div_pos; lia.
  - apply Z.ltb_lt. replace ((e + (1024 - 1)) / 1024 * 1024 - abegin / 1024 * 1024) with (((e + (1024-1))/1024 - abegin/1024) * 1024) by lia.
    rewrite Z.div_mul by lia. replace (p - abegin / 1024 * 1024) with (p + (- (abegin / 1024)) * 1024) by lia. rewrite Z.div_add by lia.
    clear - He. Z.div_mod_to_equations. lia.
Qed.
Lemma inside_le n m j : n <= m -> inside n j = true -> inside m j = true.
Proof. unfold inside. lia. Qed.

Lemma alloc_run i s p req cu : ready abegin i s -> chunk_at abegin p -> 0 < req ->
  exists s', run (hcode dbg abegin junk (HAlloc p req cu)) s = Ok (s', 0) /\ ready abegin i s' /\
    forall q, chunk_at abegin q -> marked abegin i s' q = (q =? p) || marked abegin i s q.
Proof.
  intros HR Hp Hq. apply ready_is in HR. destruct HR as (n & b & u & w & H). cbn [hcode].
  rewrite (run_ensure s i n b u w _ H). unfold p_insert. rewrite run_bind, run_locked.
  match goal with |- context [run (bindp (p_grow dbg abegin junk i (p + req)) ?K) s] =>
    destruct (run_grow i s n b u w (p + req) K H ltac:(destruct Hp; lia)) as (s1 & n1 & b1 & w1 & E & H1 & Hn & Hb & Ebuf & Hm) end.
  rewrite E. clear E. pose proof H1 as [A1 A2 A3 A4 A5 A6 A7 A8].
  assert (Hin : inside n1 ((p - base) / MALLOC_ALIGN / NBITS) = true) by (apply (inside_le _ _ _ Hn), in_words; [exact Hp|lia]).
  rewrite (run_rdo _ _ _ b1) by (rewrite A4; reflexivity).
  rewrite (run_rdo _ _ _ base) by (rewrite A4; reflexivity).
  rewrite run_chk by (apply Z.eqb_refl). rewrite run_rd, A3.
  rewrite (run_rdo _ _ _ n1) by (rewrite A4; reflexivity).
  rewrite run_chk.
  2:{ apply Z.leb_le. destruct Hp as [Hp _]. clear - Hn Hp Hq. unfold inside in *. unfold rup, abase, rdown, SPAN in *.
      revert Hn. replace ((p + req + (1024 - 1)) / 1024 * 1024 - abegin / 1024 * 1024) with (((p + req + (1024-1))/1024 - abegin/1024) * 1024) by lia.
      rewrite Z.div_mul by lia. intro. Z.div_mod_to_equations. lia. }
  rewrite (run_rdo _ _ _ u) by (rewrite A4; reflexivity). unfold w_bu. rewrite run_wr. cbv zeta.
  unfold r_word. rewrite (run_rdo _ _ _ (w1 ((p - base) / MALLOC_ALIGN / NBITS))) by (cbn [upd_inf h_buf]; rewrite Ebuf, Hin; reflexivity).
  unfold w_word. cbn [run upd_inf h_buf]. rewrite Ebuf, Hin. cbn [bind run].
  eexists. split; [reflexivity|]. rewrite ready_is.
  match goal with |- _ /\ forall q, _ -> marked _ _ ?s2 q = _ =>
    assert (H2 : is_ i s2 n1 b1 (Z.max u cu) (fun j => if j =? (p - base) / MALLOC_ALIGN / NBITS then
       Z.lor (w1 ((p - base) / MALLOC_ALIGN / NBITS)) (2 ^ (((p - base) / MALLOC_ALIGN) mod NBITS)) else w1 j)) end.
  { constructor; cbn [upd_inf upd_buf h_sub h_priv h_inf h_buf h_nextb]; auto.
    - rewrite Nat.eqb_refl, A4. reflexivity.
    - destruct (Nat.eqb_spec 0 b1); [congruence|exact A6].
    - right. split; [exact Hb|]. rewrite Nat.eqb_refl. reflexivity. }
  split; [eauto 6|]. intros q Hqc. rewrite (marked_is _ _ _ _ _ _ _ H2), (marked_is _ _ _ _ _ _ _ H), (mk_or n1 w1 p q Hp Hqc Hin), Hm. reflexivity.
Qed.

Lemma free_run_in i s n b u w p : is_ i s n b u w -> chunk_at abegin p -> inside n ((p - base) / MALLOC_ALIGN / NBITS) = true ->
  exists s', run (hcode dbg abegin junk (HFree p)) s = Ok (s', 0) /\ ready abegin i s' /\
    forall q, chunk_at abegin q -> marked abegin i s' q = negb (q =? p) && marked abegin i s q.
Proof.
  intros H Hp Hin. cbn [hcode].
  rewrite (run_ensure s i n b u w _ H). unfold p_delete. rewrite run_bind, run_locked.
  pose proof H as [A1 A2 A3 A4 A5 A6 A7 A8].
  destruct A8 as [[-> ->] | [Hb Ebuf]]; [unfold inside in Hin; lia|].
  rewrite (run_rdo _ _ _ b) by (rewrite A4; reflexivity).
  rewrite (run_rdo _ _ _ base) by (rewrite A4; reflexivity).
  rewrite run_chk by (apply Z.eqb_refl). rewrite run_chk by (apply Z.leb_le; exact (proj1 Hp)). cbv zeta.
  unfold r_word. rewrite (run_rdo _ _ _ (w ((p - base) / MALLOC_ALIGN / NBITS))) by (rewrite Ebuf, Hin; reflexivity).
  unfold w_word. cbn [run]. rewrite Ebuf, Hin. cbn [bind run].
  eexists. split; [reflexivity|]. rewrite ready_is.
  match goal with |- _ /\ forall q, _ -> marked _ _ ?s2 q = _ =>
    assert (H2 : is_ i s2 n b u (fun j => if j =? (p - base) / MALLOC_ALIGN / NBITS then
       Z.ldiff (w ((p - base) / MALLOC_ALIGN / NBITS)) (2 ^ (((p - base) / MALLOC_ALIGN) mod NBITS)) else w j)) end.
  { constructor; cbn [upd_buf h_sub h_priv h_inf h_buf h_nextb]; auto.
    - destruct (Nat.eqb_spec 0 b); [congruence|exact A6].
    - right. split; [exact Hb|]. rewrite Nat.eqb_refl. reflexivity. }
  split; [eauto 6|]. intros q Hqc. rewrite (marked_is _ _ _ _ _ _ _ H2), (marked_is _ _ _ _ _ _ _ H), (mk_ldiff n w p q Hp Hqc). reflexivity.
Qed.

Lemma free_run i s p : ready abegin i s -> chunk_at abegin p -> marked abegin i s p = true ->
  exists s', run (hcode dbg abegin junk (HFree p)) s = Ok (s', 0) /\ ready abegin i s' /\
    forall q, chunk_at abegin q -> marked abegin i s' q = negb (q =? p) && marked abegin i s q.
Proof.
  intros HR Hp Hl. apply ready_is in HR. destruct HR as (n & b & u & w & H). apply (free_run_in i s n b u w p H Hp).
  rewrite (marked_is _ _ _ _ _ _ _ H) in Hl. unfold mk in Hl. apply andb_prop in Hl. exact (proj1 Hl).
Qed.

(* ---- what the calls keep, access by access ---- *)
Section Keep.
Variable Inv : hs -> Prop.
Fixpoint keep {A} (p : P A) (Q : A -> Prop) : Prop :=
  match p with
  | Ret a => Q a
  | Lock _ | Unlock _ => False
  | Act f k => forall s s' a, Inv s -> f s = Ok (s', a) -> Inv s' /\ keep (k a) Q
  end.
Lemma keep_bind {A B} (p : P A) (k : A -> P B) Q Q2 : keep p Q -> (forall a, Q a -> keep (k a) Q2) -> keep (bindp p k) Q2.
Proof.
  induction p as [a|q IH|q IH|X f q IH]; cbn; intros Hp Hk; auto; try contradiction.
  intros s s' a Hs E. destruct (Hp s s' a Hs E). split; auto.
Qed.
Lemma keep_wli {A B} (p : P A) (r : B) Q : keep p Q -> wli hs Inv 1 (bindp (bindp p (fun a => Unlock (Ret a))) (fun _ => Ret r)).
Proof.
  induction p as [a|q IH|q IH|X f q IH]; cbn; intro Hp; try contradiction; eauto.
  intros s s' a Hs E. destruct (Hp s s' a Hs E). split; auto.
Qed.
Lemma keep_wk {A} (p : P A) (Q Q2 : A -> Prop) : keep p Q -> (forall a, Q a -> Q2 a) -> keep p Q2.
Proof. induction p as [a|q IH|q IH|X f q IH]; cbn; auto. intros Hp Hk s s' a Hs E. destruct (Hp s s' a Hs E). auto. Qed.
End Keep.
End Proof.
