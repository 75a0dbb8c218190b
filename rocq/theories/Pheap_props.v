(* C64: the library's own heap. *)
From Verif Require Import Base Big_model Big_spec Big_inv Big_hist Big_props Map_model Pheap_model Pheap_spec.

(* ------------------------------------------------------------ the emulated break *)
(* A request is granted, with the old break for answer, exactly when the new break, as an integer,
   lies within the heap; otherwise nothing changes.  No wrap-around goes unnoticed. *)
Theorem pheap_sbrk_exact : forall base limit brk inc,
  0 < base <= limit -> limit < W64 -> brk = 0 \/ base <= brk <= limit -> - (2 ^ 63) <= inc < 2 ^ 63 ->
  let old := if brk =? 0 then base else brk in
  (base <= old + inc <= limit -> emulated_sbrk base limit brk inc = (old + inc, Some old)) /\
  (~ base <= old + inc <= limit -> emulated_sbrk base limit brk inc = (old, None)).
Proof.
  intros base limit brk inc Hb Hl Hk Hi old. unfold emulated_sbrk. fold old.
  assert (Ho : base <= old <= limit) by (unfold old; destruct (Z.eqb_spec brk 0); lia).
  clearbody old. change W64 with 18446744073709551616 in *. change (2 ^ 63) with 9223372036854775808 in Hi.
  assert (Hm : (old + inc) mod 18446744073709551616 =
     if old + inc <? 0 then old + inc + 18446744073709551616
     else if old + inc <? 18446744073709551616 then old + inc else old + inc - 18446744073709551616).
  { destruct (Z.ltb_spec (old + inc) 0); [|destruct (Z.ltb_spec (old + inc) 18446744073709551616)].
    - replace (old + inc) with ((old + inc + 18446744073709551616) + (-1) * 18446744073709551616) at 1 by lia.
      rewrite Z.mod_add by lia. apply Z.mod_small. lia.
    - apply Z.mod_small; lia.
    - replace (old + inc) with ((old + inc - 18446744073709551616) + 1 * 18446744073709551616) at 1 by lia.
      rewrite Z.mod_add by lia. apply Z.mod_small. lia. }
  rewrite Hm. clear Hm.
  split; intro H;
  destruct (Z.ltb_spec (old + inc) 0); destruct (Z.ltb_spec (old + inc) 18446744073709551616); try lia;
  destruct (Z.ltb_spec 0 inc); destruct (Z.ltb_spec inc 0); try lia; cbn [andb orb];
  repeat match goal with |- context [if ?b then _ else _] => let E := fresh in destruct b eqn:E; try lia end; try reflexivity.
Qed.

(* so in every sequence of requests the break stays within the heap *)
Fixpoint sbrks (base limit brk : Z) (l : list Z) : Z :=
  match l with [] => brk | i :: l' => sbrks base limit (fst (emulated_sbrk base limit brk i)) l' end.
Theorem pheap_sbrk_within : forall base limit l brk,
  0 < base <= limit -> limit < W64 -> base <= brk <= limit -> Forall (fun i => - (2 ^ 63) <= i < 2 ^ 63) l ->
  base <= sbrks base limit brk l <= limit.
Proof.
  intros base limit l. induction l as [|i l IH]; intros brk H1 H2 H3 HF; [exact H3|].
  inversion HF as [|? ? Hi Hl]; subst. cbn [sbrks].
  destruct (pheap_sbrk_exact base limit brk i H1 H2 (or_intror H3) Hi) as [A B].
  replace (if brk =? 0 then base else brk) with brk in * by (destruct (Z.eqb_spec brk 0); lia).
  destruct (Z_le_dec base (brk + i)) as [La|]; [destruct (Z_le_dec (brk + i) limit) as [Lb|]|].
  - rewrite (A (conj La Lb)). cbn [fst]. apply IH; auto.
  - rewrite B by lia. cbn [fst]. apply IH; auto.
  - rewrite B by lia. cbn [fst]. apply IH; auto.
Qed.

(* ------------------------------------------------------------ the bitmap's room *)
(* Setting or clearing the bit of any address of the heap stays inside the bytes allocated for the
   bitmap, the heap being a whole number of pages. *)
Theorem pheap_bitmap_room : forall begin range ptr,
  0 <= range -> range mod PAGE = 0 -> begin <= ptr < begin + range ->
  0 <= bit_word ((ptr - begin) / PALIGN) /\ bit_word ((ptr - begin) / PALIGN) + 8 <= bitmap_bytes range - INSERT.
Proof.
  intros begin range ptr H0 HP HR. unfold bit_word, bitmap_bytes, CEILDIV, PALIGN, INSERT, PAGE in *.
  set (d := ptr - begin). assert (Hd : 0 <= d < range) by (unfold d; lia). clearbody d.
  pose proof (Z.div_mod range 4096 ltac:(lia)) as E. rewrite HP in E. set (q := range / 4096) in *. clearbody q.
  replace ((range + 16 - 1) / 16) with (256 * q).
  2:{ apply Z.div_unique with (r := 15); lia. }
  replace ((256 * q + 8 - 1) / 8) with (32 * q) by (apply Z.div_unique with (r := 7); lia).
  assert (A : 0 <= d / 16) by (apply Z.div_pos; lia).
  assert (B : d / 16 < 256 * q) by (apply Z.div_lt_upper_bound; lia).
  set (i := d / 16) in *. clearbody i.
  assert (C : 0 <= i / 64) by (apply Z.div_pos; lia).
  assert (D : i / 64 < 4 * q) by (apply Z.div_lt_upper_bound; lia). lia.
Qed.

(* ------------------------------------------------------------ the bits *)
Section Props.
Variables (nb : nat) (biggest : Z) (dbg : bool) (al : nat -> Z) (cur max : Z).
Notation R := (reach nb biggest dbg al cur max).
Variables (lo hi : Z) (bm : nat).
Hypothesis Hbm : bm <> 0%nat.

Lemma home_top s n p : R s -> home s n lo hi bm -> lo <= p < hi -> lookup_top_level nb s p = Ok n.
Proof.
  intros Hr [L T A B E S] Hp. destruct (big_top_level_lookup nb biggest dbg al cur max s p Hr) as (r & Er & Hc).
  rewrite Er. f_equal. assert (C : covers s n p) by (unfold covers; lia).
  destruct Hc as [[_ N]|(Lr & Tr & Cr)]; [exfalso; exact (N n L C)|].
  destruct (Nat.eq_dec r n) as [|Ne]; [auto|]. exfalso.
  destruct (big_forest_always nb biggest dbg al cur max s Hr) as [Hf _].
  apply (fo_sib s Hf r n Lr L Ne); [congruence|]. exists p. auto.
Qed.

Lemma bit_of p : (p - lo) mod 16 = 0 -> forall i, i = (p - lo) / PALIGN <-> lo + 16 * i = p.
Proof. intros H i. unfold PALIGN. pose proof (Z.div_mod (p - lo) 16 ltac:(lia)). lia. Qed.

Definition upd (m : bitmaps) (i : Z) (v : bool) : bitmaps := fun q j => if Nat.eqb q bm && (j =? i) then v else m q j.

Lemma set_ok s n m p : R s -> home s n lo hi bm -> chunk lo hi p ->
  set_metadata nb dbg s m p = Ok (upd m ((p - lo) / PALIGN) true).
Proof.
  intros Hr Hh (Hp & Hm & _). unfold set_metadata. rewrite (home_top s n p Hr Hh Hp). destruct Hh as [L T A B E S]. cbn [bind].
  destruct (Nat.eqb_spec n 0) as [->|_]; [exfalso; apply (proj1 L); reflexivity|].
  rewrite A, B, S. change (Nat.eqb MMAP MMAP) with true. change PALIGN with 16. rewrite Hm.
  replace (lo <=? p) with true by (symmetry; apply Z.leb_le; lia).
  unfold Big_model.asrt, put_bit. change (0 =? 0) with true. cbn [negb bind]. destruct dbg; cbn [bind];
  destruct (Nat.eqb_spec bm 0); try contradiction; reflexivity.
Qed.
Lemma clear_ok s n m p : R s -> home s n lo hi bm -> chunk lo hi p ->
  clear_metadata nb dbg s m p = Ok (upd m ((p - lo) / PALIGN) false).
Proof.
  intros Hr Hh (Hp & Hm & _). unfold clear_metadata. rewrite (home_top s n p Hr Hh Hp). destruct Hh as [L T A B E S]. cbn [bind].
  destruct (Nat.eqb_spec n 0) as [->|_]; [exfalso; apply (proj1 L); reflexivity|].
  rewrite A, B, S. change (Nat.eqb MMAP MMAP) with true.
  unfold Big_model.asrt, put_bit. cbn [negb andb bind]. destruct dbg; cbn [bind];
  destruct (Nat.eqb_spec bm 0); try contradiction; reflexivity.
Qed.

Lemma marks_set m L p : (p - lo) mod 16 = 0 -> marks lo bm m L -> marks lo bm (upd m ((p - lo) / PALIGN) true) (p :: L).
Proof.
  intros Hp H i. unfold upd. rewrite Nat.eqb_refl. cbn [andb In]. pose proof (bit_of p Hp i). specialize (H i).
  destruct (Z.eqb_spec i ((p - lo) / PALIGN)); [split; [intros _; left; lia|reflexivity]|].
  rewrite H. split; [auto|]. intros [X|X]; [exfalso; apply n; lia|exact X].
Qed.
Lemma in_drop p q L : In q (drop p L) <-> In q L /\ q <> p.
Proof. unfold drop. rewrite filter_In. destruct (Z.eqb_spec q p); cbn [negb]; intuition congruence. Qed.
Lemma marks_clear m L p : (p - lo) mod 16 = 0 -> marks lo bm m L -> marks lo bm (upd m ((p - lo) / PALIGN) false) (drop p L).
Proof.
  intros Hp H i. unfold upd. rewrite Nat.eqb_refl. cbn [andb]. rewrite in_drop. pose proof (bit_of p Hp i). specialize (H i).
  destruct (Z.eqb_spec i ((p - lo) / PALIGN)); [split; [discriminate|intros [_ X]; lia]|].
  rewrite H. split; [intro X; split; [exact X|lia]|tauto].
Qed.
Lemma upd_other m i v q : q <> bm -> forall j, upd m i v q j = m q j.
Proof. intros N j. unfold upd. destruct (Nat.eqb_spec q bm); [contradiction|reflexivity]. Qed.

(* the chunks that are live are chunks of the heap *)
Definition inside (L : list Z) : Prop := forall p, In p L -> chunk lo hi p.
Lemma does_inside L o L' : inside L -> does lo hi L o L' -> inside L'.
Proof.
  intros H D. destruct D as [r [F _]| |p I|p r I|p z r I Z [F _]|z Z]; try exact H; intros q Q.
  - destruct Q as [<-|Q]; [exact F|apply H; exact Q].
  - apply in_drop in Q. apply H, Q.
  - apply in_drop in Q. apply H, Q.
  - destruct Q as [<-|Q]; [exact F|]. apply in_drop in Q. apply H, Q.
Qed.

(* what the caller gets and what the wrapped allocator is asked *)
Definition answer (o : pop) : real * Z :=
  match o with
  | PAlloc r => (RAlloc, r) | PFree p => (RFree p, 0)
  | PRealloc p z r => if z =? 0 then (RFree p, 0) else (RRealloc p ((z + 8) mod W64), r)
  | PPosix e _ => (RAlloc, e)
  end.

(* One call: it returns what the wrapped allocator does, touches no other bitmap, and leaves exactly
   the live chunks marked.  Full statement: for every call.  Missing: failing reallocations and
   posix_memalign, for which it is false (pheap_realloc_refuted, pheap_posix_refuted), and freeing
   null (pheap_free_null_refuted). *)
Theorem pheap_call_partial : forall s n m L o L', R s -> home s n lo hi bm -> inside L -> marks lo bm m L ->
  does lo hi L o L' ->
  exists m', pstep nb dbg s m o = Ok (m', fst (answer o), snd (answer o)) /\ marks lo bm m' L' /\
    forall q j, q <> bm -> m' q j = m q j.
Proof.
  intros s n m L o L' Hr Hh HI HM D.
  destruct D as [r [F _]| |p I|p r I|p z r I Z [F _]|z Z]; cbn [pstep answer fst snd].
  - destruct (Z.eqb_spec r 0) as [->|_]; [exfalso; apply (proj2 (proj2 F)); reflexivity|].
    rewrite (set_ok s n m r Hr Hh F). cbn [bind]. eexists. split; [reflexivity|]. split; [apply marks_set; [apply F|exact HM]|].
    intros q j N. apply upd_other; exact N.
  - change (0 =? 0) with true. cbn [bind]. eexists. split; [reflexivity|]. split; [exact HM|reflexivity].
  - pose proof (HI p I) as F. rewrite (clear_ok s n m p Hr Hh F). cbn [bind]. eexists. split; [reflexivity|].
    split; [apply marks_clear; [apply F|exact HM]|]. intros q j N. apply upd_other; exact N.
  - change (0 =? 0) with true. cbv iota. destruct (Z.eqb_spec p 0) as [->|Np].
    + cbn [bind]. eexists. split; [reflexivity|]. split; [|reflexivity].
      intro i. rewrite (HM i), in_drop. split; [|tauto]. intro X. split; [exact X|]. apply (HI _ X).
    + destruct I as [|I]; [contradiction|]. pose proof (HI p I) as F. rewrite (clear_ok s n m p Hr Hh F). cbn [bind].
      eexists. split; [reflexivity|]. split; [apply marks_clear; [apply F|exact HM]|]. intros q j N. apply upd_other; exact N.
  - destruct (Z.eqb_spec z 0) as [|_]; [contradiction|]. cbn [fst snd].
    destruct (Z.eqb_spec r 0) as [->|Nr]; [exfalso; apply (proj2 (proj2 F)); reflexivity|].
    destruct (Z.eqb_spec p 0) as [->|Np].
    + cbn [bind]. rewrite (set_ok s n m r Hr Hh F). cbn [bind]. eexists. split; [reflexivity|]. split.
      * apply marks_set; [apply F|]. intro i. rewrite (HM i), in_drop. split; [|tauto]. intro X. split; [exact X|]. apply (HI _ X).
      * intros q j N. apply upd_other; exact N.
    + destruct I as [|I]; [contradiction|]. pose proof (HI p I) as G. rewrite (clear_ok s n m p Hr Hh G). cbn [bind].
      rewrite (set_ok s n _ r Hr Hh F). cbn [bind]. eexists. split; [reflexivity|]. split.
      * apply marks_set; [apply F|]. apply marks_clear; [apply G|exact HM].
      * intros q j N. rewrite upd_other by exact N. apply upd_other; exact N.
  - destruct (Z.eqb_spec z 0) as [|_]; [contradiction|]. change (0 =? 0) with true. cbn [bind fst snd].
    eexists. split; [reflexivity|]. split; [exact HM|reflexivity].
Qed.

(* Every history of such calls, whatever happens to the big allocations meanwhile as long as the
   heap stays where it is, runs and leaves exactly the live chunks marked. *)
Fixpoint prun (m : bitmaps) (l : list (st * pop)) : res bitmaps :=
  match l with [] => Ok m | (s, o) :: l' => do '(m', _, _) <- pstep nb dbg s m o ; prun m' l' end.
Theorem pheap_exact_partial : forall l m L L', hist R lo hi bm L l L' -> inside L -> marks lo bm m L ->
  exists m', prun m l = Ok m' /\ marks lo bm m' L' /\ inside L' /\ forall q j, q <> bm -> m' q j = m q j.
Proof.
  intros l m L L' H. revert m. induction H as [L|L s n o L1 l L2 Hr Hh HD HH IH]; intros m HI HM.
  - exists m. split; [reflexivity|]. auto.
  - destruct (pheap_call_partial s n m L o L1 Hr Hh HI HM HD) as (m1 & E & M1 & O1).
    destruct (IH m1 (does_inside _ _ _ HI HD) M1) as (m2 & E2 & M2 & I2 & O2).
    exists m2. cbn [prun]. rewrite E. cbn [bind]. split; [exact E2|]. split; [exact M2|]. split; [exact I2|].
    intros q j N. rewrite (O2 q j N). apply O1; exact N.
Qed.
End Props.

(* ------------------------------------------------------------ concrete cases *)
Module PhEx.
  Import Ex.
  (* the first record holds the heap, 0x100000-0x110000, its bitmap being number 7; two forests *)
  Definition t0 := stp s0 (SetSub 1 12 7).
  Definition t6 := stp s6 (SetSub 1 12 7).
  Lemma q0 : R t0.
  Proof. apply (reach_step _ _ _ _ _ _ s0 (SetSub 1 12 7)); [exact r0| |runs]. cbn [legal]. isl. Qed.
  Lemma q6 : R t6.
  Proof. apply (reach_step _ _ _ _ _ _ s6 (SetSub 1 12 7)); [exact r6| |runs]. cbn [legal]. isl. Qed.
  Definition LO := 1048576. Definition HI := 1114112.
  Lemma h0 : home t0 1 LO HI 7.
  Proof. constructor; try (vm_compute; reflexivity); [isl|apply Z.leb_le; vm_compute; reflexivity]. Qed.
  Lemma h6 : home t6 1 LO HI 7.
  Proof. constructor; try (vm_compute; reflexivity); [isl|apply Z.leb_le; vm_compute; reflexivity]. Qed.
  Definition none : bitmaps := fun _ _ => false.
  Definition A := 1048576 + 64. Definition B := 1048576 + 128. Definition C := 1048576 + 4096.
  (* two chunks made, one grown and moved after the forest changed, the other freed, a null one asked *)
  Definition l : list (st * pop) :=
    [(t0, PAlloc A); (t0, PAlloc B); (t6, PRealloc A 500 C); (t6, PAlloc 0); (t6, PFree B); (t6, PRealloc 0 40 A)].
  Lemma ck p : ((LO <=? p) && (p <? HI) && ((p - LO) mod 16 =? 0) && negb (p =? 0)) = true -> chunk LO HI p.
  Proof. intro H. repeat (apply andb_prop in H; destruct H as [H ?]). unfold chunk. lia. Qed.
  Lemma hl : hist R LO HI 7 [] l [A; C].
  Proof.
    unfold l. eapply hist_cons; [exact q0|exact h0|apply do_alloc; split; [apply ck; reflexivity|intros []]|].
    eapply hist_cons; [exact q0|exact h0|apply do_alloc; split; [apply ck; reflexivity|intros [X|[]]; discriminate X]|].
    eapply hist_cons; [exact q6|exact h6|apply do_realloc; [right; right; left; reflexivity|discriminate|split; [apply ck; reflexivity|]]|].
    { vm_compute. intros [X|[]]; discriminate X. }
    eapply hist_cons; [exact q6|exact h6|apply do_full|].
    eapply hist_cons; [exact q6|exact h6|apply do_free; right; vm_compute; left; reflexivity|].
    eapply hist_cons; [exact q6|exact h6|apply do_realloc; [left; reflexivity|discriminate|split; [apply ck; reflexivity|]]|].
    { vm_compute. intros [X|[]]; discriminate X. }
    replace (A :: drop 0 (drop B (C :: drop A [B; A]))) with [A; C] by reflexivity. apply hist_nil.
  Qed.
  Example ex_exact : exists m', prun NB true none l = Ok m' /\ marks LO 7 m' [A; C] /\ m' 7%nat 4 = true /\ m' 7%nat 8 = false.
  Proof.
    destruct (pheap_exact_partial NB BIG true al (-1) (-1) LO HI 7 ltac:(discriminate) l none [] [A; C] hl) as (m' & E & M & _ & _).
    { intros p []. } { intro i. unfold none. split; [discriminate|intros []]. }
    exists m'. split; [exact E|]. split; [exact M|]. split; [apply (M 4); left; reflexivity|].
    destruct (m' 7%nat 8) eqn:X; [|reflexivity]. apply (M 8) in X. vm_compute in X. destruct X as [X|[X|[]]]; discriminate X.
  Qed.
  Example ex_call : does LO HI [B; A] (PRealloc A 500 C) [C; B] /\
    exists m', pstep NB true t6 (fun p i => Nat.eqb p 7 && ((i =? 4) || (i =? 8))) (PRealloc A 500 C) = Ok (m', RRealloc A 508, C) /\
      m' 7%nat 4 = false /\ m' 7%nat 256 = true.
  Proof.
    split.
    - apply (do_realloc LO HI [B; A] A 500 C); [right; right; left; reflexivity|discriminate|split; [apply ck; reflexivity|]].
      vm_compute. intros [X|[]]; discriminate X.
    - eexists. split; [|split]; [unfold pstep; cbn [Z.eqb]|..].
      { rewrite (clear_ok NB BIG true al (-1) (-1) LO HI 7 ltac:(discriminate) t6 1 _ A q6 h6) by (apply ck; reflexivity).
        change (A =? 0) with false. cbn [bind]. change (500 =? 0) with false. cbv iota. change (C =? 0) with false. cbv iota.
        rewrite (set_ok NB BIG true al (-1) (-1) LO HI 7 ltac:(discriminate) t6 1 _ C q6 h6) by (apply ck; reflexivity).
        cbn [bind]. reflexivity. }
      { vm_compute. reflexivity. } { vm_compute. reflexivity. }
  Qed.
  Example ex_sbrk : emulated_sbrk LO HI 0 4096 = (LO + 4096, Some LO) /\ emulated_sbrk LO HI (LO + 4096) 65536 = (LO + 4096, None) /\
    emulated_sbrk LO HI (LO + 4096) (- 4096) = (LO, Some (LO + 4096)) /\ emulated_sbrk LO HI (LO + 4096) (- 2 ^ 63) = (LO + 4096, None) /\
    sbrks LO HI LO [4096; 8192; -100; 2 ^ 62] = LO + 12188.
  Proof. repeat split. Qed.
  Example ex_room : bit_word ((1114111 - 1048576) / PALIGN) = 504 /\ bitmap_bytes 65536 = 520.
  Proof. repeat split. Qed.

  (* ---------------------------------------------------------- what fails *)
  (* A reallocation that fails leaves the old chunk live, as malloc's rules have it, but unmarked. *)
  Theorem pheap_realloc_refuted : exists s n m p z m', R s /\ home s n LO HI 7 /\ chunk LO HI p /\ marks LO 7 m [p] /\
    pstep NB true s m (PRealloc p z 0) = Ok (m', RRealloc p (z + 8), 0) /\ ~ marks LO 7 m' [p].
  Proof.
    exists t6, 1%nat, (fun q i => Nat.eqb q 7 && (i =? 4)), A, 500.
    eexists. split; [exact q6|]. split; [exact h6|]. split; [apply ck; reflexivity|]. split.
    - intro i. change (Nat.eqb 7 7) with true. cbn [andb In]. unfold A, LO. lia.
    - split.
      + unfold pstep. change (A =? 0) with false. cbv iota.
        rewrite (clear_ok NB BIG true al (-1) (-1) LO HI 7 ltac:(discriminate) t6 1 _ A q6 h6) by (apply ck; reflexivity). reflexivity.
      + intro M. specialize (M 4). destruct M as [_ M]. discriminate (M (or_introl eq_refl)).
  Qed.
  (* A posix_memalign that succeeds makes a chunk that is not marked; one that fails marks whatever
     the caller's variable held, here a live chunk's neighbour. *)
  Theorem pheap_posix_refuted :
    (exists s n m p m', R s /\ home s n LO HI 7 /\ fresh LO HI [] p /\ marks LO 7 m [] /\
      pstep NB true s m (PPosix 0 p) = Ok (m', RAlloc, 0) /\ ~ marks LO 7 m' [p]) /\
    (exists s n m p m', R s /\ home s n LO HI 7 /\ marks LO 7 m [] /\
      pstep NB true s m (PPosix 12 p) = Ok (m', RAlloc, 12) /\ ~ marks LO 7 m' []).
  Proof.
    assert (N : marks LO 7 none []) by (intro i; unfold none; split; [discriminate|intros []]).
    split; exists t6, 1%nat, none, A; eexists; (split; [exact q6|]; split; [exact h6|]).
    - split; [split; [apply ck; reflexivity|intros []]|]. split; [exact N|]. split; [reflexivity|].
      intro M. specialize (M 4). destruct M as [_ M]. discriminate (M (or_introl eq_refl)).
    - split; [exact N|]. split.
      + unfold pstep. change (12 =? 0) with false. cbv iota.
        rewrite (set_ok NB BIG true al (-1) (-1) LO HI 7 ltac:(discriminate) t6 1 _ A q6 h6) by (apply ck; reflexivity). reflexivity.
      + intro M. specialize (M 4). destruct M as [M _]. exact (M eq_refl).
  Qed.
  (* Freeing null is a failed assertion, or without assertions a read through null. *)
  Theorem pheap_free_null_refuted : exists s n, R s /\ home s n LO HI 7 /\
    pstep NB true s none (PFree 0) = Abort /\ pstep NB false s none (PFree 0) = UB.
  Proof. exists t6, 1%nat. split; [exact q6|]. split; [exact h6|]. split; vm_compute; reflexivity. Qed.
  (* A reallocation to a huge size asks the wrapped allocator for a tiny one, which it can grant:
     the caller gets a chunk of 4 bytes for nearly 2^64. *)
  Theorem pheap_realloc_size_refuted : exists s n p z r m', R s /\ home s n LO HI 7 /\ 0 < z < W64 /\ chunk LO HI r /\
    pstep NB true s (fun q i => Nat.eqb q 7 && (i =? 4)) (PRealloc p z r) = Ok (m', RRealloc p 4, r).
  Proof.
    exists t6, 1%nat, A, (W64 - 4), A. eexists. split; [exact q6|]. split; [exact h6|]. split; [vm_compute; split; reflexivity|].
    split; [apply ck; reflexivity|]. unfold pstep. change (A =? 0) with false. cbv iota.
    rewrite (clear_ok NB BIG true al (-1) (-1) LO HI 7 ltac:(discriminate) t6 1 _ A q6 h6) by (apply ck; reflexivity). cbn [bind].
    change (W64 - 4 =? 0) with false. cbv iota.
    rewrite (set_ok NB BIG true al (-1) (-1) LO HI 7 ltac:(discriminate) t6 1 _ A q6 h6) by (apply ck; reflexivity). reflexivity.
  Qed.
  (* The usable size reported for a chunk can be less than was asked for. *)
  Theorem pheap_usable_refuted : exists asked real_, 0 < asked <= real_ /\ usable_size real_ < asked.
  Proof. exists 24, 24. split; [lia|reflexivity]. Qed.
End PhEx.

Print Assumptions pheap_sbrk_exact.
Print Assumptions pheap_sbrk_within.
Print Assumptions pheap_bitmap_room.
Print Assumptions pheap_call_partial.
Print Assumptions pheap_exact_partial.
Print Assumptions PhEx.pheap_realloc_refuted.
Print Assumptions PhEx.pheap_posix_refuted.
Print Assumptions PhEx.pheap_free_null_refuted.
Print Assumptions PhEx.pheap_realloc_size_refuted.
Print Assumptions PhEx.pheap_usable_refuted.
