(* C13: concrete histories of the program break, and what is false of it. *)
From Verif Require Import Base Big_model Big_spec Big_inv Big_create Big_hist Big_props Map_model Map_spec Big_field Map_seq Map_state Map_hist Map_props Map_ex Brk_model Brk_spec Brk_props.
Import Ex.

(* deciding the hypotheses on a concrete state *)
Definition none_meet (T : mst) (lo hi : Z) : bool := all_live NB (fo T) (off_ (fo T) lo hi).
Definition kids_end (T : mst) (p but : nat) (e : Z) : bool :=
  all_live NB (fo T) (fun c => negb (Nat.eqb (b_parent (bigs (fo T) c)) p) || Nat.eqb c but || (b_end (bigs (fo T) c) <=? e)).
Definition chk_move (T : mst) (n m : nat) (cur k : Z) : bool :=
  let v := bigs (fo T) n in let w := bigs (fo T) m in
  (b_begin w <? k) && kids_end T m 0 k && kids_end T n m (b_begin w) && none_meet T (b_end v) (RUP k)
  && (RUP k - b_begin v <=? BIG) && Nat.ltb (length (used (seqs T (b_priv v)))) MAXLEN
  && ((b_begin w <=? RDOWN (Z.min k (b_end w))) || (RDOWN k =? RDOWN (b_end w))) && (negb (cur <? k) || (b_end w <=? RUP k)).
Lemma kids_end_ok dbg T M p but e : mreach dbg T M -> kids_end T p but e = true ->
  forall c x, view (fo T) c = Some x -> a_parent x = p -> c <> but -> a_end x <= e.
Proof.
  intros HM H c x Hc Pc Nc. assert (MI := proj1 (mreach_inv _ _ _ _ _ _ _ _ _ HM)). apply view_inv in Hc. destruct Hc as [Lc ->].
  assert (X := all_live_ok _ _ _ _ _ _ T _ MI H c Lc). cbn in Pc, X |- *. rewrite Pc, Nat.eqb_refl in X. destruct (Nat.eqb_spec c but); [contradiction|]. cbn in X. lia.
Qed.
Lemma none_meet_ok dbg T M lo hi : mreach dbg T M -> none_meet T lo hi = true -> forall c, live (fo T) c -> ~ meets (fo T) c lo hi.
Proof. intros HM H c Lc. assert (MI := proj1 (mreach_inv _ _ _ _ _ _ _ _ _ HM)). apply (off_ok al). exact (all_live_ok _ _ _ _ _ _ T _ MI H c Lc). Qed.
Lemma chk_move_ok dbg T M n m cur k : mreach dbg T M -> chk_move T n m cur k = true ->
  may_move BIG T n m (attrs_of (bigs (fo T) n)) (attrs_of (bigs (fo T) m)) cur k.
Proof.
  unfold chk_move. cbv zeta. intros HM H. do 7 (apply andb_prop in H; let X := fresh "X" in destruct H as [H X]). constructor; cbn [attrs_of a_begin a_end a_priv].
  - apply Z.ltb_lt, H.
  - intros c x Hc Pc. apply (kids_end_ok dbg T M m 0 k HM X5 c x Hc Pc). apply view_inv in Hc. apply Hc.
  - exact (kids_end_ok dbg T M n m _ HM X4).
  - exact (none_meet_ok dbg T M _ _ HM X3).
  - apply Z.leb_le, X2.
  - intros _. left. apply Nat.ltb_lt, X1.
  - apply Bool.orb_true_iff in X0. destruct X0 as [X0|X0]; [left; apply Z.leb_le, X0|right; apply Z.eqb_eq, X0].
  - intro Y. apply Z.ltb_lt in Y. rewrite Y in X. apply Z.leb_le, X.
Qed.

(* the program break at the end of the file mapping of e1: 0x205000 *)
Definition b0 d := mkB (e1 d) 0 0 0 false 0.
Definition got {A} (d : A) (r : res A) : A := match r with Ok a => a | _ => d end.
Definition good {A} (r : res A) : bool := match r with Ok _ => true | _ => false end.
Lemma got_ok {A} (d : A) r : good r = true -> r = Ok (got d r).
Proof. destruct r; intro H; [reflexivity|discriminate..]. Qed.
Definition b1 d := got (b0 d, 0) (brk_init NB BIG d (b0 d) 2117632).
Definition b2 d := got (b0 d) (notify_brk BIG d (fst (b1 d)) 2117633 77).
(* the C library catches up, and the break moves up by 20 pages and some *)
Definition b2' d := mkB (bm (b2 d)) 2117633 (b_map (b2 d)) (b_brk (b2 d)) (b_init (b2 d)) (b_last (b2 d)).
Definition b3 d := got (b0 d) (notify_brk BIG d (b2' d) 2200000 78).
Definition b3' d := mkB (bm (b3 d)) 2200000 (b_map (b3 d)) (b_brk (b3 d)) (b_init (b3 d)) (b_last (b3 d)).
(* down again *)
Definition b4 d := got (b0 d) (notify_brk BIG d (b3' d) 2120000 79).
(* a raw brk system call nobody notified, then a query of an address in the new part *)
Definition b4' d := mkB (bm (b4 d)) 2120000 (b_map (b4 d)) (b_brk (b4 d)) (b_init (b4 d)) (b_last (b4 d)).
Definition b5 d := got (b0 d, false) (notify_unindexed BIG d (b4' d) 2150001 2150000).
Definition M1b := start_map M1 (mkAttrs 2097152 2117632 0 MMAP 0 2 0) 2117632.

Notation breach dbg := (breach NB BIG dbg al (-1) (-1) obj).

Example brk_start_ex : forall dbg, may_start NB BIG (e1 dbg) 2 (mkAttrs 2097152 2117632 0 MMAP 0 2 0) 2117632.
Proof.
  intro dbg. assert (HM := h1 dbg). constructor.
  - destruct dbg; vm_compute; reflexivity.
  - reflexivity.
  - apply (some_free_ok NB al). destruct dbg; vm_compute; reflexivity.
  - right. split; [reflexivity|]. split; [|split; [vm_compute; discriminate|split; [reflexivity|left; apply Nat.ltb_lt; destruct dbg; vm_compute; reflexivity]]].
    apply (none_meet_ok dbg _ _ _ _ HM). destruct dbg; vm_compute; reflexivity.
  - intros c x Hc Pc. apply (kids_end_ok dbg _ _ 2 0 2117632 HM) with (c := c); try assumption; [destruct dbg; vm_compute; reflexivity|]. apply view_inv in Hc. apply Hc.
Qed.
(* it also works for a break in the middle of the anonymous pages of e2 *)
Example brk_start_inside_ex : forall dbg, may_start NB BIG (e2 dbg) 2 (mkAttrs 2097152 2125824 0 MMAP 0 2 0) 2121728.
Proof.
  intro dbg. assert (HM := h2 dbg). constructor.
  - destruct dbg; vm_compute; reflexivity.
  - reflexivity.
  - apply (some_free_ok NB al). destruct dbg; vm_compute; reflexivity.
  - left. vm_compute. split; [discriminate|reflexivity].
  - intros c x Hc Pc. apply (kids_end_ok dbg _ _ 2 0 2121728 HM) with (c := c); try assumption; [destruct dbg; vm_compute; reflexivity|]. apply view_inv in Hc. apply Hc.
Qed.
Lemma hb1 dbg : breach dbg (fst (b1 dbg)) M1b None.
Proof.
  apply (bh_start _ _ _ _ _ _ _ (e1 dbg) M1 0 0 2 _ 2117632 _ (snd (b1 dbg)) (h1 dbg) (brk_start_ex dbg)).
  change (mkB (e1 dbg) 0 0 0 false 0) with (b0 dbg). rewrite <- surjective_pairing. apply got_ok. destruct dbg; vm_compute; reflexivity.
Qed.
Lemma hmove dbg B M o k caller B' : breach dbg B M o -> notify_brk BIG dbg B k caller = Ok B' ->
  in_use (bigs (fo (bm B)) (b_map B)) && in_use (bigs (fo (bm B)) (b_brk B)) && negb (Nat.eqb (b_map B) 0) && negb (Nat.eqb (b_brk B) 0)
   && Nat.eqb (b_alloc (bigs (fo (bm B)) (b_map B))) MMAP && Nat.eqb (b_alloc (bigs (fo (bm B)) (b_brk B))) BRK
   && Nat.eqb (b_parent (bigs (fo (bm B)) (b_brk B))) (b_map B) && chk_move (bm B) (b_map B) (b_brk B) (b_cur B) k = true ->
  breach dbg B' (brk_moved M (b_end (bigs (fo (bm B)) (b_map B))) (RUP k)) (Some k).
Proof.
  intros HB E H. destruct (breach_inv _ _ _ _ _ _ _ _ _ _ HB) as (_ & (M0 & HM & _) & _). do 7 (apply andb_prop in H; let X := fresh "X" in destruct H as [H X]).
  apply Nat.eqb_eq in X0, X1, X2. apply Bool.negb_true_iff, Nat.eqb_neq in X3, X4.
  apply (bh_move _ _ _ _ _ _ _ B M o (attrs_of (bigs (fo (bm B)) (b_map B))) (attrs_of (bigs (fo (bm B)) (b_brk B))) k caller B' HB); [|apply (chk_move_ok dbg _ _ _ _ _ _ HM X)|exact E].
  constructor; try assumption; apply live_as; split; assumption.
Qed.
Lemma hb2 dbg : exists M, breach dbg (b2 dbg) M (Some 2117633).
Proof. exists (brk_moved M1b 2121728 (RUP 2117633)). replace 2121728 with (b_end (bigs (fo (bm (fst (b1 dbg)))) (b_map (fst (b1 dbg))))) by (destruct dbg; vm_compute; reflexivity). apply (hmove dbg (fst (b1 dbg)) M1b None 2117633 77); [apply hb1|apply got_ok|]; destruct dbg; vm_compute; reflexivity. Qed.
Lemma hcur dbg B M o cur : breach dbg B M o -> exists M', breach dbg (mkB (bm B) cur (b_map B) (b_brk B) (b_init B) (b_last B)) M' o.
Proof.
  intro H. destruct (breach_inv _ _ _ _ _ _ _ _ _ _ H) as (_ & (M0 & X & _) & _). exists M0.
  apply (bh_else _ _ _ _ _ _ _ B M o (bm B) M0 cur H X); reflexivity.
Qed.
Lemma hb3 dbg : exists M, breach dbg (b3 dbg) M (Some 2200000).
Proof.
  destruct (hb2 dbg) as (M & H). destruct (hcur dbg _ _ _ 2117633 H) as (M' & H'). eexists.
  eapply (hmove dbg (b2' dbg) _ _ 2200000 78); [exact H'|apply got_ok|]; destruct dbg; vm_compute; reflexivity.
Qed.
Lemma hb4 dbg : exists M, breach dbg (b4 dbg) M (Some 2120000).
Proof.
  destruct (hb3 dbg) as (M & H). destruct (hcur dbg _ _ _ 2200000 H) as (M' & H'). eexists.
  eapply (hmove dbg (b3' dbg) _ _ 2120000 79); [exact H'|apply got_ok|]; destruct dbg; vm_compute; reflexivity.
Qed.
(* a history with moves in both directions, and what is then recorded *)
Example brk_tracks_ex : forall dbg, (exists M, breach dbg (b4 dbg) M (Some 2120000)) /\
  get_info (b4 dbg) = (2117632, 2368, 79) /\ snd (b5 dbg) = true /\ get_info (fst (b5 dbg)) = (2117632, 32369, 79) /\
  find_deepest NB (fo (bm (b4 dbg))) 2119999 = Ok (b_brk (b4 dbg)) /\ find_deepest NB (fo (bm (b4 dbg))) 2120000 = Ok (b_map (b4 dbg)) /\
  find_deepest NB (fo (bm (b3 dbg))) 2199999 = Ok (b_brk (b3 dbg)).
Proof. intro dbg. split; [apply hb4|]. destruct dbg; vm_compute; auto 10. Qed.

Example brk_touch_ex : forall dbg, let B := b4' dbg in (exists M, breach dbg B M (Some 2120000)) /\
  may_move BIG (bm B) (b_map B) (b_brk B) (attrs_of (bigs (fo (bm B)) (b_map B))) (attrs_of (bigs (fo (bm B)) (b_brk B))) 2150001 2150001.
Proof.
  intros dbg B. destruct (hb4 dbg) as (M & H). destruct (hcur dbg _ _ _ 2120000 H) as (M' & H'). split; [exists M'; exact H'|].
  destruct (breach_inv _ _ _ _ _ _ _ _ _ _ H') as (_ & (M0 & HM & _) & _). apply (chk_move_ok dbg _ M0); [exact HM|]. destruct dbg; vm_compute; reflexivity.
Qed.

(* ---- what is false ---- *)
(* Before the first notified move, the segment is recorded up to the end of its mapping,
   beyond the break. *)
Theorem brk_start_refuted : forall dbg, exists B M k', breach dbg B M None /\
  brk_init NB BIG dbg (b0 dbg) 2117632 = Ok (B, k') /\ snd (fst (get_info B)) > k' - fst (fst (get_info B)).
Proof.
  intro dbg. exists (fst (b1 dbg)), M1b, (snd (b1 dbg)). split; [apply hb1|]. split; [rewrite <- surjective_pairing; apply got_ok|]; destruct dbg; vm_compute; reflexivity.
Qed.

(* Linux starts the break anywhere in a page.  If the break starts in the middle of a page of a
   mapping then notifying the system call that merely asks for the break, which every C library
   makes first, stops a debug build and leaves an empty record in the others.  *)
Definition c1 d := got (b0 d, 0) (brk_init NB BIG d (b0 d) 2110000).
Theorem brk_unchanged_refuted : exists M k,
  mreach true (e1 true) M /\ mreach false (e1 false) M /\
  may_start NB BIG (e1 true) 2 (mkAttrs 2097152 2117632 0 MMAP 0 2 0) k /\
  brk_init NB BIG true (b0 true) k = Ok (fst (c1 true), k) /\ notify_brk BIG true (fst (c1 true)) k 0 = Abort /\
  brk_init NB BIG false (b0 false) k = Ok (fst (c1 false), k) /\
  exists B, notify_brk BIG false (fst (c1 false)) k 0 = Ok B /\ b_begin (bigs (fo (bm B)) (b_brk B)) = b_end (bigs (fo (bm B)) (b_brk B)).
Proof.
  exists M1, 2110000. split; [apply h1|]. split; [apply h1|]. split; [|split; [|split; [|split; [|]]]].
  - assert (HM := h1 true). constructor; [vm_compute; reflexivity|reflexivity|apply (some_free_ok NB al); vm_compute; reflexivity|left; vm_compute; split; [discriminate|reflexivity]|].
    intros c x Hc Pc. apply (kids_end_ok true _ _ 2 0 2110000 HM) with (c := c); try assumption; [vm_compute; reflexivity|]. apply view_inv in Hc. apply Hc.
  - replace 2110000 with (snd (c1 true)) at 2 by (vm_compute; reflexivity). rewrite <- surjective_pairing. apply got_ok. vm_compute. reflexivity.
  - vm_compute. reflexivity.
  - replace 2110000 with (snd (c1 false)) at 2 by (vm_compute; reflexivity). rewrite <- surjective_pairing. apply got_ok. vm_compute. reflexivity.
  - exists (got (b0 false) (notify_brk BIG false (fst (c1 false)) 2110000 0)). split; [apply got_ok|]; vm_compute; reflexivity.
Qed.

(* With such a start, a release build that then grows the heap past the page indexes the whole
   of the first page as heap: addresses below the segment are reported to be in it. *)
Definition c3 := got (b0 false) (notify_brk BIG false (fst (c1 false)) 2112000 0).
Definition c4 := got (b0 false) (notify_brk BIG false c3 2120000 0).
Theorem brk_mid_page_refuted : exists M a, mreach false (e1 false) M /\ brk_init NB BIG false (b0 false) 2110000 = Ok (c1 false) /\
  notify_brk BIG false (fst (c1 false)) 2112000 0 = Ok c3 /\ notify_brk BIG false c3 2120000 0 = Ok c4 /\
  a < b_begin (bigs (fo (bm c4)) (b_brk c4)) /\ find_deepest NB (fo (bm c4)) a = Ok (b_brk c4).
Proof. exists M1, 2109500. split; [apply h1|]. split; [apply got_ok; vm_compute; reflexivity|]. split; [apply got_ok; vm_compute; reflexivity|]. split; [apply got_ok; vm_compute; reflexivity|]. split; vm_compute; reflexivity. Qed.

(* With ASLR the break starts some way above the program's mappings.  Starting up then stretches
   the last mapping below it over the gap: addresses that are not mapped are reported as mapped. *)
Definition g1 d := got (b0 d, 0) (brk_init NB BIG d (b0 d) 2318336).
Theorem brk_gap_refuted : forall dbg, exists M a k, mreach dbg (e1 dbg) M /\ M a = None /\ M k = None /\ a < k /\
  brk_init NB BIG dbg (b0 dbg) k = Ok (g1 dbg) /\ lookup_top_level NB (fo (bm (fst (g1 dbg)))) a = Ok 2%nat.
Proof.
  intro dbg. exists M1, 2200000, 2318336. split; [apply h1|]. split; [reflexivity|]. split; [reflexivity|]. split; [reflexivity|].
  split; [apply got_ok|]; destruct dbg; vm_compute; reflexivity.
Qed.

Print Assumptions brk_move_exact_partial.
Print Assumptions brk_touch_exact_partial.
Print Assumptions brk_start_partial.
Print Assumptions brk_tracks_partial.
Print Assumptions brk_lookup_partial.
Print Assumptions brk_start_refuted.
Print Assumptions brk_unchanged_refuted.
Print Assumptions brk_mid_page_refuted.
Print Assumptions brk_gap_refuted.
