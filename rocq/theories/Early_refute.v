(* C71: concrete early lookups, and what is false of them. *)
From Verif Require Import Base Big_model Big_spec Big_inv Big_create Big_hist Big_lookup Big_props Map_model Map_spec Big_field Map_seq Map_state Map_hist Map_props Map_ex Brk_model Brk_spec Brk_props Brk_refute Early_model Early_props.
Import Ex.

Module EaEx.
(* the break is notified at 0x20a000, a page boundary; the C library then moves it three pages
   up, to 0x20d000, which is not notified *)
Definition ea d := got (b0 d) (notify_brk BIG d (b2' d) 2138112 80).
Definition ea' d := mkB (bm (ea d)) 2150400 (b_map (ea d)) (b_brk (ea d)) (b_init (ea d)) (b_last (ea d)).
(* likewise from a break in the middle of a page, 0x2191c0: in the records b3 *)
Definition em' d := mkB (bm (b3 d)) 2211840 (b_map (b3 d)) (b_brk (b3 d)) (b_init (b3 d)) (b_last (b3 d)).

Lemma hea dbg : exists M, breach dbg (ea dbg) M (Some 2138112).
Proof.
  destruct (hb2 dbg) as (M & H). destruct (hcur dbg _ _ _ 2117633 H) as (M' & H'). eexists.
  eapply (hmove dbg (b2' dbg) _ _ 2138112 80); [exact H'|apply got_ok|]; destruct dbg; vm_compute; reflexivity.
Qed.
Lemma hea' dbg : exists M, breach dbg (ea' dbg) M (Some 2138112).
Proof. destruct (hea dbg) as (M & H). destruct (hcur dbg _ _ _ 2150400 H) as (M' & H'). exists M'. exact H'. Qed.
Lemma hem' dbg : exists M, breach dbg (em' dbg) M (Some 2200000).
Proof. destruct (hb3 dbg) as (M & H). destruct (hcur dbg _ _ _ 2211840 H) as (M' & H'). exists M'. exact H'. Qed.

Definition ans (r : res (bst * nat)) : res (nat * (Z * Z)) := match r with Ok (B, n) => Ok (n, (b_begin (bigs (fo (bm B)) n), b_end (bigs (fo (bm B)) n))) | UB => UB | Abort => Abort | Fuel => Fuel end.

Example early_found_ex : forall dbg, let B := ea' dbg in
  (exists M v w, mreach dbg (bm B) M /\ b_init B = true /\ heap (bm B) (b_map B) (b_brk B) v w /\ may_move BIG (bm B) (b_map B) (b_brk B) v w (b_cur B) 2150400 /\
     live (fo (bm B)) 2 /\ a_end w = a_end v /\ a_end v = 2138112) /\
  ans (early_find NB BIG dbg B false 2150400 5 2138200 BRK false) = Ok (b_brk B, (2117632, 2150400)).
Proof.
  intros dbg B. split; [|destruct dbg; vm_compute; reflexivity].
  destruct (hea' dbg) as (M & H). destruct (breach_inv _ _ _ _ _ _ _ _ _ _ H) as (I1 & (M0 & HM & _) & v & w & HP & E). destruct (E _ eq_refl) as [E1 E2].
  exists M0, v, w. split; [exact HM|]. split; [exact I1|]. split; [exact HP|]. split; [|split; [|split; [rewrite E1, E2; reflexivity|exact E2]]].
  - destruct (view_inv _ _ _ (hp_map _ _ _ _ _ HP)) as [_ ->]. destruct (view_inv _ _ _ (hp_brk _ _ _ _ _ HP)) as [_ ->].
    apply (chk_move_ok dbg _ _ _ _ _ _ HM). destruct dbg; vm_compute; reflexivity.
  - split; [discriminate|]. destruct dbg; vm_compute; reflexivity.
Qed.
Example early_exact_ex : forall dbg, let s := fo (bm (ea' dbg)) in
  reach NB BIG dbg al (-1) (-1) s /\ live s 2 /\ heap_before s 2138200 /\ ~ heap_before s 2142208 /\
  (forall m, live s m -> ~ covers s m 2138200) /\ (forall m, live s m -> ~ covers s m 2142208).
Proof.
  intros dbg s. destruct (hea' dbg) as (M & H). destruct (breach_inv _ _ _ _ _ _ _ _ _ _ H) as (_ & (M0 & HM & _) & _).
  assert (HR := mreach_R _ _ _ _ _ _ _ _ _ HM). destruct (reach_good _ _ _ _ _ _ _ HR) as [(K & rk & HI) _].
  assert (P : pidx s 522 = 0%nat /\ pidx s 523 = 0%nat) by (destruct dbg; vm_compute; auto). destruct P as [P1 P2].
  split; [exact HR|]. split; [split; [discriminate|destruct dbg; vm_compute; reflexivity]|]. split; [|split; [|split]].
  - exists (b_brk (ea' dbg)). split; [split; destruct dbg; vm_compute; [discriminate..|reflexivity|reflexivity]|]. split; [destruct dbg; vm_compute; reflexivity|].
    destruct dbg; vm_compute; split; congruence.
  - intros (m & Lm & _ & C). apply (pix_zero_none _ _ _ _ HI 2142207 P1 m Lm). exact C.
  - exact (pix_zero_none _ _ _ _ HI 2138200 P1).
  - exact (pix_zero_none _ _ _ _ HI 2142208 P2).
Qed.
Example early_plain_ex : forall dbg, exists m, live (fo (bm (ea' dbg))) m /\ covers (fo (bm (ea' dbg))) m 2130000.
Proof. intro dbg. exists (b_brk (ea' dbg)). destruct dbg; vm_compute; repeat split; congruence. Qed.

(* The heap has grown by three pages.  An early lookup of an address in the second or third of
   them finds nothing, although the search is meant to go back 128 pages; a query of the same
   address (which is answered after bringing the records up to date) does find the heap. *)
Theorem early_second_page_refuted : forall dbg, exists B M k addr, breach dbg B M (Some 2138112) /\
  addr < k /\ 0 < addr - 2138112 < MAX_BRK_PAGES * PAGE /\ b_cur B = k /\
  early_find NB BIG dbg B false k 5 addr BRK false = Ok (B, 0%nat) /\
  match notify_unindexed BIG dbg B k addr with Ok (B', _) => find_from_root NB (fo (bm B')) addr BRK false = Ok (b_brk B) | _ => False end.
Proof.
  intro dbg. destruct (hea' dbg) as (M & H). exists (ea' dbg), M, 2150400, 2142208. split; [exact H|].
  split; [reflexivity|]. split; [split; reflexivity|]. split; [destruct dbg; vm_compute; reflexivity|]. split; [|destruct dbg; vm_compute; reflexivity].
  destruct (early_exact_ex dbg) as (HR & L2 & _ & NB_ & _ & Hno).
  apply (proj2 (early_exact NB BIG dbg al (-1) (-1) (ea' dbg) 2150400 5 2142208 BRK false HR ltac:(split; [discriminate|reflexivity]) L2 Hno) NB_).
Qed.

(* When the recorded heap ends within a page, not even the next page is found: only the last
   byte of the page before is tried, and that is beyond the recorded heap. *)
Theorem early_mid_page_refuted : forall dbg, exists B M k addr, breach dbg B M (Some 2200000) /\
  addr < k /\ addr = RUP 2200000 /\ b_cur B = k /\
  early_find NB BIG dbg B false k 5 addr BRK false = Ok (B, 0%nat) /\
  match notify_unindexed BIG dbg B k addr with Ok (B', _) => find_from_root NB (fo (bm B')) addr BRK false = Ok (b_brk B) | _ => False end.
Proof.
  intro dbg. destruct (hem' dbg) as (M & H). exists (em' dbg), M, 2211840, 2203648. split; [exact H|].
  split; [reflexivity|]. split; [reflexivity|]. split; [destruct dbg; vm_compute; reflexivity|]. split; [|destruct dbg; vm_compute; reflexivity].
  destruct (breach_inv _ _ _ _ _ _ _ _ _ _ H) as (_ & (M0 & HM & _) & _). assert (HR := mreach_R _ _ _ _ _ _ _ _ _ HM). destruct (reach_good _ _ _ _ _ _ _ HR) as [(K & rk & HI) _].
  assert (P : pidx (fo (bm (em' dbg))) 538 = 0%nat) by (destruct dbg; vm_compute; reflexivity).
  refine (proj2 (early_exact NB BIG dbg al (-1) (-1) (em' dbg) 2211840 5 2203648 BRK false HR _ _ _) _).
  - split; [discriminate|reflexivity].
  - split; [discriminate|destruct dbg; vm_compute; reflexivity].
  - exact (pix_zero_none _ _ _ _ HI 2203648 P).
  - intros (m & Lm & Am & C). destruct (find_from_root_correct _ _ _ _ HI 2203647 BRK false) as (n & F & D).
    assert (n = 0%nat) by (assert (F' : find_from_root NB (fo (bm (em' dbg))) 2203647 BRK false = Ok 0%nat) by (destruct dbg; vm_compute; reflexivity); congruence).
    subst n. destruct D as [[_ D]|[[D _] _]]; [exact (D m Lm C Am)|exact (D eq_refl)].
Qed.
End EaEx.
Print Assumptions EaEx.early_second_page_refuted.
Print Assumptions EaEx.early_mid_page_refuted.
