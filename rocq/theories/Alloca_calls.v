(* Stack allocation: the calls succeed and keep the invariant. *)
From Verif Require Import Base Big_model Big_field Insert_model Insert_proof Heap_model Heap_proof Heap_calls
  Alloca_model Alloca_spec Alloca_proof Alloca_cover.

Lemma span_le a b : a <= b -> rup a SPAN <= rup b SPAN.
Proof. intro H. unfold rup, SPAN. apply Z.mul_le_mono_nonneg_r; [lia|]. apply Z.div_le_mono; lia. Qed.

Lemma asrt_true_or d b : (d = true -> b = true) -> asrt d b = Ok tt.
Proof. destruct d; intro H; unfold asrt; [rewrite H by reflexivity|]; reflexivity. Qed.

Section P.
Variables bot top : Z.
Hypothesis Har : area bot top.
Variable dbg : bool.
Notation chain := (chain bot top).
Notation Core := (Core bot top).

(* ---- indexing a new chunk ---- *)
Lemma insert_ok r t m C c : iok (r_begin r) (r_end r) C (r_info r) -> within (r_begin r) (r_end r) C -> cok c ->
  r_begin r = k_ptr c -> k_hi c <= r_end r -> 2 ^ 20 <= r_begin r -> r_end r <= 2 ^ 47 -> m (k_ptr c - 8) = k_hi c - k_ptr c ->
  exists f, insert dbg (r :: t) m (k_ptr c) (k_req c) =
    Ok (mkR (r_begin r) (r_end r) f (if largeb c then (k_ptr c, k_ptr c + k_req c) :: r_prom r else r_prom r) :: t, k_hi c - 8) /\
    iok (r_begin r) (r_end r) (c :: C) f.
Proof.
  intros O W (K1 & K2 & K3 & K4 & K5 & K6) Eb He Lb Le Em. unfold insert.
  rewrite pick_head by lia. rewrite pick_head by lia. cbv beta iota zeta. set (f := r_info r) in *.
  assert (Hb := o_base _ _ _ _ O). assert (Hn := o_n _ _ _ _ O). destruct (rdown_span (r_begin r)) as [D1 D2]. destruct (rup_span (r_end r)) as [U1 U2].
  rewrite asrt_true by (apply Z.eqb_eq; symmetry; exact Hb). cbn [bind].
  assert (T : i_nwords f <? (rup (k_ptr c + k_req c) SPAN - i_base f) / SPAN = false).
  { apply Z.ltb_ge. assert (L : rup (k_ptr c + k_req c) SPAN <= rup (r_end r) SPAN) by (apply span_le; lia).
    clear - L Hn. unfold SPAN in *. apply Z.div_le_upper_bound; lia. }
  rewrite T. rewrite asrt_true by (apply Z.eqb_eq; exact Hb). cbn [bind].
  rewrite asrt_true by (apply Z.leb_le; clear - Eb U1 Hn He K4 K6; lia). cbn [bind].
  unfold usable. rewrite Em. unfold caller_usable, INSERT_SIZE. rewrite (w64_small (k_hi c - k_ptr c - 8)) by lia.
  rewrite asrt_true by (apply orb_true_intro; right; apply Z.leb_le; lia). cbn [bind].
  set (i := (k_ptr c - i_base f) / 16). cbn [i_base i_nwords].
  assert (Ei : i_base f + 16 * i = k_ptr c) by (apply idx_exact; [exact K3|rewrite Hb; exact D2]).
  assert (Hi : 0 <= i < i_nwords f * NBITS) by (rewrite <- Hb in D1, D2; clear - Ei Hn U1 D1 He K4 K6 Eb; unfold SPAN, NBITS in *; lia).
  unfold set_bit. cbn [i_nwords i_base i_bits i_biggest i_unprom]. fold i.
  replace ((0 <=? i) && (i <? i_nwords f * NBITS)) with true by (symmetry; apply andb_true_intro; split; [apply Z.leb_le|apply Z.ltb_lt]; apply Hi).
  cbn [bind app]. unfold insert_at. replace (w64 (k_ptr c + (k_hi c - k_ptr c - 8))) with (k_hi c - 8) by (rewrite w64_small; lia).
  unfold largeb, PROMOTE. destruct (Z.ltb_spec 131072 (k_hi c - k_ptr c)) as [Hl|Hl]; (eexists; split; [reflexivity|]);
    (constructor; cbn [i_base i_nwords i_bits i_biggest i_unprom]; [exact Hb|exact Hn| | |]).
  1,4: intros k Hk; destruct (Z.eqb_spec k i) as [->|Ne];
       [split; [intros _; exists c; split; [left; reflexivity|symmetry; exact Ei]|reflexivity]
       |rewrite (o_bits _ _ _ _ O k Hk); split; intros (d & I & E);
          [exists d; split; [right; exact I|exact E]|destruct I as [<-|I]; [exfalso; lia|exists d; split; [exact I|exact E]]]].
  - exact (o_un _ _ _ _ O).
  - intros d [<-|I] S1; [unfold small in S1; lia|]. exact (o_small _ _ _ _ O d I S1).
  - assert (U := o_un _ _ _ _ O). lia.
  - intros d [<-|I] S1; [lia|]. assert (U := o_small _ _ _ _ O d I S1). lia.
Qed.

Lemma chunks_within g r : rok g r -> chain [g] \/ stacked (g_sp g) (g_chunks g) (g_ctr g) /\ g_ctr g + 8 <= g_bp g -> within (r_begin r) (r_end r) (g_chunks g).
Proof.
  intros R S1. assert (S2 : stacked (g_sp g) (g_chunks g) (g_ctr g) /\ g_ctr g + 8 <= g_bp g) by (destruct S1 as [(?&?&?&?&?&?&?)|S1]; [split; assumption|exact S1]).
  destruct S2 as [S2 S3]. destruct (o_begin _ _ R) as (c & t & E1 & E2). intros d I. destruct (stacked_in _ _ _ _ S2 I) as (A & B & (?&?&?&?&?&?)).
  split; [|assumption]. rewrite (o_end _ _ R), E2. split; [|lia]. rewrite E1 in *. destruct I as [->|I]; [lia|].
  destruct S2 as (_ & (?&?&?&?&?&?) & S2). destruct (stacked_in _ _ _ _ S2 I) as (A' & _ & _). lia.
Qed.

Lemma rok_begin g r : rok g r -> stacked (g_sp g) (g_chunks g) (g_ctr g) -> g_sp g <= r_begin r.
Proof.
  intros R K7. destruct (o_begin _ _ R) as (c & t & E1 & E2). rewrite E1 in K7. destruct K7 as (A & (?&?&?&?&?&?) & _). lia.
Qed.

(* ---- queries ---- *)
Lemma prom_in C x : existsb (fun p => (fst p <=? x) && (x <? snd p)) (proms C) = true <->
  exists c, In c C /\ largeb c = true /\ k_ptr c <= x < k_ptr c + k_req c.
Proof.
  rewrite existsb_exists. unfold proms. split.
  - intros (p & I & E). apply in_map_iff in I. destruct I as (c & <- & I). apply filter_In in I. cbn [fst snd] in E. exists c. split; [apply I|]. split; [apply I|]. lia.
  - intros (c & I & L & B). exists (k_ptr c, k_ptr c + k_req c). split; [apply in_map_iff; exists c; split; [reflexivity|apply filter_In; split; assumption]|].
    cbn [fst snd]. lia.
Qed.

Lemma query_chunk s G g c x : Core s G -> In g G -> In c (g_chunks g) -> small c -> k_ptr c <= x < k_hi c ->
  (dbg = true -> x mod 8 = 0 -> s_mem s (x - 8) <= LIMIT) ->
  query dbg s x = Ok (Chunk (k_ptr c) (k_hi c - k_ptr c - 16) (k_hi c - 8)).
Proof.
  intros V I J Sm Hx Hd. assert (Vc := v_chain _ _ _ _ V). destruct (chain_in _ _ _ _ Vc I) as (K1 & K2 & K3 & K4 & K5 & K6 & K7).
  destruct (stacked_in _ _ _ _ K7 J) as (J1 & J2 & (C1&C2&C3&C4&C5&C6)).
  destruct (pick_frame _ _ _ _ (v_mt _ _ _ _ V) Vc g I) as (r & R & P). { intro E. rewrite E in J. destruct J. }
  assert (W := chunks_within g r R (or_intror (conj K7 K5))). destruct (W c J) as [Wc _]. assert (Ee := o_end _ _ R).
  destruct (P x) as (h & t & Ep). { lia. }
  unfold query. rewrite Ep, (o_prom _ _ R).
  destruct (existsb _ (proms _)) eqn:Ex.
  { exfalso. apply prom_in in Ex. destruct Ex as (d & I2 & L & B). destruct (stacked_in _ _ _ _ K7 I2) as (_ & _ & (?&?&?&?&?&?)).
    destruct (stacked_apart _ _ _ _ _ K7 J I2) as [<-|[A|A]]; [|lia|lia]. unfold largeb, small in *. lia. }
  rewrite asrt_true_or. 2: { intro D. destruct (Z.eqb_spec (x mod 8) 0) as [E8|]; [|reflexivity]. cbn [negb orb]. apply Z.leb_le. apply Hd; assumption. }
  cbn [bind]. assert (O := o_info _ _ R). assert (Hb := o_base _ _ _ _ O). assert (Hn := o_n _ _ _ _ O). destruct (rdown_span (r_begin r)) as [D1 D2]. destruct (rup_span (r_end r)) as [U1 U2].
  destruct (idx_in _ _ _ _ c O W J) as [Q1 Q2]. assert (Un := o_un _ _ _ _ O). assert (Us := o_small _ _ _ _ O c J Sm). destruct Har as (R1 & R2 & R3).
  assert (HB := rok_begin g r R K7).
  rewrite (via_some dbg (r_info r) x _ (k_ptr c)).
  - cbn [bind]. unfold usable. destruct (v_words _ _ _ _ V g I) as [_ Wd]. destruct (Wd c J) as [-> _].
    unfold insert_for_chunk, insert_at, caller_usable, INSERT_SIZE. rewrite (w64_small (k_hi c - k_ptr c - 8)) by lia.
    assert (16 <= k_hi c - k_ptr c) by (clear - C3 C4 C5 C6; lia). rewrite w64_small by lia. rewrite w64_small by lia. f_equal. f_equal; lia.
  - rewrite Hb. exact D2.
  - rewrite Hb. lia.
  - exact C3.
  - lia.
  - lia.
  - lia.
  - rewrite Hn, Hb in *. unfold SPAN in *. lia.
  - rewrite Hb. lia.
  - lia.
  - rewrite Hb. lia.
  - lia.
  - apply (proj2 (o_bits _ _ _ _ O _ Q1)). exists c. split; [exact J|symmetry; exact Q2].
  - intros k Hk. destruct (i_bits (r_info r) k) eqn:B; [|reflexivity]. exfalso.
    apply (o_bits _ _ _ _ O) in B. 2: { rewrite Hb in *. rewrite <- Hb in Hn at 1. unfold SPAN, NBITS in *. lia. }
    destruct B as (d & I2 & E). destruct (stacked_in _ _ _ _ K7 I2) as (_ & _ & (?&?&?&?&?&?)).
    destruct (stacked_apart _ _ _ _ _ K7 J I2) as [<-|[A|A]]; lia.
Qed.
End P.
