(* Stack allocation: the bitmap of a frame, as it grows downwards. *)
From Verif Require Import Base Big_model Big_field Insert_model Insert_proof Heap_model Heap_proof Heap_calls Alloca_model Alloca_spec Alloca_proof.

Lemma ffind_some bits n : forall k j, ffind bits k n = Some j -> k <= j < k + Z.of_nat n /\ bits j = true /\ forall i, k <= i < j -> bits i = false.
Proof.
  induction n as [|n IH]; intros k j E; [discriminate|]. cbn [ffind] in E. destruct (bits k) eqn:B.
  - injection E as <-. repeat split; [lia|lia|exact B|]. intros; lia.
  - destruct (IH _ _ E) as (A & C & D). repeat split; [lia|lia|exact C|]. intros i Hi. destruct (Z.eq_dec i k) as [->|]; [exact B|]. apply D. lia.
Qed.
Lemma ffind_none bits n : forall k, ffind bits k n = None -> forall i, k <= i < k + Z.of_nat n -> bits i = false.
Proof.
  induction n as [|n IH]; intros k E i Hi; [lia|]. cbn [ffind] in E. destruct (bits k) eqn:B; [discriminate|].
  destruct (Z.eq_dec i k) as [->|]; [exact B|]. apply (IH _ E). lia.
Qed.
Lemma find_geq_some f k j : find_geq f k = Some j -> k <= j < i_nwords f * NBITS /\ i_bits f j = true /\ forall i, k <= i < j -> i_bits f i = false.
Proof. intro E. unfold find_geq in E. set (n := i_nwords f * NBITS) in *. clearbody n. apply ffind_some in E. destruct E as (A & B & C). split; [|split; assumption]. lia. Qed.
Lemma find_geq_none f k : find_geq f k = None -> forall i, k <= i < i_nwords f * NBITS -> i_bits f i = false.
Proof. intros E i Hi. unfold find_geq in E. set (n := i_nwords f * NBITS) in *. clearbody n. apply (ffind_none _ _ _ E). lia. Qed.

Definition within (b e : Z) (C : list chunk) : Prop := forall c, In c C -> b <= k_ptr c < e /\ k_ptr c mod 16 = 0.

Lemma idx_in b e C f c : iok b e C f -> within b e C -> In c C ->
  0 <= (k_ptr c - i_base f) / 16 < i_nwords f * NBITS /\ i_base f + 16 * ((k_ptr c - i_base f) / 16) = k_ptr c.
Proof.
  intros O W I. destruct (W c I) as [A B]. assert (E1 := o_base _ _ _ _ O). assert (E2 := o_n _ _ _ _ O).
  destruct (rdown_span b) as [D1 D2]. destruct (rup_span e) as [U1 U2]. rewrite <- E1 in *.
  split; [|apply idx_exact; assumption]. unfold SPAN, NBITS in *. clear O W E1. lia.
Qed.
Lemma first_chunk_spec b e C f : iok b e C f -> within b e C ->
  match first_chunk f with Some a => (exists c, In c C /\ k_ptr c = a) /\ forall c, In c C -> a <= k_ptr c | None => C = [] end.
Proof.
  intros O W. unfold first_chunk. destruct (find_geq f 0) as [k|] eqn:E.
  - apply find_geq_some in E. destruct E as (A & B & D). apply (o_bits _ _ _ _ O) in B; [|exact A]. split; [exact B|]. intros c I.
    destruct (idx_in b e C f c O W I) as [P Q]. destruct (Z_lt_le_dec ((k_ptr c - i_base f) / 16) k) as [L|L]; [|lia].
    exfalso. specialize (D ((k_ptr c - i_base f) / 16) (conj (proj1 P) L)).
    rewrite (proj2 (o_bits _ _ _ _ O _ P)) in D by (exists c; split; [exact I|symmetry; exact Q]). discriminate D.
  - assert (N := find_geq_none _ _ E). destruct C as [|c t]; [reflexivity|]. exfalso. destruct (idx_in b e _ f c O W (or_introl eq_refl)) as [P Q].
    specialize (N _ P). rewrite (proj2 (o_bits _ _ _ _ O _ P)) in N by (exists c; split; [left; reflexivity|symmetry; exact Q]). discriminate.
Qed.
Lemma first_chunk_same b e b' C f f' : iok b e C f -> within b e C -> iok b' e C f' -> within b' e C -> oeqb (first_chunk f) (first_chunk f') = true.
Proof.
  intros O W O' W'. assert (A := first_chunk_spec _ _ _ _ O W). assert (B := first_chunk_spec _ _ _ _ O' W').
  destruct (first_chunk f) as [x|], (first_chunk f') as [y|]; cbn [oeqb]; try reflexivity.
  - destruct A as [(c & I & E) A], B as [(d & J & F) B]. specialize (A d J). specialize (B c I). apply Z.eqb_eq. lia.
  - destruct A as [(c & I & E) A]. subst C. destruct I.
  - destruct B as [(c & I & E) B]. subst C. destruct I.
Qed.

Lemma nw_exact x : x mod 1024 = 0 -> (x / 16 + 63) / 64 * 1024 = x.
Proof. lia. Qed.

Section P.
Variable dbg : bool.
Lemma cover_ok r addr C : 2 ^ 20 <= addr -> addr < r_end r -> 2 ^ 20 <= r_begin r < r_end r ->
  iok (r_begin r) (r_end r) C (r_info r) \/ (r_info r = info0 /\ C = []) -> within (r_begin r) (r_end r) C ->
  exists r', cover dbg r addr = Ok r' /\ r_begin r' = Z.min (r_begin r) addr /\ r_end r' = r_end r /\ r_prom r' = r_prom r /\
    iok (r_begin r') (r_end r') C (r_info r').
Proof.
  intros L1 L2 L3 O W. unfold cover. set (f := r_info r) in *. set (b := r_begin r) in *. set (e := r_end r) in *.
  set (b' := Z.min b addr) in *. assert (Hb : 2 ^ 20 <= b' < e /\ b' <= b) by (unfold b'; lia). 
  destruct (rdown_span b) as [D1 D2]. destruct (rdown_span b') as [D1' D2']. destruct (rup_span e) as [U1 U2].
  rewrite asrt_true. 2: { destruct O as [O|[-> _]]; [rewrite (o_base _ _ _ _ O), Z.eqb_refl, orb_true_r|]; reflexivity. }
  cbn [bind]. destruct ((0 <? i_nwords f) && (b <=? addr)) eqn:Q.
  - exists r. apply andb_prop in Q. destruct Q as [Q1 Q2]. split; [reflexivity|]. fold b e f. unfold b'. destruct O as [O|[E _]]; [|rewrite E in Q1; discriminate].
    split; [lia|]. split; [reflexivity|]. split; [reflexivity|exact O].
  - set (nbase := rdown b' SPAN) in *. set (lim := rup e SPAN) in *.
    set (nw := ((lim - nbase) / 16 + 63) / 64).
    assert (Enw : nw * SPAN = lim - nbase). { unfold nw, SPAN. apply nw_exact. clear - U2 D2'. lia. }
    assert (P : exists f', prepend dbg f nw nbase = Ok f' /\ i_base f' = nbase /\ iok b' e C f').
    { unfold prepend. destruct O as [O|[E ->]].
      - assert (Eb := o_base _ _ _ _ O). assert (En := o_n _ _ _ _ O). fold lim in En.
        assert (MB : nbase <= i_base f). { rewrite Eb. unfold nbase, rdown, SPAN. apply Z.mul_le_mono_nonneg_r; [lia|]. apply Z.div_le_mono; lia. }
        assert (Z0 : (i_base f =? 0) = false). { apply Z.eqb_neq. rewrite Eb. clear - D1 L3. lia. }
        rewrite Z0. cbn [orb]. destruct (Z.ltb_spec (i_nwords f) nw) as [Hn|Hn].
        + assert (Ez : i_base f - (nw - i_nwords f) * SPAN = nbase) by (unfold SPAN in *; lia). rewrite Ez, Z.eqb_refl. rewrite asrt_true by reflexivity.
          cbn [bind]. eexists. split; [reflexivity|]. split; [reflexivity|]. constructor; cbn [i_base i_nwords i_bits i_unprom]; try apply O; [reflexivity|exact Enw|].
          intros k Hk. destruct (Z.ltb_spec k ((nw - i_nwords f) * NBITS)) as [Lk|Lk].
          * split; [discriminate|]. intros (c & I & E). exfalso. destruct (W c I) as [Wc _]. unfold SPAN, NBITS in *. lia.
          * rewrite (o_bits _ _ _ _ O) by (unfold SPAN, NBITS in *; lia). split; intros (c & I & E); exists c; (split; [exact I|]); rewrite E; unfold SPAN, NBITS in *; lia.
        + assert (En2 : nbase = i_base f) by (unfold SPAN in *; lia). exists f. split; [reflexivity|]. split; [symmetry; exact En2|].
          constructor; try apply O. rewrite <- En2; reflexivity.
      - rewrite E. cbn [i_nwords i_base info0 Z.eqb orb]. rewrite asrt_true by reflexivity. cbn [bind]. destruct (Z.ltb_spec 0 nw) as [Hn|Hn].
        + eexists. split; [reflexivity|]. split; [reflexivity|]. constructor; cbn [i_base i_nwords i_bits i_unprom info0]; [reflexivity|exact Enw| |lia|intros c []].
          intros k Hk. rewrite Z.sub_0_r. destruct (k <? _); (split; [discriminate|intros (c & [] & _)]).
        + exfalso. unfold SPAN in *. clear - Hn Enw D1' U1 Hb. lia. }
    destruct P as (f' & -> & Ef & O'). cbn [bind]. rewrite asrt_true by (apply Z.eqb_eq; exact Ef). cbn [bind].
    assert (W' : within b' e C) by (intros c I; destruct (W c I); split; [unfold b' in *; lia|assumption]).
    rewrite asrt_true.
    2: { destruct O as [O|[E ->]]; [apply (first_chunk_same b e b' C); assumption|]. rewrite E.
         assert (F := first_chunk_spec _ _ _ _ O' W'). destruct (first_chunk f'); [destruct F as [(c & [] & _) _]|reflexivity]. }
    cbn [bind]. eexists. split; [reflexivity|]. cbn [r_begin r_end r_prom r_info]. split; [reflexivity|]. split; [reflexivity|]. split; [reflexivity|exact O'].
Qed.
End P.
