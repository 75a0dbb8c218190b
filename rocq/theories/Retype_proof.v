(* Memory words, and the chunk's word under queries and type changes. *)
From Verif Require Import Base Bits Big_model Big_spec Big_inv Big_set Big_lookup Big_create Big_hist Big_props Big_field Map_state Insert_model Insert_proof Heap_model Heap_spec Heap_proof Heap_calls Heap_props Retype_model Retype_spec.

Lemma loadn_ext n m m' p : (forall x, p <= x < p + Z.of_nat n -> m' x = m x) -> loadn n m' p = loadn n m p.
Proof.
  revert p. induction n as [|n IH]; intros p E; [reflexivity|]. cbn [loadn]. rewrite E by lia. rewrite IH; [reflexivity|]. intros x Hx. apply E. lia.
Qed.
Lemma storen_out n m p v x : x < p \/ p + Z.of_nat n <= x -> storen n m p v x = m x.
Proof.
  revert p v. induction n as [|n IH]; intros p v H; [reflexivity|]. cbn [storen]. destruct (Z.eqb_spec x p); [lia|]. apply IH. lia.
Qed.
Lemma load_store_same n m p v : loadn n (storen n m p v) p = v mod 256 ^ Z.of_nat n.
Proof.
  revert m p v. induction n as [|n IH]; intros m p v; [cbn; rewrite Z.mod_1_r; reflexivity|].
  cbn [loadn]. rewrite (loadn_ext n (storen n m (p + 1) (v / 256))).
  - rewrite IH. cbn [storen]. rewrite Z.eqb_refl. rewrite Nat2Z.inj_succ, Z.pow_succ_r by lia.
    rewrite Z.rem_mul_r by (try apply Z.pow_nonzero; lia). reflexivity.
  - intros x Hx. cbn [storen]. destruct (Z.eqb_spec x p); [lia|reflexivity].
Qed.
Lemma bytes_store n m p v : bytes m -> bytes (storen n m p v).
Proof.
  intro B. revert m p v B. induction n as [|n IH]; intros m p v B x; [apply B|]. cbn [storen]. destruct (x =? p); [apply Z.mod_pos_bound; lia|apply IH, B].
Qed.
Lemma loadn_range n m p : bytes m -> 0 <= loadn n m p < 256 ^ Z.of_nat n.
Proof.
  intro B. revert p. induction n as [|n IH]; intro p; [cbn; lia|]. cbn [loadn]. rewrite Nat2Z.inj_succ, Z.pow_succ_r by lia.
  specialize (IH (p + 1)). specialize (B p). lia.
Qed.
Lemma p64 : 256 ^ Z.of_nat 8 = 2 ^ 64. Proof. reflexivity. Qed.
Lemma load_store m p v : 0 <= v < 2 ^ 64 -> load (store m p v) p = v.
Proof. intro H. unfold load, store. rewrite load_store_same, p64. apply Z.mod_small, H. Qed.
Lemma load_range m p : bytes m -> 0 <= load m p < 2 ^ 64.
Proof. intro B. unfold load. rewrite <- p64. apply loadn_range, B. Qed.
Lemma store_away m p v x : x < p \/ p + 8 <= x -> store m p v x = m x.
Proof. intro H. apply storen_out. exact H. Qed.
Lemma load_agree m m' p : (forall x, p <= x < p + 8 -> m' x = m x) -> load m' p = load m p.
Proof. intro H. apply loadn_ext. exact H. Qed.
Lemma load_away m p v q : q + 8 <= p \/ p + 8 <= q -> load (store m p v) q = load m q.
Proof. intro H. apply load_agree. intros x Hx. apply store_away. lia. Qed.

(* the words written fit *)
Lemma site_fits v c : 0 <= v < 2 ^ 64 -> 0 <= store_site v c < 2 ^ 64.
Proof. intro H. unfold store_site. apply setf_range; [lia|lia|lia|]. apply setf_range; [lia|lia|lia|exact H]. Qed.
Lemma type_fits u i : 0 <= mk_with_type u i < 2 ^ 64.
Proof. unfold mk_with_type. do 3 (apply setf_range; [lia|lia|lia|]). lia. Qed.

(* the word says type u *)
Definition says (T : sites) (v u : Z) : Prop :=
  (is_with_type v = true /\ t_type v = u) \/ (is_with_type v = false /\ type_of T (i_site v) = u).

Lemma says_site T v c : 0 <= c < 2 ^ 47 -> says T (store_site v c) (type_of T c).
Proof. intro H. right. rewrite store_site_kind, store_site_site by exact H. auto. Qed.
Lemma says_type T u i : proper u -> says T (mk_with_type u i) u.
Proof. intro H. left. exact (mk_typed u i [] H). Qed.
Lemma extract_says n T v un u : says T v u -> proper u ->
  exists i r, extract n T (mkI v un) = (i, r) /\ a_err r = false /\ a_type r = u /\ says T (ins i) u /\ (0 <= v < 2 ^ 64 -> 0 <= ins i < 2 ^ 64) /\
    (is_with_type v = true -> a_site r = 0) /\ (is_with_type v = false -> a_site r = i_site v).
Proof.
  intros S P. assert (N : u <> 0) by (destruct P; lia). unfold extract. cbn [ins unrec]. destruct S as [[K E]|[K E]]; rewrite K.
  - rewrite E. destruct (Z.eqb_spec u 0); [contradiction|]. eexists _, _. split; [reflexivity|]. cbn. split; [reflexivity|]. split; [reflexivity|].
    split; [left; auto|]. split; [auto|]. split; [reflexivity|discriminate].
  - rewrite E. destruct (Z.eqb_spec u 0); [contradiction|]. eexists _, _. split; [reflexivity|]. cbn. split; [reflexivity|]. split; [reflexivity|].
    destruct n; (split; [|split; [|split; [discriminate|reflexivity]]]).
    + apply says_type, P.
    + intros _. apply type_fits.
    + right. auto.
    + auto.
Qed.

Lemma chunk_eqb_eq c d : chunk_eqb c d = true <-> c = d.
Proof.
  unfold chunk_eqb. destruct c as [b r u], d as [b' r' u']. cbn. split.
  - intro H. apply andb_prop in H. destruct H as [H X]. apply andb_prop in H. destruct H as [H Y]. apply Z.eqb_eq in H, X, Y. congruence.
  - intro H. injection H as -> -> ->. rewrite !Z.eqb_refl. reflexivity.
Qed.
Lemma now_same Y c u : now Y c u c = u.
Proof. unfold now. destruct (chunk_eqb c c) eqn:E; [reflexivity|]. assert (X := proj2 (chunk_eqb_eq c c) eq_refl). congruence. Qed.
Lemma now_other Y c d u : c <> d -> now Y c u d = Y d.
Proof. intro N. unfold now. destruct (chunk_eqb c d) eqn:E; [|reflexivity]. apply chunk_eqb_eq in E. contradiction. Qed.
Lemma in_without c d C : In d (without c C) -> In d C /\ c <> d.
Proof.
  unfold without. rewrite filter_In. intros [I E]. split; [exact I|]. intros <-. assert (X := proj2 (chunk_eqb_eq c c) eq_refl). rewrite X in E. discriminate.
Qed.

Section P.
Variables (nb : nat) (biggest : Z) (dbg : bool) (al : nat -> Z) (cur_ max_ : Z).
Variable a : nat.
Hypothesis Ha : a <> 0%nat.
Hypothesis Hbig : biggest <= 2 ^ 32.
Notation hreach := (hreach nb biggest dbg al cur_ max_ a).
Notation HInv := (HInv nb biggest dbg al cur_ max_ a).

(* for an address in a small chunk, the index leads to its word *)
Lemma small_path H C D c x sizefn : hreach H C D -> In c C -> large c = false ->
  sizefn (c_base c) = c_usable c -> inside c x ->
  exists n i sz, leaf_bigalloc nb (h_fo H) x = Ok n /\ n <> 0%nat /\ b_sub (bigs (h_fo H) n) = a /\
    arena_for nb dbg a H x = Ok (H, n) /\ arena_info nb dbg a H x = Ok (H, i) /\ i <> 0%nat /\
    via_bitmap dbg (h_info H i) x sizefn = Ok (Some (c_base c, sz, c_end c - 8)).
Proof.
  intros HH Ic Sm Sz Hx. assert (I := hreach_inv _ _ _ _ _ _ _ Ha Hbig _ _ _ HH).
  assert (Q := heap_lookup_small_partial _ _ _ _ _ _ _ Ha Hbig _ _ _ _ _ _ HH Ic Sm Sz Hx). unfold inside in Hx.
  destruct (hi_ck _ _ _ _ _ _ _ _ _ _ I c Ic) as [Okc (n & v & A & Hc & Bt & Cov & SS & _)]. destruct (SS Sm) as [Kc Un].
  assert (Okc0 := Okc). destruct Okc as [K1 K2 K3 K4]. assert (Hc0 := Hc). destruct Hc as [Hc1 Hc2].
  assert (Ie : c_end c = c_base c + c_usable c) by reflexivity.
  destruct (leaf_clear nb biggest dbg al cur_ max_ a Ha (h_fo H) n v x _ _ (hi_R _ _ _ _ _ _ _ _ _ _ I) (proj1 A) ltac:(lia) Kc ltac:(lia)) as [E _].
  destruct (hi_ar _ _ _ _ _ _ _ _ _ _ I n v A) as (P0 & _ & IB & NW & Lo & Na & UP).
  destruct (view_inv _ _ _ (proj1 A)) as [[N0 _] Ev].
  assert (Es : b_sub (bigs (h_fo H) n) = a) by (rewrite <- (proj2 A), Ev; reflexivity).
  assert (Ea : b_alloc (bigs (h_fo H) n) = a_alloc v) by (rewrite Ev; reflexivity).
  destruct (ensure_known nb biggest dbg al cur_ max_ a H C D n v x I A ltac:(lia)) as [_ E2].
  assert (E3 : arena_for nb dbg a H x = Ok (H, n)).
  { unfold arena_for. rewrite (find_arena _ _ _ _ _ _ _ _ _ _ _ _ _ I A) by lia. cbn [bind]. destruct (Nat.eqb_spec n 0); [contradiction|reflexivity]. }
  unfold Heap_model.query in Q. rewrite E in Q. cbn [bind] in Q. destruct (Nat.eqb_spec n 0) as [|_]; [congruence|].
  rewrite Es in Q. destruct (Nat.eqb_spec a 0) as [|_]; [congruence|]. rewrite Nat.eqb_refl in Q.
  unfold get_info in Q. rewrite Ea in Q. destruct (Nat.eqb_spec n 0) as [|_]; [congruence|]. destruct (Nat.eqb_spec (a_alloc v) a); [congruence|]. cbn [negb andb] in Q.
  rewrite E2 in Q. cbn [bind] in Q. destruct (Nat.eqb_spec (a_subpriv v) 0) as [|_]; [congruence|].
  destruct (via_bitmap dbg (h_info H (a_subpriv v)) x sizefn) as [[[[o sz] z]|]| | |] eqn:V; cbn [bind] in Q; try discriminate.
  exists n, (a_subpriv v), sz. repeat split; try assumption. rewrite V. injection Q as Q1 Q2 Q3. subst. reflexivity.
Qed.
End P.
