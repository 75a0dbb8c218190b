(* Stack allocation: the invariant, and how each call affects it. *)
From Verif Require Import Base Big_model Big_field Insert_model Insert_proof Heap_model Heap_proof Heap_calls Alloca_model Alloca_spec.

(* ---- the layout of one block ---- *)
Lemma size_spec req : 0 <= req < 2 ^ 40 ->
  alloca_size req mod 16 = 0 /\ req + 24 <= alloca_size req < req + 40.
Proof.
  intro H. unfold alloca_size, HEADER, TRAILER. rewrite (w64_small (req + 8)) by lia.
  destruct (pad_spec (req + 8) 16) as [A B]; try lia. change (pad_to_align 8 16) with 16.
  rewrite w64_small by lia. split; lia.
Qed.
Lemma user_spec lo : 0 <= lo < 2 ^ 48 -> lo mod 8 = 0 -> lo + 8 <= user_of lo <= lo + 16 /\ user_of lo mod 16 = 0.
Proof.
  intros H A. unfold user_of, HEADER. rewrite (w64_small (lo + 8)) by lia. destruct (pad_spec (lo + 8) 16) as [B C]; [lia|lia|lia|]. split; [lia|exact C].
Qed.
Lemma usable_spec lo t : 0 <= lo < 2 ^ 48 -> lo mod 8 = 0 -> 16 <= t < 2 ^ 48 -> usable_of lo t = lo + t - user_of lo.
Proof.
  intros H A T. destruct (user_spec lo H A) as [B _]. unfold usable_of. rewrite (w64_small (user_of lo - lo)) by lia.
  rewrite w64_small by lia. lia.
Qed.

(* ---- the layout of the stack ---- *)
Definition cok (c : chunk) : Prop :=
  k_lo c mod 8 = 0 /\ k_lo c + 8 <= k_ptr c /\ k_ptr c mod 16 = 0 /\ k_ptr c + k_req c + 8 <= k_hi c /\ k_hi c mod 8 = 0 /\ 0 < k_req c.
Fixpoint stacked (lo : Z) (C : list chunk) (hi : Z) : Prop :=
  match C with [] => lo <= hi | c :: t => lo <= k_lo c /\ cok c /\ stacked (k_hi c) t hi end.
Fixpoint sum (C : list chunk) : Z := match C with [] => 0 | c :: t => (k_hi c - k_ptr c) + sum t end.

Lemma stacked_le C : forall lo hi, stacked lo C hi -> lo <= hi.
Proof. induction C as [|c t IH]; intros lo hi H; cbn in H; [exact H|]. destruct H as [A [B D]]. apply IH in D. destruct B as (?&?&?&?&?&?). lia. Qed.
Lemma stacked_lower C lo lo' hi : stacked lo C hi -> lo' <= lo -> stacked lo' C hi.
Proof. destruct C; cbn; [lia|]. intros (A & B & D) H. repeat split; try assumption; try (apply B); lia. Qed.
Lemma stacked_in C : forall lo hi c, stacked lo C hi -> In c C -> lo <= k_lo c /\ k_hi c <= hi /\ cok c.
Proof.
  induction C as [|d t IH]; intros lo hi c H I; [destruct I|]. destruct H as (A & B & D). destruct I as [->|I].
  - apply stacked_le in D. repeat split; try (apply B); lia.
  - destruct (IH _ _ _ D I) as (E & F & K). destruct B as (?&?&?&?&?&?). repeat split; try (apply K); lia.
Qed.
Lemma stacked_apart C : forall lo hi c d, stacked lo C hi -> In c C -> In d C -> c = d \/ k_hi c <= k_lo d \/ k_hi d <= k_lo c.
Proof.
  induction C as [|e t IH]; intros lo hi c d H I J; [destruct I|]. destruct H as (A & B & D). destruct I as [->|I], J as [->|J].
  - left; reflexivity.
  - right; left. apply (stacked_in _ _ _ _ D J).
  - right; right. apply (stacked_in _ _ _ _ D I).
  - exact (IH _ _ _ _ D I J).
Qed.
Lemma sum_nonneg C lo hi : stacked lo C hi -> 0 <= sum C <= hi - lo.
Proof.
  revert lo; induction C as [|c t IH]; intros lo H; cbn in *; [lia|]. destruct H as (A & B & D). apply IH in D.
  destruct B as (?&?&?&?&?&?). lia.
Qed.

Section P.
Variables bot top : Z.
Hypothesis Har : area bot top.
Variable dbg : bool.

Fixpoint chain (G : list frame) : Prop :=
  match G with
  | [] => True
  | g :: t => g_bp g <= sp_of top t /\ g_bp g mod 8 = 0 /\ g_ctr g mod 8 = 0 /\ g_ctr g + 8 <= g_bp g /\ bot <= g_sp g /\
              stacked (g_sp g) (g_chunks g) (g_ctr g) /\ chain t
  end.

(* the words the library keeps in the stack *)
Definition words (m : Z -> Z) (g : frame) : Prop :=
  m (g_ctr g) = sum (g_chunks g) /\
  forall c, In c (g_chunks g) -> m (k_ptr c - 8) = k_hi c - k_ptr c /\ m (k_hi c - 8) = store_site 0 (k_site c).

Definition largeb (c : chunk) : bool := 131072 <? k_hi c - k_ptr c.
Definition proms (C : list chunk) : list (Z * Z) := map (fun c => (k_ptr c, k_ptr c + k_req c)) (filter largeb C).

Record iok (b e : Z) (C : list chunk) (f : info) : Prop := {
  o_base : i_base f = rdown b SPAN;
  o_n : i_nwords f * SPAN = rup e SPAN - i_base f;
  o_bits : forall k, 0 <= k < i_nwords f * NBITS -> (i_bits f k = true <-> exists c, In c C /\ k_ptr c = i_base f + 16 * k);
  o_un : 0 <= i_unprom f <= 131072;
  o_small : forall c, In c C -> small c -> k_hi c - k_ptr c - 8 <= i_unprom f }.
Record rok (g : frame) (r : frec) : Prop := {
  o_end : r_end r = g_bp g;
  o_begin : exists c t, g_chunks g = c :: t /\ r_begin r = k_ptr c;
  o_info : iok (r_begin r) (r_end r) (g_chunks g) (r_info r);
  o_prom : r_prom r = proms (g_chunks g) }.
Inductive mt : list frec -> list frame -> Prop :=
| mt0 : mt [] []
| mt_none g G l : g_chunks g = [] -> mt l G -> mt l (g :: G)
| mt_some r g G l : rok g r -> mt l G -> mt (r :: l) (g :: G).
Record Core (s : ast) (G : list frame) : Prop := {
  v_chain : chain G;
  v_words : forall g, In g G -> words (s_mem s) g;
  v_mt : mt (s_recs s) G }.
Definition AInv (s : ast) (G : list frame) : Prop :=
  Core s G /\ (dbg = true -> forall g c, In g G -> In c (g_chunks g) -> small c).

Lemma chain_top G : chain G -> sp_of top G <= top /\ (G <> [] -> bot <= sp_of top G).
Proof.
  induction G as [|g t IH]; intro H; cbn; [split; [lia|congruence]|]. destruct H as (A & ? & ? & B & C & D & E). apply stacked_le in D.
  destruct (IH E) as [F _]. split; [lia|]. intros _. exact C.
Qed.
Lemma chain_in G g : chain G -> In g G -> sp_of top G <= g_sp g /\ g_bp g <= top /\ bot <= g_sp g /\ g_sp g <= g_ctr g /\ g_ctr g + 8 <= g_bp g /\
  g_ctr g mod 8 = 0 /\ stacked (g_sp g) (g_chunks g) (g_ctr g).
Proof.
  induction G as [|d t IH]; intros H I; [destruct I|]. destruct H as (A & A1 & A2 & B & C & D & E). destruct (chain_top t E) as [F _].
  assert (S1 := stacked_le _ _ _ D). destruct I as [->|I]; cbn [sp_of].
  - repeat split; try assumption; lia.
  - destruct (IH E I) as (K1 & K2 & K3 & K4 & K5 & K6 & K7). repeat split; try assumption; lia.
Qed.

(* every library word lies at or above the stack pointer *)
Lemma words_above G g c : chain G -> In g G -> sp_of top G <= g_ctr g /\
  (In c (g_chunks g) -> sp_of top G <= k_ptr c - 8 /\ sp_of top G <= k_hi c - 8).
Proof.
  intros H I. destruct (chain_in G g H I) as (K1 & K2 & K3 & K4 & K5 & K6 & K7). split; [lia|]. intro J.
  destruct (stacked_in _ _ _ _ K7 J) as (A & B & (?&?&?&?&?&?)). lia.
Qed.
Lemma words_same m m' G g : chain G -> In g G -> (forall x, sp_of top G <= x -> m' x = m x) -> words m g -> words m' g.
Proof.
  intros H I E [A B]. split.
  - rewrite E; [exact A|]. apply (words_above G g (mkK 0 0 0 0 0) H I).
  - intros c J. destruct (words_above G g c H I) as [_ W]. destruct (W J). rewrite !E by assumption. exact (B c J).
Qed.

(* ---- records ---- *)
Lemma mt_above l G : mt l G -> chain G -> forall r, In r l -> sp_of top G <= r_begin r.
Proof.
  induction 1 as [|g G l E M IH|r g G l R M IH]; intros C q I; [destruct I| |].
  - destruct C as (A & ? & ? & B & C & D & F). cbn [sp_of]. specialize (IH F q I). rewrite E in D. cbn in D. lia.
  - destruct C as (A & ? & ? & B & C & D & F). cbn [sp_of]. destruct I as [->|I].
    + destruct (o_begin _ _ R) as (c & t & E1 & E2). rewrite E1 in D. cbn in D. destruct D as (D1 & (?&?&?&?&?&?) & D2). rewrite E2. lia.
    + specialize (IH F q I). apply stacked_le in D. lia.
Qed.
Lemma pick_none x l : (forall r, In r l -> x < r_begin r) -> pick x l = None.
Proof.
  induction l as [|r t IH]; intro H; [reflexivity|]. cbn [pick]. unfold in_rec. assert (A := H r (or_introl eq_refl)).
  destruct (Z.leb_spec (r_begin r) x); [lia|]. cbn [andb]. rewrite IH; [reflexivity|]. intros q I. apply H. right; exact I.
Qed.
Lemma pick_head x r t : r_begin r <= x < r_end r -> pick x (r :: t) = Some ([], r, t).
Proof. intro H. cbn [pick]. unfold in_rec. destruct (Z.leb_spec (r_begin r) x), (Z.ltb_spec x (r_end r)); try lia. reflexivity. Qed.
Lemma pick_skip x r t : r_end r <= x -> pick x (r :: t) = match pick x t with Some (h, q, t') => Some (r :: h, q, t') | None => None end.
Proof. intro H. cbn [pick]. unfold in_rec. destruct (Z.ltb_spec x (r_end r)); [lia|]. rewrite andb_false_r. reflexivity. Qed.
Lemma pick_frame l G : mt l G -> chain G -> forall g, In g G -> g_chunks g <> [] ->
  exists r, rok g r /\ forall x, r_begin r <= x < r_end r -> exists h t, pick x l = Some (h, r, t).
Proof.
  induction 1 as [|d G l E M IH|r d G l R M IH]; intros C g I N; [destruct I| |].
  - destruct I as [->|I]; [congruence|]. apply (IH (proj2 (proj2 (proj2 (proj2 (proj2 (proj2 C)))))) g I N).
  - destruct C as (A & ? & ? & B & C & D & F). destruct I as [->|I].
    + exists r. split; [exact R|]. intros x Hx. rewrite (pick_head x r l Hx). eauto.
    + destruct (IH F g I N) as (q & Q & P). exists q. split; [exact Q|]. intros x Hx. destruct (P x Hx) as (h & t & E). exists (r :: h), t.
      rewrite pick_skip; [rewrite E; reflexivity|]. rewrite (o_end _ _ R). destruct (o_begin _ _ Q) as (c & u & E1 & E2).
      destruct (chain_in G g F I) as (K1 & K2 & K3 & K4 & K5 & K6 & K7). assert (In c (g_chunks g)) by (rewrite E1; left; reflexivity).
      destruct (stacked_in _ _ _ _ K7 H1) as (? & ? & (?&?&?&?&?&?)). lia.
Qed.
Lemma pick_in x l h r t : pick x l = Some (h, r, t) -> In r l /\ r_begin r <= x < r_end r.
Proof.
  revert h r t. induction l as [|q l IH]; intros h r t E; [discriminate|]. cbn [pick] in E. unfold in_rec in E.
  destruct (Z.leb_spec (r_begin q) x), (Z.ltb_spec x (r_end q)); cbn [andb] in E;
    [injection E as <- <- <-; split; [left; reflexivity|lia]|..];
    destruct (pick x l) as [[[h' q'] t']|]; try discriminate; injection E as <- <- <-; destruct (IH _ _ _ eq_refl); split; auto; right; auto.
Qed.
Lemma mt_in l G r : mt l G -> In r l -> exists g, In g G /\ rok g r.
Proof.
  induction 1 as [|d G l E M IH|q d G l R M IH]; intro I; [destruct I| |].
  - destruct (IH I) as (g & A & B). exists g. split; [right; exact A|exact B].
  - destruct I as [->|I]; [exists d; split; [left; reflexivity|exact R]|]. destruct (IH I) as (g & A & B). exists g. split; [right; exact A|exact B].
Qed.
End P.
