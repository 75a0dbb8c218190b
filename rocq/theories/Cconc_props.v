(* C76: the memory-range cache when several threads use it at once. *)
From Verif Require Import Base Conc_model Conc_spec Conc_proof Cache_model Cache_props Cconc_model.
From Coq Require Import NArith.

(* ---- programs each of whose accesses keeps an invariant, whatever came before it ---- *)
Section Safe.
Context {S_ : Type}.
Variable G : S_ -> Prop.
Fixpoint safe {R} (Q : R -> Prop) (p : prog S_ R) : Prop :=
  match p with
  | Ret r => Q r
  | Lock k => safe Q k
  | Unlock k => False
  | Act f k => forall s, G s -> match f s with Ok (s', x) => G s' /\ safe Q (k x) | UB => False | _ => True end
  end.
Lemma safe_bind {A B} (Q1 : A -> Prop) (Q : B -> Prop) (p : prog S_ A) (k : A -> prog S_ B) :
  safe Q1 p -> (forall a, Q1 a -> safe Q (k a)) -> safe Q (bindp p k).
Proof.
  induction p as [r|q IH|q IH|X f q IH]; cbn; intros H K; auto.
  intros s Gs. specialize (H s Gs). destruct (f s) as [[s' x]| | |]; auto. destruct H as [H1 H2]. split; [exact H1|]. apply IH; auto.
Qed.
Lemma safe_run {R} (Q : R -> Prop) (p : prog S_ R) : safe Q p -> forall s s' r, G s -> run p s = Ok (s', r) -> G s' /\ Q r.
Proof.
  induction p as [r|q IH|q IH|X f q IH]; cbn; intros H s s' r0 Gs E.
  - injection E; intros <- <-. auto.
  - exact (IH H s s' r0 Gs E).
  - destruct H.
  - specialize (H s Gs). destruct (f s) as [[s1 x]| | |]; try discriminate. destruct H as [H1 H2]. cbn in E. exact (IH x H2 s1 s' r0 H1 E).
Qed.
(* all threads *)
Variables (C R : Type) (code : C -> prog S_ R) (Q : R -> Prop) (ok : C -> Prop).
Hypothesis Hcode : forall x, ok x -> safe Q (code x).
Definition sinv (c : config S_ C R) : Prop :=
  G (sh c) /\ (forall i x, In x (todo c i) -> ok x) /\ (forall i p, cur c i = Some p -> safe Q p) /\ (forall i r, In r (done_ c i) -> Q r).
Lemma sinv_step c i c' : sinv c -> tstep code i c = Some (Ok c') -> sinv c'.
Proof.
  intros (G0 & T & U & D) H. unfold tstep in H.
  assert (Keep : forall (k : prog S_ R) s' o', G s' -> safe Q k -> sinv (Conc_model.mkC s' o' (todo c) (set (cur c) i (Some k)) (done_ c))).
  { intros k s' o' Gs Sk. split; [exact Gs|]. split; [exact T|]. split; [|exact D]. cbn [cur]. intros j p. unfold set. destruct (Nat.eqb j i); [|apply U].
    intro E; injection E; intros <-. exact Sk. }
  destruct (cur c i) as [p|] eqn:Ec.
  - pose proof (U i p Ec) as Sp. destruct p as [r|k|k|X f k]; cbn [safe] in Sp.
    + injection H; intros <-. split; [exact G0|]. split; [exact T|]. cbn [cur done_]. split.
      * intros j p. unfold set. destruct (Nat.eqb j i); [discriminate|apply U].
      * intros j r0. unfold set. destruct (Nat.eqb_spec j i) as [->|N]; [|apply D]. intro Hr. apply in_app_or in Hr. destruct Hr as [Hr|[<-|[]]]; [exact (D i r0 Hr)|exact Sp].
    + destruct (own c) as [[m d]|]; [destruct (Nat.eqb i m); [|discriminate]|]; injection H; intros <-; apply Keep; auto.
    + destruct Sp.
    + specialize (Sp (sh c) G0). destruct (f (sh c)) as [[s' x]| | |]; try discriminate. cbn [bind] in H. injection H; intros <-. destruct Sp. apply Keep; auto.
  - destruct (todo c i) as [|x r] eqn:Et; [discriminate|]. injection H; intros <-.
    split; [exact G0|]. cbn [todo cur done_]. split; [|split; [|exact D]].
    + intros j y. unfold set. destruct (Nat.eqb_spec j i) as [->|N]; [|apply T]. intro Hy. apply (T i). rewrite Et. right. exact Hy.
    + intros j p. unfold set. destruct (Nat.eqb j i); [|apply U]. intro E; injection E; intros <-. apply Hcode. apply (T i). rewrite Et. left. reflexivity.
Qed.
Lemma sinv_steps c c' : steps code c c' -> sinv c -> sinv c'.
Proof. induction 1 as [c|c c1 i c2 H IH E]; intro I; [exact I|]. apply (sinv_step c1 i c2); auto. Qed.
Lemma sinv_no_ub c i : sinv c -> tstep code i c <> Some UB.
Proof.
  intros (G0 & T & U & D) H. unfold tstep in H. destruct (cur c i) as [p|] eqn:Ec.
  - pose proof (U i p Ec) as Sp. destruct p as [r|k|k|X f k]; cbn [safe] in Sp.
    + discriminate.
    + destruct (own c) as [[m d]|]; [destruct (Nat.eqb i m)|]; discriminate.
    + destruct Sp.
    + specialize (Sp (sh c) G0). destruct (f (sh c)) as [[s' x]| | |]; try discriminate. destruct Sp.
  - destruct (todo c i); discriminate.
Qed.
Lemma sinv_start s t : G s -> (forall i x, In x (t i) -> ok x) -> sinv (start_c s t).
Proof. intros Gs Ht. split; [exact Gs|]. split; [exact Ht|]. split; [discriminate|intros i r []]. Qed.
End Safe.
Arguments safe {S_} G {R} Q p.

(* ---- the cache ---- *)
Section Props.
Variables (n fuel : nat).
Hypothesis Hn : (0 < n < 32)%nat.
(* the records which threads put in *)
Variable fills : rcd -> Prop.
Notation code := (qcode n fuel).

(* [v] is field [f] of a record put in, or of the empty entry *)
Definition of (f : rcd -> Z) (v : Z) : Prop := v = 0 \/ exists r, fills r /\ f r = v.
Record rok (r : rcd) : Prop := { k_base : of r_base (r_base r); k_limit : of r_limit (r_limit r);
  k_type : of r_type (r_type r); k_period : of r_period (r_period r); k_depth : of r_depth (r_depth r) }.
Definition eok (e : entry) : Prop := (e_prev e <= n)%nat /\ (e_next e <= n)%nat /\ rok (e_rcd e).
Definition vok (v : N) : Prop := forall k, (N.of_nat n <= k)%N -> N.testbit v k = false.
Record good (s : cache) : Prop := { g_size : c_size s = n; g_valid : vok (c_valid s);
  g_head : (c_head s <= n)%nat; g_tail : (c_tail s <= n)%nat; g_ent : forall j, eok (c_ent s j) }.

Lemma of0 f : of f 0. Proof. left; reflexivity. Qed.
Lemma good0 : good (init_cache n).
Proof. constructor; cbn; try lia. - intros k _. apply N.bits_0. - intro j. split; [cbn; lia|]. split; [cbn; lia|]. constructor; apply of0. Qed.

Lemma s_rd {A} (f : cache -> A) (Q : A -> Prop) : (forall s, good s -> Q (f s)) -> safe good Q (rd f).
Proof. cbn. auto. Qed.
Lemma s_rdE {A} i (f : entry -> A) (Q : A -> Prop) : (i <= n)%nat -> (forall e, eok e -> Q (f e)) -> safe good Q (rdE n i f).
Proof. cbn. intros Hi H s Gs. rewrite (proj2 (Nat.leb_le i n) Hi). split; [exact Gs|]. apply H, Gs. Qed.
Lemma s_wrE i g (Q : unit -> Prop) : (i <= n)%nat -> (forall e, eok e -> eok (g e)) -> Q tt -> safe good Q (wrE n i g).
Proof.
  cbn. intros Hi H HQ s Gs. rewrite (proj2 (Nat.leb_le i n) Hi). split; [|exact HQ]. destruct Gs as [A B C D E].
  constructor; cbn; auto. intro j. unfold upd. destruct (Nat.eqb j i); auto.
Qed.
Lemma s_valid v (Q : unit -> Prop) : vok v -> Q tt -> safe good Q (w_valid v).
Proof. cbn. intros H HQ s [A B C D E]. split; [constructor; cbn; auto|exact HQ]. Qed.
Lemma s_victim v (Q : unit -> Prop) : Q tt -> safe good Q (w_victim v).
Proof. cbn. intros HQ s [A B C D E]. split; [constructor; cbn; auto|exact HQ]. Qed.
Lemma s_head v (Q : unit -> Prop) : (v <= n)%nat -> Q tt -> safe good Q (w_head v).
Proof. cbn. intros H HQ s [A B C D E]. split; [constructor; cbn; auto|exact HQ]. Qed.
Lemma s_tail v (Q : unit -> Prop) : (v <= n)%nat -> Q tt -> safe good Q (w_tail v).
Proof. cbn. intros H HQ s [A B C D E]. split; [constructor; cbn; auto|exact HQ]. Qed.
Lemma s_bit i (Q : N -> Prop) : (0 < i)%nat -> Q (N.of_nat (i - 1)) -> safe good Q (bit i).
Proof. cbn. intros Hi HQ s Gs. destruct (Nat.eqb_spec i 0); [lia|]. auto. Qed.
Lemma s_when b p (Q : unit -> Prop) : (b = true -> safe good Q p) -> Q tt -> safe good Q (when b p).
Proof. unfold when. destruct b; auto. Qed.
Lemma vok_clear v k : vok v -> vok (N.clearbit v k).
Proof. intros H j Hj. rewrite N.clearbit_eqb, H by exact Hj. reflexivity. Qed.
Lemma vok_set v i : (0 < i <= n)%nat -> vok v -> vok (N.setbit v (N.of_nat (i - 1))).
Proof. intros Hi H j Hj. rewrite N.setbit_eqb, H by exact Hj. rewrite Bool.orb_false_r. apply N.eqb_neq. lia. Qed.
Lemma eok_next e k : eok e -> (k <= n)%nat -> eok (set_next e k).
Proof. intros (A & B & C) H. repeat split; cbn; auto; apply C. Qed.
Lemma eok_prev e k : eok e -> (k <= n)%nat -> eok (set_prev e k).
Proof. intros (A & B & C) H. repeat split; cbn; auto; apply C. Qed.

Ltac seqs Q0 := eapply (safe_bind good Q0); [|intros ? ?].
Definition T {A} (_ : A) : Prop := True.
Lemma safe_unlink i : (0 < i <= n)%nat -> safe good T (q_unlink n i).
Proof.
  intro Hi. unfold q_unlink.
  eapply (safe_bind good T). { apply s_bit; [lia|exact I]. } intros k _.
  eapply (safe_bind good vok). { apply s_rd. apply g_valid. } intros v Hv.
  eapply (safe_bind good T). { apply s_valid; [apply vok_clear, Hv|exact I]. } intros _ _.
  eapply (safe_bind good T). { apply s_victim; exact I. } intros _ _.
  eapply (safe_bind good (fun x => x <= n)%nat). { apply s_rdE; [lia|]. intros e He; apply He. } intros nx Hnx.
  eapply (safe_bind good (fun x => x <= n)%nat). { apply s_rdE; [lia|]. intros e He; apply He. } intros pv Hpv.
  eapply (safe_bind good T). { apply s_when; [|exact I]. intros _. apply s_wrE; [exact Hpv| |exact I]. intros e He. apply eok_next; auto. } intros _ _.
  eapply (safe_bind good T). { apply s_when; [|exact I]. intros _. apply s_wrE; [exact Hnx| |exact I]. intros e He. apply eok_prev; auto. } intros _ _.
  eapply (safe_bind good T). { apply s_rd. intros; exact I. } intros h _.
  eapply (safe_bind good T). { apply s_when; [|exact I]. intros _. apply s_head; [exact Hnx|exact I]. } intros _ _.
  eapply (safe_bind good T). { apply s_rd. intros; exact I. } intros t _.
  eapply (safe_bind good T). { apply s_when; [|exact I]. intros _. apply s_tail; [exact Hpv|exact I]. } intros _ _.
  eapply (safe_bind good vok). { apply s_rd. apply g_valid. } intros v' Hv'. apply s_valid; [apply vok_clear, Hv'|exact I].
Qed.
Lemma safe_push i : (0 < i <= n)%nat -> safe good T (q_push n i).
Proof.
  intro Hi. unfold q_push.
  eapply (safe_bind good T). { apply s_wrE; [lia| |exact I]. intros e He. apply eok_prev; [exact He|lia]. } intros _ _.
  eapply (safe_bind good (fun x => x <= n)%nat). { apply s_rd. apply g_head. } intros h Hh.
  eapply (safe_bind good T). { apply s_wrE; [lia| |exact I]. intros e He. apply eok_next; auto. } intros _ _.
  eapply (safe_bind good T). { apply s_rd. intros; exact I. } intros h2 _.
  eapply (safe_bind good T). { apply s_when; [|exact I]. intros _.
    eapply (safe_bind good (fun x => x <= n)%nat). { apply s_rd. apply g_head. } intros h3 Hh3. apply s_wrE; [exact Hh3| |exact I]. intros e He. apply eok_prev; [exact He|lia]. } intros _ _.
  eapply (safe_bind good T). { apply s_head; [lia|exact I]. } intros _ _.
  eapply (safe_bind good T). { apply s_rd. intros; exact I. } intros t _.
  eapply (safe_bind good T). { apply s_when; [|exact I]. intros _. apply s_tail; [lia|exact I]. } intros _ _.
  eapply (safe_bind good (fun k => k = N.of_nat (i - 1))). { apply s_bit; [lia|reflexivity]. } intros k ->.
  eapply (safe_bind good vok). { apply s_rd. apply g_valid. } intros v Hv. apply s_valid; [apply vok_set; auto|exact I].
Qed.
Lemma safe_bump i : (0 < i <= n)%nat -> safe good T (q_bump_mru n i).
Proof.
  intro Hi. unfold q_bump_mru.
  eapply (safe_bind good T). { apply s_rd. intros; exact I. } intros h _. apply s_when; [|exact I]. intros _.
  eapply (safe_bind good T). { apply s_bit; [lia|exact I]. } intros k _.
  eapply (safe_bind good T). { apply s_rd. intros; exact I. } intros v _.
  eapply (safe_bind good T). { apply s_when; [|exact I]. intros _. apply safe_unlink; exact Hi. } intros _ _. apply safe_push; exact Hi.
Qed.
Lemma safe_victim i : safe good T (q_bump_victim n i).
Proof.
  unfold q_bump_victim. eapply (safe_bind good T). { apply s_rd. intros; exact I. } intros k _. apply s_when; [|exact I]. intros _. apply s_victim. exact I.
Qed.
Lemma safe_fields i : (i <= n)%nat -> safe good rok (q_fields n i).
Proof.
  intro Hi. unfold q_fields.
  eapply (safe_bind good (of r_type)). { apply s_rdE; [exact Hi|]. intros e He; apply He. } intros t Ht.
  eapply (safe_bind good (of r_base)). { apply s_rdE; [exact Hi|]. intros e He; apply He. } intros b Hb.
  eapply (safe_bind good (of r_limit)). { apply s_rdE; [exact Hi|]. intros e He; apply He. } intros l Hl.
  eapply (safe_bind good (of r_period)). { apply s_rdE; [exact Hi|]. intros e He; apply He. } intros p Hp.
  cbn. constructor; cbn; auto. apply of0.
Qed.
Lemma safe_find test f : forall i, (i <= n)%nat -> safe good (fun o => match o with Some j => 0 < j <= n | None => True end)%nat (q_find n f test i).
Proof.
  induction f as [|f IH]; intros i Hi; cbn [q_find]; [cbn; intros; exact I|].
  destruct (Nat.eqb_spec i 0) as [|N]; [exact I|].
  eapply (safe_bind good T). { apply s_bit; [lia|exact I]. } intros k _.
  eapply (safe_bind good T). { apply s_rd. intros; exact I. } intros v _.
  eapply (safe_bind good T).
  { destruct (N.testbit v k); [|exact I]. eapply (safe_bind good rok). { apply safe_fields; exact Hi. } intros r _. exact I. }
  intros [|] _; [cbn; lia|].
  eapply (safe_bind good (fun x => x <= n)%nat). { apply s_rdE; [exact Hi|]. intros e He; apply He. } intros j Hj. apply IH; exact Hj.
Qed.
Definition ans_ok (o : option rcd) : Prop := match o with Some r => rok r | None => True end.
Lemma safe_lookup test : safe good ans_ok (q_lookup n fuel test).
Proof.
  unfold q_lookup.
  eapply (safe_bind good (fun x => x <= n)%nat). { apply s_rd. apply g_head. } intros h Hh.
  eapply (safe_bind good). { apply safe_find. exact Hh. } intros [i|] Hi; [|exact I]. cbn beta iota in Hi.
  eapply (safe_bind good T). { apply safe_bump; exact Hi. } intros _ _.
  eapply (safe_bind good rok). { apply safe_fields; lia. } intros r Hr.
  eapply (safe_bind good (of r_depth)). { apply s_rdE; [lia|]. intros e He; apply He. } intros d Hd.
  cbn. destruct Hr. constructor; cbn; auto.
Qed.
Lemma first_clear_range v : forall l i, (exists k, i <= k < i + l /\ N.testbit v (N.of_nat k) = false)%nat ->
  (forall k, (n <= k)%nat -> N.testbit v (N.of_nat k) = false) -> (i <= n)%nat ->
  (0 < first_clear l i v <= S n)%nat.
Proof.
  induction l as [|l IH]; intros i (k & Hk & Ek) H Hi; [lia|]. cbn. destruct (N.testbit v (N.of_nat i)) eqn:E; [|lia].
  assert (i <> k) by congruence.
  assert (i < n)%nat by (destruct (Nat.lt_ge_cases i n); [assumption|rewrite H in E by lia; discriminate]).
  apply IH; [exists k; split; [lia|exact Ek]|exact H|lia].
Qed.
Lemma ffs_range v : vok v -> (0 < ffs_clear v <= S n)%nat.
Proof.
  intro H. apply first_clear_range.
  - exists n. split; [lia|]. apply H. lia.
  - intros k Hk. apply H. lia.
  - lia.
Qed.
Lemma safe_fill r : fills r -> safe good ans_ok (q_fill n r).
Proof.
  intro Hr. unfold q_fill.
  assert (Of : forall f, of f (f r)) by (intro f; right; exists r; auto).
  eapply (safe_bind good vok). { apply s_rd. apply g_valid. } intros v Hv. pose proof (ffs_range v Hv) as Hp.
  destruct (Nat.ltb (S n) (ffs_clear v)); [cbn; intros; exact I|].
  eapply (safe_bind good (fun x => x <= n /\ (ffs_clear v <> S n -> 0 < x))%nat).
  { destruct (Nat.eqb_spec (ffs_clear v) (S n)) as [Ev|Ev]; [apply s_rd; intros s Gs; split; [apply Gs|intro; contradiction]|]. assert (X : (ffs_clear v <= n /\ (ffs_clear v <> S n -> 0 < ffs_clear v))%nat) by lia. exact X. }
  intros pos [Hpos Hpos2].
  destruct (Nat.eqb (ffs_clear v) (S n) && Nat.eqb pos 0) eqn:E0; [cbn; intros; exact I|].
  assert (Hp0 : (0 < pos <= n)%nat).
  { apply Bool.andb_false_iff in E0. destruct E0 as [E0|E0]; apply Nat.eqb_neq in E0; [specialize (Hpos2 E0); lia|lia]. }
  eapply (safe_bind good (fun x => x <= n)%nat). { apply s_rdE; [lia|]. intros e He; apply He. } intros pv Hpv.
  eapply (safe_bind good (fun x => x <= n)%nat). { apply s_rdE; [lia|]. intros e He; apply He. } intros nx Hnx.
  do 5 (eapply (safe_bind good T); [apply s_wrE; [lia| |exact I]; intros e (Ea & Eb & [K1 K2 K3 K4 K5]); repeat split; cbn; auto|intros _ _]).
  eapply (safe_bind good T). { apply s_wrE; [lia| |exact I]. intros e He. apply eok_prev; auto. } intros _ _.
  eapply (safe_bind good T). { apply s_wrE; [lia| |exact I]. intros e He. apply eok_next; auto. } intros _ _.
  eapply (safe_bind good T). { apply safe_bump; exact Hp0. } intros _ _.
  eapply (safe_bind good T). { apply safe_victim. } intros _ _. exact I.
Qed.
Lemma safe_uncache p sz l : forall i, (0 < i)%nat -> (i + l <= S n)%nat -> safe good ans_ok (q_uncache n l i p sz).
Proof.
  induction l as [|l IH]; intros i H0 Hi; cbn [q_uncache]; [exact I|].
  eapply (safe_bind good T). { apply s_bit; [lia|exact I]. } intros k _.
  eapply (safe_bind good T). { apply s_rd. intros; exact I. } intros v _.
  eapply (safe_bind good T).
  { apply s_when; [|exact I]. intros _. eapply (safe_bind good T). { apply s_rdE; [lia|]. intros; exact I. } intros x _.
    apply s_when; [|exact I]. intros _. eapply (safe_bind good T). { apply s_rdE; [lia|]. intros; exact I. } intros y _.
    apply s_when; [|exact I]. intros _. eapply (safe_bind good T). { apply safe_unlink; lia. } intros _ _. apply s_victim. exact I. }
  intros _ _. apply IH; lia.
Qed.
Definition puts (o : cop) : Prop := match o with Fill r => fills r | _ => True end.
Lemma safe_body o : puts o -> safe good ans_ok (qbody n fuel o).
Proof. intro H. destruct o; cbn [qbody]; [apply safe_fill; exact H|apply safe_lookup|apply safe_lookup|apply safe_uncache; lia]. Qed.

(* However threads interleave, no access is outside the cache's memory and no shift is by a
   negative number; and each field of what a lookup answers was put there by some fill. *)
Theorem cconc_in_bounds : forall t0 c i, (forall i x, In x (t0 i) -> puts x) ->
  steps (code false) (start_c (init_cache n) t0) c -> tstep (code false) i c <> Some UB.
Proof.
  intros t0 c i H Hs. apply (sinv_no_ub good cop (option rcd) (code false) ans_ok puts).
  refine (sinv_steps good cop (option rcd) (code false) ans_ok puts _ _ _ Hs _); [intros x Hx; apply safe_body; exact Hx|].
  apply sinv_start; [apply good0|exact H].
Qed.
Theorem cconc_fields : forall t0 c i r, (forall i x, In x (t0 i) -> puts x) ->
  steps (code false) (start_c (init_cache n) t0) c -> In (Some r) (done_ c i) ->
  of r_base (r_base r) /\ of r_limit (r_limit r) /\ of r_type (r_type r) /\ of r_period (r_period r) /\ of r_depth (r_depth r).
Proof.
  intros t0 c i r H Hs Hr.
  destruct (sinv_steps good cop (option rcd) (code false) ans_ok puts (fun x Hx => safe_body x Hx) _ _ Hs (sinv_start good _ _ _ _ _ _ good0 H)) as (_ & _ & _ & D).
  destruct (D i (Some r) Hr). auto.
Qed.

(* ---- alone ---- *)
Definition ceq (c d : cache) : Prop :=
  c_valid c = c_valid d /\ c_size c = c_size d /\ c_victim c = c_victim d /\ c_head c = c_head d /\ c_tail c = c_tail d /\
  forall j, c_ent c j = c_ent d j.
Lemma clear2 v k : N.clearbit (N.clearbit v k) k = N.clearbit v k.
Proof. apply N.bits_inj. intro j. rewrite !N.clearbit_eqb. destruct (N.testbit v j), (k =? j)%N; reflexivity. Qed.
Ltac ent Ee := intros j; unfold upd; rewrite <- ?Ee; repeat match goal with |- context [Nat.eqb ?a ?b] => destruct (Nat.eqb_spec a b); subst; cbn end; rewrite <- ?Ee; try reflexivity; try lia.
Lemma run_unlink i c d : (0 < i <= n)%nat -> good c -> ceq c d ->
  exists c', run (q_unlink n i) c = Ok (c', tt) /\ ceq c' (unlink d i).
Proof.
  intros Hi Gc (E1 & E2 & E3 & E4 & E5 & Ee).
  destruct (g_ent c Gc i) as (Hp & Hx & _).
  assert (Li : Nat.leb i n = true) by (apply Nat.leb_le; lia).
  assert (Lp : Nat.leb (e_prev (c_ent c i)) n = true) by (apply Nat.leb_le; exact Hp).
  assert (Lx : Nat.leb (e_next (c_ent c i)) n = true) by (apply Nat.leb_le; exact Hx).
  assert (I0 : Nat.eqb i 0 = false) by (apply Nat.eqb_neq; lia).
  unfold unlink. rewrite <- E1, <- E2, <- E4, <- E5, <- (Ee i).
  unfold q_unlink, bit, rd, w_valid, w_victim, w_head, w_tail, wr, rdE, wrE, when.
  cbn [bindp run bind]. rewrite I0. cbn [bindp run bind c_ent]. rewrite ?Li. cbn [bindp run bind c_ent]. rewrite ?Li. cbn [bindp run bind c_ent].
  set (pv := e_prev (c_ent c i)) in *. set (nx := e_next (c_ent c i)) in *.
  destruct (Nat.eqb pv 0) eqn:P0; cbn [negb bindp run bind c_ent]; rewrite ?Lp; cbn [bindp run bind c_ent];
  (destruct (Nat.eqb nx 0) eqn:X0; cbn [negb bindp run bind c_ent]; rewrite ?Lx; cbn [bindp run bind c_ent c_head c_tail c_valid c_size c_victim];
  (destruct (Nat.eqb (c_head c) i); cbn [bindp run bind c_ent c_head c_tail c_valid c_size c_victim];
  (destruct (Nat.eqb (c_tail c) i); cbn [bindp run bind c_ent c_head c_tail c_valid c_size c_victim];
   (eexists; split; [reflexivity|]; repeat split; cbn [c_ent c_head c_tail c_valid c_size c_victim]; [apply clear2|ent Ee])))).
Qed.
Lemma run_push i c d : (0 < i <= n)%nat -> good c -> ceq c d ->
  exists c', run (q_push n i) c = Ok (c', tt) /\ ceq c' (push_head_mru d i).
Proof.
  intros Hi Gc (E1 & E2 & E3 & E4 & E5 & Ee).
  assert (Li : Nat.leb i n = true) by (apply Nat.leb_le; lia).
  assert (Lh : Nat.leb (c_head c) n = true) by (apply Nat.leb_le; apply Gc).
  assert (I0 : Nat.eqb i 0 = false) by (apply Nat.eqb_neq; lia).
  unfold push_head_mru. rewrite <- E1, <- E2, <- E3, <- E4, <- E5.
  unfold q_push, bit, rd, w_valid, w_victim, w_head, w_tail, wr, rdE, wrE, when.
  cbn [bindp run bind c_ent]. rewrite ?Li. cbn [bindp run bind c_ent c_head c_tail c_valid c_size c_victim]. rewrite ?Li. cbn [bindp run bind c_ent c_head c_tail c_valid c_size c_victim].
  destruct (Nat.eqb (c_head c) 0) eqn:H0; cbn [negb bindp run bind c_ent c_head c_tail c_valid c_size c_victim]; rewrite ?Lh; cbn [bindp run bind c_ent c_head c_tail c_valid c_size c_victim];
  (destruct (Nat.eqb (c_tail c) 0) eqn:T0; cbn [bindp run bind c_ent c_head c_tail c_valid c_size c_victim]; rewrite I0; cbn [bindp run bind c_ent c_head c_tail c_valid c_size c_victim];
   (eexists; split; [reflexivity|]; repeat split; cbn [c_ent c_head c_tail c_valid c_size c_victim]; ent Ee)).
Qed.
Lemma ceq_refl c : ceq c c. Proof. repeat split. Qed.
Lemma run_good {R} (p : prog cache R) Q c c' r : safe good Q p -> good c -> run p c = Ok (c', r) -> good c'.
Proof. intros S G E. destruct (safe_run good Q p S c c' r G E). assumption. Qed.
Lemma run_bump i c d : (0 < i <= n)%nat -> good c -> ceq c d ->
  exists c', run (q_bump_mru n i) c = Ok (c', tt) /\ ceq c' (bump_mru d i).
Proof.
  intros Hi Gc Ec. assert (I0 : Nat.eqb i 0 = false) by (apply Nat.eqb_neq; lia).
  assert (Ec' := Ec). destruct Ec' as (E1 & E2 & E3 & E4 & E5 & Ee).
  unfold q_bump_mru, bump_mru. cbn [rd bindp run bind]. rewrite <- E4. unfold when at 1. destruct (Nat.eqb (c_head c) i); cbn [negb].
  - exists c. split; [reflexivity|exact Ec].
  - cbn [bit bindp run bind]. rewrite I0. cbn [rd bindp run bind]. unfold valid. rewrite <- E1.
    rewrite run_bind. destruct (N.testbit (c_valid c) (N.of_nat (i - 1))); cbn [when].
    + destruct (run_unlink i c d Hi Gc Ec) as (c1 & R1 & Q1). rewrite R1. cbn [bind].
      apply run_push; [exact Hi| |exact Q1]. eapply run_good; [apply (safe_unlink i Hi)|exact Gc|exact R1].
    + cbn [run bind]. apply run_push; auto.
Qed.
Lemma run_victim i c d : good c -> ceq c d -> exists c', run (q_bump_victim n i) c = Ok (c', tt) /\ ceq c' (bump_victim d i).
Proof.
  intros Gc Ec. assert (Ec' := Ec). destruct Ec' as (E1 & E2 & E3 & E4 & E5 & Ee). pose proof (g_size c Gc) as Gs.
  unfold q_bump_victim, bump_victim. rewrite <- E1, <- E2, <- E3, <- E4, <- E5, Gs. cbn [rd bindp run bind].
  destruct (Nat.eqb (c_victim c) i); cbn [andb]; [|exists c; split; [reflexivity|exact Ec]].
  destruct (Nat.ltb 0 n); cbn [when]; [|exists c; split; [reflexivity|exact Ec]].
  eexists. split; [reflexivity|]. repeat split; cbn; auto.
Qed.
Lemma run_fields i c : (i <= n)%nat -> run (q_fields n i) c =
  Ok (c, let r := e_rcd (c_ent c i) in mkR (r_base r) (r_limit r) (r_type r) (r_period r) 0).
Proof. intro Hi. unfold q_fields, rdE. cbn [bindp run bind]. repeat (rewrite (proj2 (Nat.leb_le i n) Hi); cbn [bindp run bind]). reflexivity. Qed.
Definition flat (test : rcd -> bool) : Prop := forall b l t p d, test (mkR b l t p d) = test (mkR b l t p 0).
Lemma run_find test f : flat test -> forall i c d o, (i <= n)%nat -> good c -> ceq c d ->
  find_slot f d test i = Ok o -> run (q_find n f test i) c = Ok (c, o).
Proof.
  intro Ft. induction f as [|f IH]; intros i c d o Hi Gc Ec E; [discriminate|]. cbn [find_slot q_find] in *.
  destruct (Nat.eqb i 0) eqn:I0; [injection E; intros <-; reflexivity|].
  assert (Ec' := Ec). destruct Ec' as (E1 & E2 & E3 & E4 & E5 & Ee).
  unfold bit at 1. cbn [bindp run bind]. rewrite I0. cbn [rd bindp run bind]. unfold valid in E. rewrite <- E1, <- (Ee i) in E.
  rewrite run_bind.
  set (hit := N.testbit (c_valid c) (N.of_nat (i - 1)) && test (e_rcd (c_ent c i))) in *.
  assert (Eh : run (if N.testbit (c_valid c) (N.of_nat (i - 1)) then pdo r <- q_fields n i ; Ret (test r) else Ret false) c = Ok (c, hit)).
  { unfold hit. destruct (N.testbit _ _); [|reflexivity]. rewrite run_bind, run_fields by exact Hi. cbn [bind run andb]. f_equal. f_equal.
    destruct (e_rcd (c_ent c i)); cbn. symmetry. apply Ft. }
  rewrite Eh. cbn [bind]. destruct hit; [injection E; intros <-; reflexivity|].
  unfold rdE. cbn [bindp run bind]. rewrite (proj2 (Nat.leb_le i n) Hi). cbn [bindp run bind].
  apply IH with (d := d); auto. apply Gc.
Qed.
Lemma find_slot_more test c : forall f i o, find_slot f c test i = Ok o -> forall g, (f <= g)%nat -> find_slot g c test i = Ok o.
Proof.
  induction f as [|f IH]; intros i o E g Hg; [discriminate|]. destruct g as [|g]; [lia|]. cbn [find_slot] in *.
  destruct (Nat.eqb i 0); [exact E|]. destruct (valid c i && test (e_rcd (c_ent c i))); [exact E|]. apply IH; [exact E|lia].
Qed.
Hypothesis Hfuel : (S (S n) <= fuel)%nat.
Lemma find_slot_range test c : forall f i o, (forall j, (e_next (c_ent c j) <= n)%nat) -> (i <= n)%nat -> find_slot f c test i = Ok (Some o) -> (0 < o <= n)%nat.
Proof.
  induction f as [|f IH]; intros i o H Hi E; [discriminate|]. cbn [find_slot] in E.
  destruct (Nat.eqb_spec i 0); [discriminate|]. destruct (valid c i && test (e_rcd (c_ent c i))); [injection E; intros <-; lia|]. apply (IH (e_next (c_ent c i)) o H (H i) E).
Qed.
Lemma run_lookup test c d d' a : flat test -> good c -> ceq c d -> lookup d test = Ok (d', a) ->
  exists c', run (q_lookup n fuel test) c = Ok (c', a) /\ ceq c' d'.
Proof.
  intros Ft Gc Ec E. assert (Ec' := Ec). destruct Ec' as (E1 & E2 & E3 & E4 & E5 & Ee).
  unfold lookup in E. rewrite <- E2, (g_size c Gc), <- E4 in E.
  destruct (find_slot (S (S n)) d test (c_head c)) as [o| | |] eqn:Ef; try discriminate. cbn [bind] in E.
  unfold q_lookup. cbn [rd bindp run bind]. rewrite run_bind.
  rewrite (run_find test fuel Ft (c_head c) c d o (g_head c Gc) Gc Ec (find_slot_more _ _ _ _ _ Ef _ Hfuel)). cbn [bind].
  destruct o as [i|]; [|injection E; intros <- <-; exists c; split; [reflexivity|exact Ec]].
  assert (Hi : (0 < i <= n)%nat).
  { apply (find_slot_range test d _ _ _) in Ef; [exact Ef| |apply Gc]. intro j. rewrite <- Ee. apply Gc. }
  destruct (run_bump i c d Hi Gc Ec) as (c1 & R1 & Q1). rewrite run_bind, R1. cbn [bind].
  rewrite run_bind, run_fields by lia. unfold rdE. cbn [bind bindp run]. rewrite (proj2 (Nat.leb_le i n)) by lia. cbn [bind bindp run].
  injection E; intros <- <-. exists c1. split; [|exact Q1]. destruct Q1 as (_ & _ & _ & _ & _ & Q). rewrite (Q i). cbn. destruct (e_rcd _); reflexivity.
Qed.
Definition putE (c : cache) (i : nat) (g : entry -> entry) : cache :=
  mkC (c_valid c) (c_size c) (c_victim c) (c_head c) (c_tail c) (upd (c_ent c) i (g (c_ent c i))).
Lemma run_putE {R} i g (k : unit -> prog cache R) c : (i <= n)%nat -> run (bindp (wrE n i g) k) c = run (k tt) (putE c i g).
Proof. intro Hi. unfold wrE. cbn [bindp run]. rewrite (proj2 (Nat.leb_le i n) Hi). reflexivity. Qed.
Lemma putE_ent c0 c i g e : (forall j, c_ent c j = if Nat.eqb j i then e else c_ent c0 j) ->
  forall j, c_ent (putE c i g) j = if Nat.eqb j i then g e else c_ent c0 j.
Proof. intros H j. unfold putE, upd. cbn [c_ent]. rewrite !H, Nat.eqb_refl. destruct (Nat.eqb j i); reflexivity. Qed.
Lemma run_fill r c d d' : fills r -> good c -> ceq c d -> cache_with_type d r = Ok d' ->
  exists c', run (q_fill n r) c = Ok (c', None) /\ ceq c' d'.
Proof.
  intros Hr Gc Ec E. assert (Ec' := Ec). destruct Ec' as (E1 & E2 & E3 & E4 & E5 & Ee).
  unfold cache_with_type in E. rewrite <- E1, <- E2, <- E5, (g_size c Gc) in E.
  unfold q_fill. cbn [rd bindp run bind]. set (p := ffs_clear (c_valid c)) in *.
  destruct (Nat.ltb (S n) p); [discriminate|].
  set (pos := if Nat.eqb p (S n) then c_tail c else p) in *.
  rewrite run_bind.
  assert (Ep : run (if Nat.eqb p (S n) then rd c_tail else Ret p) c = Ok (c, pos)) by (unfold pos; destruct (Nat.eqb p (S n)); reflexivity).
  unfold rd in Ep. unfold rd. rewrite Ep. cbn [bind].
  destruct (Nat.eqb p (S n) && Nat.eqb pos 0); [discriminate|].
  destruct (Nat.eqb pos 0 || Nat.ltb n pos) eqn:Eb; [discriminate|].
  apply Bool.orb_false_iff in Eb. destruct Eb as [Eb1 Eb2]. apply Nat.eqb_neq in Eb1. apply Nat.ltb_ge in Eb2.
  assert (Lp : Nat.leb pos n = true) by (apply Nat.leb_le; exact Eb2).
  unfold rdE at 1. cbn [bindp run bind]. rewrite Lp. cbn [bindp run bind].
  unfold rdE at 1. cbn [bindp run bind]. rewrite Lp. cbn [bindp run bind].
  rewrite !run_putE by exact Eb2.
  match goal with |- context [run _ ?cc = _] => set (c1 := cc) end.
  set (d1 := mkC _ _ _ _ _ _) in E.
  assert (Hent : forall j, c_ent c1 j = if Nat.eqb j pos then mkE r (e_prev (c_ent c pos)) (e_next (c_ent c pos)) else c_ent c j).
  { assert (H0 : forall j, c_ent c j = if Nat.eqb j pos then c_ent c pos else c_ent c j) by (intro j; destruct (Nat.eqb_spec j pos) as [->|N]; reflexivity).
    intro j. etransitivity.
    - exact ((putE_ent c _ pos _ _ (putE_ent c _ pos _ _ (putE_ent c _ pos _ _ (putE_ent c _ pos _ _ (putE_ent c _ pos _ _ (putE_ent c _ pos _ _ (putE_ent c _ pos _ _ H0))))))) j).
    - cbn beta. destruct (Nat.eqb j pos); [|reflexivity]. generalize (c_ent c pos). intros [[b0 l0 t0 p0 d0] pv0 nx0]. destruct r. reflexivity. }
  assert (Q1 : ceq c1 d1).
  { split; [reflexivity|]. split; [exact (g_size c Gc)|]. split; [exact E3|]. split; [exact E4|]. split; [reflexivity|].
    intro j. rewrite Hent. unfold d1. cbn [c_ent]. unfold upd. rewrite <- !Ee. reflexivity. }
  assert (G1 : good c1).
  { destruct Gc as [A B C D F]. constructor; [exact A|exact B|exact C|exact D|]. intro j. rewrite Hent. destruct (Nat.eqb j pos); [|apply F].
    destruct (F pos) as (F1 & F2 & _). split; [exact F1|]. split; [exact F2|]. constructor; right; exists r; auto. }
  clearbody c1. clear Hent.
  destruct (run_bump pos c1 d1 ltac:(lia) G1 Q1) as (c2 & R2 & Q2). rewrite run_bind, R2. cbn [bind].
  assert (G2 : good c2) by (eapply run_good; [apply (safe_bump pos); lia|exact G1|exact R2]).
  destruct (run_victim pos c2 _ G2 Q2) as (c3 & R3 & Q3). rewrite run_bind, R3. cbn [bind run].
  injection E; intros <-. exists c3. split; [reflexivity|exact Q3].
Qed.
Lemma run_uncache p sz l : forall i c d, (0 < i)%nat -> (i + l <= S n)%nat -> good c -> ceq c d ->
  exists c', run (q_uncache n l i p sz) c = Ok (c', None) /\ ceq c' (uncache_loop l i p sz d).
Proof.
  induction l as [|l IH]; intros i c d H0 Hi Gc Ec; cbn [q_uncache uncache_loop]; [exists c; split; [reflexivity|exact Ec]|].
  assert (Ec' := Ec). destruct Ec' as (E1 & E2 & E3 & E4 & E5 & Ee).
  assert (I0 : Nat.eqb i 0 = false) by (apply Nat.eqb_neq; lia).
  assert (Li : Nat.leb i n = true) by (apply Nat.leb_le; lia).
  unfold bit at 1. cbn [bindp run bind]. rewrite I0. cbn [rd bindp run bind]. rewrite run_bind.
  unfold valid, uncache_test. rewrite <- E1, <- (Ee i).
  destruct (N.testbit (c_valid c) (N.of_nat (i - 1))); cbn [when andb]; [|cbn [run bind]; apply IH; auto; lia].
  unfold rdE. cbn [bindp run bind]. rewrite Li. cbn [bindp run bind].
  destruct (p <=? r_base (e_rcd (c_ent c i))); cbn [when andb]; [|cbn [run bind]; apply IH; auto; lia].
  cbn [bindp run bind]. rewrite ?Li. cbn [bindp run bind].
  destruct (r_base (e_rcd (c_ent c i)) <? p + sz); cbn [when]; [|cbn [run bind]; apply IH; auto; lia].
  destruct (run_unlink i c d ltac:(lia) Gc Ec) as (c1 & R1 & Q1). rewrite run_bind, R1. cbn [w_victim wr bind run].
  assert (G1 : good c1) by (eapply run_good; [apply (safe_unlink i); lia|exact Gc|exact R1]).
  apply IH; [lia|lia| |].
  - destruct G1. constructor; cbn; auto.
  - destruct Q1 as (A & B & C & D & F & H). repeat split; cbn; auto.
Qed.
Lemma run_body o c d d' a : puts o -> good c -> ceq c d -> cstep d o = Ok (d', a) ->
  exists c', run (qbody n fuel o) c = Ok (c', a) /\ ceq c' d'.
Proof.
  intros P Gc Ec E. destruct o as [r|obj t per|obj per|p sz]; cbn [cstep qbody] in *.
  - destruct (cache_with_type d r) as [d1| | |] eqn:E1; try discriminate. injection E; intros <- <-. apply run_fill with (d := d); auto.
  - apply run_lookup with (d := d); auto. intros b l t' p' dd. reflexivity.
  - apply run_lookup with (d := d); auto. intros b l t' p' dd. reflexivity.
  - injection E; intros <- <-. unfold uncache_all. destruct Ec as (E1 & E2 & Er). rewrite <- E2, (g_size c Gc). apply run_uncache; auto; try lia. repeat split; try apply Er; auto.
Qed.


Lemma bal_when b (p : prog cache unit) : bal cache 0 p -> bal cache 0 (when b p).
Proof. destruct b; cbn; auto. Qed.
Ltac bb := repeat first [apply bal_when | apply bal_bind; [|intros ?] | (cbn; intros; reflexivity)].
Lemma bal_unlink i : bal cache 0 (q_unlink n i).
Proof. clear. unfold q_unlink. bb. Qed.
Lemma bal_push i : bal cache 0 (q_push n i).
Proof. clear. unfold q_push. bb. Qed.
Lemma bal_bump i : bal cache 0 (q_bump_mru n i).
Proof. clear. unfold q_bump_mru. apply bal_bind; [cbn; auto|intro h]. apply bal_when. apply bal_bind; [cbn; auto|intro k]. apply bal_bind; [cbn; auto|intro v]. apply bal_bind; [apply bal_when, bal_unlink|intros _; apply bal_push]. Qed.
Lemma bal_fields i : bal cache 0 (q_fields n i).
Proof. clear. unfold q_fields. bb. Qed.
Lemma bal_find test f : forall i, bal cache 0 (q_find n f test i).
Proof.
  clear. induction f as [|f IH]; intro i; cbn [q_find]; [cbn; auto|]. destruct (Nat.eqb i 0); [reflexivity|].
  apply bal_bind; [cbn; auto|intro k]. apply bal_bind; [cbn; auto|intro v].
  apply bal_bind; [destruct (N.testbit v k); [apply bal_bind; [apply bal_fields|reflexivity]|reflexivity]|].
  intros [|]; [reflexivity|]. apply bal_bind; [cbn; auto|]. exact IH.
Qed.
Lemma bal_body o : bal cache 0 (qbody n fuel o).
Proof.
  clear. assert (L : forall test, bal cache 0 (q_lookup n fuel test)).
  { intro test. unfold q_lookup. apply bal_bind; [cbn; auto|intro h]. apply bal_bind; [apply bal_find|]. intros [i|]; [|reflexivity].
    apply bal_bind; [apply bal_bump|intros _]. apply bal_bind; [apply bal_fields|intro r]. bb. }
  destruct o as [r|obj t per|obj per|p sz]; cbn [qbody]; [|apply L|apply L|].
  - unfold q_fill. apply bal_bind; [cbn; auto|intro v]. destruct (Nat.ltb _ _); [cbn; auto|].
    apply bal_bind; [destruct (Nat.eqb _ _); cbn; auto|intro pos]. destruct (_ && _); [cbn; auto|].
    do 9 (apply bal_bind; [cbn; auto|intros ?]). apply bal_bind; [apply bal_bump|intros _].
    apply bal_bind; [unfold q_bump_victim; bb|reflexivity].
  - generalize n at 2. intro l. generalize 1%nat. induction l as [|l IH]; intro i; cbn [q_uncache]; [reflexivity|].
    apply bal_bind; [cbn; auto|intro b]. apply bal_bind; [cbn; auto|intro v]. apply bal_bind; [|intros _; apply IH].
    apply bal_when. apply bal_bind; [cbn; auto|intro x]. apply bal_when. apply bal_bind; [cbn; auto|intro y]. apply bal_when. apply bal_bind; [apply bal_unlink|cbn; auto].
Qed.

(* If every call held one lock: whatever the schedule, the calls answer as if made one after
   another to the cache of C18-C20, which is a least-recently-used one. *)
Definition qsem (o : cop) (c : cache) : res (cache * option rcd) := run (qbody n fuel o) c.
Lemma crun_snoc h : forall c o c1 outs c2 a, crun c h = Ok (c1, outs) -> cstep c1 o = Ok (c2, a) -> crun c (h ++ [o]) = Ok (c2, outs ++ [a]).
Proof.
  clear. induction h as [|x h IH]; intros c o c1 outs c2 a E1 E2; cbn [app crun] in *.
  - injection E1; intros <- <-. rewrite E2. reflexivity.
  - destruct (cstep c x) as [[c' b]| | |]; try discriminate. cbn [bind] in *. destruct (crun c' h) as [[c3 o3]| | |] eqn:E3; try discriminate.
    cbn [bind] in E1. injection E1; intros <- <-. rewrite (IH c' o c3 o3 c2 a E3 E2). reflexivity.
Qed.
Lemma crun_split h : forall c o c2 outs, crun c (h ++ [o]) = Ok (c2, outs) -> exists c1 o1 a, crun c h = Ok (c1, o1) /\ cstep c1 o = Ok (c2, a).
Proof.
  clear. induction h as [|x h IH]; intros c o c2 outs E; cbn [app crun] in *.
  - destruct (cstep c o) as [[c' b]| | |] eqn:E0; try discriminate. cbn in E. injection E; intros _ <-. exists c, [], b. split; [reflexivity|exact E0].
  - destruct (cstep c x) as [[c' b]| | |]; try discriminate. cbn [bind] in *.
    destruct (crun c' (h ++ [o])) as [[c3 o3]| | |] eqn:E3; try discriminate. cbn in E. injection E; intros _ <-.
    destruct (IH _ _ _ _ E3) as (c1 & o1 & a & A & B). rewrite A. cbn [bind]. exists c1, (b :: o1), a. split; [reflexivity|exact B].
Qed.
Lemma serial_cache l s : serial qsem (init_cache n) l s -> (forall e, In e l -> puts (snd (fst e))) ->
  exists d, crun (init_cache n) (map (fun e => snd (fst e)) l) = Ok (d, map snd l) /\ ceq s d /\ good s.
Proof.
  induction 1 as [|l s i x r s' H IH E]; intro P.
  - exists (init_cache n). split; [reflexivity|]. split; [apply ceq_refl|apply good0].
  - destruct IH as (d & R1 & Q1 & G1); [intros e He; apply P, in_or_app; auto|].
    assert (Px : puts x) by (apply (P (i, x, r)), in_or_app; right; left; reflexivity).
    destruct (cache_structure_always n (map (fun e => snd (fst e)) l ++ [x]) Hn) as (d2 & outs & ll & R2 & _).
    destruct (crun_split _ _ _ _ _ R2) as (d1 & o1 & a & R3 & R4). assert (d1 = d) by congruence. subst d1.
    destruct (run_body x s d d2 a Px G1 Q1 R4) as (s2 & R5 & Q2). unfold qsem in E. rewrite R5 in E. injection E; intros <- <-.
    exists d2. split; [|split; [exact Q2|]].
    + rewrite !map_app. cbn. apply crun_snoc with (c1 := d); auto.
    + eapply run_good; [apply (safe_body x Px)|exact G1|exact R5].
Qed.
Theorem cconc_held_lru : forall t0 c, (forall i x, In x (t0 i) -> puts x) ->
  steps (code true) (start_c (init_cache n) t0) c ->
  exists l s d, accounts qsem (init_cache n) t0 c l s /\
    crun (init_cache n) (map (fun e => snd (fst e)) l) = Ok (d, map snd l) /\ ceq s d.
Proof.
  intros t0 c P H.
  assert (H1 : forall i x s, In x (t0 i) -> run (code true x) s = qsem x s) by (intros; unfold qcode; apply run_locked).
  assert (H2 : forall i x, In x (t0 i) -> wl cache 0 (code true x)) by (intros; apply wl_locked, bal_body).
  destruct (cinv_steps cache cop (option rcd) (code true) qsem (init_cache n) t0 H1 H2 _ _ H [] (init_cache n) (cinv_init _ _ _ _ _ _)) as (l & s & I).
  apply cinv_accounts in I. cbn [app] in I. exists l, s.
  destruct (serial_cache l s (ac_serial _ _ _ _ _ _ _ _ _ I)) as (d & R1 & Q1 & _).
  - intros [[i x] r] He. cbn. apply (P i). destruct (ac_order _ _ _ _ _ _ _ _ _ I i) as (rest & ->). apply in_or_app. left.
    unfold calls, mine. apply in_map_iff. exists (i, x, r). split; [reflexivity|]. apply filter_In. split; [exact He|]. cbn. apply Nat.eqb_refl.
  - exists d. auto.
Qed.
End Props.

Module CcEx.
  Definition R1 : rcd := mkR 100 110 7 1 0.
  Definition R2 : rcd := mkR 200 205 8 1 0.
  Definition R3 : rcd := mkR 300 310 9 1 0.
  Definition RA : rcd := mkR 100 300 7 1 0.
  Definition RB : rcd := mkR 150 160 8 1 0.
  Definition two (x y : list cop) (i : nat) : list cop := match i with 0%nat => x | 1%nat => y | _ => [] end.
  Lemma seen {X} (f : config cache cop (option rcd) -> X) (o : option (config cache cop (option rcd))) v :
    option_map f o = Some v -> exists c, o = Some c /\ f c = v.
  Proof. destruct o as [c|]; cbn; intro H; [|discriminate]. exists c. split; [reflexivity|]. injection H. auto. Qed.

  (* the hypotheses are met: two threads fill and look up, interleaved, and both lookups hit *)
  Definition ok_calls := two [Fill R1; LookAny 105 0] [Fill R2; Look 200 8 0].
  Example held_case : exists c, exec (qcode 8 10 true) (repeat 0%nat 29 ++ repeat 1%nat 47 ++ repeat 0%nat 49) (start_c (init_cache 8) ok_calls) = Some c /\
    (forall i x, In x (ok_calls i) -> puts (fun _ => True) x) /\ done_ c 0%nat = [None; Some R1] /\ done_ c 1%nat = [None; Some R2].
  Proof.
    destruct (seen (fun c => (done_ c 0%nat, done_ c 1%nat)) (exec (qcode 8 10 true) (repeat 0%nat 29 ++ repeat 1%nat 47 ++ repeat 0%nat 49) (start_c (init_cache 8) ok_calls))
      ([None; Some R1], [None; Some R2])) as (c & E & H); [vm_compute; reflexivity|].
    exists c. split; [exact E|]. split; [|injection H; auto]. intros i x _. destruct x; exact I.
  Qed.
  Example free_case : exists c, exec (qcode 8 10 false) ((repeat 0%nat 9 ++ [1;1;1]) ++ repeat 0%nat 18)%nat (start_c (init_cache 8) (two [Fill R1] [LookAny 105 0])) = Some c /\
    (forall i x, In x (two [Fill R1] [LookAny 105 0] i) -> puts (fun r => r = R1) x) /\ done_ c 0%nat = [None].
  Proof.
    destruct (seen (fun c => done_ c 0%nat) (exec (qcode 8 10 false) ((repeat 0%nat 9 ++ [1;1;1]) ++ repeat 0%nat 18)%nat (start_c (init_cache 8) (two [Fill R1] [LookAny 105 0])))
      [None]) as (c & E & H); [vm_compute; reflexivity|].
    exists c. split; [exact E|]. split; [|exact H]. intros [|[|i]] x; cbn; [intros [<-|[]]; reflexivity|intros [<-|[]]; exact I|intros []].
  Qed.

  (* A lookup, while another thread empties and refills an entry, answers with a range which was
     never put in and does not contain the address asked for. *)
  Theorem cconc_torn_refuted : exists t0 sched c r,
    exec (qcode 8 10 false) sched (start_c (init_cache 8) t0) = Some c /\
    t0 0%nat = [Fill RA; Uncache 100 200; Fill RB] /\ t0 1%nat = [LookAny 170 0] /\
    done_ c 1%nat = [Some r] /\ ~ (r_base r <= 170 < r_limit r) /\ r <> RA /\ r <> RB.
  Proof.
    set (t := two [Fill RA; Uncache 100 200; Fill RB] [LookAny 170 0]).
    set (w := (repeat 0%nat 33 ++ repeat 1%nat 10 ++ repeat 0%nat 54 ++ repeat 1%nat 5)).
    destruct (seen (fun c => done_ c 1%nat) (exec (qcode 8 10 false) w (start_c (init_cache 8) t)) [Some (mkR 150 160 7 1 0)]) as (c & E & H); [vm_compute; reflexivity|].
    exists t, w, c, (mkR 150 160 7 1 0). split; [exact E|]. split; [reflexivity|]. split; [reflexivity|]. split; [exact H|]. cbn. split; [lia|]. split; discriminate.
  Qed.
  (* What one thread has removed, because it is freed, another's lookup puts back. *)
  Theorem cconc_stale_refuted : exists t0 sched c,
    exec (qcode 8 10 false) sched (start_c (init_cache 8) t0) = Some c /\
    t0 0%nat = [Fill R1; Fill R2; Uncache 100 10; LookAny 100 0] /\ t0 1%nat = [LookAny 100 0] /\
    done_ c 0%nat = [None; None; None; Some R1] /\ done_ c 1%nat = [Some R1].
  Proof.
    set (t := two [Fill R1; Fill R2; Uncache 100 10; LookAny 100 0] [LookAny 100 0]).
    set (w := (repeat 0%nat 55 ++ repeat 1%nat 29 ++ repeat 0%nat 20 ++ repeat 1%nat 18 ++ repeat 0%nat 15)).
    destruct (seen (fun c => (done_ c 0%nat, done_ c 1%nat)) (exec (qcode 8 10 false) w (start_c (init_cache 8) t)) ([None; None; None; Some R1], [Some R1])) as (c & E & H); [vm_compute; reflexivity|].
    exists t, w, c. split; [exact E|]. split; [reflexivity|]. split; [reflexivity|]. injection H; auto.
  Qed.
  (* Two lookups of cached objects leave the recency list going round: a lookup of an address
     which is not cached then never ends. *)
  Lemma loops c test : good 8 (fun _ => True) c ->
    (forall i, In i [1;2;3]%nat -> In (e_next (c_ent c i)) [1;2;3]%nat) ->
    (forall i, In i [1;2;3]%nat -> let r := e_rcd (c_ent c i) in test (mkR (r_base r) (r_limit r) (r_type r) (r_period r) 0) = false) ->
    forall f i, In i [1;2;3]%nat -> run (q_find 8 f test i) c = Fuel.
  Proof.
    intros G Hx Ht. induction f as [|f IH]; intros i Hi; [reflexivity|]. cbn [q_find].
    assert (I0 : Nat.eqb i 0 = false) by (apply Nat.eqb_neq; cbn in Hi; lia).
    assert (Li : (i <= 8)%nat) by (cbn in Hi; lia).
    rewrite I0. unfold bit at 1. cbn [bindp run bind]. rewrite I0. cbn [rd bindp run bind]. rewrite run_bind.
    assert (Eh : run (if N.testbit (c_valid c) (N.of_nat (i - 1)) then pdo r <- q_fields 8 i ; Ret (test r) else Ret false) c = Ok (c, false)).
    { destruct (N.testbit _ _); [|reflexivity]. rewrite run_bind, run_fields by exact Li. cbn [bind run]. rewrite (Ht i Hi). reflexivity. }
    rewrite Eh. cbn [bind]. unfold rdE. cbn [bindp run]. rewrite (proj2 (Nat.leb_le i 8) Li). cbn [bind run bindp]. apply IH, Hx, Hi.
  Qed.
  Theorem cconc_endless_refuted : exists t0 sched c,
    exec (qcode 8 10 false) sched (start_c (init_cache 8) t0) = Some c /\
    t0 0%nat = [Fill R1; Fill R2; Fill R3; LookAny 100 0] /\ t0 1%nat = [LookAny 200 0] /\
    done_ c 0%nat = [None; None; None; Some R1] /\ done_ c 1%nat = [Some R2] /\
    forall fuel, run (q_lookup 8 fuel (hit_untyped 999 0)) (sh c) = Fuel.
  Proof.
    set (t := two [Fill R1; Fill R2; Fill R3; LookAny 100 0] [LookAny 200 0]).
    set (w := (repeat 0%nat 83 ++ repeat 1%nat 24 ++ repeat 0%nat 50 ++ repeat 1%nat 24)).
    destruct (seen (fun c => (done_ c 0%nat, done_ c 1%nat, c_head (sh c), map (fun i => e_next (c_ent (sh c) i)) [1;2;3]%nat, map (fun i => e_rcd (c_ent (sh c) i)) [1;2;3]%nat))
      (exec (qcode 8 10 false) w (start_c (init_cache 8) t)) ([None; None; None; Some R1], [Some R2], 2, [3;1;1], [R1; R2; R3])%nat) as (c & E & H); [vm_compute; reflexivity|].
    exists t, w, c. split; [exact E|]. split; [reflexivity|]. split; [reflexivity|].
    injection H; intros E3 E2 E1 N3 N2 N1 Eh D1 D0. split; [exact D0|]. split; [exact D1|].
    intro fuel. unfold q_lookup. cbn [rd bindp run bind]. rewrite run_bind, Eh.
    rewrite loops; [reflexivity| | | |right; left; reflexivity].
    - apply exec_steps in E. assert (H8 : (0 < 8 < 32)%nat) by lia. assert (Hall : forall i x, In x (t i) -> puts (fun _ => True) x) by (intros i x _; destruct x; exact I).
      exact (proj1 (sinv_steps (good 8 (fun _ => True)) cop (option rcd) (qcode 8 10 false) (ans_ok (fun _ => True)) (puts (fun _ => True))
        (fun x Hx => safe_body 8 10 H8 (fun _ => True) x Hx) _ _ E
        (sinv_start _ _ _ _ _ _ _ (good0 8 H8 (fun _ => True)) Hall))).
    - intros i [<-|[<-|[<-|[]]]]; rewrite ?N1, ?N2, ?N3; cbn; auto.
    - intros i [<-|[<-|[<-|[]]]]; rewrite ?E1, ?E2, ?E3; reflexivity.
  Qed.
  (* In a full cache which has lost its tail, a fill aborts. *)
  Theorem cconc_abort_refuted : exists t0 sched c,
    exec (qcode 1 10 false) sched (start_c (init_cache 1) t0) = Some c /\
    t0 0%nat = [Fill R1; Uncache 100 10; Fill R3] /\ t0 1%nat = [Fill R2] /\ tstep (qcode 1 10 false) 0 c = Some Abort.
  Proof.
    set (t := two [Fill R1; Uncache 100 10; Fill R3] [Fill R2]).
    set (w := (repeat 0%nat 27 ++ repeat 0%nat 14 ++ repeat 1%nat 20 ++ repeat 0%nat 5 ++ repeat 1%nat 6 ++ repeat 0%nat 3)).
    destruct (seen (fun c => match tstep (qcode 1 10 false) 0 c with Some Abort => true | _ => false end)
      (exec (qcode 1 10 false) w (start_c (init_cache 1) t)) true) as (c & E & H); [vm_compute; reflexivity|].
    exists t, w, c. split; [exact E|]. split; [reflexivity|]. split; [reflexivity|].
    revert H. clear E. destruct (tstep (qcode 1 10 false) 0 c) as [[| | |]|]; intro H; try discriminate H. reflexivity.
  Qed.
End CcEx.

Print Assumptions cconc_in_bounds.
Print Assumptions cconc_fields.
Print Assumptions cconc_held_lru.
Print Assumptions CcEx.cconc_torn_refuted.
Print Assumptions CcEx.cconc_stale_refuted.
Print Assumptions CcEx.cconc_endless_refuted.
Print Assumptions CcEx.cconc_abort_refuted.
