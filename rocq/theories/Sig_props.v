From Coq Require Import ZArith List Bool Lia ZifyBool.
From Verif Require Import Sig_model Sig_spec.
Import ListNotations.
Local Open Scope Z_scope.

(* ---- Signals ---- *)

(* the calls that preload.c wraps *)
Definition wrapped (o : sop) : bool :=
  match o with Signal _ _ | Sigaction _ _ => true | _ => false end.

(* However a program uses signal and sigaction, the handler that system calls
   are seen by stays. *)
Theorem sig_trap_kept : forall l p, forallb wrapped l = true ->
  disp (snd (w_run l p)) SIGILL = disp p SIGILL /\ blocked (snd (w_run l p)) = blocked p.
Proof.
  induction l as [|o l IH]; intros p W; [split; reflexivity|].
  cbn [forallb] in W. apply andb_true_iff in W. destruct W as [WO W].
  cbn [w_run]. destruct (w_step o p) as [a p1] eqn:E.
  assert (K : disp p1 SIGILL = disp p SIGILL /\ blocked p1 = blocked p).
  { destruct o as [n h|n act|n h|b]; try discriminate; cbn [w_step] in E.
    - unfold w_signal, c_signal in E. destruct (n =? SIGILL) eqn:N; [injection E as _ <-; split; reflexivity|].
      destruct ((h =? SIG_ERR) || negb (valid_sig n) || fixed_sig n); injection E as _ <-; [split; reflexivity|].
      cbn [disp blocked set_disp]. rewrite Z.eqb_sym, N. split; reflexivity.
    - unfold w_sigaction, c_sigaction in E. destruct act as [h|].
      + destruct (n =? SIGILL) eqn:N; [injection E as _ <-; split; reflexivity|].
        destruct (negb (valid_sig n)); [injection E as _ <-; split; reflexivity|].
        destruct (fixed_sig n); injection E as _ <-; [split; reflexivity|].
        cbn [disp blocked set_disp]. rewrite Z.eqb_sym, N. split; reflexivity.
      + destruct (negb (valid_sig n)); injection E as _ <-; split; reflexivity. }
  specialize (IH p1 W). destruct (w_run l p1) as [r p2]. cbn [snd] in *.
  destruct IH as [-> ->]. exact K.
Qed.

(* What the program would see without the library: the same calls go to the C
   library alone.  Two states agree if they differ at most in SIGILL's handler
   and in errno. *)
Definition c_step (o : sop) (p : proc) : ans * proc :=
  match o with
  | Signal n h | Bsd n h => let '(r, p) := c_signal n h p in ((r, None), p)
  | Sigaction n a => c_sigaction n a p
  | Block b => ((0, None), mkproc (disp p) b (errno p))
  end.
Fixpoint c_run (l : list sop) (p : proc) : list ans * proc :=
  match l with
  | [] => ([], p)
  | o :: l => let '(a, p) := c_step o p in let '(r, p) := c_run l p in (a :: r, p)
  end.

Definition on_ill (o : sop) : bool :=
  match o with
  | Signal n _ | Sigaction n _ | Bsd n _ => n =? SIGILL
  | Block _ => false
  end.
Definition agree (p q : proc) : Prop :=
  blocked p = blocked q /\ forall n, n <> SIGILL -> disp p n = disp q n.

(* Every call about another signal has the answer, and every other signal the
   handler, that it would have without the library, whatever was asked of
   SIGILL in between. *)
Theorem sig_others : forall l p q, agree p q ->
  agree (snd (w_run l p)) (snd (c_run l q)) /\
  Forall2 (fun o ab => on_ill o = false -> fst ab = snd ab)
    l (combine (fst (w_run l p)) (fst (c_run l q))).
Proof.
  induction l as [|o l IH]; intros p q A; [split; [exact A|constructor]|].
  cbn [w_run c_run]. destruct (w_step o p) as [a p1] eqn:E1. destruct (c_step o q) as [b q1] eqn:E2.
  assert (K : agree p1 q1 /\ (on_ill o = false -> a = b)).
  { destruct A as [A1 A2].
    assert (SD : forall n h, agree (set_disp n h p) (set_disp n h q)).
    { intros n h. split; [exact A1|]. intros m M. cbn [disp set_disp]. destruct (m =? n); [reflexivity|apply A2, M]. }
    assert (SE : forall e e', agree (set_errno e p) (set_errno e' q)) by (intros; split; [exact A1|exact A2]).
    assert (SIN : forall n h r1 p2 r2 q2, n <> SIGILL -> c_signal n h p = (r1, p2) -> c_signal n h q = (r2, q2) ->
              agree p2 q2 /\ r1 = r2).
    { intros n h r1 p2 r2 q2 N C1 C2. unfold c_signal in *.
      destruct ((h =? SIG_ERR) || negb (valid_sig n) || fixed_sig n); injection C1 as <- <-; injection C2 as <- <-;
        [split; [apply SE|reflexivity]|split; [apply SD|apply A2, N]]. }
    assert (ILL : forall h r2 q2, c_signal SIGILL h q = (r2, q2) -> agree p q2).
    { intros h r2 q2 C. unfold c_signal in C. destruct (_ || _); injection C as _ <-; (split; [exact A1|]);
        intros m M; cbn [disp set_disp set_errno]; [apply A2, M|]. destruct (m =? SIGILL) eqn:Q; [lia|apply A2, M]. }
    destruct o as [n h|n act|n h|bb]; cbn [w_step c_step on_ill] in *.
    - destruct (c_signal n h q) as [r2 q2] eqn:C2. injection E2 as <- <-. unfold w_signal in E1.
      destruct (n =? SIGILL) eqn:N.
      + injection E1 as <- <-. split; [|discriminate].
        replace n with SIGILL in C2 by lia. apply ILL in C2. exact C2.
      + destruct (c_signal n h p) as [r1 p2] eqn:C1. injection E1 as <- <-.
        destruct (SIN n h _ _ _ _ ltac:(lia) C1 C2) as [S1 ->]. split; auto.
    - unfold w_sigaction, c_sigaction in *. destruct act as [h|].
      + destruct (n =? SIGILL) eqn:N.
        * injection E1 as <- <-. split; [|discriminate].
          replace n with SIGILL in E2 by lia. cbn in E2. injection E2 as _ <-.
          split; [exact A1|]. intros m M. cbn [disp set_disp]. destruct (m =? SIGILL) eqn:Q; [lia|apply A2, M].
        * destruct (negb (valid_sig n)); [injection E1 as <- <-; injection E2 as <- <-; split; [apply SE|reflexivity]|].
          destruct (fixed_sig n); injection E1 as <- <-; injection E2 as <- <-; [split; [apply SE|reflexivity]|].
          split; [apply SD|]. intros _. rewrite (A2 n ltac:(lia)). reflexivity.
      + destruct (negb (valid_sig n)); injection E1 as <- <-; injection E2 as <- <-; [split; [apply SE|reflexivity]|].
        split; [split; assumption|]. intros N. rewrite (A2 n ltac:(lia)). reflexivity.
    - destruct (c_signal n h p) as [r1 p2] eqn:C1. destruct (c_signal n h q) as [r2 q2] eqn:C2.
      injection E1 as <- <-. injection E2 as <- <-.
      destruct (n =? SIGILL) eqn:N.
      + split; [|discriminate]. replace n with SIGILL in * by lia. unfold c_signal in *.
        destruct (_ || _); injection C1 as _ <-; injection C2 as _ <-; [apply SE|apply SD].
      + destruct (SIN n h _ _ _ _ ltac:(lia) C1 C2) as [S1 ->]. split; auto.
    - injection E1 as <- <-. injection E2 as <- <-. split; [split; [reflexivity|exact A2]|reflexivity]. }
  destruct K as [K1 K2]. destruct (IH p1 q1 K1) as [J1 J2].
  destruct (w_run l p1) as [r1 p2]. destruct (c_run l q1) as [r2 q2]. cbn [fst snd combine] in *.
  split; [exact J1|]. constructor; [exact K2|exact J2].
Qed.

(* The errno after a call about another signal that failed is the C library's. *)
Theorem sig_errno : forall o p q, on_ill o = false -> agree p q ->
  fst (fst (w_step o p)) = -1 ->
  match o with Signal n h => disp p n <> SIG_ERR | Bsd n h => disp p n <> SIG_ERR | _ => True end ->
  errno (snd (w_step o p)) = EINVAL /\ errno (snd (c_step o q)) = EINVAL.
Proof.
  intros o p q N [A1 A2] F D.
  destruct o as [n h|n act|n h|b]; cbn [w_step c_step on_ill] in *; unfold w_signal, w_sigaction, c_sigaction, c_signal in *.
  - rewrite N in *. destruct (_ || _); cbn in *; [split; reflexivity|]. unfold SIG_ERR in D. lia.
  - destruct act as [h|].
    + rewrite N in *. destruct (negb (valid_sig n)); [split; reflexivity|].
      destruct (fixed_sig n); cbn in *; [split; reflexivity|lia].
    + destruct (negb (valid_sig n)); [split; reflexivity|]. cbn in *; lia.
  - destruct (_ || _); cbn in *; [split; reflexivity|]. unfold SIG_ERR in D. lia.
  - cbn in *. lia.
Qed.

(* ---- Numbers ---- *)

Lemma rem_mod a b : 0 <= a -> 0 < b -> Z.rem a b = a mod b.
Proof. intros. apply Z.rem_mod_nonneg; lia. Qed.
Lemma quot_div a b : 0 <= a -> 0 < b -> Z.quot a b = a / b.
Proof. intros. apply Z.quot_div_nonneg; lia. Qed.

Lemma decint_len k v : length (decint_from k v true) = S k.
Proof.
  induction k as [|k IH]; [reflexivity|]. cbn [decint_from].
  rewrite orb_true_r. cbn [length]. rewrite IH. reflexivity.
Qed.

Lemma decint_written : forall k v, 0 <= v ->
  exists ds, decint_from k v true = map (fun d => 48 + d) ds /\ length ds = S k /\
    val ds = v mod 10 ^ Z.of_nat (S k) /\ Forall (fun d => 0 <= d <= 9) ds.
Proof.
  induction k as [|k IH]; intros v V.
  - exists [v mod 10]. cbn. rewrite rem_mod by lia. repeat split; auto.
    + change (10 ^ Z.of_nat 1) with 10. lia.
    + repeat constructor; pose proof (Z.mod_pos_bound v 10); lia.
  - destruct (IH v V) as (ds & E & L & W & F).
    set (q := 10 ^ Z.of_nat (S k)). assert (Q : 0 < q) by (unfold q; lia).
    exists ((v / q) mod 10 :: ds). cbn [decint_from]. fold q.
    rewrite orb_true_r, E, quot_div, rem_mod; [|apply Z.div_pos; lia|lia|lia|lia].
    cbn [map length]. repeat split; auto.
    + cbn [val]. rewrite L, W. fold q.
      replace (10 ^ Z.of_nat (S (S k))) with (q * 10).
      2:{ unfold q. replace (Z.of_nat (S (S k))) with (Z.of_nat (S k) + 1) by lia. rewrite Z.pow_add_r by lia. reflexivity. }
      rewrite Z.rem_mul_r by lia. lia.
    + constructor; [|exact F]. pose proof (Z.mod_pos_bound (v / q) 10); lia.
Qed.

Lemma decint_fresh : forall k v, 0 <= v < 10 ^ Z.of_nat (S k) ->
  exists ds, decint_from k v false = map (fun d => 48 + d) ds /\ decimal v ds.
Proof.
  induction k as [|k IH]; intros v V.
  - exists [v]. cbn. change (10 ^ Z.of_nat 1) with 10 in V. rewrite rem_mod, Z.mod_small by lia.
    split; [reflexivity|]. repeat split; [cbn; lia|repeat constructor; lia|].
    destruct (Z.eq_dec v 0) as [->|N]; [left; reflexivity|right; exists v, []; auto].
  - cbn [decint_from]. set (q := 10 ^ Z.of_nat (S k)) in *. assert (Q : 0 < q) by (unfold q; lia).
    assert (Q10 : 10 ^ Z.of_nat (S (S k)) = q * 10).
    { unfold q. replace (Z.of_nat (S (S k))) with (Z.of_nat (S k) + 1) by lia. rewrite Z.pow_add_r by lia. reflexivity. }
    rewrite Q10 in V.
    rewrite quot_div, rem_mod; [|apply Z.div_pos; lia|lia|lia|lia].
    assert (D : 0 <= v / q < 10) by (split; [apply Z.div_pos; lia|apply Z.div_lt_upper_bound; lia]).
    rewrite (Z.mod_small (v / q)) by lia.
    destruct (48 + v / q =? 48) eqn:B; cbn [negb orb].
    + apply IH. fold q. pose proof (Z.div_mod v q). pose proof (Z.mod_pos_bound v q). split; [lia|].
      assert (v / q = 0) by lia. lia.
    + destruct (decint_written k v ltac:(lia)) as (ds & E & L & W & F).
      exists (v / q :: ds). rewrite E. split; [reflexivity|]. split; [|split].
      * cbn [val]. rewrite L, W. fold q. pose proof (Z.div_mod v q). lia.
      * constructor; [lia|exact F].
      * right. exists (v / q), ds. split; [reflexivity|lia].
Qed.

(* Every process number and line number comes out as its decimal digits. *)
Theorem decint_exact : forall v, 0 <= v < 2 ^ 31 ->
  exists ds, decint v = map (fun d => 48 + d) ds /\ decimal v ds.
Proof. intros v V. apply decint_fresh. cbn; lia. Qed.

(* and there is only one such list *)
Lemma val_bound ds : Forall (fun d => 0 <= d <= 9) ds -> 0 <= val ds < 10 ^ Z.of_nat (length ds).
Proof.
  induction 1 as [|d r D F IH]; cbn [val length]; [cbn; lia|].
  replace (Z.of_nat (S (length r))) with (Z.of_nat (length r) + 1) by lia. rewrite Z.pow_add_r by lia.
  change (10 ^ 1) with 10. nia.
Qed.
Lemma val_inj : forall ds es, length ds = length es -> Forall (fun d => 0 <= d <= 9) ds ->
  Forall (fun d => 0 <= d <= 9) es -> val ds = val es -> ds = es.
Proof.
  induction ds as [|d ds IH]; intros [|e es] L F G V; cbn in L; try discriminate; [reflexivity|].
  inversion F; inversion G; subst. injection L as L. cbn [val] in V. rewrite L in V.
  pose proof (val_bound ds ltac:(assumption)). pose proof (val_bound es ltac:(assumption)). rewrite L in *.
  set (q := 10 ^ Z.of_nat (length es)) in *.
  assert (d = e) by nia. subst e. f_equal. apply IH; auto. lia.
Qed.
Lemma decimal_unique v ds es : decimal v ds -> decimal v es -> ds = es.
Proof.
  intros (V1 & F1 & L1) (V2 & F2 & L2).
  assert (H : forall xs, decimal v xs -> v = 0 \/ 10 ^ Z.of_nat (length xs - 1) <= v < 10 ^ Z.of_nat (length xs)).
  { intros xs (V & F & L). destruct L as [->|(d & r & -> & N)]; [left; cbn in V; lia|right].
    pose proof (val_bound _ F) as B. rewrite V in B. split; [|lia]. cbn [length]. rewrite Nat.sub_1_r, Nat.pred_succ.
    clear - V F N. inversion F as [|? ? D F']; subst. pose proof (val_bound r F'). cbn [val]. nia. }
  assert (P0 : forall xs, decimal 0 xs -> xs = [0]).
  { intros xs (V & F & L). destruct L as [->|(d & r & -> & N)]; [reflexivity|exfalso].
    clear - V F N. inversion F; subst. cbn [val] in V. pose proof (val_bound r ltac:(assumption)). nia. }
  destruct (Z.eq_dec v 0) as [->|N0].
  { rewrite (P0 ds), (P0 es); [reflexivity|split; auto|split; auto]. }
  destruct (H ds) as [Z1|B1]; [split; auto|contradiction|].
  destruct (H es) as [Z2|B2]; [split; auto|contradiction|].
  assert (NE1 : length ds <> O) by (destruct L1 as [->|(? & ? & -> & _)]; discriminate).
  assert (NE2 : length es <> O) by (destruct L2 as [->|(? & ? & -> & _)]; discriminate).
  apply val_inj; auto; [|congruence].
  destruct (Nat.lt_trichotomy (length ds) (length es)) as [K|[K|K]]; [exfalso| exact K|exfalso].
  - pose proof (Z.pow_le_mono_r 10 (Z.of_nat (length ds)) (Z.of_nat (length es - 1)) ltac:(lia) ltac:(lia)). lia.
  - pose proof (Z.pow_le_mono_r 10 (Z.of_nat (length es)) (Z.of_nat (length ds - 1)) ltac:(lia) ltac:(lia)). lia.
Qed.

(* ---- The first place ---- *)

Lemma str_eqb_eq a b : str_eqb a b = true <-> a = b.
Proof.
  revert b; induction a as [|x a IH]; intros [|y b]; cbn; split; intros H; try discriminate; auto.
  - apply andb_true_iff in H. destruct H as [X H]. apply IH in H. subst. f_equal. lia.
  - injection H as -> ->. rewrite Z.eqb_refl. apply IH. reflexivity.
Qed.

Lemma basename_spec p : last_component (basename p) p.
Proof.
  induction p as [|c r IH]; [split; [intros []|left; reflexivity]|]. cbn [basename].
  destruct (existsb (Z.eqb 47) r) eqn:E.
  - destruct IH as [N [K|(dir & K)]]; split; auto; right.
    + exfalso. apply existsb_exists in E. destruct E as (x & X & Y). rewrite <- K in N. apply N. replace 47 with x by lia. exact X.
    + exists (c :: dir). cbn. f_equal. exact K.
  - assert (N : ~ In 47 r).
    { intros K. assert (existsb (Z.eqb 47) r = true) by (apply existsb_exists; exists 47; split; [exact K|reflexivity]). congruence. }
    destruct (c =? 47) eqn:C.
    + split; [exact N|]. right. exists []. cbn. f_equal. lia.
    + split; [|left; reflexivity]. intros [K|K]; [lia|auto].
Qed.

Lemma last_component_unique f g p : last_component f p -> last_component g p -> f = g.
Proof.
  intros [N1 [E1|(d1 & E1)]] [N2 [E2|(d2 & E2)]].
  - congruence.
  - exfalso. apply N1. rewrite <- E1, E2. apply in_or_app. right; left; reflexivity.
  - exfalso. apply N2. rewrite <- E2, E1. apply in_or_app. right; left; reflexivity.
  - rewrite E1 in E2. clear E1. revert d2 E2. induction d1 as [|x d1 IH]; intros [|y d2] E; cbn in E.
    + injection E as E. exact E.
    + injection E as _ E. exfalso. apply N1. rewrite E. apply in_or_app. right; left; reflexivity.
    + injection E as _ E. exfalso. apply N2. rewrite <- E. apply in_or_app. right; left; reflexivity.
    + injection E as _ E. eapply IH; eauto.
Qed.

(* The first entry of the link map that is neither the program nor the vDSO
   decides, by the last component of its path. *)
Theorem position_exact : forall skipped n rest,
  Forall (fun m => m = [] \/ m = VDSO) skipped -> n <> [] -> n <> VDSO ->
  exists b, check_position None (skipped ++ n :: rest) = Some (b, Some b) /\
    (b = true <-> last_component SONAME n).
Proof.
  intros skipped n rest F N1 N2.
  assert (E : first_name (skipped ++ n :: rest) = Some n).
  { induction F as [|m l [-> | ->] F IH]; cbn [app first_name].
    - destruct (str_eqb n []) eqn:A; [apply str_eqb_eq in A; contradiction|].
      destruct (str_eqb n VDSO) eqn:B; [apply str_eqb_eq in B; contradiction|]. reflexivity.
    - exact IH.
    - exact IH. }
  unfold check_position. rewrite E. eexists. split; [reflexivity|].
  rewrite str_eqb_eq. split.
  - intros K. rewrite <- K. apply basename_spec.
  - intros K. eapply last_component_unique; [apply basename_spec|exact K].
Qed.

(* The answer does not change while the program runs, whatever is loaded. *)
Theorem position_kept : forall maps r, check_all None maps = Some r ->
  forall b, In b r -> forall b', In b' r -> b = b'.
Proof.
  assert (K : forall maps c r, check_all (Some c) maps = Some r -> Forall (eq c) r).
  { induction maps as [|m maps IH]; intros c r H; cbn in H; [injection H as <-; constructor|].
    destruct (check_all (Some c) maps) as [r'|] eqn:E; [|discriminate]. injection H as <-. constructor; [reflexivity|auto]. }
  intros [|m maps] r H b B b' B'; cbn in H; [injection H as <-; destruct B|].
  destruct (first_name m) as [n|]; [|discriminate].
  destruct (check_all _ maps) as [r'|] eqn:E; [|discriminate]. injection H as <-.
  apply K in E. rewrite Forall_forall in E.
  assert (A : forall x, In x (str_eqb (basename n) SONAME :: r') -> str_eqb (basename n) SONAME = x).
  { intros x [X|X]; [exact X|auto]. }
  rewrite <- (A b B), <- (A b' B'). reflexivity.
Qed.

(* The handler that a program asks signal to install for SIGILL is refused, with errno saying
   that this is not supported, and nothing else changes. *)
Theorem sig_refused : forall h p,
  let '(r, p1) := w_step (Signal SIGILL h) p in
  fst r = -1 /\ errno p1 = 95 /\ disp p1 = disp p /\ blocked p1 = blocked p.
Proof. intros h p. repeat split. Qed.

Module SgEx.
Example sig_refused_ex : let '(r, p1) := w_step (Signal SIGILL 4096) (mkproc (fun n => n) false 2) in r = (-1, None) /\ errno p1 = 95 /\ disp p1 9 = 9.
Proof. vm_compute. repeat split. Qed.

Definition p0 : proc := mkproc (fun n => if n =? 4 then 777 else 0) false 0.
Definition calls : list sop :=
  [Signal 11 500; Sigaction 4 (Some 600); Signal 4 601; Sigaction 11 (Some 501); Signal 9 1; Sigaction 4 None; Signal 11 0].

Example sig_trap_kept_ex : forallb wrapped calls = true /\
  fst (w_run calls p0) =
    [(0, None); (0, Some 777); (-1, None); (0, Some 500); (-1, None); (0, Some 777); (501, None)] /\
  disp (snd (w_run calls p0)) SIGILL = 777.
Proof. vm_compute. auto. Qed.

Definition q0 : proc := mkproc (fun _ => 0) false 0.
Example sig_others_ex : agree p0 q0 /\
  fst (c_run calls q0) =
    [(0, None); (0, Some 0); (600, None); (0, Some 500); (-1, None); (0, Some 601); (501, None)].
Proof.
  split; [|vm_compute; reflexivity]. split; [reflexivity|]. intros n N. cbn. destruct (n =? 4) eqn:E; [unfold SIGILL in N; lia|reflexivity].
Qed.

Example sig_errno_ex : fst (fst (w_step (Signal 9 1) p0)) = -1 /\ errno (snd (w_step (Signal 9 1) p0)) = EINVAL.
Proof. vm_compute. auto. Qed.

Example decint_exact_ex : decint 2147483647 = [50;49;52;55;52;56;51;54;52;55] /\ decint 0 = [48] /\ decint 40960 = [52;48;57;54;48].
Proof. vm_compute. auto. Qed.

(* "/l/" then the name *)
Example position_exact_ex :
  check_position None [[]; VDSO; [47;108;47] ++ SONAME; [47;97]] = Some (true, Some true) /\
  check_position None [[]; [47;97]; SONAME] = Some (false, Some false) /\
  check_position None [[]; VDSO; 120 :: SONAME] = Some (false, Some false).
Proof. vm_compute. auto. Qed.

Example position_kept_ex : check_all None [[[]; VDSO; SONAME]; [[]; [97]]] = Some [true; true].
Proof. vm_compute. reflexivity. Qed.

(* "A sigaction that succeeds has installed its handler": not for SIGILL. *)
Theorem sig_success_refuted : exists h p,
  fst (fst (w_sigaction SIGILL (Some h) p)) = 0 /\
  snd (fst (w_sigaction SIGILL None (snd (w_sigaction SIGILL (Some h) p)))) <> Some h.
Proof. exists 600, p0. vm_compute. split; [reflexivity|discriminate]. Qed.

(* "No call of the program takes the handler away": bsd_signal does. *)
Theorem sig_other_door_refuted : exists l p, disp (snd (w_run l p)) SIGILL <> disp p SIGILL.
Proof. exists [Bsd 4 600], p0. vm_compute. discriminate. Qed.

(* "System calls are seen after any history": not while SIGILL is blocked, and
   a program that blocks all signals is then killed by the next of them. *)
Theorem sig_blocked_refuted : exists l p, trap p = Some 777 /\ trap (snd (w_run l p)) = None.
Proof. exists [Block true], p0. vm_compute. auto. Qed.

(* "The number printed is the number": not below zero, where `val % 10` is
   negative and the characters are those before '0'. *)
Theorem decint_negative_refuted : exists v, - 2 ^ 31 <= v < 0 /\ decint v = [47].
Proof. exists (-1). vm_compute. split; [split; [discriminate|reflexivity]|reflexivity]. Qed.

End SgEx.

Print Assumptions sig_trap_kept.
Print Assumptions sig_refused.
Print Assumptions sig_others.
Print Assumptions sig_errno.
Print Assumptions decint_exact.
Print Assumptions decimal_unique.
Print Assumptions position_exact.
Print Assumptions position_kept.
Print Assumptions SgEx.sig_success_refuted.
