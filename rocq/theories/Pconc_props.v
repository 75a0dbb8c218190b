(* C74: the library's own heap when several threads use it at once. *)
From Verif Require Import Base Pheap_model Pheap_props Conc_model Conc_spec Conc_proof Pconc_model Pconc_spec.

Section Props.
Variables (base limit : Z).
Hypothesis Hb : 0 < base <= limit.
Hypothesis Hl : limit < W64.
Notation code := (pcode base limit).
Definition ready (s : pst) : Prop := brk s = 0 \/ base <= brk s <= limit.
Definition sane (x : pcall) : Prop := match x with PSbrk inc => - (2 ^ 63) <= inc < 2 ^ 63 | _ => True end.
Definition grows (x : pcall) : Prop := match x with PSbrk inc => 0 < inc < 2 ^ 63 | _ => True end.

(* what each call does alone; sbrk as in C64 *)
Definition psem (x : pcall) (s : pst) : res (pst * pans) :=
  match x with
  | PSbrk inc => let '(b, a) := emulated_sbrk base limit (brk s) inc in Ok (mkP b (words s), option_map (fun o => (o, inc)) a)
  | PMark i => Ok (set_word s (i / 64) (Z.setbit (words s (i / 64)) (i mod 64)), None)
  | PUnmark i => Ok (set_word s (i / 64) (Z.clearbit (words s (i / 64)) (i mod 64)), None)
  end.

Lemma run_code x s : run (code true x) s = psem x s.
Proof.
  clear Hb Hl. unfold pcode. rewrite run_locked. destruct x as [inc|i|i]; [|reflexivity|reflexivity].
  unfold pbody, p_sbrk, rd, wr, psem, emulated_sbrk. cbn [bindp run bind]. destruct s as [b w]. cbn [brk words].
  destruct (Z.eqb_spec b 0) as [->|N]; cbn [bindp run bind brk words set_brk];
    (destruct (((0 <? inc) && _) || _); [reflexivity|]);
    destruct (_ =? (_ + inc) mod W64); cbn [bindp run bind brk words set_brk option_map]; reflexivity.
Qed.
Lemma bal_body x : bal pst 0 (pbody base limit x).
Proof.
  clear Hb Hl. destruct x as [inc|i|i]; cbn; auto.
  intro b. destruct (b =? 0); cbn; intros; destruct (((0 <? inc) && _) || _); cbn; auto; destruct (_ =? _); cbn; auto.
Qed.

(* If whoever uses the heap holds one lock, each use acts at one instant. *)
Theorem pconc_held_serial : forall s0 t0 c, steps (code true) (start_c s0 t0) c ->
  exists l s, accounts psem s0 t0 c l s.
Proof.
  clear Hb Hl. intros s0 t0 c H.
  assert (H1 : forall i x s, In x (t0 i) -> run (code true x) s = psem x s) by (intros; apply run_code).
  assert (H2 : forall i x, In x (t0 i) -> wl pst 0 (code true x)) by (intros; apply wl_locked, bal_body).
  destruct (cinv_steps pst pcall pans (code true) psem s0 t0 H1 H2 _ _ H [] s0 (cinv_init _ _ _ _ _ _)) as (l & s & I).
  exists ([] ++ l), s. eapply cinv_accounts; eauto.
Qed.

(* order within a serial execution *)
Definition given (s : pst) : Z := if brk s =? 0 then base else brk s.
Lemma serial_step s0 l s : serial psem s0 l s -> ready s0 -> (forall i x r, In (i, x, r) l -> grows x) ->
  ready s /\ given s0 <= given s /\
  (forall i x a, In (i, x, Some a) l -> base <= fst a /\ fst a + snd a <= given s).
Proof.
  intros H R0. induction H as [|l s i x r s' H IH E]; intro G.
  - split; [exact R0|]. split; [lia|]. intros i x a [].
  - destruct IH as (R & M & I); [intros j y q Hq; apply (G j y q), in_or_app; auto|].
    assert (Gx : grows x) by (apply (G i x r), in_or_app; right; left; reflexivity).
    assert (K : ready s' /\ given s <= given s' /\ (forall a, r = Some a -> base <= fst a /\ fst a + snd a <= given s')).
    { destruct x as [inc|j|j]; cbn [psem] in E.
      - cbn [grows] in Gx.
        destruct (pheap_sbrk_exact base limit (brk s) inc Hb Hl R ltac:(lia)) as [P Q].
        fold (given s) in P, Q. assert (W : base <= given s <= limit) by (unfold given; destruct R, (Z.eqb_spec (brk s) 0); lia).
        destruct (Z_le_dec (given s + inc) limit) as [L|L].
        + rewrite P in E by lia. cbn in E. injection E; intros <- <-.
          assert (Eg : given (mkP (given s + inc) (words s)) = given s + inc) by (unfold given at 1; cbn [brk]; destruct (Z.eqb_spec (given s + inc) 0); lia).
          rewrite Eg. unfold ready. cbn [brk]. split; [lia|]. split; [lia|].
          intros a Ha. injection Ha; intros <-. cbn. lia.
        + rewrite Q in E by lia. cbn in E. injection E; intros <- <-.
          assert (Eg : given (mkP (given s) (words s)) = given s) by (unfold given at 1; cbn [brk]; destruct (Z.eqb_spec (given s) 0); lia).
          rewrite Eg. unfold ready. cbn [brk]. split; [lia|]. split; [lia|]. discriminate.
      - injection E; intros <- <-. split; [exact R|]. split; [unfold given; cbn; lia|]. discriminate.
      - injection E; intros <- <-. split; [exact R|]. split; [unfold given; cbn; lia|]. discriminate. }
    destruct K as (K1 & K2 & K3). split; [exact K1|]. split; [lia|].
    intros j y a Ha. apply in_app_or in Ha. destruct Ha as [Ha|[Ha|[]]].
    + pose proof (I _ _ _ Ha). lia.
    + injection Ha; intros Er _ _. apply (K3 a). exact Er.
Qed.
Lemma serial_order s0 l s : serial psem s0 l s -> ready s0 -> (forall i x r, In (i, x, r) l -> grows x) ->
  forall p q i j x y a b, (p < q)%nat -> nth_error l p = Some (i, x, Some a) -> nth_error l q = Some (j, y, Some b) ->
  fst a + snd a <= fst b.
Proof.
  intros H R0. induction H as [|l s i0 x0 r s' H IH E]; intros G p q i j x y a b Hpq Hp Hq.
  - destruct q; discriminate.
  - assert (G1 : forall i x r, In (i, x, r) l -> grows x) by (intros k u v Hk; apply (G k u v), in_or_app; auto).
    assert (L : (q < length (l ++ [(i0, x0, r)]))%nat) by (apply nth_error_Some; congruence).
    rewrite app_length in L. cbn in L.
    rewrite nth_error_app1 in Hp by lia.
    destruct (Nat.eq_dec q (length l)) as [->|N].
    + rewrite nth_error_app2, Nat.sub_diag in Hq by lia. cbn in Hq. injection Hq; intros -> -> ->.
      destruct (serial_step _ _ _ H R0 G1) as (R & _ & I).
      pose proof (I _ _ _ (nth_error_In _ _ Hp)) as [_ Ia].
      assert (Gx : grows y) by (apply (G j y (Some b)), in_or_app; right; left; reflexivity).
      destruct y as [inc|k|k]; cbn [psem] in E; [|discriminate|discriminate]. cbn [grows] in Gx.
      destruct (pheap_sbrk_exact base limit (brk s) inc Hb Hl R ltac:(lia)) as [P Q]. fold (given s) in P, Q.
      assert (W : base <= given s <= limit) by (unfold given; destruct R, (Z.eqb_spec (brk s) 0); lia).
      destruct (Z_le_dec (given s + inc) limit) as [L1|L1].
      * rewrite P in E by lia. cbn in E. injection E; intros Eb _. rewrite <- Eb. cbn [fst]. exact Ia.
      * rewrite Q in E by lia. discriminate.
    + rewrite nth_error_app1 in Hq by lia. exact (IH G1 p q i j x y a b Hpq Hp Hq).
Qed.

(* from a thread's answers to the serial execution *)
Lemma mine_nth i (l : list (nat * pcall * pans)) : forall k r, nth_error (answers i l) k = Some r ->
  exists p x, nth_error l p = Some (i, x, r) /\ length (mine i (firstn p l)) = k.
Proof.
  clear Hb Hl. induction l as [|[[j x] q] l IH]; intros k r H; [destruct k; discriminate|].
  unfold answers, mine in H. cbn [filter fst snd] in H.
  destruct (Nat.eqb_spec j i) as [->|N].
  - destruct k as [|k]; cbn in H.
    + injection H; intros ->. exists 0%nat, x. split; reflexivity.
    + destruct (IH k r H) as (p & y & E1 & E2). exists (S p), y. split; [exact E1|].
      cbn [firstn]. unfold mine in *. cbn [filter fst]. rewrite Nat.eqb_refl. cbn [length]. rewrite E2. reflexivity.
  - destruct (IH k r H) as (p & y & E1 & E2). exists (S p), y. split; [exact E1|].
    cbn [firstn]. unfold mine in *. cbn [filter fst]. destruct (Nat.eqb_spec j i); [contradiction|]. exact E2.
Qed.

(* If whoever grows the heap holds one lock, what it gives is inside the heap, and no two
   pieces of it overlap, whichever threads got them and when. *)
Theorem pconc_held_apart : forall s0 t0 c, ready s0 -> (forall i x, In x (t0 i) -> grows x) ->
  steps (code true) (start_c s0 t0) c ->
  (forall i k a, nth_error (done_ c i) k = Some (Some a) -> inside base limit a) /\
  (forall i k a j m b, nth_error (done_ c i) k = Some (Some a) -> nth_error (done_ c j) m = Some (Some b) ->
    (i, k) <> (j, m) -> apart a b).
Proof.
  intros s0 t0 c R G H. destruct (pconc_held_serial s0 t0 c H) as (l & s & A). destruct A as [As Ao Aa Ae Ast].
  assert (Gl : forall i x r, In (i, x, r) l -> grows x).
  { intros i x r Hi. apply (G i). destruct (Ao i) as [rest ->]. apply in_or_app; left. unfold calls, mine.
    apply in_map_iff. exists (i, x, r). split; [reflexivity|]. apply filter_In. split; [exact Hi|]. apply Nat.eqb_refl. }
  assert (Hn : forall i k a, nth_error (done_ c i) k = Some a -> nth_error (answers i l) k = Some a).
  { intros i k a Hk. destruct (Aa i) as (more & -> & _). rewrite nth_error_app1; [exact Hk|]. apply nth_error_Some. congruence. }
  destruct (serial_step _ _ _ As R Gl) as (Rs & _ & Is).
  split.
  - intros i k a Hk. destruct (mine_nth i l k _ (Hn _ _ _ Hk)) as (p & x & E & _).
    destruct (Is _ _ _ (nth_error_In _ _ E)) as [I1 I2]. split; [exact I1|].
    unfold given in I2. destruct Rs as [Z0|Z1]; [rewrite Z0 in I2; cbn in I2; lia|]. destruct (brk s =? 0) eqn:E0; lia.
  - intros i k a j m b Ha Hb' Hne.
    destruct (mine_nth i l k _ (Hn _ _ _ Ha)) as (p & x & Ep & Lp).
    destruct (mine_nth j l m _ (Hn _ _ _ Hb')) as (q & y & Eq & Lq).
    destruct (Nat.lt_trichotomy p q) as [L|[L|L]].
    + left. exact (serial_order _ _ _ As R Gl _ _ _ _ _ _ _ _ L Ep Eq).
    + exfalso. subst q. rewrite Ep in Eq. injection Eq; intros _ _ Eij. subst j. apply Hne. congruence.
    + right. exact (serial_order _ _ _ As R Gl _ _ _ _ _ _ _ _ L Eq Ep).
Qed.

(* ---- without a lock ---- *)
Fixpoint pres (z : bool) (p : prog pst pans) : Prop :=
  match p with
  | Ret r => match r with Some a => base <= fst a <= limit | None => True end
  | Lock k | Unlock k => pres z k
  | Act f k => forall s, ready s -> (z = true -> brk s <> 0) ->
      exists s' a, f s = Ok (s', a) /\ ready s' /\ (brk s <> 0 -> brk s' <> 0) /\
        (pres z (k a) \/ (brk s' <> 0 /\ pres true (k a)))
  end.
Lemma pres_bind_unlock z p : pres z p -> pres z (bindp p (fun a => Unlock (Ret a))).
Proof.
  clear Hb Hl. revert z. induction p as [r|k IH|k IH|X f k IH]; cbn [bindp pres]; intros z H; auto.
  intros s R Z. destruct (H s R Z) as (s' & a & E & R' & N & [K|[K1 K2]]); exists s', a; auto 8.
Qed.
Lemma pres_code held x : sane x -> pres false (code held x).
Proof.
  intro Sx. assert (B : pres false (pbody base limit x)).
  { destruct x as [inc|i|i].
    - cbn [sane] in Sx. unfold pbody, p_sbrk, rd, wr. cbn [bindp pres].
      intros s R _. exists s, (brk s). split; [reflexivity|]. split; [exact R|]. split; [auto|].
      assert (T : forall p, p = (Act (fun s => Ok (s, brk s)) (fun old : Z => Act (fun s => Ok (s, brk s)) (fun cur_ : Z =>
                   let req := (cur_ + inc) mod W64 in
                   if ((0 <? inc) && (req <? old)) || ((inc <? 0) && (old <? req)) then Ret None
                   else let new := if 0 <? inc then Z.min limit req else Z.max base req in
                   if new =? req then Act (fun s => Ok (set_brk s req, tt)) (fun _ => Ret (Some (old, inc))) else Ret None)) : prog pst pans)
                 -> pres true p).
      { intros p ->. cbn [pres]. intros s1 R1 N1. specialize (N1 eq_refl). exists s1, (brk s1). do 2 (split; [auto|]). split; [auto|]. left.
        intros s2 R2 N2. specialize (N2 eq_refl). exists s2, (brk s2). do 2 (split; [auto|]). split; [auto|]. left.
        destruct R1 as [R1|R1]; [contradiction|]. destruct R2 as [R2|R2]; [contradiction|].
        set (old := brk s1) in *. set (cu := brk s2) in *. clearbody old cu. cbv zeta.
        destruct (((0 <? inc) && ((cu + inc) mod W64 <? old)) || ((inc <? 0) && (old <? (cu + inc) mod W64))) eqn:Ef; [exact I|].
        set (req := (cu + inc) mod W64) in *.
        assert (Hm : 0 <= req < W64) by (apply Z.mod_pos_bound; reflexivity).
        destruct ((if 0 <? inc then Z.min limit req else Z.max base req) =? req) eqn:En; [|exact I].
        cbn [pres]. intros s3 R3 N3. exists (set_brk s3 req), tt. split; [reflexivity|].
        assert (base <= req <= limit).
        { destruct (Z.ltb_spec 0 inc) as [P|P].
          - cbn [andb] in Ef. apply orb_false_iff in Ef. destruct Ef as [Ef _]. lia.
          - destruct (Z.ltb_spec inc 0) as [Q|Q].
            + apply orb_false_iff in Ef. destruct Ef as [_ Ef]. cbn [andb] in Ef. lia.
            + assert (inc = 0) as -> by lia. unfold req. rewrite Z.add_0_r, Z.mod_small; lia. }
        split; [right; cbn; assumption|]. split; [cbn; lia|]. left. cbn. lia. }
      destruct (Z.eqb_spec (brk s) 0) as [Z0|N0]; cbn [bindp pres].
      + left. intros s1 R1 _. exists (set_brk s1 base), tt. split; [reflexivity|]. split; [right; cbn; lia|]. split; [cbn; lia|].
        right. split; [cbn; lia|]. exact (T _ eq_refl).
      + right. split; [exact N0|]. exact (T _ eq_refl).
    - cbn. intros s R _. exists s, (words s (word_of i)). do 2 (split; [auto|]). split; [auto|]. left.
      intros s1 R1 _. eexists _, tt. split; [reflexivity|]. split; [exact R1|]. split; [auto|]. left. exact I.
    - cbn. intros s R _. exists s, (words s (word_of i)). do 2 (split; [auto|]). split; [auto|]. left.
      intros s1 R1 _. eexists _, tt. split; [reflexivity|]. split; [exact R1|]. split; [auto|]. left. exact I. }
  destruct held; [|exact B]. unfold pcode, locked. cbn [pres]. apply pres_bind_unlock. exact B.
Qed.

Definition okc (t0 : nat -> list pcall) (c : config pst pcall pans) : Prop :=
  ready (sh c) /\ (forall i x, In x (todo c i) -> sane x) /\
  (forall i p, cur c i = Some p -> exists z : bool, (z = true -> brk (sh c) <> 0) /\ pres z p) /\
  (forall i a, In (Some a) (done_ c i) -> base <= fst a <= limit).
Lemma okc_step t0 held c i c' : okc t0 c -> tstep (code held) i c = Some (Ok c') -> okc t0 c'.
Proof.
  intros (R & T & K & D) H. unfold tstep in H.
  destruct (cur c i) as [p|] eqn:Ec.
  - destruct (K i p Ec) as (z & Hz & Hp).
    assert (U : forall k z' (s' : pst) (o' : option (nat * nat)), ready s' -> (brk (sh c) <> 0 -> brk s' <> 0) -> (z' = true -> brk s' <> 0) -> pres z' k ->
       okc t0 (mkC s' o' (todo c) (set (cur c) i (Some k)) (done_ c))).
    { intros k z' s' o' R' M Z' P'. split; [exact R'|]. split; [exact T|]. split; [|exact D]. cbn [cur sh].
      intros j q Hq. destruct (Nat.eq_dec j i) as [->|N].
      - rewrite set_same in Hq. injection Hq; intros <-. exists z'. auto.
      - rewrite set_other in Hq by exact N. destruct (K j q Hq) as (zj & Hzj & Pj). exists zj. split; [auto|exact Pj]. }
    destruct p as [r|k|k|X f k].
    + injection H; intros <-. split; [exact R|]. split; [exact T|]. cbn [cur sh done_]. split.
      * intros j q Hq. destruct (Nat.eq_dec j i) as [->|N]; [rewrite set_same in Hq; discriminate|]. rewrite set_other in Hq by exact N. exact (K j q Hq).
      * intros j a Ha. destruct (Nat.eq_dec j i) as [->|N]; [|rewrite set_other in Ha by exact N; exact (D j a Ha)].
        rewrite set_same in Ha. apply in_app_or in Ha. destruct Ha as [Ha|[Ha|[]]]; [exact (D i a Ha)|]. subst r. exact Hp.
    + cbn [pres] in Hp. destruct (own c) as [[j d]|].
      * destruct (Nat.eqb i j); [|discriminate]. injection H; intros <-. apply (U k z); auto.
      * injection H; intros <-. apply (U k z); auto.
    + cbn [pres] in Hp. destruct (own c) as [[j [|d]]|]; try discriminate.
      destruct (Nat.eqb i j); [|discriminate]. injection H; intros <-. apply (U k z); auto.
    + cbn [pres] in Hp. destruct (Hp (sh c) R Hz) as (s' & a & E & R' & N & HK). rewrite E in H. cbn [bind] in H. injection H; intros <-.
      destruct HK as [HK|[Hs HK]]; [apply (U (k a) z)|apply (U (k a) true)]; auto.
  - destruct (todo c i) as [|x r] eqn:Et; [discriminate|]. injection H; intros <-.
    split; [exact R|]. cbn [todo cur sh done_]. split; [|split; [|exact D]].
    + intros j y Hy. destruct (Nat.eq_dec j i) as [->|N].
      * rewrite set_same in Hy. apply (T i y). rewrite Et. right. exact Hy.
      * rewrite set_other in Hy by exact N. exact (T j y Hy).
    + intros j q Hq. destruct (Nat.eq_dec j i) as [->|N].
      * rewrite set_same in Hq. injection Hq; intros <-. exists false. split; [discriminate|]. apply pres_code. apply (T i x). rewrite Et. left. reflexivity.
      * rewrite set_other in Hq by exact N. exact (K j q Hq).
Qed.

(* However threads interleave, with or without a lock, the break stays in the heap's range, and
   what is given begins in it. *)
Theorem pconc_within : forall held s0 t0 c, ready s0 -> (forall i x, In x (t0 i) -> sane x) ->
  steps (code held) (start_c s0 t0) c ->
  ready (sh c) /\ forall i a, In (Some a) (done_ c i) -> base <= fst a <= limit.
Proof.
  intros held s0 t0 c R T H.
  assert (G : forall c0 c1, steps (code held) c0 c1 -> okc t0 c0 -> okc t0 c1).
  { intros c0 c1 Hs. induction Hs as [c0|c0 c1 i c2 Hs IH E]; intro O; [exact O|]. apply (okc_step t0 held c1 i c2); auto. }
  destruct (G _ _ H) as (A & _ & _ & B).
  - split; [exact R|]. split; [exact T|]. split; [discriminate|]. intros i a [].
  - split; [exact A|exact B].
Qed.
End Props.

(* Marks.  [after w v l]: what the calls l, in order, make of the word w, at first v. *)
Definition about (w : Z) (x : pcall) : Prop := match x with PMark i | PUnmark i => i / 64 = w | PSbrk _ => False end.
Definition one (w v : Z) (x : pcall) : Z :=
  match x with
  | PMark i => if i / 64 =? w then Z.setbit v (i mod 64) else v
  | PUnmark i => if i / 64 =? w then Z.clearbit v (i mod 64) else v
  | PSbrk _ => v
  end.
Definition after (w v : Z) (l : list pcall) : Z := fold_left (one w) l v.

Section Marks.
Variables (base limit : Z) (held : bool) (w : Z).
Notation code := (pcode base limit held).
Fixpoint eff (p : prog pst pans) (v v' : Z) : Prop :=
  match p with
  | Ret _ => v = v'
  | Lock k | Unlock k => eff k v v'
  | Act f k => forall s, words s w = v -> exists s' a, f s = Ok (s', a) /\ eff (k a) (words s' w) v'
  end.
Fixpoint keeps (p : prog pst pans) : Prop :=
  match p with
  | Ret _ => True
  | Lock k | Unlock k => keeps k
  | Act f k => forall s, exists s' a, f s = Ok (s', a) /\ words s' w = words s w /\ keeps (k a)
  end.
Lemma eff_unlock p : forall v v', eff p v v' -> eff (bindp p (fun a => Unlock (Ret a))) v v'.
Proof.
  induction p as [r|k IH|k IH|X f k IH]; cbn [bindp eff]; intros v v' H; auto.
  intros s E. destruct (H s E) as (s' & a & E' & H'). exists s', a. auto.
Qed.
Lemma keeps_unlock p : keeps p -> keeps (bindp p (fun a => Unlock (Ret a))).
Proof.
  induction p as [r|k IH|k IH|X f k IH]; cbn [bindp keeps]; intros H; auto.
  intros s. destruct (H s) as (s' & a & E' & Ew & H'). exists s', a. auto.
Qed.
Lemma eff_code x v : eff (code x) v (one w v x).
Proof.
  assert (B : eff (pbody base limit x) v (one w v x)).
  { destruct x as [inc|i|i]; cbn [pbody one].
    - unfold p_sbrk, rd, wr. cbn [bindp eff]. intros s <-. exists s, (brk s). split; [reflexivity|].
      destruct (brk s =? 0); cbn [bindp eff].
      + intros s1 E1. exists (set_brk s1 base), tt. split; [reflexivity|]. intros s2 E2. exists s2, (brk s2). split; [reflexivity|].
        intros s3 E3. exists s3, (brk s3). split; [reflexivity|]. cbn in E2.
        destruct (((0 <? inc) && _) || _); [cbn; congruence|]. destruct (_ =? (brk s3 + inc) mod W64); cbn; [|congruence].
        intros s4 E4. eexists _, tt. split; [reflexivity|]. cbn. congruence.
      + intros s2 E2. exists s2, (brk s2). split; [reflexivity|].
        intros s3 E3. exists s3, (brk s3). split; [reflexivity|].
        destruct (((0 <? inc) && _) || _); [cbn; congruence|]. destruct (_ =? (brk s3 + inc) mod W64); cbn; [|congruence].
        intros s4 E4. eexists _, tt. split; [reflexivity|]. cbn. congruence.
    - unfold p_mark, rd, wr, word_of, bit_of. cbn [bindp eff]. intros s <-. eexists s, _. split; [reflexivity|].
      intros s1 E1. eexists _, tt. split; [reflexivity|]. cbn [words set_word]. rewrite (Z.eqb_sym w). destruct (Z.eqb_spec (i / 64) w) as [->|N]; [reflexivity|exact E1].
    - unfold p_unmark, rd, wr, word_of, bit_of. cbn [bindp eff]. intros s <-. eexists s, _. split; [reflexivity|].
      intros s1 E1. eexists _, tt. split; [reflexivity|]. cbn [words set_word]. rewrite (Z.eqb_sym w). destruct (Z.eqb_spec (i / 64) w) as [->|N]; [reflexivity|exact E1]. }
  unfold pcode. destruct held; [|exact B]. unfold locked. cbn [eff]. apply eff_unlock. exact B.
Qed.
Lemma keeps_code x : ~ about w x -> keeps (code x).
Proof.
  intro N. assert (B : keeps (pbody base limit x)).
  { destruct x as [inc|i|i]; cbn [pbody about] in *.
    - unfold p_sbrk, rd, wr. cbn [bindp keeps]. intros s. exists s, (brk s). do 2 (split; [reflexivity|]).
      assert (T : forall s2 : pst, exists (s' : pst) (a : Z), Ok (s2, brk s2) = Ok (s', a) /\ words s' w = words s2 w /\
        (forall s0, exists s'0 a0, Ok (s0, brk s0) = Ok (s'0, a0) /\ words s'0 w = words s0 w /\
         keeps (if ((0 <? inc) && ((a0 + inc) mod W64 <? a)) || ((inc <? 0) && (a <? (a0 + inc) mod W64)) then Ret None
                else if (if 0 <? inc then Z.min limit ((a0 + inc) mod W64) else Z.max base ((a0 + inc) mod W64)) =? (a0 + inc) mod W64
                then Act (fun s1 => Ok (set_brk s1 ((a0 + inc) mod W64), tt)) (fun _ => Ret (Some (a, inc))) else Ret None))).
      { intro s2. exists s2, (brk s2). do 2 (split; [reflexivity|]). intro s3. exists s3, (brk s3). do 2 (split; [reflexivity|]).
        destruct (((0 <? inc) && _) || _); [exact I|]. destruct (_ =? (brk s3 + inc) mod W64); [|exact I].
        cbn. intro s4. eexists _, tt. split; [reflexivity|]. split; [reflexivity|exact I]. }
      destruct (brk s =? 0); cbn [bindp keeps].
      + intros s1. exists (set_brk s1 base), tt. do 2 (split; [reflexivity|]). exact T.
      + exact T.
    - unfold p_mark, rd, wr, word_of, bit_of. cbn [bindp keeps]. intros s. eexists s, _. do 2 (split; [reflexivity|]).
      intros s1. eexists _, tt. split; [reflexivity|]. split; [|exact I]. cbn [words set_word]. destruct (Z.eqb_spec w (i / 64)); [congruence|reflexivity].
    - unfold p_unmark, rd, wr, word_of, bit_of. cbn [bindp keeps]. intros s. eexists s, _. do 2 (split; [reflexivity|]).
      intros s1. eexists _, tt. split; [reflexivity|]. split; [|exact I]. cbn [words set_word]. destruct (Z.eqb_spec w (i / 64)); [congruence|reflexivity]. }
  unfold pcode. destruct held; [|exact B]. unfold locked. cbn [keeps]. apply keeps_unlock. exact B.
Qed.

Variables (s0 : pst) (t0 : nat -> list pcall) (i : nat).
Hypothesis Hmine : forall j x, j <> i -> In x (t0 j) -> ~ about w x.

Definition minv (c : config pst pcall pans) : Prop :=
  (exists fin, t0 i = fin ++ todo c i /\
    match cur c i with
    | None => length (done_ c i) = length fin /\ words (sh c) w = after w (words s0 w) fin
    | Some p => length fin = S (length (done_ c i)) /\ eff p (words (sh c) w) (after w (words s0 w) fin)
    end) /\
  (forall j, j <> i -> (forall x, In x (todo c j) -> ~ about w x) /\ forall p, cur c j = Some p -> keeps p).
Lemma after_snoc v l x : after w v (l ++ [x]) = one w (after w v l) x.
Proof. unfold after. rewrite fold_left_app. reflexivity. Qed.
Lemma minv_step c j c' : minv c -> tstep code j c = Some (Ok c') -> minv c'.
Proof.
  intros [(fin & Ef & Hi) Ho] H. unfold tstep in H.
  destruct (Nat.eq_dec j i) as [->|Nj].
  - (* the thread itself *)
    assert (Keep : forall (k : prog pst pans) s' o', eff k (words s' w) (after w (words s0 w) fin) -> length fin = S (length (done_ c i)) ->
       minv (mkC s' o' (todo c) (set (cur c) i (Some k)) (done_ c))).
    { intros k s' o' He Hlen. split.
      - exists fin. split; [exact Ef|]. cbn [cur done_ sh]. rewrite set_same. auto.
      - intros m Nm. destruct (Ho m Nm) as [A B]. split; [exact A|]. cbn [cur]. rewrite set_other by exact Nm. exact B. }
    destruct (cur c i) as [p|] eqn:Ec.
    + destruct Hi as [Hlen He]. destruct p as [r|k|k|X f k]; cbn [eff] in He.
      * injection H; intros <-. split.
        -- exists fin. split; [exact Ef|]. cbn [cur done_ sh]. rewrite !set_same. rewrite app_length. cbn. split; [lia|exact He].
        -- intros m Nm. destruct (Ho m Nm) as [A B]. split; [exact A|]. cbn [cur]. rewrite set_other by exact Nm. exact B.
      * destruct (own c) as [[m d]|].
        -- destruct (Nat.eqb i m); [|discriminate]. injection H; intros <-. apply Keep; auto.
        -- injection H; intros <-. apply Keep; auto.
      * destruct (own c) as [[m [|d]]|]; try discriminate. destruct (Nat.eqb i m); [|discriminate]. injection H; intros <-. apply Keep; auto.
      * destruct (He (sh c) eq_refl) as (s' & a & E & He'). rewrite E in H. cbn [bind] in H. injection H; intros <-. apply Keep; auto.
    + destruct (todo c i) as [|x r] eqn:Et; [discriminate|]. injection H; intros <-. destruct Hi as [Hlen Hw]. split.
      * exists (fin ++ [x]). cbn [cur todo done_ sh]. rewrite !set_same. split; [rewrite <- app_assoc; exact Ef|].
        rewrite app_length, after_snoc, Hw. cbn. split; [lia|]. apply eff_code.
      * intros m Nm. destruct (Ho m Nm) as [A B]. cbn [cur todo]. rewrite !set_other by exact Nm. auto.
  - (* another *)
    assert (Keep : forall s' o' t' cu' dn', words s' w = words (sh c) w -> t' i = todo c i -> cu' i = cur c i -> dn' i = done_ c i ->
       (forall m, m <> i -> (forall x, In x (t' m) -> ~ about w x) /\ forall p, cu' m = Some p -> keeps p) ->
       minv (mkC s' o' t' cu' dn')).
    { intros s' o' t' cu' dn' Ew Et Ecu Ed Hm. split; [|exact Hm]. exists fin. cbn [cur todo done_ sh]. rewrite Et, Ecu, Ed, Ew. auto. }
    assert (Up : forall (k : prog pst pans), keeps k -> forall m, m <> i -> (forall x, In x (todo c m) -> ~ about w x) /\ forall p, set (cur c) j (Some k) m = Some p -> keeps p).
    { intros k Hk m Nm. destruct (Ho m Nm) as [A B]. split; [exact A|]. intros p Hp.
      destruct (Nat.eq_dec m j) as [->|N]; [rewrite set_same in Hp; injection Hp; intros <-; exact Hk|]. rewrite set_other in Hp by exact N. exact (B p Hp). }
    destruct (Ho j Nj) as [Tj Cj].
    destruct (cur c j) as [p|] eqn:Ec.
    + specialize (Cj p eq_refl). destruct p as [r|k|k|X f k]; cbn [keeps] in Cj.
      * injection H; intros <-. apply Keep; try reflexivity; try (apply set_other; congruence).
        intros m Nm. destruct (Ho m Nm) as [A B]. split; [exact A|]. intros p Hp.
        destruct (Nat.eq_dec m j) as [->|N]; [rewrite set_same in Hp; discriminate|]. rewrite set_other in Hp by exact N. exact (B p Hp).
      * destruct (own c) as [[m d]|].
        -- destruct (Nat.eqb j m); [|discriminate]. injection H; intros <-. apply Keep; try reflexivity; try (apply set_other; congruence). apply Up; auto.
        -- injection H; intros <-. apply Keep; try reflexivity; try (apply set_other; congruence). apply Up; auto.
      * destruct (own c) as [[m [|d]]|]; try discriminate. destruct (Nat.eqb j m); [|discriminate]. injection H; intros <-.
        apply Keep; try reflexivity; try (apply set_other; congruence). apply Up; auto.
      * destruct (Cj (sh c)) as (s' & a & E & Ew & Hk). rewrite E in H. cbn [bind] in H. injection H; intros <-.
        apply Keep; try reflexivity; try (apply set_other; congruence); [exact Ew|]. apply Up; auto.
    + destruct (todo c j) as [|x r] eqn:Et; [discriminate|]. injection H; intros <-.
      apply Keep; try reflexivity; try (apply set_other; congruence).
      intros m Nm. destruct (Ho m Nm) as [A B]. destruct (Nat.eq_dec m j) as [->|N].
      * rewrite !set_same. split; [intros y Hy; apply A; rewrite Et; right; exact Hy|].
        intros p Hp. injection Hp; intros <-. apply keeps_code. apply A. rewrite Et. left. reflexivity.
      * rewrite !set_other by exact N. auto.
Qed.

(* However threads interleave, with or without a lock: a word of marks which one thread only
   changes is, between that thread's calls, as its finished calls leave it. *)
Theorem pconc_own_word : forall c, steps code (start_c s0 t0) c -> cur c i = None ->
  words (sh c) w = after w (words s0 w) (firstn (length (done_ c i)) (t0 i)).
Proof.
  intros c H Hc.
  assert (G : forall c0 c1, steps code c0 c1 -> minv c0 -> minv c1).
  { intros c0 c1 Hs. induction Hs as [c0|c0 c1 j c2 Hs IH E]; intro O; [exact O|]. apply (minv_step c1 j c2); auto. }
  destruct (G _ _ H) as [(fin & Ef & Hi) _].
  - split; [exists []; split; [reflexivity|]; cbn; auto|]. intros j Nj. split; [intros x Hx; exact (Hmine j x Nj Hx)|discriminate].
  - rewrite Hc in Hi. destruct Hi as [Hlen Hw]. rewrite Hw, Ef, Hlen.
    rewrite firstn_app, Nat.sub_diag, firstn_all, firstn_O, app_nil_r. reflexivity.
Qed.
End Marks.

Module PcEx.
  Definition B : Z := 4096 * 100.
  Definition L : Z := B + 4096 * 8.
  Definition z0 : pst := mkP 0 (fun _ => 0).
  Notation run_ held := (exec (pcode B L held)) (only parsing).
  Definition calls2 (x y : pcall) (i : nat) : list pcall := match i with 0%nat => [x] | 1%nat => [y] | _ => [] end.
  Definition calls3 (x y z : pcall) (i : nat) : list pcall := match i with 0%nat => [x] | 1%nat => [y] | 2%nat => [z] | _ => [] end.

  Lemma seen {X} (f : config pst pcall pans -> X) (o : option (config pst pcall pans)) v :
    option_map f o = Some v -> exists c, o = Some c /\ f c = v.
  Proof. destruct o as [c|]; cbn; intro H; [|discriminate]. exists c. split; [reflexivity|]. injection H. auto. Qed.

  (* the hypotheses of pconc_held_apart, pconc_within and pconc_own_word are met *)
  Example held_case : exists c, run_ true (repeat 0%nat 9 ++ repeat 1%nat 8) (start_c z0 (calls2 (PSbrk 4096) (PSbrk 8192))) = Some c /\
    ready B L z0 /\ (forall i x, In x (calls2 (PSbrk 4096) (PSbrk 8192) i) -> grows x) /\
    done_ c 0%nat = [Some (B, 4096)] /\ done_ c 1%nat = [Some (B + 4096, 8192)].
  Proof.
    destruct (seen (fun c => (done_ c 0%nat, done_ c 1%nat)) (run_ true (repeat 0%nat 9 ++ repeat 1%nat 8) (start_c z0 (calls2 (PSbrk 4096) (PSbrk 8192))))
      ([Some (B, 4096)], [Some (B + 4096, 8192)])) as (c & E & H); [vm_compute; reflexivity|].
    exists c. split; [exact E|]. split; [left; reflexivity|]. split.
    - intros [|[|i]] x; cbn; intros [<-|[]] || intros []; cbn; lia.
    - injection H; auto.
  Qed.
  Example word_case : exists c, run_ false [0;1;0;1;0;1;0;1]%nat (start_c z0 (calls2 (PMark 3) (PMark 64))) = Some c /\
    (forall j x, j <> 0%nat -> In x (calls2 (PMark 3) (PMark 64) j) -> ~ about 0 x) /\ cur c 0%nat = None /\ words (sh c) 0 = 8 /\ words (sh c) 1 = 1.
  Proof.
    destruct (seen (fun c => (match cur c 0%nat with None => true | _ => false end, words (sh c) 0, words (sh c) 1))
      (run_ false [0;1;0;1;0;1;0;1]%nat (start_c z0 (calls2 (PMark 3) (PMark 64)))) (true, 8, 1)) as (c & E & H); [vm_compute; reflexivity|].
    exists c. split; [exact E|]. split.
    - intros [|[|j]] x; cbn; try congruence; try tauto. intros _ [<-|[]]. cbn. intro E1. vm_compute in E1. discriminate.
    - injection H; intros E3 E2 E1. destruct (cur c 0%nat); [discriminate|]. auto.
  Qed.

  (* Two threads growing the heap are both given the same memory. *)
  Theorem pconc_twice_refuted : exists s0 t0 sched c a, ready B L s0 /\ (forall i x, In x (t0 i) -> grows x) /\
    exec (pcode B L false) sched (start_c s0 t0) = Some c /\ done_ c 0%nat = [Some a] /\ done_ c 1%nat = [Some a] /\ 0 < snd a.
  Proof.
    destruct (seen (fun c => (done_ c 0%nat, done_ c 1%nat))
      (run_ false ([0;0;0;0;0]%nat ++ repeat 1%nat 6 ++ [0;0]%nat) (start_c z0 (calls2 (PSbrk 4096) (PSbrk 4096))))
      ([Some (B, 4096)], [Some (B, 4096)])) as (c & E & H); [vm_compute; reflexivity|].
    exists z0, (calls2 (PSbrk 4096) (PSbrk 4096)), ([0;0;0;0;0]%nat ++ repeat 1%nat 6 ++ [0;0]%nat), c, (B, 4096). split; [|split; [|split; [exact E|]]]; [left; reflexivity| |injection H; intros; split; [assumption|split; [assumption|reflexivity]]].
    intros [|[|i]] x; cbn; intros [<-|[]] || intros []; cbn; lia.
  Qed.
  (* A thread growing the heap is given memory beyond its end. *)
  Theorem pconc_beyond_refuted : exists s0 t0 sched c a, ready B L s0 /\ (forall i x, In x (t0 i) -> grows x) /\
    exec (pcode B L false) sched (start_c s0 t0) = Some c /\ done_ c 2%nat = [Some a] /\ L < fst a + snd a.
  Proof.
    destruct (seen (fun c => done_ c 2%nat)
      (run_ false ([0;0;0;0]%nat ++ repeat 1%nat 6 ++ [2;2;2;0;2;2;2]%nat)
        (start_c (mkP B (fun _ => 0)) (calls3 (PSbrk 4096) (PSbrk (4096 * 5)) (PSbrk (4096 * 6)))))
      [Some (B + 4096 * 5, 4096 * 6)]) as (c & E & H); [vm_compute; reflexivity|].
    exists (mkP B (fun _ => 0)), (calls3 (PSbrk 4096) (PSbrk (4096 * 5)) (PSbrk (4096 * 6))), ([0;0;0;0]%nat ++ repeat 1%nat 6 ++ [2;2;2;0;2;2;2]%nat), c, (B + 4096 * 5, 4096 * 6). split; [|split; [|split; [exact E|]]].
    - right; vm_compute; split; discriminate.
    - intros [|[|[|i]]] x; cbn; intros [<-|[]] || intros []; cbn; lia.
    - split; [exact H|vm_compute; reflexivity].
  Qed.
  (* A chunk's mark is lost, or a freed chunk's comes back, when another thread marks a chunk nearby. *)
  Theorem pconc_mark_refuted :
    (exists sched c, exec (pcode B L false) sched (start_c z0 (calls2 (PMark 3) (PMark 5))) = Some c /\
       done_ c 0%nat = [None] /\ done_ c 1%nat = [None] /\ Z.testbit (words (sh c) 0) 3 = false) /\
    (exists sched c, exec (pcode B L false) sched (start_c (mkP 0 (fun _ => 8)) (calls2 (PUnmark 3) (PMark 5))) = Some c /\
       done_ c 0%nat = [None] /\ done_ c 1%nat = [None] /\ Z.testbit (words (sh c) 0) 3 = true).
  Proof.
    split.
    - destruct (seen (fun c => (done_ c 0%nat, done_ c 1%nat, Z.testbit (words (sh c) 0) 3))
        (run_ false ([1;1]%nat ++ repeat 0%nat 4 ++ [1;1]%nat) (start_c z0 (calls2 (PMark 3) (PMark 5)))) ([None], [None], false))
        as (c & E & H); [vm_compute; reflexivity|].
      exists ([1;1]%nat ++ repeat 0%nat 4 ++ [1;1]%nat), c. split; [exact E|]. injection H; auto.
    - destruct (seen (fun c => (done_ c 0%nat, done_ c 1%nat, Z.testbit (words (sh c) 0) 3))
        (run_ false ([1;1]%nat ++ repeat 0%nat 4 ++ [1;1]%nat) (start_c (mkP 0 (fun _ => 8)) (calls2 (PUnmark 3) (PMark 5)))) ([None], [None], true))
        as (c & E & H); [vm_compute; reflexivity|].
      exists ([1;1]%nat ++ repeat 0%nat 4 ++ [1;1]%nat), c. split; [exact E|]. injection H; auto.
  Qed.
End PcEx.

Print Assumptions pconc_held_serial.
Print Assumptions pconc_held_apart.
Print Assumptions pconc_within.
Print Assumptions pconc_own_word.
Print Assumptions PcEx.pconc_twice_refuted.
Print Assumptions PcEx.pconc_beyond_refuted.
Print Assumptions PcEx.pconc_mark_refuted.
