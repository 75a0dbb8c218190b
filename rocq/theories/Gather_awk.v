(* The awk script finds the calls. *)
From Verif Require Import Base Meta_model Allocsites_model Gather_model Gather_spec.

Definition cur := option (str * Z * Z).
Definition rep (l : option (str * Z)) (off : Z) : cur :=
  match l with Some (f, n) => Some (f, n, n + Z.max 1 off) | None => None end.
Definition mk (a : Z) (c : cur) : Z * str * Z * Z :=
  match c with Some (f, lo, hi) => (a, f, lo, hi) | None => (a, question, 0, 1) end.
Fixpoint outs (pend : option cur) (l : list (insn * cur)) : list (Z * str * Z * Z) :=
  match l with
  | [] => []
  | (j, c) :: r =>
      (match pend with Some p => [mk (n_addr j) p] | None => [] end) ++ outs (if n_call j then Some c else None) r
  end.
Fixpoint pend_after (pend : option cur) (l : list (insn * cur)) : option cur :=
  match l with [] => pend | (j, c) :: r => pend_after (if n_call j then Some c else None) r end.
Lemma outs_app : forall a pend b, outs pend (a ++ b) = outs pend a ++ outs (pend_after pend a) b.
Proof. induction a as [|(j, c) r IH]; intros; [reflexivity|]. cbn [outs pend_after app]. rewrite IH, app_assoc. reflexivity. Qed.
Lemma pend_app : forall a pend b, pend_after pend (a ++ b) = pend_after (pend_after pend a) b.
Proof. induction a as [|(j, c) r IH]; intros; [reflexivity|]. cbn [pend_after app]. apply IH. Qed.

Definition mpend (m : option (option (str * Z) * Z)) : option cur :=
  match m with Some (l, off) => Some (rep l off) | None => None end.
Definition okoff (l : option (str * Z)) (off : Z) : Prop := 0 <= off /\ (l = None -> off = 0).
Definition okmeta (m : option (option (str * Z) * Z)) : Prop := match m with Some (l, off) => okoff l off | None => True end.

Lemma ins_ok : forall il w, okoff (a_loc w) (a_off w) -> okmeta (a_meta w) ->
  let w' := fold_left a_line (map (fun i => CIns (n_addr i) (n_call i)) il) w in
  let ev := map (fun i => (i, rep (a_loc w) (a_off w))) il in
  a_loc w' = a_loc w /\ a_off w' = a_off w /\ a_new w' = a_new w /\ okmeta (a_meta w') /\
  mpend (a_meta w') = pend_after (mpend (a_meta w)) ev /\
  a_out w' = rev (outs (mpend (a_meta w)) ev) ++ a_out w /\ (il <> [] -> a_state w' = 4).
Proof.
  induction il as [|i r IH]; intros w Ho Hm w' ev.
  - cbn in *. repeat split; auto. congruence.
  - cbn [map fold_left] in w'. set (w1 := a_line w (CIns (n_addr i) (n_call i))) in *.
    assert (L1 : a_loc w1 = a_loc w) by reflexivity. assert (O1 : a_off w1 = a_off w) by reflexivity.
    assert (N1 : a_new w1 = a_new w) by reflexivity. assert (S1 : a_state w1 = 4) by reflexivity.
    assert (M1 : a_meta w1 = if n_call i then Some (a_loc w, a_off w) else None) by reflexivity.
    assert (X1 : a_out w1 = (match mpend (a_meta w) with Some p => [mk (n_addr i) p] | None => [] end) ++ a_out w).
    { subst w1. unfold a_line. destruct (a_meta w) as [(l, off)|]; [|reflexivity]. cbn [mpend a_out].
      destruct l as [(f, n)|]; cbn [rep mk app]; cbn in Hm; destruct Hm as (Hm1 & Hm2).
      - destruct (off =? 0) eqn:E; repeat f_equal; lia.
      - rewrite (Hm2 eq_refl). reflexivity. }
    assert (Hm1 : okmeta (a_meta w1)) by (rewrite M1; destruct (n_call i); cbn; auto).
    assert (Ho1 : okoff (a_loc w1) (a_off w1)) by (rewrite L1, O1; exact Ho).
    specialize (IH w1 Ho1 Hm1). cbv zeta in IH. rewrite L1, O1, N1 in IH.
    destruct IH as (A & B & C & D & E & F & G).
    assert (Em : mpend (a_meta w1) = if n_call i then Some (rep (a_loc w) (a_off w)) else None) by (rewrite M1; destruct (n_call i); reflexivity).
    rewrite Em in E, F. unfold ev. cbn [map pend_after outs]. 
    split; [exact A|]. split; [exact B|]. split; [exact C|]. split; [exact D|]. split; [exact E|]. split.
    + unfold w'. rewrite F, X1, rev_app_distr, <- !app_assoc. f_equal. destruct (mpend (a_meta w)); reflexivity.
    + intros _. destruct r as [|j r]; [exact S1 | apply G; discriminate].
Qed.

(* source lines once in state 1 *)
Lemma sources1 : forall l w, Forall source_text l -> a_state w = 1 -> a_new w = false ->
  fold_left a_line l w = mkAw 1 false (a_loc w) (a_off w + Z.of_nat (length l)) (a_meta w) (a_out w).
Proof.
  induction l as [|c r IH]; intros w Hl Hs Hn.
  - cbn. destruct w; cbn in *; subst. rewrite Z.add_0_r. reflexivity.
  - inversion Hl as [|? ? Hc Hr]; subst. cbn [fold_left].
    assert (E : a_line w c = mkAw 1 false (a_loc w) (a_off w + 1) (a_meta w) (a_out w)).
    { destruct c; cbn in Hc; try contradiction; unfold a_line, a_source; rewrite ?Hs, Hn; reflexivity. }
    rewrite E, IH; auto. cbn [a_loc a_off a_meta a_out length]. f_equal. lia.
Qed.
(* from state 3, the first not being CFun *)
Lemma sources3 : forall l w, Forall source_text l -> hd CText l <> CFun -> a_state w = 3 -> a_new w = false ->
  exists st, fold_left a_line l w = mkAw st false (a_loc w) (a_off w + Z.of_nat (length l)) (a_meta w) (a_out w).
Proof.
  intros [|c r] w Hl Hh Hs Hn.
  - exists 3. destruct w; cbn in *; subst. rewrite Z.add_0_r. reflexivity.
  - exists 1. inversion Hl as [|? ? Hc Hr]; subst. cbn [fold_left].
    assert (E : a_line w c = mkAw 1 false (a_loc w) (a_off w + 1) (a_meta w) (a_out w)).
    { destruct c; cbn in Hc, Hh; try contradiction; try congruence; unfold a_line, a_source; rewrite ?Hs, Hn; reflexivity. }
    rewrite E, sources1; auto. cbn [a_loc a_off a_meta a_out length]. f_equal. lia.
Qed.

Definition ready (w : aw) : Prop := a_state w = 4 /\ a_new w = false /\ okoff (a_loc w) (a_off w) /\ okmeta (a_meta w).
Definition events_block (c : cur) (b : block) : list (insn * cur) := map (fun i => (i, loc_after c b)) (b_ins b).

Lemma block_ok b w : wf_block b -> ready w ->
  let w' := fold_left a_line (show_block b) w in
  let ev := events_block (rep (a_loc w) (a_off w)) b in
  ready w' /\ rep (a_loc w') (a_off w') = loc_after (rep (a_loc w) (a_off w)) b /\
  mpend (a_meta w') = pend_after (mpend (a_meta w)) ev /\ a_out w' = rev (outs (mpend (a_meta w)) ev) ++ a_out w.
Proof.
  intros (Hsrc & Hins & Hl & Hf) (Hs & Hn & Ho & Hm) w' ev.
  assert (P : exists w1, fold_left a_line (show_block b) w = fold_left a_line (map (fun i => CIns (n_addr i) (n_call i)) (b_ins b)) w1 /\
    a_new w1 = false /\ okoff (a_loc w1) (a_off w1) /\ rep (a_loc w1) (a_off w1) = loc_after (rep (a_loc w) (a_off w)) b /\
    a_meta w1 = a_meta w /\ a_out w1 = a_out w).
  { unfold show_block. rewrite !fold_left_app.
    set (w0 := fold_left a_line (if b_dots b then [CDots] else []) w).
    assert (E0 : a_state w0 = 4 /\ a_new w0 = false /\ a_loc w0 = a_loc w /\ a_off w0 = a_off w /\ a_meta w0 = a_meta w /\ a_out w0 = a_out w).
    { unfold w0. destruct (b_dots b); cbn; repeat split; auto. }
    clearbody w0. destruct E0 as (S0 & N0 & L0 & F0 & M0 & X0).
    eexists. split; [reflexivity|].
    destruct (b_fun b) eqn:Ef.
    - assert (E1 : fold_left a_line [CFun] w0 = mkAw 2 false None 0 (a_meta w) (a_out w)) by (cbn; rewrite S0, M0, X0; reflexivity).
      rewrite E1. unfold loc_after. destruct (b_loc b) as [(f, n)|] eqn:El.
      + assert (E2 : fold_left a_line [CFile f n] (mkAw 2 false None 0 (a_meta w) (a_out w)) = mkAw 1 false (Some (f, n)) 0 (a_meta w) (a_out w)) by reflexivity.
        rewrite E2, sources1 by auto. cbn [a_loc a_off a_meta a_out a_new]. repeat split; auto; try lia; discriminate.
      + rewrite (Hl eq_refl). cbn [fold_left a_loc a_off a_meta a_out a_new]. rewrite Ef. repeat split; auto; lia.
    - cbn [fold_left]. unfold loc_after. destruct (b_loc b) as [(f, n)|] eqn:El.
      + assert (E2 : fold_left a_line [CFile f n] w0 = mkAw 3 false (Some (f, n)) 0 (a_meta w) (a_out w)) by (cbn; rewrite S0, M0, X0; reflexivity).
        rewrite E2. destruct (sources3 (b_src b) (mkAw 3 false (Some (f, n)) 0 (a_meta w) (a_out w)) Hsrc (Hf eq_refl) eq_refl eq_refl) as (st & E3).
        rewrite E3. cbn [a_loc a_off a_meta a_out a_new]. repeat split; auto; try lia; discriminate.
      + rewrite (Hl eq_refl). cbn [fold_left]. rewrite Ef, L0, F0, M0, X0, N0. repeat split; auto; apply Ho. }
  destruct P as (w1 & E & N1 & O1 & R1 & M1 & X1).
  pose proof (ins_ok (b_ins b) w1 O1) as Q. rewrite M1 in Q. specialize (Q Hm). cbv zeta in Q.
  unfold w'. rewrite E. destruct Q as (A & B & C & D & F & G & H).
  assert (Eev : ev = map (fun i => (i, rep (a_loc w1) (a_off w1))) (b_ins b)) by (unfold ev, events_block; rewrite R1; reflexivity).
  rewrite Eev, <- R1, A, B. split; [|split; [reflexivity|split; [exact F|]]].
  - split; [apply H; exact Hins|]. split; [rewrite C; exact N1|]. split; [rewrite A, B; exact O1 | exact D].
  - rewrite G, X1. reflexivity.
Qed.

Fixpoint events_blocks (c : cur) (bs : list block) : list (insn * cur) :=
  match bs with [] => [] | b :: r => events_block c b ++ events_blocks (loc_after c b) r end.
Definition events_secs (ss : list section) : list (insn * cur) := flat_map (fun s => events_blocks None (sec_blocks s)) ss.

Lemma blocks_ok : forall bs w, Forall wf_block bs -> ready w ->
  let w' := fold_left a_line (flat_map show_block bs) w in
  let ev := events_blocks (rep (a_loc w) (a_off w)) bs in
  ready w' /\ mpend (a_meta w') = pend_after (mpend (a_meta w)) ev /\ a_out w' = rev (outs (mpend (a_meta w)) ev) ++ a_out w.
Proof.
  induction bs as [|b r IH]; intros w Hb Hw w' ev.
  - repeat split; auto; apply Hw.
  - inversion Hb as [|? ? H1 H2]; subst. cbn [flat_map] in w'. unfold w'. rewrite fold_left_app.
    destruct (block_ok b w H1 Hw) as (R & L & P & O). cbv zeta in *.
    set (w1 := fold_left a_line (show_block b) w) in *. clearbody w1.
    destruct (IH w1 H2 R) as (A & B & C). unfold ev. cbn [events_blocks]. rewrite pend_app, outs_app, rev_app_distr, <- app_assoc.
    rewrite L, P in B, C. split; [exact A|]. split; [exact B|]. rewrite C, O. reflexivity.
Qed.

Lemma secs_ok : forall ss w, Forall (fun s => Forall wf_block (sec_blocks s)) ss -> okmeta (a_meta w) ->
  let w' := fold_left a_line (flat_map show_section ss) w in
  let ev := events_secs ss in
  a_out w' = rev (outs (mpend (a_meta w)) ev) ++ a_out w.
Proof.
  induction ss as [|s r IH]; intros w Hs Hm w' ev; [reflexivity|].
  inversion Hs as [|? ? H1 H2]; subst. cbn [flat_map] in w'. unfold w'. rewrite fold_left_app. unfold show_section at 2. rewrite fold_left_app.
  set (w0 := fold_left a_line (if sec_blank s then [CBlank] else []) w).
  assert (E0 : a_meta w0 = a_meta w /\ a_out w0 = a_out w).
  { unfold w0. destruct (sec_blank s); [|auto]. cbn. destruct (a_state w =? 0); auto. }
  clearbody w0. destruct E0 as (M0 & X0). cbn [fold_left].
  assert (R : ready (a_line w0 CSection)).
  { cbn. unfold ready; cbn. rewrite M0. split; [reflexivity|]. split; [reflexivity|]. split; [|exact Hm]. split; [lia|]. auto. }
  destruct (blocks_ok (sec_blocks s) _ H1 R) as (A & B & C). cbv zeta in *.
  change (rep (a_loc (a_line w0 CSection)) (a_off (a_line w0 CSection))) with (None : cur) in B, C.
  change (a_meta (a_line w0 CSection)) with (a_meta w0) in B, C. change (a_out (a_line w0 CSection)) with (a_out w0) in C.
  rewrite M0 in B, C. rewrite X0 in C.
  set (w1 := fold_left a_line (flat_map show_block (sec_blocks s)) (a_line w0 CSection)) in *. clearbody w1.
  destruct A as (_ & _ & _ & A). pose proof (IH w1 H2 A) as Q. cbv zeta in Q. rewrite Q, B, C.
  unfold ev, events_secs. cbn [flat_map]. rewrite outs_app, rev_app_distr, <- app_assoc. reflexivity.
Qed.

Lemma blanks0 k w : a_state w = 0 -> fold_left a_line (repeat CBlank k) w = w.
Proof. intros H. induction k as [|k IH]; [reflexivity|]. cbn [repeat fold_left]. unfold a_line at 2. rewrite H. exact IH. Qed.

Theorem awk_events l : wf_listing l -> awk (show l) = outs None (events_secs (l_secs l)).
Proof.
  intros H. unfold awk, show. cbn [fold_left]. rewrite fold_left_app, blanks0 by reflexivity.
  pose proof (secs_ok (l_secs l) (a_line aw0 CHeader) H I) as Q. cbv zeta in Q. rewrite Q.
  change (mpend (a_meta (a_line aw0 CHeader))) with (None : option cur). change (a_out (a_line aw0 CHeader)) with (@nil (Z * str * Z * Z)).
  rewrite app_nil_r, rev_involutive. reflexivity.
Qed.

(* with every call followed by where it returns *)
Definition toO (x : Z * str * Z * Z) : obj := let '(a, f, lo, hi) := x in mkO a f lo hi.
Lemma outs_calls : forall ev pend, followed (map fst ev) ->
  (match pend with Some _ => ev <> [] | None => True end) ->
  map toO (outs pend ev) =
    (match pend, ev with Some p, (j, _) :: _ => [toO (mk (n_addr j) p)] | _, _ => [] end) ++
    flat_map (fun '(i, c) => call_at c i) ev.
Proof.
  induction ev as [|(j, c) r IH]; intros pend Hf Hp; [destruct pend; [contradiction|reflexivity]|].
  cbn [outs]. rewrite map_app. cbn [map fst followed] in Hf. destruct Hf as (Hj & Hr).
  assert (E : map toO (outs (if n_call j then Some c else None) r) = call_at c j ++ flat_map (fun '(i, c) => call_at c i) r).
  { destruct (n_call j) eqn:Ec.
    - destruct (Hj eq_refl) as (k & r' & Er & Ea). destruct r as [|(k', c') r]; [discriminate|]. cbn [map fst] in Er. injection Er as -> _.
      rewrite IH; [|exact Hr|discriminate]. f_equal. unfold call_at. rewrite Ec, Ea. destruct c as [((f, lo), hi)|]; reflexivity.
    - rewrite IH; [|exact Hr|exact I]. unfold call_at at 2. rewrite Ec. reflexivity. }
  rewrite E. destruct pend as [p|]; reflexivity.
Qed.

Lemma events_fst c bs : map fst (events_blocks c bs) = flat_map b_ins bs.
Proof.
  revert c. induction bs as [|b r IH]; intros c; [reflexivity|]. cbn [events_blocks flat_map]. rewrite map_app, IH. f_equal.
  unfold events_block. rewrite map_map. apply map_id.
Qed.
Lemma events_calls c bs : flat_map (fun '(i, c) => call_at c i) (events_blocks c bs) = calls_blocks c bs.
Proof.
  revert c. induction bs as [|b r IH]; intros c; [reflexivity|]. cbn [events_blocks calls_blocks]. rewrite flat_map_app, IH. f_equal.
  unfold events_block. rewrite !flat_map_concat_map, map_map. reflexivity.
Qed.
Lemma flat_map_ext2 {A B} (f g : A -> list B) l : (forall x, f x = g x) -> flat_map f l = flat_map g l.
Proof. intros H. induction l as [|x r IH]; [reflexivity|]. cbn. rewrite H, IH. reflexivity. Qed.

Theorem awk_calls l : wf_listing l -> followed (all_ins l) -> map toO (awk (show l)) = calls l.
Proof.
  intros H F. rewrite (awk_events l H), outs_calls; [| |exact I].
  - cbn [app]. unfold events_secs, calls. generalize (l_secs l). intros ss.
    induction ss as [|s r IH]; [reflexivity|]. cbn [flat_map]. rewrite flat_map_app. f_equal; [apply events_calls | exact IH].
  - unfold events_secs. unfold all_ins in F. revert F. generalize (l_secs l). intros ss F.
    replace (map fst (flat_map (fun s => events_blocks None (sec_blocks s)) ss)) with (flat_map (fun s => flat_map b_ins (sec_blocks s)) ss); [exact F|].
    clear F. induction ss as [|s r IH]; [reflexivity|]. cbn [flat_map]. rewrite map_app. f_equal; [symmetry; apply events_fst | exact IH].
Qed.
