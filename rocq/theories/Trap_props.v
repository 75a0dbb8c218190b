(* C55: system calls keep their meaning and the records follow them. *)
From Verif Require Import Base Big_model Big_spec Big_inv Big_create Big_hist Big_props Big_field Map_model Map_spec Map_seq Map_state Map_hist Map_props Remap_model Remap_props Brk_model Brk_spec Brk_props File_model Trap_model Trap_spec Trap_proof.

Section P.
Variables (nb : nat) (biggest : Z) (dbg : bool) (al : nat -> Z) (cur_ max_ : Z) (obj_of : Z -> Z).
Variables (base : bool) (own : Z) (links : Z -> option Z).
Notation mreach := (mreach nb biggest dbg al cur_ max_ obj_of).
Notation trap := (trap nb biggest dbg obj_of false base own links).
Notation does := (does links).
Notation may_call := (may_call nb biggest base own links).

(* the records describe the address space *)
Definition follows (t : tst) (K : space) : Prop := exists M, mreach (bm (tr_b t)) M /\ same M K.

(* One system call by the program: the kernel receives just that call, the program receives the
   kernel's answer, and the records go on describing the address space.
   Full statement: for every call.  Missing: calls that do not satisfy [may_call]; among these,
   mremap without a given place (trap_mremap_refuted) and mprotect (trap_mprotect_refuted). *)
Theorem trap_call_exact_partial : forall t K caller c r e K' kernel,
  follows t K -> does caller e K c r K' -> may_call (tr_b t) caller c r e -> kernel c = r ->
  exists t', trap kernel t caller c = Ok (t', r, [c]) /\ follows t' K' /\ tr_area t' = tr_area t.
Proof.
  intros t K caller c r e K' kernel (M & HM & SM) HD MC HK.
  destruct HD as [c r NB F|m r H0 H1 H2 H3 H4|a l H0 H1 H2|old olen nlen fl new u D1 D2 D3 D4 D5 D6 D7 D8|a r|p f m r H|d p f m r H|a l p|nr r].
  - (* failed *)
    destruct c as [m|a l|o ol nl f nw|a|p f m|d p f m|a l p|nr]; cbn [may_call trap] in *; unfold Trap_model.trap; cbv zeta.
    + rewrite (nudge_none nb biggest dbg al cur_ max_ obj_of base own _ M _ _ _ HM (proj1 MC)).
      cbn [bind]. rewrite HK, (failed_error r F). cbn [bind]. eexists. split; [reflexivity|]. split; [exists M; auto|reflexivity].
    + rewrite HK, (failed_nz r F), (through_int_ok r) by auto. cbn [bind]. eexists. split; [reflexivity|]. split; [exists M; auto|reflexivity].
    + destruct MC as (M1 & M2 & M3 & _). change (exists t', trap kernel t caller (Cmremap o ol nl f nw) = Ok (t', r, [Cmremap o ol nl f nw]) /\ follows t' K /\ tr_area t' = tr_area t).
      rewrite trap_fixed by assumption. cbv zeta. rewrite HK, (failed_error r F). cbn [bind]. eexists. split; [reflexivity|]. split; [exists M; auto|reflexivity].
    + exfalso. exact (NB a eq_refl).
    + unfold nudge_open. rewrite HK, (through_int_ok r) by auto. eexists. split; [reflexivity|]. split; [exists M; auto|reflexivity].
    + unfold nudge_open. rewrite HK, (through_int_ok r) by auto. eexists. split; [reflexivity|]. split; [exists M; auto|reflexivity].
    + rewrite HK. eexists. split; [reflexivity|]. split; [exists M; auto|reflexivity].
    + rewrite HK. eexists. split; [reflexivity|]. split; [exists M; auto|reflexivity].
  - (* mmap *)
    destruct MC as [MC [F|[MF MR]]]; [exfalso; unfold failed, W64, PAGE in F, H3; assert (X := RUP_pos _ H2); lia|].
    unfold Trap_model.trap. cbv zeta. rewrite (nudge_none nb biggest dbg al cur_ max_ obj_of base own _ M _ _ _ HM MC). cbn [bind]. rewrite HK.
    assert (NE : is_error r = false) by (unfold is_error; assert (X := RUP_pos _ H2); lia). rewrite NE.
    unfold notify_mmap. rewrite (filename_ok dbg links m MF). cbn [bind].
    assert (MM : may_map nb biggest (bm (tr_b t)) r (r + RUP (m_len m)) (m_flags m) (backing links m)).
    { destruct (fixed m); [exact MR|]. eapply (room_map nb biggest dbg al cur_ max_ obj_of) with (M := M); auto.
      - assert (X := RUP_pos _ H2). lia.
      - apply add_page; [exact H1|apply RUP_page].
      - intros a Ha. rewrite SM. exact (H4 a Ha). }
    destruct (map_mmap_exact_partial nb biggest dbg al cur_ max_ obj_of _ M r (m_len m) (m_prot m) (m_flags m) (backing links m) (m_off m) caller HM MM) as (T' & E & HM' & _).
    rewrite E. cbn [bind]. eexists. split; [reflexivity|]. split; [|reflexivity]. eexists. split; [exact HM'|]. apply map_over_same, SM.
  - (* munmap *)
    destruct MC as [F|MU]; [exfalso; unfold failed, W64, PAGE in F; lia|].
    unfold Trap_model.trap. cbv zeta. rewrite HK. change (through_int 0 =? 0) with true. cbv iota.
    destruct (map_munmap_exact_partial nb biggest dbg al cur_ max_ obj_of _ M a l HM H2 MU) as (T' & E & HM' & _).
    rewrite E. cbn [bind]. eexists. split; [reflexivity|]. split; [|reflexivity]. eexists. split; [exact HM'|]. apply unmap_same, SM.
  - (* mremap *)
    destruct MC as (M1 & M2 & M3 & MC). rewrite trap_fixed by assumption. cbv zeta. rewrite HK.
    assert (LP := RUP_pos _ D4). destruct MC as [F|(n & x & LV & IX & X1 & X2 & X3 & MF & NR & MU & FR)]; [exfalso; unfold failed, W64, PAGE in F, D6; lia|].
    assert (NE : is_error new = false) by (unfold is_error; lia). rewrite NE.
    destruct (mreach_inv _ _ _ _ _ _ _ _ _ HM) as [MI MR].
    destruct (map_sequences_tidy_partial _ _ _ _ _ _ _ _ _ HM) as [TS _]. destruct (TS n (proj1 LV) (proj2 LV)) as (_ & SO & Eb & Ee).
    assert (XI := chain_in _ _ _ _ (so_chain _ SO) IX).
    assert (AT : attr_of (seqs (bm (tr_b t)) (priv_of (bm (tr_b t)) n)) x = u).
    { assert (Y : recorded (bm (tr_b t)) old (attr_of (seqs (bm (tr_b t)) (priv_of (bm (tr_b t)) n)) x)).
      { exists n. split; [exact (proj1 LV)|]. split; [exact (proj2 LV)|]. split; [unfold covers; lia|]. exists x. split; [exact IX|]. split; [lia|reflexivity]. }
      apply MR in Y. rewrite SM, (D8 old) in Y by lia. congruence. }
    destruct (remap_move_partial nb biggest dbg al cur_ max_ obj_of _ M n x new old olen nlen u (negb (Z.land fl MREMAP_DONTUNMAP =? 0)) caller HM) as (T' & E & HM'); auto; try lia.
    { constructor; [exact LV|lia|rewrite SM; apply D8; lia|rewrite <- AT; exact X3]. }
    { destruct (M (new - 1)) as [v|] eqn:Q; [|reflexivity]. apply MR in Q. exfalso. exact (NR v Q). }
    rewrite E. cbn [bind]. eexists. split; [reflexivity|]. split; [|reflexivity]. eexists. split; [exact HM'|]. cbv zeta.
    destruct (Z.land fl MREMAP_DONTUNMAP =? 0); cbn [negb]; [apply unmap_same|]; apply map_over_same, SM.
  - (* brk *)
    destruct MC as (IN & v & w & HP & EE & MV). unfold Trap_model.trap. cbv zeta. rewrite HK.
    destruct (brk_move_exact_partial nb biggest dbg al cur_ max_ obj_of (tr_b t) M v w r caller HM IN HP MV) as (T' & M' & E & HM' & X & _).
    rewrite E. cbn [bind]. eexists. split; [reflexivity|]. split; [|reflexivity]. eexists. split; [exact HM'|].
    intro x. rewrite X, EE. apply moved_ext. exact SM.
  - unfold Trap_model.trap, nudge_open. rewrite HK, (through_int_ok r) by auto. eexists. split; [reflexivity|]. split; [exists M; auto|reflexivity].
  - unfold Trap_model.trap, nudge_open. rewrite HK, (through_int_ok r) by auto. eexists. split; [reflexivity|]. split; [exists M; auto|reflexivity].
  - cbn in MC. unfold failed, W64, PAGE in MC. lia.
  - unfold Trap_model.trap. rewrite HK. eexists. split; [reflexivity|]. split; [exists M; auto|reflexivity].
Qed.

(* [proc t K]: the records are t when the address space is K, after system calls by the program
   and, between them, other allocators' calls. *)
Inductive proc : tst -> space -> Prop :=
| p_start t M : mreach (bm (tr_b t)) M -> proc t M
| p_call t K caller c r e K' kernel t' ans sent : proc t K -> does caller e K c r K' -> may_call (tr_b t) caller c r e ->
    kernel c = r -> trap kernel t caller c = Ok (t', ans, sent) -> proc t' K'
| p_other t K o s' cur' m' k' area : proc t K -> legal nb biggest al (fo (bm (tr_b t))) o ->
    step nb biggest dbg al cur_ max_ (fo (bm (tr_b t))) o = Ok s' -> keeps (fo (bm (tr_b t))) s' ->
    proc (mkTr (mkB (set_fo (bm (tr_b t)) s') cur' m' k' (b_init (tr_b t)) (b_last (tr_b t))) area) K.

Lemma proc_follows t K : proc t K -> follows t K.
Proof.
  induction 1 as [t M HM|t K caller c r e K' kernel t' ans sent _ IH HD MC HK E|t K o s' cur' m' k' area _ (M & HM & SM) LG ST KP].
  - exists M. split; [exact HM|]. intro a. reflexivity.
  - destruct (trap_call_exact_partial t K caller c r e K' kernel IH HD MC HK) as (t'' & E' & F & _). congruence.
  - exists M. split; [|exact SM]. exact (m_other _ _ _ _ _ _ _ _ M o s' HM LG ST KP).
Qed.

(* Whatever calls a program makes: asking about an address gives the attributes the kernel has for
   it, or says there are none just if nothing is mapped. *)
Theorem trap_history_exact_partial : forall t K a, proc t K ->
  exists r, Map_model.query nb (bm (tr_b t)) a = Ok r /\
  match r with None => K a = None | Some (q, e) => K a = Some (attr_of q e) /\ e_begin e <= a < e_end e end.
Proof.
  intros t K a H. destruct (proc_follows t K H) as (M & HM & SM).
  destruct (map_query_exact_partial nb biggest dbg al cur_ max_ obj_of _ M a HM) as (r & E & X). exists r. split; [exact E|].
  destruct r as [[q e]|]; rewrite <- SM; [|exact X]. destruct X as (X1 & X2 & _). auto.
Qed.


(* The library's own mappings: the kernel receives one call, with the address chosen by the library
   if none was given; the answer is the kernel's; the records follow. *)
Theorem own_mmap_exact_partial : forall t K caller m area m1 r e K' kernel,
  follows t K -> nudge nb false base own (fo (bm (tr_b t))) (tr_area t) m caller = Ok (area, m1) ->
  does caller e K (Cmmap m1) r K' -> may_call (tr_b t) caller (Cmmap m1) r e -> kernel (Cmmap m1) = r ->
  m_len m <= biggest ->
  exists t' err, own_mmap nb biggest dbg obj_of false base own links true kernel t m caller =
      Ok (t', if is_error r then MAP_FAILED else r, err, [Cmmap m1]) /\
    (err = None <-> is_error r = false) /\ follows t' K' /\ tr_area t' = area.
Proof.
  intros t K caller m area m1 r e K' kernel FO NU HD MC HK LB.
  destruct (trap_call_exact_partial t K caller (Cmmap m1) r e K' kernel FO HD MC HK) as (t1 & E & F & _).
  destruct FO as (M & HM & SM). unfold Trap_model.trap in E. cbv zeta in E.
  rewrite (nudge_none nb biggest dbg al cur_ max_ obj_of base own _ M _ _ _ HM (proj1 MC)) in E. cbn [bind] in E. rewrite HK in E.
  unfold own_mmap. cbv zeta. rewrite NU. cbn [bind]. rewrite HK.
  assert (LE : m_len m1 = m_len m).
  { unfold nudge in NU. destruct (m_addr m =? 0); [|congruence].
    destruct (is_self nb base own (fo (bm (tr_b t))) caller) as [b| | |]; [|discriminate..]. cbn [bind] in NU.
    destruct (b && _ && _); injection NU as _ <-; reflexivity. }
  rewrite LE. assert (LL : biggest <? m_len m = false) by lia. rewrite LL.
  destruct (is_error r) eqn:ER.
  - change (is_error MAP_FAILED) with true. cbv iota. eexists _, _. split; [reflexivity|]. split; [split; discriminate|]. split; [|reflexivity].
    cbn [bind] in E. injection E as <-. destruct F as (M' & HM' & SM'). exists M'. split; [exact HM'|exact SM'].
  - rewrite ER. cbv iota. cbn [negb].
    destruct (notify_mmap nb biggest dbg obj_of links (bm (tr_b t)) r m1 caller) as [T'| | |]; [|discriminate..]. cbn [bind] in E |- *.
    injection E as <-. eexists _, _. split; [reflexivity|]. split; [tauto|]. split; [|reflexivity].
    destruct F as (M' & HM' & SM'). exists M'. split; [exact HM'|exact SM'].
Qed.

(* What is too big to be recorded is not; errors are told as the kernel told them. *)
Theorem own_mmap_big : forall ready kernel t m caller area m1,
  nudge nb false base own (fo (bm (tr_b t))) (tr_area t) m caller = Ok (area, m1) -> biggest < m_len m ->
  exists t' r e, own_mmap nb biggest dbg obj_of false base own links ready kernel t m caller = Ok (t', r, e, [Cmmap m1]) /\
    tr_b t' = tr_b t /\ tr_area t' = area /\
    (failed (kernel (Cmmap m1)) -> r = MAP_FAILED /\ e = Some (W64 - kernel (Cmmap m1))) /\
    (0 <= kernel (Cmmap m1) < W64 - PAGE -> r = kernel (Cmmap m1) /\ e = None).
Proof.
  intros ready kernel t m caller area m1 NU LB. unfold own_mmap. cbv zeta. rewrite NU. cbn [bind].
  assert (LE : m_len m1 = m_len m).
  { unfold nudge in NU. destruct (m_addr m =? 0); [|congruence].
    destruct (is_self nb base own (fo (bm (tr_b t))) caller) as [b| | |]; [|discriminate..]. cbn [bind] in NU.
    destruct (b && _ && _); injection NU as <- <-; reflexivity. }
  rewrite LE. replace (biggest <? m_len m) with true by lia.
  destruct (is_error (kernel (Cmmap m1))) eqn:IE; eexists _, _, _; (split; [reflexivity|]); (split; [reflexivity|]); (split; [reflexivity|]).
  - split; [auto|]. unfold is_error in IE. intro. exfalso. lia.
  - split; [|auto]. intro F. rewrite (failed_error _ F) in IE. discriminate.
Qed.

(* While a file is opened for dlbind its mappings are shared, and otherwise as asked for. *)
Theorem trap_binding_shares : forall kernel t caller m t' r sent,
  Trap_model.trap nb biggest dbg obj_of true base own links kernel t caller (Cmmap m) = Ok (t', r, sent) ->
  exists m', sent = [Cmmap m'] /\ r = kernel (Cmmap m') /\
    m_addr m' = m_addr m /\ m_len m' = m_len m /\ m_prot m' = m_prot m /\ m_fd m' = m_fd m /\ m_off m' = m_off m /\
    forall i, 0 <= i -> Z.testbit (m_flags m') i = if i =? 0 then true else if i =? 1 then false else Z.testbit (m_flags m) i.
Proof.
  intros kernel t caller m t' r sent E. unfold Trap_model.trap, nudge in E. cbv zeta in E. cbn [bind] in E.
  match type of E with context [kernel (Cmmap ?x)] => exists x; destruct (is_error (kernel (Cmmap x))) end; cbn [bind] in E;
    [|match type of E with context [notify_mmap ?a ?b ?c ?d ?e ?f ?g ?h ?i] => destruct (notify_mmap a b c d e f g h i) end; [|discriminate..]; cbn [bind] in E];
  injection E as <- <- <-; (split; [reflexivity|]); (split; [reflexivity|]); repeat (split; [reflexivity|]); cbn [m_flags];
  (intros i Hi; rewrite Z.lor_spec, Z.ldiff_spec; destruct (Z.eqb_spec i 0) as [->|N0]; [apply Bool.orb_true_r|];
   assert (B1 : Z.testbit 1 i = false) by (change 1 with (2 ^ 0); apply Z.pow2_bits_false; lia); rewrite B1, Bool.orb_false_r;
   change 3 with (Z.ones 2); destruct (Z.eqb_spec i 1) as [->|N1];
   [rewrite (Z.ones_spec_low 2 1) by lia; apply Bool.andb_false_r | rewrite (Z.ones_spec_high 2 i) by lia; apply Bool.andb_true_r]).
Qed.

(* Every mremap that does not name a new address is changed into one that does. *)
Theorem trap_mremap_forced : forall t K caller old olen nlen flags new kernel t' r sent,
  follows t K -> base = true -> Z.land flags MREMAP_FIXED = 0 -> tr_area t <> 0 ->
  trap kernel t caller (Cmremap old olen nlen flags new) = Ok (t', r, sent) ->
  sent = [Cmremap old olen nlen (Z.lor flags MREMAP_FIXED) (tr_area t)] /\ tr_area t' = (tr_area t + nlen) mod W64.
Proof.
  intros t K caller old olen nlen flags new kernel t' r sent (M & HM & _) HB FL AR E. unfold Trap_model.trap in E. cbv zeta in E. rewrite FL in E.
  rewrite (Z.eqb_refl 0), Z.eqb_refl in E.
  destruct (big_find_by_allocator nb biggest dbg al cur_ max_ (fo (bm (tr_b t))) own FILE false (mi_R _ _ _ _ _ _ _ (proj1 (mreach_inv _ _ _ _ _ _ _ _ _ HM)))) as (x & Ex & _).
  unfold nudge, is_self in E. cbn [m_addr m_len m_flags m_prot m_fd m_off] in E. rewrite (Z.eqb_refl 0), HB, Ex in E. cbn [bind] in E.
  rewrite Nat.eqb_refl in E. change (true && (Z.land 0 MAP_FIXED =? 0) && (Z.land 0 NOREPLACE =? 0)) with true in E. cbv iota in E.
  cbn [bind m_addr m_len] in E. destruct (Z.eqb_spec (tr_area t) 0); [contradiction|].
  destruct (is_error _); cbn [bind] in E; [injection E as <- _ <-; split; reflexivity|].
  match type of E with context [notify_mremap ?a ?b ?c ?d ?e ?f ?g ?h ?i ?j ?k] => destruct (notify_mremap a b c d e f g h i j k) end;
    [|discriminate..]. cbn [bind] in E. injection E as <- _ <-. split; reflexivity.
Qed.
End P.

(* A run of mapping calls, with the records at each: the places given to the kernel. *)
Fixpoint nudges (nb : nat) (base : bool) (own area : Z) (l : list (st * mm * Z)) : res (Z * list mm) :=
  match l with
  | [] => Ok (area, [])
  | (s, m, caller) :: r =>
      do '(a1, m1) <- nudge nb false base own s area m caller ;
      do '(a2, ms) <- nudges nb base own a1 r ;
      Ok (a2, m1 :: ms)
  end.
(* the lengths asked for *)
Definition total (l : list (st * mm * Z)) : Z := fold_right (fun x a => m_len (snd (fst x)) + a) 0 l.
Definition chosen (x : (st * mm * Z) * mm) : bool := (m_addr (snd (fst (fst x))) =? 0) && negb (m_addr (snd x) =? 0).

Lemma total_cons x l : total (x :: l) = m_len (snd (fst x)) + total l.
Proof. reflexivity. Qed.
Lemma total_nonneg l : (forall x, In x l -> 0 <= m_len (snd (fst x))) -> 0 <= total l.
Proof.
  induction l as [|x l IH]; intro H; [unfold total; cbn; lia|]. rewrite total_cons. assert (X := H x (or_introl eq_refl)).
  assert (Y := IH (fun y h => H y (or_intror h))). lia.
Qed.
Lemma nudges_bounds nb base own l : forall area a ms, 0 < area -> (forall x, In x l -> 0 <= m_len (snd (fst x))) -> area + total l < W64 ->
  nudges nb base own area l = Ok (a, ms) ->
  area <= a <= area + total l /\ length ms = length l /\
  forall x, In x (combine l ms) -> chosen x = true -> area <= m_addr (snd x) /\ m_addr (snd x) + m_len (snd x) <= a.
Proof.
  induction l as [|[[s m] c] l IH]; intros area a ms A0 LN TT E; cbn [nudges] in E.
  - cbn [total fold_right] in *. injection E as <- <-. split; [lia|]. split; [reflexivity|]. intros x [].
  - rewrite total_cons in *. cbn [fst snd] in TT |- *. assert (L0 := LN (s, m, c) (or_introl eq_refl)). cbn [fst snd] in L0.
    assert (LN' : forall x, In x l -> 0 <= m_len (snd (fst x))) by (intros; apply LN; right; assumption).
    assert (T0 := total_nonneg l LN').
    destruct (nudge nb false base own s area m c) as [[a1 m1]| | |] eqn:NU; [|discriminate..]. cbn [bind] in E.
    destruct (nudges nb base own a1 l) as [[a2 ms']| | |] eqn:E2; [|discriminate..]. cbn [bind] in E. injection E as <- <-.
    assert (NX : (a1 = area /\ m1 = m) \/ (a1 = area + m_len m /\ m_addr m1 = area /\ m_len m1 = m_len m)).
    { unfold nudge in NU. destruct (m_addr m =? 0); [|injection NU as <- <-; auto].
      destruct (is_self nb base own s c) as [b| | |]; [|discriminate..]. cbn [bind] in NU.
      destruct (b && _ && _); injection NU as <- <-; [right|auto]. cbn [m_addr m_len]. rewrite Z.mod_small by lia. auto. }
    assert (A1 : area <= a1 <= area + m_len m) by (destruct NX as [(-> & _)|(-> & _)]; lia).
    destruct (IH a1 a2 ms' ltac:(lia) LN' ltac:(lia) E2) as (I1 & I2 & I3).
    split; [lia|]. split; [cbn; congruence|]. intros x [<-|X] CH.
    + unfold chosen in CH. cbn [fst snd] in CH |- *. destruct NX as [(-> & ->)|(-> & -> & ->)]; [destruct (m_addr m =? 0); discriminate|lia].
    + specialize (I3 x X CH). lia.
Qed.

(* The places the library chooses for its own mappings never overlap. *)
Theorem own_places_apart : forall nb base own l area a ms, 0 < area -> (forall x, In x l -> 0 <= m_len (snd (fst x))) ->
  area + total l < W64 -> nudges nb base own area l = Ok (a, ms) ->
  forall i j x y, (i < j)%nat -> nth_error (combine l ms) i = Some x -> nth_error (combine l ms) j = Some y ->
  chosen x = true -> chosen y = true -> m_addr (snd x) + m_len (snd x) <= m_addr (snd y).
Proof.
  intros nb base own l. induction l as [|[[s m] c] l IH]; intros area a ms A0 LN TT E i j x y IJ Hi Hj Cx Cy; [destruct i; discriminate|].
  assert (E' := E). cbn [nudges] in E.
  destruct (nudge nb false base own s area m c) as [[a1 m1]| | |] eqn:NU; [|discriminate..]. cbn [bind] in E.
  destruct (nudges nb base own a1 l) as [[a2 ms']| | |] eqn:E2; [|discriminate..]. cbn [bind] in E. injection E as <- <-.
  rewrite total_cons in TT. cbn [fst snd] in TT. assert (L0 := LN (s, m, c) (or_introl eq_refl)). cbn [fst snd] in L0.
  assert (LN' : forall x, In x l -> 0 <= m_len (snd (fst x))) by (intros; apply LN; right; assumption).
  assert (T0 := total_nonneg l LN').
  assert (NX : (a1 = area /\ m1 = m) \/ (a1 = area + m_len m /\ m_addr m1 = area /\ m_len m1 = m_len m)).
  { unfold nudge in NU. destruct (m_addr m =? 0); [|injection NU as <- <-; auto].
    destruct (is_self nb base own s c) as [b| | |]; [|discriminate..]. cbn [bind] in NU.
    destruct (b && _ && _); injection NU as <- <-; [right|auto]. cbn [m_addr m_len]. rewrite Z.mod_small by lia. auto. }
  assert (A1 : area <= a1 <= area + m_len m) by (destruct NX as [(-> & _)|(-> & _)]; lia).
  destruct j as [|j]; [lia|]. cbn [combine nth_error] in Hj. destruct i as [|i]; cbn [combine nth_error] in Hi.
  - injection Hi as <-. unfold chosen in Cx. cbn [fst snd] in Cx |- *.
    destruct NX as [(-> & ->)|(E1 & -> & ->)]; [destruct (m_addr m =? 0); discriminate|]. rewrite <- E1.
    exact (proj1 (proj2 (proj2 (nudges_bounds nb base own l a1 a2 ms' ltac:(lia) LN' ltac:(lia) E2)) y (nth_error_In _ _ Hj) Cy)).
  - exact (IH a1 a2 ms' ltac:(lia) LN' ltac:(lia) E2 i j x y ltac:(lia) Hi Hj Cx Cy).
Qed.
