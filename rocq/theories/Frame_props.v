(* Stack-frame lookup (C37) and the frame tables (C47). *)
From Coq Require Import Permutation Sorted.
From Verif Require Import Base Allocsites_model Frame_model Frame_spec.
From Verif Require Allocsites_props.

Lemma quad_eq (A B C D : Type) (a a' : A) (b b' : B) (c c' : C) (d d' : D) :
  (a, b, c, d) = (a', b', c', d') -> a = a' /\ b = b' /\ c = c' /\ d = d'.
Proof. intro H. inversion H. auto. Qed.

Section W.
Variable desc : Z -> option (ftype * Z).
Variable main_bp : Z.
Variable ends : ustep.

Lemma walk_sound obj : forall fs bp am base size ip t,
  walk desc main_bp ends obj fs bp am = Found base size ip t ->
  In (base, size, ip, t) (extents desc fs) /\ base <= obj < base + size.
Proof.
  induction fs as [|f rest IH]; intros bp am base size ip t H; cbn [walk] in H; [discriminate|].
  cbn [extents].
  set (hsp := match rest with g :: _ => u_sp g | [] => TOP end).
  match type of H with match ?h with _ => _ end = _ => destruct h as [[h1 h2]|] eqn:Eh; [|discriminate] end.
  assert (h1 = hsp).
  { unfold hsp. destruct rest as [|g r].
    - destruct ends; [|destruct (_ || _ || _)|]; inversion Eh; reflexivity.
    - inversion Eh. reflexivity. }
  subst h1.
  match type of H with context [if hsp =? TOP then ReachedTop else ?k] => set (next := k) in H end.
  assert (N : (if hsp =? TOP then ReachedTop else next) = Found base size ip t ->
              In (base, size, ip, t) (match desc (u_ip f) with Some (t0, o) => [(hsp - o, t_maxoff t0, u_ip f, t0)] | None => [] end ++ extents desc rest)
              /\ base <= obj < base + size).
  { intro N. destruct (hsp =? TOP); [discriminate|]. destruct (IH _ _ _ _ _ _ N) as [A B].
    split; [apply in_or_app; right; exact A|exact B]. }
  destruct (match h2 with Some b => b <? obj | None => false end); [exact (N H)|].
  destruct (desc (u_ip f)) as [[t0 o]|]; [|exact (N H)].
  destruct ((hsp - o <=? obj) && (obj <? hsp - o + t_maxoff t0)) eqn:Ein.
  - inversion H; subst. split; [left; reflexivity|]. apply andb_prop in Ein. lia.
  - destruct (obj <? hsp - o); [discriminate|exact (N H)].
Qed.

(* C37: whatever the frames and their description, if a frame is reported then it is an active
   frame's described extent, with its true base, size, type and program counter, and contains the
   address. *)
Theorem frame_sound : forall fs obj base size ip t,
  stack_info desc main_bp ends obj fs = Found base size ip t ->
  In (base, size, ip, t) (extents desc fs) /\ base <= obj < base + size.
Proof. intros fs obj base size ip t. apply walk_sound. Qed.

(* C37: an address outside every extent is never given a frame. *)
Theorem frame_outside : forall fs obj,
  (forall e, In e (extents desc fs) -> ~ inside obj e) ->
  forall base size ip t, stack_info desc main_bp ends obj fs <> Found base size ip t.
Proof.
  intros fs obj H base size ip t E. destruct (frame_sound _ _ _ _ _ _ E) as [A B].
  exact (H _ A B).
Qed.

Lemma walk_complete obj : forall fs bp am base size ip t,
  ends = StepEnd \/ (ends = StepBadReg /\ (am = true \/ exists f, In f fs /\ main_bp <= u_sp f)) ->
  pointers desc fs -> ascending (extents desc fs) ->
  In (base, size, ip, t) (extents desc fs) -> base <= obj < base + size -> obj <= TOP ->
  walk desc main_bp ends obj fs bp am = Found base size ip t.
Proof.
  induction fs as [|f rest IH]; intros bp am base size ip t Ee P A Hin Ho Ht; [destruct Hin|].
  cbn [walk]. cbn [pointers] in P. destruct P as [P1 P2].
  cbn [extents] in A, Hin.
  destruct rest as [|g r].
  - match goal with |- context [match ends with StepEnd => ?a | StepBadReg => ?b | StepError => ?c end] =>
      assert (E0 : match ends with StepEnd => a | StepBadReg => b | StepError => c end = Some (TOP, Some TOP)) end.
    { destruct Ee as [->|[-> Ea]]; [reflexivity|].
      replace (am || _ || _) with true; [reflexivity|].
      destruct Ea as [->|(f0 & [<-|[]] & Hf)]; [reflexivity|].
      replace (main_bp <=? u_sp f) with true by lia. rewrite orb_true_r. reflexivity. }
    rewrite E0. replace (TOP <? obj) with false by lia.
    destruct (desc (u_ip f)) as [[t0 o]|]; [|destruct Hin].
    cbn [app In] in Hin. destruct Hin as [Hin|[]]. apply quad_eq in Hin. destruct Hin as (<- & <- & <- & <-).
    replace ((TOP - o <=? obj) && (obj <? TOP - o + t_maxoff t0)) with true by lia. reflexivity.
  - destruct P1 as (Hsp & Hx).
    set (bp' := match u_bp f with Some b => b | None => bp end).
    set (am' := am || match u_bp f with Some b => main_bp <=? b | None => false end || (main_bp <=? u_sp f)).
    replace (u_sp g =? TOP) with false by lia.
    assert (Hnext : ascending (extents desc (g :: r)) -> In (base, size, ip, t) (extents desc (g :: r)) ->
              walk desc main_bp ends obj (g :: r) bp' am' = Found base size ip t).
    { intros A' I'. apply IH; auto. destruct Ee as [Ee|[Ee Ea]]; [left; exact Ee|right; split; [exact Ee|]].
      destruct Ea as [->|(f0 & [<-|Hf0] & Hf)]; [left; reflexivity| |right; exists f0; auto].
      left. unfold am'. replace (main_bp <=? u_sp f) with true by lia. apply orb_true_r. }
    set (hbp := match u_bp g with Some b => if bp' <=? b then Some b else None | None => None end).
    assert (Hh : forall b', hbp = Some b' -> u_bp g = Some b').
    { intros b' E. unfold hbp in E. destruct (u_bp g) as [b0|]; [|discriminate].
      destruct (bp' <=? b0); [exact E|discriminate]. }
    clearbody hbp bp' am'.
    destruct (desc (u_ip f)) as [[t0 o]|] eqn:Ed.
    + destruct A as [A1 [A0 A2]]. destruct Hin as [Hin|Hin].
      * apply quad_eq in Hin. destruct Hin as (<- & <- & <- & <-).
        replace (match hbp with Some b => b <? obj | None => false end) with false.
        2: { destruct hbp as [b'|]; [|reflexivity]. specialize (Hx _ _ _ (Hh _ eq_refl) eq_refl). lia. }
        replace ((u_sp g - o <=? obj) && (obj <? u_sp g - o + t_maxoff t0)) with true by lia. reflexivity.
      * assert (X := A1 _ obj Hin Ho).
        destruct (match hbp with Some b => b <? obj | None => false end); [exact (Hnext A2 Hin)|].
        replace (obj <? u_sp g - o + t_maxoff t0) with false by lia. rewrite andb_false_r.
        replace (obj <? u_sp g - o) with false by lia. exact (Hnext A2 Hin).
    + destruct (match hbp with Some b => b <? obj | None => false end); exact (Hnext A Hin).
Qed.

(* C37, in part: with frame pointers kept, and extents in stack order, every address inside a
   frame's extent is given that frame.  Missing: frames compiled without frame pointers, for which
   it is false (frame_no_pointer_refuted). *)
Theorem frame_complete_partial : forall fs obj base size ip t,
  (ends = StepEnd \/ (ends = StepBadReg /\ exists f, In f fs /\ main_bp <= u_sp f)) ->
  pointers desc fs -> ascending (extents desc fs) ->
  In (base, size, ip, t) (extents desc fs) -> base <= obj < base + size -> obj <= TOP ->
  stack_info desc main_bp ends obj fs = Found base size ip t.
Proof.
  intros fs obj base size ip t E P A Hin Ho Ht. apply walk_complete; auto.
  destruct E as [E|[E X]]; [left; exact E|right; split; [exact E|right; exact X]].
Qed.
End W.

(* ---- the tables ---- *)
Lemma ins_perm e l : Permutation (e :: l) (ins_sorted e l).
Proof.
  induction l as [|d t IH]; cbn; [apply Permutation_refl|].
  destruct (_ <=? _); [apply Permutation_refl|].
  eapply Permutation_trans; [apply perm_swap|]. constructor. exact IH.
Qed.
Lemma table_perm p : Permutation (flat_map entries p) (table p).
Proof.
  unfold table. induction (flat_map entries p) as [|e l IH]; cbn; [constructor|].
  eapply Permutation_trans; [constructor; exact IH|apply ins_perm].
Qed.
Lemma ins_srt e l : StronglySorted (fun a b => x_vaddr a <= x_vaddr b) l ->
  StronglySorted (fun a b => x_vaddr a <= x_vaddr b) (ins_sorted e l).
Proof.
  induction l as [|d t IH]; intro H; cbn; [constructor; constructor|].
  inversion H as [|? ? H1 H2]; subst. rewrite Forall_forall in H2.
  destruct (Z.leb_spec (x_vaddr e) (x_vaddr d)) as [L|L].
  - constructor; [exact H|]. apply Forall_forall. intros y [<-|Hy]; [exact L|]. specialize (H2 _ Hy). lia.
  - constructor; [apply IH; exact H1|]. apply Forall_forall. intros y Hy.
    apply (Permutation_in _ (Permutation_sym (ins_perm e t))) in Hy. destruct Hy as [<-|Hy]; [lia|exact (H2 _ Hy)].
Qed.
Lemma table_srt p : StronglySorted (fun a b => x_vaddr a <= x_vaddr b) (table p).
Proof. unfold table. induction (flat_map entries p) as [|e l IH]; cbn; [constructor|]. apply ins_srt, IH. Qed.

Definition described (v : ival) : bool := match v_elems v with [] => false | _ => true end.
Lemma entries_vaddr i : map x_vaddr (entries i) = map v_lo (filter described i).
Proof. unfold entries, described. rewrite map_map. apply map_ext. reflexivity. Qed.
Lemma all_vaddr p : map x_vaddr (flat_map entries p) = map v_lo (filter described (concat p)).
Proof.
  induction p as [|i p IH]; cbn; [reflexivity|].
  rewrite map_app, filter_app, map_app, IH, entries_vaddr. reflexivity.
Qed.
Lemma los_nodup l : (forall v, In v l -> v_lo v < v_hi v) ->
  ForallOrdPairs (fun v w => v_hi v <= v_lo w \/ v_hi w <= v_lo v) l -> NoDup (map v_lo l).
Proof.
  intros H F. induction F as [|v l F _ IH]; cbn; [constructor|].
  constructor; [|apply IH; intros; apply H; right; assumption].
  intro X. apply in_map_iff in X. destruct X as (w & E & Hw).
  rewrite Forall_forall in F. assert (A := F _ Hw). assert (B := H v (or_introl eq_refl)).
  assert (C := H w (or_intror Hw)). lia.
Qed.
Lemma fop_in (l : list ival) v w :
  ForallOrdPairs (fun v w => v_hi v <= v_lo w \/ v_hi w <= v_lo v) l -> In v l -> In w l ->
  v = w \/ v_hi v <= v_lo w \/ v_hi w <= v_lo v.
Proof.
  intros F. induction F as [|x l F _ IH]; [intros []|]. rewrite Forall_forall in F.
  intros [<-|Hv] [<-|Hw]; [left; reflexivity|right; exact (F _ Hw)| |exact (IH Hv Hw)].
  assert (A := F _ Hv). tauto.
Qed.
Lemma srt_nth l : StronglySorted (fun a b => x_vaddr a <= x_vaddr b) l -> forall i j a b, (i < j)%nat ->
  nth_error l i = Some a -> nth_error l j = Some b -> x_vaddr a <= x_vaddr b.
Proof.
  induction 1 as [|x l S IH F]; intros i j a b L Ha Hb; [destruct i; discriminate|].
  destruct j as [|j]; [lia|]. cbn in Hb. destruct i as [|i].
  - cbn in Ha. inversion Ha; subst. rewrite Forall_forall in F. apply F. eapply nth_error_In. exact Hb.
  - cbn in Ha. eapply IH; [|exact Ha|exact Hb]. lia.
Qed.

Lemma pc_lookup_in p s v x :
  disjoint p -> In s p -> In v s -> v_elems v <> [] -> v_lo v <= x < v_hi v ->
  pc_lookup (table p) x = Some (mkFE (v_lo v) (frame_offset s) (ftype_of (frame_offset s) (v_elems v))).
Proof.
  intros [D1 D2] Hs Hv Hne Hx.
  set (e := mkFE (v_lo v) (frame_offset s) (ftype_of (frame_offset s) (v_elems v))).
  assert (Hall : In v (concat p)) by (apply in_concat; exists s; auto).
  assert (He : In e (table p)).
  { eapply Permutation_in; [apply table_perm|]. apply in_flat_map. exists s. split; [exact Hs|].
    unfold entries. apply in_map_iff. exists v. split; [reflexivity|]. apply filter_In. split; [exact Hv|].
    destruct (v_elems v); [congruence|reflexivity]. }
  destruct (In_nth_error _ _ He) as (k & Hk).
  assert (Lk : (k < length (table p))%nat) by (apply nth_error_Some; congruence).
  assert (Nd : NoDup (map x_vaddr (table p))).
  { eapply Permutation_NoDup; [apply Permutation_map, table_perm|]. rewrite all_vaddr.
    apply los_nodup.
    - intros w Hw. apply filter_In in Hw. apply D1, Hw.
    - apply Allocsites_props.FOP_filter. exact D2. }
  unfold pc_lookup. rewrite (Allocsites_props.bsearch_at _ _ k); [exact Hk| | |].
  - rewrite map_length. exact Lk.
  - rewrite (nth_error_nth _ _ _ (map_nth_error x_vaddr _ _ Hk)). cbn. lia.
  - intros j Hj. rewrite map_length in Hj.
    destruct (nth_error (table p) j) as [d|] eqn:Ej; [|apply nth_error_None in Ej; lia].
    rewrite (nth_error_nth _ _ _ (map_nth_error x_vaddr _ _ Ej)).
    assert (Hle : x_vaddr e <= x_vaddr d) by (eapply srt_nth; [apply table_srt| |exact Hk|exact Ej]; lia).
    assert (Hneq : x_vaddr e <> x_vaddr d).
    { intro X. assert (k = j); [|lia]. apply (proj1 (NoDup_nth (map x_vaddr (table p)) 0) Nd).
      - rewrite map_length. lia.
      - rewrite map_length. lia.
      - rewrite (nth_error_nth _ _ _ (map_nth_error x_vaddr _ _ Hk)), (nth_error_nth _ _ _ (map_nth_error x_vaddr _ _ Ej)). exact X. }
    assert (Hd : In d (flat_map entries p)) by (eapply Permutation_in; [apply Permutation_sym, table_perm|eapply nth_error_In; exact Ej]).
    apply in_flat_map in Hd. destruct Hd as (s' & Hs' & Hd). unfold entries in Hd. apply in_map_iff in Hd.
    destruct Hd as (w & <- & Hw). apply filter_In in Hw. destruct Hw as [Hw _].
    cbn [x_vaddr e] in *. subst e. cbn [x_vaddr] in *.
    assert (Hwall : In w (concat p)) by (apply in_concat; exists s'; auto).
    assert (B1 := D1 _ Hall). assert (B2 := D1 _ Hwall).
    destruct (fop_in _ v w D2 Hall Hwall) as [->|[X|X]]; [congruence|lia|lia].
Qed.

Lemma by_off_insert_perm e l : Permutation (e :: l) (by_off_insert e l).
Proof.
  induction l as [|d t IH]; cbn; [apply Permutation_refl|].
  destruct (_ <? _); [apply Permutation_refl|].
  eapply Permutation_trans; [apply perm_swap|]. constructor. exact IH.
Qed.
Lemma by_off_perm_acc l : forall acc, Permutation (l ++ acc) (fold_left (fun acc e => by_off_insert e acc) l acc).
Proof.
  induction l as [|e l IH]; intro acc; cbn; [apply Permutation_refl|].
  eapply Permutation_trans; [|apply IH].
  eapply Permutation_trans; [apply Permutation_middle|]. apply Permutation_app_head, by_off_insert_perm.
Qed.
Lemma by_off_perm l : Permutation l (by_off l).
Proof. unfold by_off. eapply Permutation_trans; [|apply by_off_perm_acc]. rewrite app_nil_r. apply Permutation_refl. Qed.
Lemma by_off_insert_srt e l : StronglySorted (fun a b => e_off a <= e_off b) l ->
  StronglySorted (fun a b => e_off a <= e_off b) (by_off_insert e l).
Proof.
  induction l as [|d t IH]; intro H; cbn; [constructor; constructor|].
  inversion H as [|? ? H1 H2]; subst. rewrite Forall_forall in H2.
  destruct (Z.ltb_spec (e_off e) (e_off d)) as [L|L].
  - constructor; [exact H|]. apply Forall_forall. intros y [<-|Hy]; [lia|]. specialize (H2 _ Hy). lia.
  - constructor; [apply IH; exact H1|]. apply Forall_forall. intros y Hy.
    apply (Permutation_in _ (Permutation_sym (by_off_insert_perm e t))) in Hy. destruct Hy as [<-|Hy]; [lia|exact (H2 _ Hy)].
Qed.
Lemma by_off_srt_acc l : forall acc, StronglySorted (fun a b => e_off a <= e_off b) acc ->
  StronglySorted (fun a b => e_off a <= e_off b) (fold_left (fun acc e => by_off_insert e acc) l acc).
Proof. induction l as [|e l IH]; intros acc H; cbn; [exact H|]. apply IH, by_off_insert_srt, H. Qed.
Lemma srt_last l d0 : StronglySorted (fun a b => e_off a <= e_off b) l -> forall e, In e l -> e_off e <= e_off (last l d0).
Proof.
  induction 1 as [|x l S IH F]; intros e H; [destruct H|].
  destruct l as [|y l]; [destruct H as [<-|[]]; cbn; lia|].
  change (last (x :: y :: l) d0) with (last (y :: l) d0). destruct H as [<-|H]; [|exact (IH _ H)].
  rewrite Forall_forall in F. specialize (F y (or_introl eq_refl)). specialize (IH y (or_introl eq_refl)). lia.
Qed.
Lemma last_in (A : Type) (l : list A) d : l <> [] -> In (last l d) l.
Proof.
  induction l as [|x [|y l] IH]; intro H; [congruence|left; reflexivity|].
  right. apply IH. discriminate.
Qed.

Lemma min_off_le s v e : In v s -> In e (v_elems v) -> exists m, min_off s = Some m /\ m <= e_off e.
Proof.
  intros Hv He. unfold min_off.
  assert (H : In e (flat_map v_elems s)) by (apply in_flat_map; exists v; auto).
  induction (flat_map v_elems s) as [|d l IH]; [destruct H|]. cbn [fold_right].
  destruct H as [->|H].
  - destruct (fold_right _ None l) as [x|]; eexists; (split; [reflexivity|lia]).
  - destruct (IH H) as (m & -> & Hm). eexists. split; [reflexivity|]. lia.
Qed.
Lemma rup8 x : x <= rup x 8.
Proof. unfold rup. lia. Qed.
Lemma frame_offset_ge s v e : In v s -> In e (v_elems v) -> 0 <= e_off e + frame_offset s /\ 0 <= frame_offset s.
Proof.
  intros Hv He. destruct (min_off_le s v e Hv He) as (m & Em & Hm). unfold frame_offset. rewrite Em.
  destruct (Z.ltb_spec m 0) as [L|L]; [|lia]. assert (X := rup8 (- m)). lia.
Qed.

(* C47: for every program counter in a range over which some local is in the frame, the table gives
   that range's description: exactly its locals, each where it is, given that the described
   structure starts the reported distance below the frame base, and none before its start. *)
Theorem frametab_locals : forall p s v x,
  disjoint p -> In s p -> In v s -> v_elems v <> [] -> v_lo v <= x < v_hi v ->
  exists t o va, pc_lookup (table p) x = Some (mkFE va o t) /\
    forall cfa a n, (exists m, In m (t_members t) /\ a = (cfa - o) + e_off m /\ n = e_size m) <->
                    (exists e, In e (v_elems v) /\ a = cfa + e_off e /\ n = e_size e).
Proof.
  intros p s v x D Hs Hv Hne Hx. eexists _, _, _. split; [apply (pc_lookup_in p s v x); assumption|].
  intros cfa a n. cbn [ftype_of t_members]. split.
  - intros (m & Hm & -> & ->). apply in_map_iff in Hm. destruct Hm as (e & <- & He). cbn.
    exists e. split; [|lia]. eapply Permutation_in; [apply Permutation_sym, by_off_perm|exact He].
  - intros (e & He & -> & ->). exists (mkElem (e_off e + frame_offset s) (e_size e)). cbn. split; [|lia].
    apply in_map_iff. exists e. split; [reflexivity|]. eapply Permutation_in; [apply by_off_perm|exact He].
Qed.

(* C47, in part: if the locals of a range do not overlap, all lie inside the described extent.
   Missing: overlapping locals, for which it is false (frametab_extent_refuted). *)
Theorem frametab_extent_partial : forall p s v x,
  disjoint p -> In s p -> In v s -> v_elems v <> [] -> v_lo v <= x < v_hi v -> apart_elems (v_elems v) ->
  exists t o va, pc_lookup (table p) x = Some (mkFE va o t) /\
    forall cfa e, In e (v_elems v) ->
      cfa - o <= cfa + e_off e /\ cfa + e_off e + e_size e <= (cfa - o) + t_maxoff t.
Proof.
  intros p s v x D Hs Hv Hne Hx [Ap Aq]. eexists _, _, _. split; [apply (pc_lookup_in p s v x); assumption|].
  intros cfa e He. destruct (frame_offset_ge s v e Hv He) as [F1 F2]. split; [lia|].
  cbn [ftype_of t_maxoff].
  assert (He' : In e (by_off (v_elems v))) by (eapply Permutation_in; [apply by_off_perm|exact He]).
  destruct (by_off (v_elems v)) as [|d0 l0] eqn:El; [destruct He'|].
  rewrite <- El in *. clear d0 l0 El.
  set (d := last (by_off (v_elems v)) (mkElem 0 0)).
  assert (Hd : In d (v_elems v)).
  { eapply Permutation_in; [apply Permutation_sym, by_off_perm|]. apply last_in. intro X. rewrite X in He'. destruct He'. }
  assert (Hle : e_off e <= e_off d).
  { apply srt_last; [|exact He']. apply by_off_srt_acc. constructor. }
  destruct (Aq e d He Hd Hle) as [->|X]; destruct (Z.ltb_spec (e_off d + e_size d) 0); lia.
Qed.

Lemma extents_in desc pre : forall u g post t o,
  desc (u_ip u) = Some (t, o) ->
  In (u_sp g - o, t_maxoff t, u_ip u, t) (extents desc (pre ++ u :: g :: post)).
Proof.
  induction pre as [|f pre IH]; intros u g post t o E; cbn [app].
  - cbn [extents]. rewrite E. left. reflexivity.
  - cbn [extents]. apply in_or_app. right. apply IH. exact E.
Qed.

(* C37 and C47 together, in part: on a stack with frame pointers kept and extents in stack order,
   any byte of any local of any frame is resolved to a frame of which that local is a member, at
   the place the local is. *)
Theorem frame_local_partial : forall files main_bp fs pre u g post f p s v e obj,
  fs = pre ++ u :: g :: post ->
  find (fun f => (ff_lo f <=? u_ip u) && (u_ip u <? ff_hi f)) files = Some f ->
  ff_tab f = table p -> disjoint p -> In s p -> In v s ->
  v_lo v <= u_ip u - ff_base f < v_hi v -> apart_elems (v_elems v) -> In e (v_elems v) ->
  u_sp g + e_off e <= obj < u_sp g + e_off e + e_size e ->
  pointers (pc_to_frame files) fs -> ascending (extents (pc_to_frame files) fs) -> obj <= TOP ->
  exists base size t m, stack_info (pc_to_frame files) main_bp StepEnd obj fs = Found base size (u_ip u) t /\
    In m (t_members t) /\ base + e_off m = u_sp g + e_off e /\ e_size m = e_size e.
Proof.
  intros files main_bp fs pre u g post f p s v e obj Efs Ef Et D Hs Hv Hx Ap He Ho P A Ht.
  assert (Hne : v_elems v <> []) by (intro X; rewrite X in He; destruct He).
  destruct (frametab_locals p s v _ D Hs Hv Hne Hx) as (t & o & va & El & Hl).
  destruct (frametab_extent_partial p s v _ D Hs Hv Hne Hx Ap) as (t' & o' & va' & El' & Hm).
  rewrite El in El'. inversion El'; subst t' o' va'; clear El'.
  assert (Ed : pc_to_frame files (u_ip u) = Some (t, o)).
  { unfold pc_to_frame. rewrite Ef, Et, El. reflexivity. }
  destruct (Hm (u_sp g) e He) as [M1 M2].
  destruct (proj2 (Hl (u_sp g) (u_sp g + e_off e) (e_size e)) (ex_intro _ e (conj He (conj eq_refl eq_refl))))
    as (m & Hin & E1 & E2).
  exists (u_sp g - o), (t_maxoff t), t, m. split; [|split; [exact Hin|lia]].
  apply frame_complete_partial; [left; reflexivity|exact P|exact A| |lia|exact Ht].
  rewrite Efs. apply extents_in. exact Ed.
Qed.

(* ---- wrong answers ---- *)
(* A range in which no local is in the frame has no entry, and no entry closes the preceding one:
   program counters there, even in another function, get the preceding range's description. *)
Definition gap_p : list subp := [[mkIval 100 120 [mkElem (-16) 8]]; [mkIval 200 220 []]].
Theorem frametab_gap_refuted : exists p s v x e, disjoint p /\ In s p /\ In v s /\ v_lo v <= x < v_hi v /\
  v_elems v = [] /\ pc_lookup (table p) x = Some e /\ t_members (x_type e) = [mkElem 0 8].
Proof.
  exists gap_p, [mkIval 200 220 []], (mkIval 200 220 []), 210, (mkFE 100 16 (mkFT 16 [mkElem 0 8])).
  split; [|vm_compute; intuition congruence].
  split.
  - intros v [<-|[<-|[]]]; cbn; lia.
  - constructor; [constructor; [cbn; lia|constructor]|]. constructor; [constructor|constructor].
Qed.

(* ... so a frame is reported, with a local of another function, for an active function that has
   none in its frame at all. *)
Theorem frame_foreign_refuted : exists files main_bp fs obj base size ip t,
  stack_info (pc_to_frame files) main_bp StepEnd obj fs = Found base size ip t /\
  files = [mkFF 0 1000 0 (table gap_p)] /\ (forall s v, In s gap_p -> In v s -> v_lo v <= ip < v_hi v -> v_elems v = []) /\
  t_members t <> [].
Proof.
  exists [mkFF 0 1000 0 (table gap_p)], 100000, [mkU 210 8000 (Some 8016); mkU 5000 8032 (Some 9000)], 8020, 8016, 16, 210, (mkFT 16 [mkElem 0 8]).
  split; [vm_compute; reflexivity|]. split; [reflexivity|]. split; [|discriminate].
  intros s v [<-|[<-|[]]] [<-|[]] H; cbn in *; [lia|reflexivity].
Qed.

(* A local that starts below another but ends above it sticks out of the described extent. *)
Theorem frametab_extent_refuted : exists p s v x e d, disjoint p /\ In s p /\ In v s /\ v_lo v <= x < v_hi v /\
  pc_lookup (table p) x = Some e /\ In d (v_elems v) /\ t_maxoff (x_type e) < e_off d + e_size d + x_off e.
Proof.
  set (v := mkIval 100 120 [mkElem 16 16; mkElem 20 4]).
  exists [[v]], [v], v, 110, (mkFE 100 0 (mkFT 24 [mkElem 16 16; mkElem 20 4])), (mkElem 16 16).
  split; [|vm_compute; intuition congruence].
  split; [intros w [<-|[]]; cbn; lia|]. constructor; constructor.
Qed.

(* If a caller compiled without frame pointers happens to hold in that register a value between
   the callee's and the address sought, the frame holding the address is passed over. *)
Theorem frame_no_pointer_refuted : exists desc main_bp fs obj e,
  In e (extents desc fs) /\ inside obj e /\ ascending (extents desc fs) /\
  forall base size ip t, stack_info desc main_bp StepEnd obj fs <> Found base size ip t.
Proof.
  set (ft := mkFT 32 [mkElem 0 8]).
  exists (fun ip => if ip =? 1 then Some (ft, 32) else None), 100000,
    [mkU 1 8000 (Some 7000); mkU 2 8048 (Some 7001); mkU 3 9000 (Some 9100)], 8020, (8016, 32, 1, ft).
  split; [left; reflexivity|]. split; [cbn; lia|]. split; [|vm_compute; congruence].
  split; [intros ? ? []|]. split; [vm_compute; congruence|exact Logic.I].
Qed.

(* ---- a case meeting the hypotheses ---- *)
Module FrEx.
Definition v1 := mkIval 100 120 [mkElem (-8) 4; mkElem (-32) 16].
Definition v2 := mkIval 120 140 [mkElem (-8) 4; mkElem 16 8].
Definition v3 := mkIval 200 260 [mkElem (-24) 8].
Definition p : list subp := [[v3]; [v1; v2]].
Definition files := [mkFF 50000 60000 50000 (table p)].
Definition fs := [mkU 50130 8000 (Some 8040); mkU 50210 8064 (Some 8100); mkU 50110 8112 (Some 8150); mkU 3 8160 (Some 9000)].

Lemma p_ok : disjoint p.
Proof.
  split; [intros v H; cbn in H; intuition (subst; cbn; lia)|].
  repeat (constructor; [repeat constructor; cbn; lia|]). constructor.
Qed.
Lemma v_ok v : In v [v1; v2; v3] -> apart_elems (v_elems v).
Proof.
  intro H. cbn in H. destruct H as [<-|[<-|[<-|[]]]]; (split;
    [intros e He; cbn in He; intuition (subst; cbn; lia)|
     intros e d He Hd; cbn in He, Hd; intuition (subst; cbn in *; try (left; reflexivity); lia)]).
Qed.
Lemma fs_ok : pointers (pc_to_frame files) fs /\ ascending (extents (pc_to_frame files) fs).
Proof.
  split.
  - vm_compute. repeat split; try (intros; discriminate);
      intros b' t o Hb Hd; inversion Hb; inversion Hd; subst; vm_compute; congruence.
  - assert (E : exists t1 t2 t3, extents (pc_to_frame files) fs =
        [(8032, 56, 50130, t1); (8088, 24, 50210, t2); (8128, 32, 50110, t3)])
      by (vm_compute; repeat eexists).
    destruct E as (t1 & t2 & t3 & ->). cbn [ascending].
    repeat split; try lia; intros e x H; cbn [In] in H; intuition (subst; cbn [inside] in *; lia).
Qed.
(* the second local of the third frame *)
Example frame_local_ex : exists base size t m,
  stack_info (pc_to_frame files) 100000 StepEnd 8140 fs = Found base size 50110 t /\
  In m (t_members t) /\ base + e_off m = 8128 /\ e_size m = 16.
Proof.
  destruct fs_ok as [P A].
  apply (frame_local_partial files 100000 fs
    [mkU 50130 8000 (Some 8040); mkU 50210 8064 (Some 8100)] (mkU 50110 8112 (Some 8150)) (mkU 3 8160 (Some 9000)) []
    (mkFF 50000 60000 50000 (table p)) p [v1; v2] v1 (mkElem (-32) 16) 8140);
    try reflexivity; try exact P; try exact A; try exact p_ok; try (apply v_ok); cbn; auto; try lia.
  vm_compute. congruence.
Qed.
(* between frames *)
Example frame_outside_ex : forall base size ip t,
  stack_info (pc_to_frame files) 100000 StepEnd 8120 fs <> Found base size ip t.
Proof.
  apply frame_outside. intros e He. vm_compute in He. intuition (subst; cbn in *; lia).
Qed.
Example frametab_locals_ex : exists t o va, pc_lookup (table p) 135 = Some (mkFE va o t) /\ o = 32 /\
  t_members t = [mkElem 24 4; mkElem 48 8] /\ t_maxoff t = 56.
Proof. vm_compute. repeat eexists. Qed.
End FrEx.

Print Assumptions frame_sound.
Print Assumptions frame_outside.
Print Assumptions frame_complete_partial.
Print Assumptions frametab_locals.
Print Assumptions frametab_extent_partial.
Print Assumptions frame_local_partial.
Print Assumptions frametab_gap_refuted.
Print Assumptions frame_foreign_refuted.
Print Assumptions frametab_extent_refuted.
Print Assumptions frame_no_pointer_refuted.
