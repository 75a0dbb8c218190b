(* C22-C25: searching type descriptors for subobjects. *)
From Verif Require Import Base Type_model Type_spec Type_proof Type_walk.
From Coq Require Import Sorting.Sorted.

(* ---------- C22 ---------- *)
(* If the search for descriptor u at an offset succeeds, a subobject with that descriptor
   begins at exactly that offset; with enough recursion the search always answers. *)
Theorem subobject_search_sound : forall fuel t target u,
  unsigned t -> 0 <= target < 2 ^ 32 ->
  find_matching fuel target t (Some u) = Ok true ->
  exists t', sub t target t' /\ tid t' = u.
Proof. intros fuel t target u U T H. exact (find_matching_sound fuel target t (Some u) U T H). Qed.

Theorem subobject_search_sound_any : forall fuel t target,
  unsigned t -> 0 <= target < 2 ^ 32 ->
  find_matching fuel target t None = Ok true -> exists t', sub t target t'.
Proof.
  intros fuel t target U T H. destruct (find_matching_sound fuel target t None U T H) as (t' & S & _).
  exists t'. exact S.
Qed.

Theorem subobject_search_total : forall t target u,
  exists b, find_matching (height t) target t u = Ok b.
Proof. intros. apply find_matching_total. lia. Qed.

(* ---------- C23 ---------- *)
(* In a well-formed layout the search finds every non-empty subobject. *)
Theorem subobject_search_complete_partial : forall t target t',
  laid_out t -> sub t target t' -> 0 < tsize t' -> target < 2 ^ 32 ->
  find_matching (height t) target t (Some (tid t')) = Ok true.
Proof. intros. apply find_matching_complete; auto. Qed.

(* Hence success is exactly existence, for descriptors of non-empty types. *)
Theorem subobject_search_exact_partial : forall t target u,
  laid_out t -> unsigned t -> 0 <= target < 2 ^ 32 ->
  (forall o t', sub t o t' -> tid t' = u -> 0 < tsize t') ->
  (find_matching (height t) target t (Some u) = Ok true <-> exists t', sub t target t' /\ tid t' = u).
Proof.
  intros t target u L U T P. split.
  - apply subobject_search_sound; assumption.
  - intros (t' & S & <-). apply subobject_search_complete_partial; auto; [|lia].
    apply (P target); [exact S|reflexivity].
Qed.

(* Missing part 1: an empty subobject at the end of a member is not found, because the
   search moves on to the member beginning there. *)
Theorem subobject_search_empty_refuted : exists t target t',
  laid_out t /\ sub t target t' /\ find_matching (height t) target t (Some (tid t')) = Ok false.
Proof.
  exists (TComp 1 8 [(0, TComp 2 4 [(0, TLeaf 3 4); (4, TLeaf 4 0)]); (4, TLeaf 3 4)]), 4, (TLeaf 4 0).
  split; [|split; [|vm_compute; reflexivity]].
  - constructor; cbn; try lia.
    + intros off m [E|[E|[]]]; injection E as <- <-; cbn; repeat split; try lia.
      * constructor; cbn; try lia.
        -- intros off m [E|[E|[]]]; injection E as <- <-; cbn; repeat split; try lia; constructor; lia.
        -- intros off m off' m' [E|[E|[]]] [E'|[E'|[]]]; injection E as <- <-; injection E' as <- <-; cbn; lia.
      * constructor; lia.
    + intros off m off' m' [E|[E|[]]] [E'|[E'|[]]]; injection E as <- <-; injection E' as <- <-; cbn; lia.
  - apply (sub_memb 1 8 _ 0 (TComp 2 4 [(0, TLeaf 3 4); (4, TLeaf 4 0)]) 4); [simpl; auto|].
    apply (sub_memb 2 4 _ 4 (TLeaf 4 0) 0); [simpl; auto|constructor].
Qed.

(* Missing part 2: with overlapping members at different offsets (C++ empty bases) the
   search commits to the later one. *)
Theorem subobject_search_overlap_refuted : exists t target t',
  unsigned t /\ members_sorted t /\ sub t target t' /\ 0 < tsize t' /\
  find_matching (height t) target t (Some (tid t')) = Ok false.
Proof.
  exists (TComp 1 8 [(0, TArr 2 8 2 (TLeaf 3 4)); (1, TLeaf 4 1)]), 4, (TLeaf 3 4).
  split; [|split; [|split; [|split; [cbn; lia|vm_compute; reflexivity]]]].
  - constructor; [lia|]. intros off m [E|[E|[]]]; injection E as <- <-; (split; [lia|]); repeat constructor; lia.
  - constructor; [cbn; lia|]. intros off m [E|[E|[]]]; injection E as <- <-; repeat constructor.
  - apply (sub_memb 1 8 _ 0 (TArr 2 8 2 (TLeaf 3 4)) 4); [simpl; auto|].
    apply (sub_elem 2 8 2 (TLeaf 3 4) 1 0); [lia|constructor].
Qed.

(* ---------- C24 ---------- *)
(* The descent always terminates, at a subobject that begins at or before the queried
   offset and has no further subobject at or before it. *)
Theorem inner_type_terminates : forall t target,
  unsigned t -> 0 <= target < 2 ^ 32 ->
  exists t' o' c', descend (height t) t target None = Ok (t', o', c') /\
    0 <= o' <= target /\ sub t (target - o') t' /\ first_spanning t' o' = Ok None.
Proof. intros. apply descend_spec; auto. Qed.

(* Where there is no padding, that subobject contains the queried offset. *)
Lemma filled_step t target i m o :
  filled t -> unsigned t -> members_sorted t -> 0 <= target < tsize t -> target < 2 ^ 32 ->
  first_spanning t target = Ok (Some (i, m, o)) ->
  filled m /\ unsigned m /\ members_sorted m /\ 0 <= o < tsize m.
Proof.
  intros F U S T B E.
  destruct t as [id size|id size len e|id size ms].
  - cbn in E. discriminate.
  - cbn [first_spanning] in E. inversion F; subst. inversion U; subst. inversion S; subst.
    assert (P := un_size e ltac:(assumption)).
    destruct (Z.eqb_spec (tsize e) 0); cbn [negb andb] in E; [discriminate|].
    destruct (_ >? _); [|discriminate]. injection E as <- <- <-.
    repeat split; auto; apply Z.mod_pos_bound; lia.
  - cbn [first_spanning members tsize] in *. inversion F as [| |? ? ? F1 F2]; subst.
    inversion U as [| |? ? ? U1 U2]; subst. inversion S as [| |? ? ? S1 S2]; subst.
    destruct (nearest_sorted ms target S1) as (r & Er & Hr). rewrite Er in E. cbn [bind] in E.
    destruct r as [[j off]|]; [|discriminate].
    destruct Hr as (Lj & Oj & Le & Lo & Hi). destruct (off_nth ms j Lj) as (mj & Ej).
    rewrite Ej in E. injection E as <- <- <-. rewrite Oj in Ej.
    assert (Hin := nth_error_In _ _ Ej). destruct (U2 _ _ Hin) as [U3 U4].
    rewrite u32_small by lia. split; [apply (F1 _ _ Hin)|]. split; [exact U4|].
    split; [apply (S2 _ _ Hin)|]. split; [lia|].
    assert (Q := F2 _ _ target Hin ltac:(lia)). cut (target < off + tsize mj); [lia|]. apply Q.
    intros off' m' H1 H2. destruct (In_nth_error _ _ H1) as (k & Ek).
    destruct (nth_off _ _ _ _ Ek) as [Ok Lk].
    destruct (Nat.lt_ge_cases k j) as [J|J]; [specialize (Lo k J); lia|].
    specialize (Hi k ltac:(lia)). lia.
Qed.

Lemma descend_covers fuel : forall c t target t' o' c',
  filled t -> unsigned t -> members_sorted t -> 0 <= target < tsize t -> target < 2 ^ 32 ->
  descend fuel t target c = Ok (t', o', c') -> 0 <= o' < tsize t'.
Proof.
  induction fuel as [|f IH]; intros c t target t' o' c' F U S T B E; [discriminate|]. cbn [descend] in E.
  destruct (first_spanning t target) as [[[[i m] o]|]| | |] eqn:Q; cbn [bind] in E; try discriminate.
  - destruct (filled_step t target i m o F U S T B Q) as (F' & U' & S' & T').
    destruct (first_spanning_sound t target i m o U ltac:(lia) Q) as (_ & B' & _).
    apply (IH (Some t) m o t' o' c'); auto. lia.
  - injection E as <- <- _. exact T.
Qed.

Theorem inner_type_covers_partial : forall t target,
  filled t -> unsigned t -> members_sorted t -> 0 <= target < tsize t -> target < 2 ^ 32 ->
  exists t' o' c', descend (height t) t target None = Ok (t', o', c') /\
    sub t (target - o') t' /\ 0 <= o' < tsize t'.
Proof.
  intros t target F U S T B.
  destruct (descend_spec (height t) t target None U ltac:(lia) ltac:(lia)) as (t' & o' & c' & E & R & Hs & _).
  exists t', o', c'. split; [exact E|]. split; [exact Hs|].
  apply (descend_covers (height t) None t target t' o' c'); assumption.
Qed.

(* In padding the descent ends at a type that does not contain the queried offset. *)
Definition padded : ty := TComp 1 8 [(0, TLeaf 2 1); (4, TLeaf 3 4)].
Theorem inner_type_covers_refuted : exists t target t' o' c',
  laid_out t /\ 0 <= target < tsize t /\
  descend (height t) t target None = Ok (t', o', c') /\ tsize t' <= o'.
Proof.
  exists padded, 2, (TLeaf 2 1), 2, (Some padded).
  split; [|split; [cbn; lia|split; [vm_compute; reflexivity|cbn; lia]]].
  constructor; cbn; try lia.
  - intros off m [E|[E|[]]]; injection E as <- <-; cbn; repeat split; try lia; constructor; lia.
  - intros off m off' m' [E|[E|[]]] [E'|[E'|[]]]; injection E as <- <-; injection E' as <- <-; cbn; lia.
Qed.

(* ---------- C25 ---------- *)
(* What the spanning walk does, for every callback: it calls back exactly at the positions
   reached by the nearest-member rule, each once, a container before its contents and
   members in order, and stops at the first non-zero result, which it returns. *)
Theorem spanning_walk_exact : forall t target,
  unsigned t -> members_sorted t -> no_empty_elems t ->
  0 <= target < 2 ^ 32 -> Z.of_nat (height t) < 2 ^ 32 ->
  exists vs,
    (forall p v, In (p, v) vs <-> reach t target 0 0 p v) /\
    StronglySorted before (map fst vs) /\
    (forall St (cb : St -> visit -> St * Z) s,
       walk_spanning (height t) cb t target 0 0 s = Ok (call_back cb s (map snd vs))).
Proof. intros. apply walk_spec; auto; lia. Qed.

(* Every subobject that spans the offset is among them. *)
Theorem spanning_walk_complete : forall t target p v,
  laid_out t -> inside t 0 0 p v -> v_start v <= target < v_start v + tsize (v_type v) ->
  reach t target 0 0 p v.
Proof. intros t target p v L I H. apply spanning_reached; auto. Qed.

(* Without padding, nothing else is. *)
Lemma reach_spans t o a d p v : reach t o a d p v ->
  filled t -> unsigned t -> 0 <= o < tsize t -> no_empty_elems t ->
  v_start v <= a + o < v_start v + tsize (v_type v).
Proof.
  induction 1 as [id size len e o a d L|id size len e o a d p v L _ IH
                 |id size ms o a d i off m En R Mx|id size ms o a d i off m p v En R Mx _ IH];
    intros F U B N.
  - inversion N as [|? ? ? ? N1 N2|]; subst. cbn [v_start v_type].
    assert (D := Z.div_mod o (tsize e) ltac:(lia)). assert (M := Z.mod_pos_bound o (tsize e) N1). lia.
  - inversion N as [|? ? ? ? N1 N2|]; subst. inversion F as [|? ? ? ? F1|]; subst.
    inversion U as [|? ? ? ? U1 U2 U3|]; subst.
    assert (D := Z.div_mod o (tsize e) ltac:(lia)). assert (M := Z.mod_pos_bound o (tsize e) N1).
    specialize (IH F1 U3 M N2). lia.
  - inversion F as [| |? ? ? F1 F2]; subst. cbn [v_start v_type].
    assert (Q := F2 _ _ o (nth_error_In _ _ En) R Mx). lia.
  - inversion F as [| |? ? ? F1 F2]; subst. inversion N as [| |? ? ? N1]; subst.
    inversion U as [| |? ? ? U1 U2]; subst.
    assert (Hin := nth_error_In _ _ En).
    assert (Q := F2 _ _ o Hin R Mx). destruct (U2 _ _ Hin) as [U3 U4].
    specialize (IH (F1 _ _ Hin) U4 ltac:(lia) (N1 _ _ Hin)). lia.
Qed.

Theorem spanning_walk_sound_partial : forall t target p v,
  filled t -> unsigned t -> no_empty_elems t -> 0 <= target < tsize t ->
  reach t target 0 0 p v -> v_start v <= target < v_start v + tsize (v_type v).
Proof. intros t target p v F U N B R. apply (reach_spans t target 0 0 p v); auto. Qed.

(* In padding, and in the shorter members of a union, the walk reports objects that do not
   span the offset. *)
Theorem spanning_walk_sound_refuted : exists t target p v,
  laid_out t /\ 0 <= target < tsize t /\ reach t target 0 0 p v /\
  ~ (v_start v <= target < v_start v + tsize (v_type v)) /\
  walk_spanning (height t) (fun (l : list visit) w => (l ++ [w], 0)) t target 0 0 [] = Ok ([v], 0).
Proof.
  exists padded, 2, [O], (mkV (TLeaf 2 1) 0 1 0 0).
  split; [|split; [cbn; lia|split; [|split; [cbn; lia|vm_compute; reflexivity]]]].
  - constructor; cbn; try lia.
    + intros off m [E|[E|[]]]; injection E as <- <-; cbn; repeat split; try lia; constructor; lia.
    + intros off m off' m' [E|[E|[]]] [E'|[E'|[]]]; injection E as <- <-; injection E' as <- <-; cbn; lia.
  - apply (reach_memb 1 8 _ 2 0 0 0 0); [reflexivity|lia|].
    intros off' m' [E|[E|[]]] H; injection E as <- <-; lia.
Qed.

(* An array of empty structures divides by zero. *)
Theorem spanning_walk_empty_elem_refuted : exists t target,
  laid_out t /\ 0 <= target < tsize t /\
  walk_spanning (height t) (fun (l : list visit) w => (l ++ [w], 0)) t target 0 0 [] = UB.
Proof.
  exists (TComp 1 4 [(0, TArr 2 0 3 (TComp 3 0 [])); (0, TLeaf 4 4)]), 0.
  split; [|split; [cbn; lia|vm_compute; reflexivity]].
  constructor; cbn; try lia.
  - intros off m [E|[E|[]]]; injection E as <- <-; cbn; repeat split; try lia; constructor; cbn; try lia.
    constructor; cbn; try lia; intros; contradiction.
  - intros off m off' m' [E|[E|[]]] [E'|[E'|[]]]; injection E as <- <-; injection E' as <- <-; cbn; lia.
Qed.

Module Type_ex.
  (* struct { int a; union { struct { short s[2]; } x; float f; } u; long l; } *)
  Definition tint := TLeaf 10 4.  Definition tshort := TLeaf 11 2.
  Definition tfloat := TLeaf 12 4. Definition tlong := TLeaf 13 8.
  Definition x := TComp 20 4 [(0, TArr 21 4 2 tshort)].
  Definition un := TComp 22 4 [(0, x); (0, tfloat)].
  Definition t := TComp 30 16 [(0, tint); (4, un); (8, tlong)].

  Ltac mem := repeat match goal with
    | H : In _ _ |- _ => cbn in H; repeat (destruct H as [H|H]); try contradiction
    | H : (_, _) = (_, _) |- _ => injection H as <- <-
    end.
  Lemma t_laid : laid_out t.
  Proof.
    assert (laid_out x).
    { constructor; [lia|exact I|intros; mem; cbn [tsize]|intros; mem; lia].
      split; [lia|split; [lia|]]. constructor; cbn [tsize tshort]; try lia. constructor; lia. }
    assert (laid_out un).
    { constructor; [lia|split; [lia|exact I]|intros; mem; unfold x, tfloat; cbn [tsize]|intros; mem; lia].
      - split; [lia|split; [lia|assumption]].
      - split; [lia|split; [lia|constructor; lia]]. }
    constructor; [lia|split; [lia|split; [lia|exact I]]|intros; mem; unfold tint, un, tlong; cbn [tsize]
                 |intros; mem; unfold tint, un, tlong; cbn [tsize]; lia].
    - split; [lia|split; [lia|constructor; lia]].
    - split; [lia|split; [lia|assumption]].
    - split; [lia|split; [lia|constructor; lia]].
  Qed.
  Lemma t_uns : unsigned t.
  Proof.
    assert (unsigned x).
    { constructor; [lia|]. intros; mem. split; [lia|]. constructor; [lia|lia|constructor; lia]. }
    assert (unsigned un).
    { constructor; [lia|]. intros; mem; (split; [lia|]); [assumption|constructor; lia]. }
    constructor; [lia|]. intros; mem; (split; [lia|]); [constructor; lia|assumption|constructor; lia].
  Qed.
  Lemma t_sorted : members_sorted t.
  Proof.
    assert (members_sorted x). { constructor; [exact I|]. intros; mem. constructor. constructor. }
    assert (members_sorted un).
    { constructor; [split; [lia|exact I]|]. intros; mem; [assumption|constructor]. }
    constructor; [split; [lia|split; [lia|exact I]]|]. intros; mem; [constructor|assumption|constructor].
  Qed.
  Lemma t_ne : no_empty_elems t.
  Proof.
    assert (no_empty_elems x).
    { constructor. intros; mem. constructor; [unfold tshort; cbn [tsize]; lia|constructor]. }
    assert (no_empty_elems un). { constructor. intros; mem; [assumption|constructor]. }
    constructor. intros; mem; [constructor|assumption|constructor].
  Qed.
  Lemma t_filled : filled t.
  Proof.
    assert (filled x).
    { constructor; intros; mem; [constructor; constructor|cbn [tsize]; lia]. }
    assert (filled un).
    { constructor.
      - intros; mem; [assumption|constructor].
      - intros; mem; unfold x, tfloat; cbn [tsize]; lia. }
    constructor.
    - intros; mem; [constructor|assumption|constructor].
    - intros off m o Hm Ho Mx. destruct Hm as [E|[E|[E|[]]]]; injection E as <- <-;
        unfold tint, un, tlong; cbn [tsize].
      + destruct (Z.lt_ge_cases o 4); [lia|]. specialize (Mx 4 un ltac:(simpl; auto) ltac:(lia)). lia.
      + destruct (Z.lt_ge_cases o 8); [lia|]. specialize (Mx 8 tlong ltac:(simpl; auto) ltac:(lia)). lia.
      + lia.
  Qed.
  (* the second short, through the union *)
  Example found : find_matching (height t) 6 t (Some 11) = Ok true /\ sub t 6 tshort.
  Proof.
    split; [reflexivity|]. apply (sub_memb 30 16 _ 4 un 2); [simpl; auto|].
    apply (sub_memb 22 4 _ 0 x 2); [simpl; auto|]. apply (sub_memb 20 4 _ 0 (TArr 21 4 2 tshort) 2); [simpl; auto|].
    apply (sub_elem 21 4 2 tshort 1 0); [lia|constructor].
  Qed.
  Example found_second : find_matching (height t) 4 t (Some 12) = Ok true.
  Proof.
    apply (subobject_search_complete_partial t 4 tfloat t_laid); [|unfold tfloat; cbn [tsize]; lia|lia].
    apply (sub_memb 30 16 _ 4 un 0); [simpl; auto|].
    apply (sub_memb 22 4 _ 0 tfloat 0); [simpl; auto|constructor].
  Qed.
  Example inner : exists t' o' c', descend (height t) t 7 None = Ok (t', o', c') /\
    sub t (7 - o') t' /\ 0 <= o' < tsize t'.
  Proof. apply inner_type_covers_partial; [exact t_filled|exact t_uns|exact t_sorted|cbn; lia|lia]. Qed.
  Example inner_is : descend (height t) t 7 None = Ok (tshort, 1, Some (TArr 21 4 2 tshort)).
  Proof. reflexivity. Qed.
  Example walk : walk_spanning (height t) (fun (l : list (Z * Z * Z)) w =>
      (l ++ [(tid (v_type w), v_start w, v_depth w)], 0)) t 7 0 0 [] =
    Ok ([(22, 4, 1); (20, 4, 2); (21, 4, 3); (11, 6, 4); (12, 4, 2)], 0).
  Proof. reflexivity. Qed.
  Example walk_hyps : unsigned t /\ members_sorted t /\ no_empty_elems t.
  Proof. split; [exact t_uns|split; [exact t_sorted|exact t_ne]]. Qed.
  (* a callback that stops at depth 3 *)
  Example walk_stop : walk_spanning (height t) (fun (n : Z) w =>
      (n + 1, if v_depth w =? 3 then 7 else 0)) t 7 0 0 0 = Ok (3, 7).
  Proof. reflexivity. Qed.
End Type_ex.

Print Assumptions subobject_search_sound.
Print Assumptions subobject_search_sound_any.
Print Assumptions subobject_search_total.
Print Assumptions subobject_search_complete_partial.
Print Assumptions subobject_search_exact_partial.
Print Assumptions subobject_search_empty_refuted.
Print Assumptions subobject_search_overlap_refuted.
Print Assumptions inner_type_terminates.
Print Assumptions inner_type_covers_partial.
Print Assumptions inner_type_covers_refuted.
Print Assumptions spanning_walk_exact.
Print Assumptions spanning_walk_complete.
Print Assumptions spanning_walk_sound_partial.
Print Assumptions spanning_walk_sound_refuted.
Print Assumptions spanning_walk_empty_elem_refuted.
