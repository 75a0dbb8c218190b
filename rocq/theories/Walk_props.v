(* C26, C43: depth-first walks. *)
From Verif Require Import Base Type_model Type_spec Type_proof Walk_model Walk_spec Walk_proof.
From Coq Require Import Sorting.Sorted.

(* ---------- C26 ---------- *)
(* From a big allocation all of whose openable contents can be walked: the walk is the
   pre-order traversal, with pruning on -1 and stopping on any other non-zero result, of
   the one forest of its contents. *)
Theorem df_walk_big_partial : forall b, openable b ->
  exists ns, unfolds (b_begin b) (SBig b) [top_link] ns /\
    exists n, forall fuel, (n <= fuel)%nat -> forall St (cb : St -> label -> St * Z) s,
      walk_df fuel cb (b_begin b) (SBig b) false s = Ok (traverse cb s ns).
Proof.
  intros b O. destruct (big_unfold b O [top_link]) as (ns & U). exists ns. split; [exact U|].
  apply (proj1 df_unfold _ _ _ _ U). intros b' E. congruence.
Qed.

(* From a typed object: always. *)
Theorem df_walk_typed : forall t base,
  exists ns, unfolds base (STy t) [top_link] ns /\
    exists n, forall fuel, (n <= fuel)%nat -> forall flag St (cb : St -> label -> St * Z) s,
      walk_df fuel cb base (STy t) flag s = Ok (traverse cb s ns).
Proof.
  intros t base. destruct (types_unfold (height t) t base [top_link] (le_n _)) as (ns & U).
  exists ns. split; [exact U|].
  destruct (proj1 df_unfold _ _ _ _ U) as (n & H); [intros b E; discriminate|].
  exists n. intros fuel F flag St cb s. exact (H fuel F St cb s).
Qed.

(* The forest is determined by the scope. *)
Theorem contents_unique : forall base sc path ns ns',
  unfolds base sc path ns -> unfolds base sc path ns' -> ns = ns'.
Proof. intros base sc path ns ns' U U'. exact (proj1 unfolds_det _ _ _ _ U _ U'). Qed.

(* A callback that never prunes nor stops sees every node once, in pre-order. *)
Section NodeInd.
  Context (P : node -> Prop) (H : forall l kids, (forall n, In n kids -> P n) -> P (Node l kids)).
  Fixpoint node_ind' (n : node) : P n :=
    match n with
    | Node l kids =>
        H l kids ((fix go (ns : list node) : forall n, In n ns -> P n :=
                     match ns with
                     | [] => fun n (i : In n []) => match i with end
                     | m :: ns' => fun n (i : In n (m :: ns')) =>
                         match i with
                         | or_introl e => eq_ind m P (node_ind' m) n e
                         | or_intror i' => go ns' n i'
                         end
                     end) kids)
    end.
End NodeInd.

Lemma traverse_all {St} (cb : St -> label -> St * Z) ns :
  (forall n, In n ns -> forall s, visit_node cb s n = (fold_left (fun s l => fst (cb s l)) (preorder n) s, 0)) ->
  forall s, traverse cb s ns = (fold_left (fun s l => fst (cb s l)) (flat_map preorder ns) s, 0).
Proof.
  induction ns as [|n ns IH]; intros H s; cbn [traverse flat_map]; [reflexivity|].
  rewrite (H n (or_introl eq_refl)), fold_left_app. cbn [Z.eqb]. apply IH.
  intros m Hm. apply H. right. exact Hm.
Qed.

Theorem traverse_visits_all : forall St (cb : St -> label -> St * Z),
  (forall s l, snd (cb s l) = 0) ->
  forall ns s, traverse cb s ns = (fold_left (fun s l => fst (cb s l)) (flat_map preorder ns) s, 0).
Proof.
  intros St cb Z0 ns. apply traverse_all. intros n _. clear ns. revert n.
  apply (node_ind' (fun n => forall s, visit_node cb s n = (fold_left (fun s l => fst (cb s l)) (preorder n) s, 0))).
  intros l kids IH s. rewrite visit_node_eq. specialize (Z0 s l). cbn [preorder fold_left].
  destruct (cb s l) as [s1 r]. cbn [fst snd] in *. subst r. cbn [Z.eqb]. apply traverse_all. exact IH.
Qed.

(* A walk's result is never -1: it is 0 or the non-zero result at which it stopped. *)
Lemma traverse_result {St} (cb : St -> label -> St * Z) ns :
  (forall n, In n ns -> forall s s' r, visit_node cb s n = (s', r) -> r <> -1) ->
  forall s s' r, traverse cb s ns = (s', r) -> r <> -1.
Proof.
  induction ns as [|n ns IH]; intros H s s' r; cbn [traverse].
  - intro E. injection E as _ <-. lia.
  - destruct (visit_node cb s n) as [s1 r1] eqn:E1.
    assert (X := H n (or_introl eq_refl) _ _ _ E1). destruct (r1 =? 0).
    + apply IH. intros m Hm. apply H. right. exact Hm.
    + intro E. injection E as _ <-. exact X.
Qed.
Theorem traverse_never_skip_code : forall St (cb : St -> label -> St * Z) ns s s' r,
  traverse cb s ns = (s', r) -> r <> -1.
Proof.
  intros St cb ns. apply traverse_result. intros n _. clear ns. revert n.
  apply (node_ind' (fun n => forall s s' r, visit_node cb s n = (s', r) -> r <> -1)).
  intros l kids IH s s' r. rewrite visit_node_eq. destruct (cb s l) as [s1 r1].
  destruct (Z.eqb_spec r1 0); [apply traverse_result, IH|].
  destruct (Z.eqb_spec r1 (-1)); intro E; injection E as _ <-; lia.
Qed.

(* Siblings come in address order. *)
Lemma holds_order base sc i it i' it' : in_order sc -> holds base sc i it -> holds base sc i' it' ->
  i < i' -> i_obj it <= i_obj it'.
Proof.
  intros O H H' L.
  assert (BIG : forall b, sc = SBig b -> exists aid ks n n' k k', b_sub b = Walks aid ks /\
     nth_error ks n = Some k /\ nth_error ks n' = Some k' /\ i = Z.of_nat n /\ i' = Z.of_nat n' /\
     i_obj it = k_obj k /\ i_obj it' = k_obj k').
  { intros b ->. inversion H; subst; inversion H'; subst; cbn [i_obj];
      match goal with A : b_sub b = Walks ?x ?y, B : b_sub b = Walks ?u ?v |- _ =>
        rewrite A in B; injection B as <- <- end; do 6 eexists; eauto 10. }
  destruct sc as [b|t].
  - destruct (BIG b eq_refl) as (aid & ks & n & n' & k & k' & W & N & N' & -> & -> & -> & ->).
    inversion O as [|? Ob]; subst. destruct (Ob _ _ W) as [S _].
    assert (L' : (n < n')%nat) by lia. clear - S N N' L'.
    revert n n' N N' L'. induction S as [|x l S IH F]; intros n n' N N' L'; [destruct n; discriminate|].
    destruct n as [|n], n' as [|n']; try lia; cbn in N, N'.
    + injection N as <-. rewrite Forall_forall in F. apply F. eapply nth_error_In; eauto.
    + apply (IH n n'); auto. lia.
  - inversion O as [? U M|]; subst. inversion H as [| | |? id size len e i0 R|? id size ms n off m N]; subst.
    + inversion H' as [| | |? ? ? ? ? ? R'|]; subst. cbn. inversion U as [|? ? ? ? U1 U2 U3|]; subst.
      assert (0 <= tsize e) by (destruct U3; cbn; assumption). nia.
    + inversion H' as [| | | |? ? ? ? n' off' m' N']; subst. cbn. inversion M as [| |? ? ? M1 M2]; subst.
      destruct (nth_off _ _ _ _ N) as [Of Ln]. destruct (nth_off _ _ _ _ N') as [Of' Ln'].
      assert (X := sorted_le ms M1 n n' ltac:(lia)). lia.
Qed.

Lemma holds_inside base sc i it sc' : in_order sc -> holds base sc i it -> i_in it = Some sc' -> in_order sc'.
Proof.
  intros O H E.
  inversion H as [? ? aid' ks' n k W' N T R|? ? aid' ks' n k t W' N T NC R
                  |? ? aid' ks' n k t j c W' N T NC BE FS R|? id size len e i0 R|? id size ms n off m N]; subst; cbn in E.
  - discriminate.
  - injection E as <-. inversion O as [|? Ob]; subst. destruct (Ob _ _ W') as [_ X].
    apply (X k t (nth_error_In _ _ N) T).
  - injection E as <-. inversion O as [|? Ob]; subst. destruct (Ob _ _ W') as [_ X].
    apply (X k t (nth_error_In _ _ N) T); [eapply nth_error_In; eauto|exact BE].
  - injection E as <-. inversion O as [? U M|]; subst. inversion U; subst. inversion M; subst. constructor; auto.
  - injection E as <-. inversion O as [? U M|]; subst. inversion U as [| |? ? ? U1 U2]; subst.
    inversion M as [| |? ? ? M1 M2]; subst. assert (Hin := nth_error_In _ _ N).
    constructor; [apply (U2 _ _ Hin)|apply (M2 _ _ Hin)].
Qed.

Definition before_node (a b : node) : Prop :=
  match a, b with Node l _, Node l' _ => l_obj l <= l_obj l' end.

Lemma unfold_order :
  (forall base sc path ns, unfolds base sc path ns -> in_order sc -> address_order ns) /\
  (forall base sc path its ns, unfold_all base sc path its ns -> in_order sc ->
     (forall it, In it its -> exists i, holds base sc i it) ->
     map (fun n => match n with Node l _ => l_obj l end) ns = map i_obj its /\
     forall l kids, In (Node l kids) ns -> address_order kids).
Proof.
  apply unfolds_ind2.
  - intros base sc path its ns (W & ps & <- & S & Hp) _ IH O.
    destruct IH as [E K]; [exact O|intros it Hi; apply in_map_iff in Hi; destruct Hi as ((i & x) & <- & Hi);
                                   exists i; apply Hp, Hi|].
    constructor; [|exact K]. clear K.
    assert (Q : StronglySorted Z.le (map i_obj (map snd ps))).
    { assert (Hp' : forall i it, In (i, it) ps -> holds base sc i it) by (intros; apply Hp; assumption).
      clear E Hp. induction ps as [|[i it] ps IHp]; cbn; [constructor|]. cbn in S. apply StronglySorted_inv in S.
      destruct S as [S F]. constructor; [apply IHp; auto; intros; apply Hp'; right; assumption|].
      rewrite Forall_forall in *. intros x Hx. apply in_map_iff in Hx. destruct Hx as (it' & <- & Hx).
      apply in_map_iff in Hx. destruct Hx as ((i' & it'') & <- & Hx). cbn [snd].
      eapply holds_order; [exact O|apply Hp'; left; reflexivity|apply Hp'; right; exact Hx|].
      apply F, in_map_iff. exists (i', it''). auto. }
    rewrite <- E in Q. clear E. induction ns as [|[l k] ns IHn]; [constructor|]. cbn in Q.
    apply StronglySorted_inv in Q. destruct Q as [Q F]. constructor; [auto|].
    rewrite Forall_forall in *. intros [l' k'] Hn. apply F. apply in_map_iff. exists (Node l' k'). auto.
  - intros base sc path _ _. split; [reflexivity|intros l kids []].
  - intros base sc path it its ns I _ IH O Hh.
    destruct IH as [E K]; [exact O|intros x Hx; apply Hh; right; exact Hx|].
    split; [cbn; f_equal; exact E|]. intros l kids [X|X]; [|eapply K; eauto].
    injection X as _ <-. constructor; [constructor|intros ? ? []].
  - intros base sc path it sc' kids its ns I _ IHk _ IH O Hh.
    destruct IH as [E K]; [exact O|intros x Hx; apply Hh; right; exact Hx|].
    split; [cbn; f_equal; exact E|]. intros l ks [X|X]; [|eapply K; eauto].
    injection X as _ <-. apply IHk. destruct (Hh it (or_introl eq_refl)) as (i & Hi).
    eapply holds_inside; eauto.
Qed.

Theorem df_walk_address_order : forall base sc path ns,
  in_order sc -> unfolds base sc path ns -> address_order ns.
Proof. intros base sc path ns O U. exact (proj1 unfold_order _ _ _ _ U O). Qed.

(* Missing part 1: a typed allocation carrying a child big allocation without a
   suballocator (or whose suballocator cannot be walked) makes the walk call a null
   function pointer, even if the callback asks for nothing special. *)
Definition leafbig : big := Big 2 16 32 7 NoSub [].
Definition rootbig : big := Big 1 0 64 7 (Walks 7 [mkK 16 (Some (TLeaf 5 16)) 0]) [leafbig].
Theorem df_walk_unwalkable_refuted :
  forall fuel, (1 <= fuel)%nat ->
  walk_df fuel (fun (n : Z) _ => (n + 1, 0)) 0 (SBig rootbig) false 0 = UB.
Proof. intros [|fuel] F; [lia|reflexivity]. Qed.

(* Missing part 2: asked to include imposed children (here: big allocation 4, made by
   another allocator inside 3), the walk reports the container in place of the child. *)
Definition impbig : big := Big 4 16 32 9 (Walks 9 [mkK 20 None 0]) [].
Definition hostbig : big := Big 3 0 64 7 (Walks 7 [mkK 0 None 0; mkK 48 None 0]) [impbig].
Theorem walk_imposed_child_refuted :
  exists vs, walk_level (fun (l : list (option Z * Z)) a => Ok (l ++ [(option_map b_id (a_big a), a_obj a)], 0))
    (b_begin hostbig) (SBig hostbig) true None None [] = Ok (vs, 0) /\
  ~ In (Some (b_id impbig), b_begin impbig) vs /\ In (Some (b_id hostbig), b_begin hostbig) vs.
Proof.
  exists [(None, 0); (Some 3, 0); (None, 48)]. split; [reflexivity|]. split; [|simpl; auto].
  cbn. intros [H|[H|[H|[]]]]; discriminate.
Qed.

(* ---------- C43 ---------- *)
(* A reference walk hands the client exactly the outermost references, in pre-order, and
   stops where the client says so — provided the client never answers -1. *)
Lemma refs_traverse {St} can may (cb : St -> label -> St * Z) ns :
  (forall n, In n ns -> forall s, visit_node (refs_cb can may cb) s n = feed cb s (outer_refs can may n)) ->
  forall s, traverse (refs_cb can may cb) s ns = feed cb s (flat_map (outer_refs can may) ns).
Proof.
  assert (A : forall ls ls' s, feed cb s (ls ++ ls') =
     (let '(s1, r) := feed cb s ls in if r =? 0 then feed cb s1 ls' else (s1, r))).
  { induction ls as [|l ls IH]; intros ls' s; cbn [app feed]; [reflexivity|].
    destruct (cb s l) as [s1 r]. destruct (r =? 0) eqn:E; [apply IH|rewrite E; reflexivity]. }
  induction ns as [|n ns IH]; intros H s; cbn [traverse flat_map]; [reflexivity|].
  rewrite A, (H n (or_introl eq_refl)). destruct (feed cb s _) as [s1 r]. destruct (r =? 0); [|reflexivity].
  apply IH. intros m Hm. apply H. right. exact Hm.
Qed.

Theorem refs_walk_outermost_partial : forall St can may (cb : St -> label -> St * Z),
  (forall s l, snd (cb s l) <> -1) ->
  forall ns s, traverse (refs_cb can may cb) s ns = feed cb s (flat_map (outer_refs can may) ns).
Proof.
  intros St can may cb NM ns. apply refs_traverse. intros n _. clear ns. revert n.
  apply (node_ind' (fun n => forall s, visit_node (refs_cb can may cb) s n = feed cb s (outer_refs can may n))).
  intros l kids IH s. rewrite visit_node_eq. cbn [outer_refs]. unfold refs_cb at 1.
  destruct (can l =? 0); cbn [negb].
  - destruct (may l); cbn [Z.eqb feed]; [apply refs_traverse, IH|reflexivity].
  - cbn [feed]. specialize (NM s l). destruct (cb s l) as [s1 r]. cbn [snd] in NM.
    destruct (Z.eqb_spec r 0) as [->|R]; cbn [negb]; [reflexivity|].
    destruct (Z.eqb_spec r 0); [congruence|]. destruct (Z.eqb_spec r (-1)); [congruence|reflexivity].
Qed.

(* Missing: -1 is documented like any non-zero result as "stop", but does not stop. *)
Theorem refs_walk_stop_refuted : exists ns (cb : Z -> label -> Z * Z),
  (forall s l, snd (cb s l) <> 0) /\
  fst (traverse (refs_cb (fun _ => 1) (fun _ => true) cb) 0 ns) = 2.
Proof.
  exists [Node (mkLab None 0 None 0 []) []; Node (mkLab None 8 None 0 []) []], (fun n _ => (n + 1, -1)).
  split; [cbn; intros; lia|reflexivity].
Qed.

Module Walk_ex.
  (* a walkable allocation holding a plain chunk, a struct and a promoted chunk that is
     itself suballocated into two ints *)
  Definition tint := TLeaf 10 4.
  Definition pair_t := TComp 11 8 [(0, tint); (4, tint)].
  Definition inner := Big 2 32 48 7 (Walks 8 [mkK 32 (Some tint) 0; mkK 40 (Some tint) 0]) [].
  Definition root := Big 1 0 64 7
    (Walks 7 [mkK 0 None 0; mkK 16 (Some pair_t) 5; mkK 32 (Some (TLeaf 12 16)) 6]) [inner].
  Lemma root_openable : openable root.
  Proof.
    econstructor; [reflexivity|]. intros k t c Hk Ht Hc Eb.
    destruct Hc as [<-|[]]. econstructor; [reflexivity|]. intros k' t' c' _ _ [].
  Qed.
  Lemma root_in_order : in_order (SBig root).
  Proof.
    assert (IT : in_order (STy tint)) by (constructor; constructor; lia).
    constructor. intros aid ks E. injection E as <- <-. split.
    - repeat (constructor; cbn; try lia).
    - intros k t Hk Ht. split.
      + destruct Hk as [<-|[<-|[<-|[]]]]; cbn in Ht; try discriminate; injection Ht as <-.
        * constructor.
          -- constructor; [lia|]. intros off m [E|[E|[]]]; injection E as <- <-; (split; [lia|constructor; lia]).
          -- constructor; [cbn; lia|]. intros off m [E|[E|[]]]; injection E as <- <-; constructor.
        * constructor; constructor; lia.
      + intros c [<-|[]] _. constructor. intros aid ks E. injection E as <- <-. split.
        * repeat (constructor; cbn; try lia).
        * intros k' t' [<-|[<-|[]]] E; cbn in E; injection E as <-; (split; [exact IT|intros c []]).
  Qed.
  Definition trace (l : list (Z * Z)) (v : label) := (l ++ [(l_obj v, Z.of_nat (length (l_path v)))], 0).
  Example all_visits : walk_df 5 trace 0 (SBig root) false [] =
    Ok ([(0, 2); (16, 2); (16, 3); (20, 3); (32, 2); (32, 3); (40, 3)], 0).
  Proof. reflexivity. Qed.
  (* prune the struct, stop at the promoted chunk's first int *)
  Definition choosy (l : list Z) (v : label) :=
    (l ++ [l_obj v], match l_type v with
                     | Some t => if tid t =? 11 then -1 else if tid t =? 10 then 99 else 0
                     | None => 0
                     end).
  Example prune_and_stop : walk_df 5 choosy 0 (SBig root) false [] = Ok ([0; 16; 32; 32], 99).
  Proof. reflexivity. Qed.
  Example walk_is_traversal : exists ns, unfolds 0 (SBig root) [top_link] ns /\ address_order ns /\
    exists n, forall fuel, (n <= fuel)%nat ->
      walk_df fuel trace 0 (SBig root) false [] = Ok (traverse trace [] ns).
  Proof.
    destruct (df_walk_big_partial root root_openable) as (ns & U & n & H). exists ns.
    split; [exact U|]. split; [exact (df_walk_address_order _ _ _ _ root_in_order U)|].
    exists n. intros fuel F. apply H, F.
  Qed.
  Example refs : walk_df 5 (refs_cb (fun l => match l_type l with Some t => if tid t =? 10 then 1 else 0 | None => 0 end)
                                    (fun l => negb (l_obj l =? 32))
                                    (fun (s : list Z) l => (s ++ [l_obj l], 0))) 0 (SBig root) false [] = Ok ([16; 20], 0).
  Proof. reflexivity. Qed.
End Walk_ex.

Print Assumptions df_walk_big_partial.
Print Assumptions df_walk_typed.
Print Assumptions contents_unique.
Print Assumptions traverse_visits_all.
Print Assumptions traverse_never_skip_code.
Print Assumptions df_walk_address_order.
Print Assumptions df_walk_unwalkable_refuted.
Print Assumptions walk_imposed_child_refuted.
Print Assumptions refs_walk_outermost_partial.
Print Assumptions refs_walk_stop_refuted.
