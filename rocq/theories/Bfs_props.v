(* C27: the breadth-first object-graph walk. *)
From Verif Require Import Base Type_model Bfs_model Bfs_spec Bfs_proof.
From Coq Require Import Sorting.Sorted.

Lemma process_mono f W : forall c q d l k, process f W c q d = Ok l -> process (f + k) W c q d = Ok l.
Proof.
  induction f as [|f IH]; intros c q d l k H.
  - destruct q; [destruct k; exact H|discriminate].
  - destruct q as [|u q]; [exact H|]. revert H. cbn [process Nat.add].
    destruct (enqueue_white _ _ _) as [c2 q2]. apply IH.
Qed.

Lemma walk_inv fuel W o t objs w l : finite_within (adj W) (o, t) objs w -> o <> 0 ->
  walk_bfs fuel W o t = Ok l -> exists A c, l = map fst A /\ Inv W (o, t) w A [] c.
Proof.
  intros F N H. unfold walk_bfs in H. destruct (Z.eqb_spec o 0); [contradiction|].
  destruct (run_spec W (o, t) objs w F (length objs) (le_n _)) as (A & c & R & I).
  exists A, c. split; [|exact I].
  apply (process_mono _ _ _ _ _ _ fuel) in R. apply (process_mono _ _ _ _ _ _ (length objs)) in H.
  rewrite Nat.add_comm in H. assert (X := eq_trans (eq_sym H) R). injection X as ->. reflexivity.
Qed.

(* The walk ends, whatever cycles the graph has, after at most as many steps as there are
   reachable objects. *)
Theorem bfs_terminates_partial W o t objs w : finite_within (adj W) (o, t) objs w ->
  exists l, forall fuel, (length objs <= fuel)%nat -> walk_bfs fuel W o t = Ok l.
Proof.
  intro F. unfold walk_bfs. destruct (o =? 0); [exists []; reflexivity|].
  destruct (run_spec W (o, t) objs w F (length objs) (le_n _)) as (A & c & R & _).
  exists (map fst A). intros fuel L. replace fuel with (length objs + (fuel - length objs))%nat by lia.
  apply process_mono, R.
Qed.

(* No object is visited twice, and the starting object is visited first. *)
Theorem bfs_once_partial fuel W o t objs w l : finite_within (adj W) (o, t) objs w -> o <> 0 ->
  walk_bfs fuel W o t = Ok l -> NoDup (map fst l).
Proof.
  intros F N H. destruct (walk_inv _ _ _ _ _ _ _ F N H) as (A & c & -> & I).
  assert (D := i_nodup _ _ _ _ _ _ I). rewrite app_nil_r in D. rewrite map_map. exact D.
Qed.

Theorem bfs_root_first fuel W o t l : o <> 0 -> walk_bfs fuel W o t = Ok l -> exists l', l = (o, t) :: l'.
Proof.
  intros N H. unfold walk_bfs in H. destruct (Z.eqb_spec o 0); [contradiction|].
  destruct fuel as [|f]; [discriminate|]. cbn [process] in H. destruct (enqueue_white _ _ _) as [c2 q2].
  assert (P : forall f c q d, process f W c q d = Ok l -> exists e, l = d ++ e).
  { clear. induction f as [|f IH]; intros c q d H.
    - destruct q; [injection H as <-; exists []; rewrite app_nil_r; reflexivity|discriminate].
    - destruct q as [|u q]; [injection H as <-; exists []; rewrite app_nil_r; reflexivity|].
      cbn [process] in H. destruct (enqueue_white _ _ _) as [c2 q2]. destruct (IH _ _ _ H) as (e & ->).
      exists (u :: e). rewrite <- app_assoc. reflexivity. }
  destruct (P _ _ _ _ H) as (e & ->). exists e. reflexivity.
Qed.

(* Only reachable objects are visited, each at a type it is reachable at. *)
Theorem bfs_sound_partial fuel W o t objs w l x : finite_within (adj W) (o, t) objs w -> o <> 0 ->
  walk_bfs fuel W o t = Ok l -> In x l -> reachable (adj W) (o, t) x.
Proof.
  intros F N H Hx. destruct (walk_inv _ _ _ _ _ _ _ F N H) as (A & c & -> & I).
  apply in_map_iff in Hx. destruct Hx as ((y & n) & <- & Hy). exists n.
  apply (i_path _ _ _ _ _ _ I). rewrite app_nil_r. exact Hy.
Qed.

(* Whatever a visited object points to is visited. *)
Theorem bfs_closed_partial fuel W o t objs w l x y : finite_within (adj W) (o, t) objs w -> o <> 0 ->
  walk_bfs fuel W o t = Ok l -> In x l -> In y (adj W x) -> In (fst y) (map fst l).
Proof.
  intros F N H Hx Hy. destruct (walk_inv _ _ _ _ _ _ _ F N H) as (A & c & -> & I).
  apply in_map_iff in Hx. destruct Hx as ((z & n) & <- & Hz).
  destruct (i_clos _ _ _ _ _ _ I z n y Hz Hy) as (t' & m & Hm & _). rewrite app_nil_r in Hm.
  rewrite map_map. apply in_map_iff. exists ((fst y, t'), m). auto.
Qed.

Lemma level_le W o t objs w A c : finite_within (adj W) (o, t) objs w -> one_type (adj W) (o, t) ->
  Inv W (o, t) w A [] c -> forall n x, path (adj W) (o, t) n x -> exists m, In (x, m) A /\ (m <= n)%nat.
Proof.
  intros F O I n x P. induction P as [|n x y P IH Hy].
  - exists 0%nat. split; [|lia]. assert (R := i_root _ _ _ _ _ _ I). rewrite app_nil_r in R. exact R.
  - destruct IH as (m & Hm & L). destruct (i_clos _ _ _ _ _ _ I x m y Hm Hy) as (t' & m' & Hm' & L').
    rewrite app_nil_r in Hm'. exists m'. split; [|lia].
    assert (t' = snd y).
    { apply (O (fst y)).
      - exists m'. apply (i_path _ _ _ _ _ _ I). rewrite app_nil_r. exact Hm'.
      - exists (S n). rewrite <- surjective_pairing. econstructor; eauto. }
    subst t'. rewrite <- surjective_pairing in Hm'. exact Hm'.
Qed.

(* If no object is reached at two types, exactly the reachable objects are visited. *)
Theorem bfs_exact_partial fuel W o t objs w l x : finite_within (adj W) (o, t) objs w ->
  one_type (adj W) (o, t) -> o <> 0 -> walk_bfs fuel W o t = Ok l ->
  (In x l <-> reachable (adj W) (o, t) x).
Proof.
  intros F O N H. split; [apply (bfs_sound_partial _ _ _ _ _ _ _ _ F N H)|]. intros (n & P).
  destruct (walk_inv _ _ _ _ _ _ _ F N H) as (A & c & -> & I).
  destruct (level_le _ _ _ _ _ _ _ F O I n x P) as (m & Hm & _).
  apply in_map_iff. exists (x, m). auto.
Qed.

(* Objects nearer to the start are visited before farther ones. *)
Theorem bfs_by_distance_partial fuel W o t objs w l i j x y n m : finite_within (adj W) (o, t) objs w ->
  one_type (adj W) (o, t) -> o <> 0 -> walk_bfs fuel W o t = Ok l ->
  nth_error l i = Some x -> nth_error l j = Some y ->
  distance (adj W) (o, t) x n -> distance (adj W) (o, t) y m -> (n < m)%nat -> (i < j)%nat.
Proof.
  intros F O N H Hi Hj (Px & Mx) (Py & My) L.
  destruct (walk_inv _ _ _ _ _ _ _ F N H) as (A & c & -> & I).
  rewrite nth_error_map in Hi, Hj.
  destruct (nth_error A i) as [[x' a]|] eqn:Ei; [|discriminate]. injection Hi as ->.
  destruct (nth_error A j) as [[y' b]|] eqn:Ej; [|discriminate]. injection Hj as ->.
  assert (IX := nth_error_In _ _ Ei). assert (IY := nth_error_In _ _ Ej).
  assert (PA := i_path _ _ _ _ _ _ I). rewrite app_nil_r in PA.
  assert (ND := i_nodup _ _ _ _ _ _ I). rewrite app_nil_r in ND.
  assert (U : forall z k k', In (z, k) A -> In (z, k') A -> k = k').
  { clear - ND. intros z k k'. induction A as [|[z' k0] A IH]; [intros []|]. cbn in ND.
    inversion ND as [|? ? Nx ND']; subst. intros [E1|H1] [E2|H2].
    - congruence.
    - exfalso. apply Nx. injection E1 as <- <-. apply in_map_iff. exists (z', k'). auto.
    - exfalso. apply Nx. injection E2 as <- <-. apply in_map_iff. exists (z', k). auto.
    - auto. }
  assert (a = n).
  { destruct (level_le _ _ _ _ _ _ _ F O I n x Px) as (k & Hk & Lk). rewrite (U _ _ _ IX Hk) in *.
    specialize (Mx _ (PA _ _ Hk)). lia. }
  assert (b = m).
  { destruct (level_le _ _ _ _ _ _ _ F O I m y Py) as (k & Hk & Lk). rewrite (U _ _ _ IY Hk) in *.
    specialize (My _ (PA _ _ Hk)). lia. }
  subst a b.
  destruct (Nat.lt_ge_cases i j) as [|G]; [assumption|]. exfalso.
  assert (SO := i_sorted _ _ _ _ _ _ I). rewrite app_nil_r in SO.
  assert (m <= n)%nat; [|lia].
  clear - SO Ei Ej G. revert i j Ei Ej G. induction A as [|z A IH]; intros i j Ei Ej G; [destruct i; discriminate|].
  cbn in SO. apply StronglySorted_inv in SO. destruct SO as [SO FA]. rewrite Forall_forall in FA.
  destruct j as [|j].
  - injection Ej as ->. destruct i as [|i]; [injection Ei as -> ->; lia|]. cbn in FA.
    apply FA, in_map_iff. exists (x, n). split; [reflexivity|]. eapply nth_error_In. exact Ei.
  - destruct i as [|i]; [lia|]. apply (IH SO i j Ei Ej). lia.
Qed.

Lemma plausible_iff p : p <> 0 -> (plausible p = true <-> looks_valid p).
Proof. intro N. unfold plausible, looks_valid, ALL1. lia. Qed.

(* In objects without arrays inside structures, the pointers followed are exactly the
   non-null, valid-looking pointer fields, as redirected by the hook. *)
Theorem bfs_neighbours_partial W o tid t y : desc W tid = Some t -> flat t ->
  (In y (adj W (o, tid)) <-> exists off pt, ptr_field (pointee W) t off pt /\
     load W (o + off) <> 0 /\ looks_valid (load W (o + off)) /\
     follow W (load W (o + off)) pt = y /\ fst y <> 0).
Proof.
  intros D F. unfold adj. cbn [fst snd]. rewrite D, (flat_ptrs W o t F y).
  assert (V : forall a pt, In y (visit_pointer W a pt) <->
            load W a <> 0 /\ looks_valid (load W a) /\ follow W (load W a) pt = y /\ fst y <> 0).
  { intros a pt. unfold visit_pointer. destruct (Z.eqb_spec (load W a) 0) as [E|E]; cbn [negb andb].
    - split; [intros []|]. intros (X & _). contradiction.
    - destruct (plausible (load W a)) eqn:P.
      + apply (plausible_iff _ E) in P. destruct (follow W (load W a) pt) as [p' t'].
        destruct (Z.eqb_spec p' 0) as [->|N].
        * split; [intros []|]. intros (_ & _ & <- & X). cbn in X. congruence.
        * cbn. split; [intros [<-|[]]; auto|]. intros (_ & _ & X & _). auto.
      + split; [intros []|]. intros (_ & X & _). apply (plausible_iff _ E) in X. congruence. }
  split; intros (off & pt & P & X); exists off, pt; (split; [exact P|]); apply V; exact X.
Qed.

(* The linked queue is first-in first-out for every sequence of operations that does not
   push a record already queued; its assertions never fail. *)
Theorem queue_fifo ops : no_requeue [] ops ->
  queue_run (mkQ None None (fun _ => None)) ops = Ok (fifo_run [] ops).
Proof.
  assert (G : forall ops q l, rep q l -> (forall n, ~ In n l -> qnext q n = None) -> no_requeue l ops ->
              queue_run q ops = Ok (fifo_run l ops)).
  { clear. induction ops as [|o ops IH]; intros q l R E N; [reflexivity|]. destruct N as [N1 N2].
    destruct o as [n|]; cbn [queue_run fifo_run fifo fst snd] in *.
    - destruct (push_rep q l n R N1 (E n N1)) as (q' & P & R'). rewrite P. cbn [bind].
      rewrite (IH q' (l ++ [n]) R'); [reflexivity| |exact N2].
      intros k Hk. rewrite in_app_iff in Hk.
      assert (Hk1 : ~ In k l) by (intro; apply Hk; auto).
      unfold push_tail in P. rewrite (E n N1) in P. destruct R as (C & ND & T).
      destruct (qtail q) as [o|].
      + injection P as <-. cbn. unfold set_nxt. destruct (Nat.eqb_spec k o) as [->|]; [|auto].
        exfalso. apply Hk1. destruct (rev l) as [|z zs] eqn:RL; [discriminate|]. injection T as ->.
        apply in_rev. rewrite RL. left. reflexivity.
      + destruct (qhead q); [discriminate|]. injection P as <-. cbn. auto.
    - destruct l as [|x l].
      + rewrite (pop_empty q R). cbn [fst] in N2. rewrite (IH q [] R E N2). reflexivity.
      + destruct (pop_rep q x l R) as (q' & P & R' & EX). rewrite P.
        rewrite (IH q' l R'); [reflexivity| |exact N2].
        intros k Hk. destruct (Nat.eq_dec k x) as [->|NE]; [exact EX|].
        unfold pop_head in P. destruct R as ((EH & C) & _). rewrite EH in P. injection P as <-. cbn. unfold set_nxt.
        destruct (Nat.eqb_spec k x); [contradiction|]. apply E. intros [X|X]; [congruence|contradiction]. }
  intro N. apply G; [|reflexivity|exact N]. split; [reflexivity|]. split; [constructor|reflexivity].
Qed.

Module Bfs_ex.
  Definition none_w := (fun p t : Z => (p, t)).
  (* type 1: list node {ptr to 1; ptr to 2}; type 2: int; type 3: pointer to 1; 4: pointer to 2;
     5: struct with an array of pointers; 6: array of two pointers *)
  Definition lnode := TComp 1 16 [(0, TLeaf 3 8); (8, TLeaf 4 8)].
  Definition holder := TComp 5 16 [(0, TArr 6 16 2 (TLeaf 3 8))].
  Definition descs (i : Z) := if i =? 1 then Some lnode else if i =? 2 then Some (TLeaf 2 4)
                              else if i =? 5 then Some holder else None.
  Definition ptees (i : Z) := if i =? 3 then Some 1 else if i =? 4 then Some 2 else None.
  Definition B : Z := 4194304.
  (* a cycle of two nodes sharing one int *)
  Definition mem (a : Z) := if a =? B then B + 64 else if a =? B + 8 then B + 128
                            else if a =? B + 64 then B else if a =? B + 72 then B + 128 else 0.
  Definition W := mkWorld mem descs ptees none_w.
  Lemma reach_cases x : reachable (adj W) (B, 1) x -> x = (B, 1) \/ x = (B + 64, 1) \/ x = (B + 128, 2).
  Proof.
    intros (n & P). induction P as [|n x y P IH Hy]; [auto|].
    destruct IH as [->|[->| ->]]; vm_compute in Hy.
    - destruct Hy as [<-|[<-|[]]]; auto.
    - destruct Hy as [<-|[<-|[]]]; auto.
    - destruct Hy.
  Qed.
  Lemma fin : finite_within (adj W) (B, 1) [B; B + 64; B + 128] B.
  Proof.
    intros o t R. destruct (reach_cases _ R) as [E|[E|E]]; injection E as -> ->; (split; [cbn; auto|unfold B; lia]).
  Qed.
  Lemma one : one_type (adj W) (B, 1).
  Proof.
    intros o t t' R R'. apply reach_cases in R, R'.
    destruct R as [R|[R|R]], R' as [R'|[R'|R']]; injection R as ? ?; injection R' as ? ?; subst; auto; unfold B in *; lia.
  Qed.
  Example cycle : walk_bfs 3 W B 1 = Ok [(B, 1); (B + 64, 1); (B + 128, 2)].
  Proof. vm_compute. reflexivity. Qed.
  Example cycle_once : NoDup (map fst [(B, 1); (B + 64, 1); (B + 128, 2)]).
  Proof. apply (bfs_once_partial 3 W B 1 _ B _ fin); [discriminate|exact cycle]. Qed.
  Example cycle_exact : forall x, In x [(B, 1); (B + 64, 1); (B + 128, 2)] <-> reachable (adj W) (B, 1) x.
  Proof. intro x. apply (bfs_exact_partial 3 W B 1 _ B _ x fin one); [discriminate|exact cycle]. Qed.
  Example flat_lnode : flat lnode.
  Proof. apply fl_other, ni_comp. intros off m [E|[E|[]]]; injection E as <- <-; constructor. Qed.
  Example queue_use : queue_run (mkQ None None (fun _ => None)) [Some 3; Some 1; None; Some 3; None; None; None]%nat
     = Ok [None; None; Some 3; None; Some 1; Some 3; None]%nat.
  Proof. reflexivity. Qed.
End Bfs_ex.
Import Bfs_ex.

(* Missing: objects more than 2 GiB apart.  Addresses differing by a multiple of 4 GiB are
   taken for the same object, so a reachable object is never visited. *)
Theorem bfs_far_objects_refuted : exists W o t l x,
  walk_bfs 10 W o t = Ok l /\ reachable (adj W) (o, t) x /\ ~ In (fst x) (map fst l).
Proof.
  exists (mkWorld (fun a => if a =? B then B + 64 else if a =? B + 8 then B + 64 + 2 ^ 32 else 0)
            descs ptees none_w), B, 1, [(B, 1); (B + 64, 1)], (B + 64 + 2 ^ 32, 2).
  split; [vm_compute; reflexivity|]. split.
  - exists 1%nat. apply (path_S _ _ O (B, 1)); [constructor|]. vm_compute. auto.
  - cbn [map fst]. unfold B. intros [E|[E|[]]]; lia.
Qed.

(* Missing: pointers in arrays inside structures are not followed. *)
Theorem bfs_inner_array_refuted : exists W o tid t off pt,
  desc W tid = Some t /\ ptr_field (pointee W) t off pt /\
  looks_valid (load W (o + off)) /\ fst (follow W (load W (o + off)) pt) <> 0 /\
  walk_bfs 10 W o tid = Ok [(o, tid)] /\ load W (o + off) <> o.
Proof.
  exists (mkWorld (fun a => if a =? B then B + 64 else 0) descs ptees none_w), B, 5, holder, 0, 1.
  split; [reflexivity|]. split.
  - apply (pf_memb_in _ 5 16 _ 0 (TArr 6 16 2 (TLeaf 3 8)) 0 1); [left; reflexivity|reflexivity|].
    apply (pf_elem _ 6 16 2 (TLeaf 3 8) 0 1); [lia|reflexivity].
  - split; [vm_compute; right; split; [discriminate|reflexivity]|]. split; [discriminate|].
    split; [vm_compute; reflexivity|discriminate].
Qed.

(* Missing: the failure value (void* )-1 stored in a field is visited as an object. *)
Theorem bfs_all_ones_refuted : exists W o t l,
  walk_bfs 10 W o t = Ok l /\ In (2 ^ 64 - 1) (map fst l) /\ load W o = 2 ^ 64 - 1.
Proof.
  exists (mkWorld (fun a => if a =? B then 2 ^ 64 - 1 else 0) descs ptees none_w), B, 1,
    [(B, 1); (2 ^ 64 - 1, 1)].
  split; [vm_compute; reflexivity|]. split; [cbn; auto|reflexivity].
Qed.

(* Missing: an object reached at two types is followed at only one of them, so objects
   reachable through the other type are not visited. *)
Theorem bfs_two_types_refuted : exists W o t l x,
  walk_bfs 10 W o t = Ok l /\ reachable (adj W) (o, t) x /\ ~ In (fst x) (map fst l).
Proof.
  (* 7: struct {int *a; node *b}: both fields point to the same node *)
  exists (mkWorld (fun a => if a =? B then B + 64 else if a =? B + 8 then B + 64
                            else if a =? B + 64 then B + 128 else 0)
            (fun i => if i =? 7 then Some (TComp 7 16 [(0, TLeaf 4 8); (8, TLeaf 3 8)]) else descs i)
            ptees none_w), B, 7, [(B, 7); (B + 64, 2)], (B + 128, 1).
  split; [vm_compute; reflexivity|]. split.
  - exists 2%nat. apply (path_S _ _ 1%nat (B + 64, 1)).
    + apply (path_S _ _ O (B, 7)); [constructor|]. vm_compute. auto.
    + vm_compute. auto.
  - cbn [map fst]. unfold B. intros [E|[E|[]]]; lia.
Qed.

Print Assumptions bfs_terminates_partial.
Print Assumptions bfs_once_partial.
Print Assumptions bfs_root_first.
Print Assumptions bfs_sound_partial.
Print Assumptions bfs_closed_partial.
Print Assumptions bfs_exact_partial.
Print Assumptions bfs_by_distance_partial.
Print Assumptions bfs_neighbours_partial.
Print Assumptions queue_fifo.
Print Assumptions bfs_far_objects_refuted.
Print Assumptions bfs_inner_array_refuted.
Print Assumptions bfs_all_ones_refuted.
Print Assumptions bfs_two_types_refuted.
