(* Proofs about the breadth-first walk. *)
From Verif Require Import Base Type_model Bfs_model Bfs_spec.
From Coq Require Import Sorting.Sorted.

Lemma compar_0 w a b : w <= a < w + 2 ^ 31 -> w <= b < w + 2 ^ 31 -> compar a b = 0 -> a = b.
Proof.
  intros A B. unfold compar, s32. intro E.
  assert (D : (a - b + 2 ^ 31) mod 2 ^ 32 = a - b + 2 ^ 31) by (apply Z.mod_small; lia). lia.
Qed.
Lemma compar_refl a : compar a a = 0.
Proof. unfold compar. rewrite Z.sub_diag. reflexivity. Qed.

Fixpoint keys_in (w : Z) (t : tree) : Prop :=
  match t with Lf => True | Nd l k _ r => keys_in w l /\ w <= k < w + 2 ^ 31 /\ keys_in w r end.

Lemma tset_keys w t k x : keys_in w t -> w <= k < w + 2 ^ 31 -> keys_in w (tset t k x).
Proof.
  induction t as [|l IHl k' v r IHr]; cbn; intros K H; [auto|]. destruct K as (K1 & K2 & K3).
  destruct (_ =? 0); [cbn; auto|]. destruct (_ <? 0); cbn; auto.
Qed.

Lemma tget_tset w t k x k' : keys_in w t -> w <= k < w + 2 ^ 31 -> w <= k' < w + 2 ^ 31 ->
  tget (tset t k x) k' = if k' =? k then x else tget t k'.
Proof.
  intros K H H'. induction t as [|l IHl j v r IHr]; cbn.
  - destruct (Z.eqb_spec k' k) as [->|N]; [rewrite compar_refl; reflexivity|].
    destruct (Z.eqb_spec (compar k' k) 0) as [E|E]; [exfalso; apply N; eapply compar_0; eauto|].
    destruct (_ <? 0); reflexivity.
  - destruct K as (K1 & K2 & K3). specialize (IHl K1). specialize (IHr K3).
    destruct (Z.eqb_spec (compar k j) 0) as [E|E].
    + apply (compar_0 w) in E; auto. subst j. cbn.
      destruct (Z.eqb_spec k' k) as [->|N]; [rewrite compar_refl; reflexivity|].
      destruct (Z.eqb_spec (compar k' k) 0) as [E|E]; [exfalso; apply N; eapply compar_0; eauto|]. reflexivity.
    + destruct (compar k j <? 0) eqn:L; cbn.
      * destruct (Z.eqb_spec (compar k' j) 0) as [E'|E'].
        -- apply (compar_0 w) in E'; auto. subst j.
           destruct (Z.eqb_spec k' k) as [->|N]; [rewrite compar_refl in E; congruence|reflexivity].
        -- destruct (compar k' j <? 0) eqn:L'; [exact IHl|].
           destruct (Z.eqb_spec k' k) as [->|N]; [congruence|reflexivity].
      * destruct (Z.eqb_spec (compar k' j) 0) as [E'|E'].
        -- apply (compar_0 w) in E'; auto. subst j.
           destruct (Z.eqb_spec k' k) as [->|N]; [rewrite compar_refl in E; congruence|reflexivity].
        -- destruct (compar k' j <? 0) eqn:L'; [|exact IHr].
           destruct (Z.eqb_spec k' k) as [->|N]; [congruence|reflexivity].
Qed.

Lemma enqueue_spec w vs : forall c q, keys_in w c -> (forall v, In v vs -> w <= fst v < w + 2 ^ 31) ->
  exists new c2, enqueue_white c q vs = (c2, q ++ new) /\ keys_in w c2 /\ incl new vs /\
    NoDup (map fst new) /\ (forall v, In v new -> tget c (fst v) = 0) /\
    (forall o, w <= o < w + 2 ^ 31 -> (tget c2 o <> 0 <-> tget c o <> 0 \/ In o (map fst new))) /\
    (forall v, In v vs -> tget c2 (fst v) <> 0).
Proof.
  induction vs as [|v vs IH]; intros c q K H; cbn [enqueue_white].
  - exists [], c. rewrite app_nil_r. split; [reflexivity|]. split; [exact K|]. split; [intros x []|].
    split; [constructor|]. split; [intros x []|]. split; [|intros x []]. intros o _. cbn. tauto.
  - assert (Hv : w <= fst v < w + 2 ^ 31) by (apply H; left; reflexivity).
    assert (H' : forall x, In x vs -> w <= fst x < w + 2 ^ 31) by (intros x Hx; apply H; right; exact Hx).
    destruct (Z.eqb_spec (tget c (fst v)) WHITE) as [E|E]; unfold WHITE in E.
    + destruct (IH (tset c (fst v) GREY) (q ++ [v]) (tset_keys _ _ _ _ K Hv) H')
        as (new & c2 & En & K2 & I2 & N2 & W2 & C2 & A2).
      assert (G : forall o, w <= o < w + 2 ^ 31 ->
                  tget (tset c (fst v) GREY) o = if o =? fst v then GREY else tget c o)
        by (intros o Ho; apply (tget_tset w); auto).
      exists (v :: new), c2. split; [etransitivity; [exact En|]; rewrite <- app_assoc; reflexivity|]. split; [exact K2|].
      split; [intros x [<-|Hx]; [left; reflexivity|right; apply I2, Hx]|]. split; [|split; [|split]].
      * cbn. constructor; [|exact N2]. intro Hi. apply in_map_iff in Hi. destruct Hi as (x & Ex & Hx).
        specialize (W2 x Hx). rewrite Ex, (G _ Hv), Z.eqb_refl in W2. discriminate.
      * intros x [<-|Hx]; [exact E|]. specialize (W2 x Hx). rewrite G in W2 by (apply H', I2, Hx).
        destruct (Z.eqb_spec (fst x) (fst v)); [discriminate|exact W2].
      * intros o Ho. rewrite (C2 o Ho), (G o Ho). cbn [map In]. destruct (Z.eqb_spec o (fst v)) as [->|N].
        -- split; [auto|]. intros _. left. discriminate.
        -- split; [intros [A|A]; auto|]. intros [A|[A|A]]; auto.
      * intros x [<-|Hx]; [|apply A2, Hx]. apply (C2 _ Hv). left. rewrite (G _ Hv), Z.eqb_refl. discriminate.
    + destruct (IH c q K H') as (new & c2 & En & K2 & I2 & N2 & W2 & C2 & A2).
      exists new, c2. split; [exact En|]. split; [exact K2|]. split; [intros x Hx; right; apply I2, Hx|].
      split; [exact N2|]. split; [exact W2|]. split; [exact C2|].
      intros x [<-|Hx]; [|apply A2, Hx]. apply (C2 _ Hv). left. exact E.
Qed.

Lemma SS_app_le (l : list nat) (x : nat) : StronglySorted le l -> (forall y, In y l -> (y <= x)%nat) ->
  forall n, StronglySorted le (l ++ repeat x n).
Proof.
  intros S H n. induction S as [|a l S IH F]; cbn.
  - induction n; cbn; constructor; auto. apply Forall_forall. intros y Hy. apply repeat_spec in Hy. lia.
  - constructor; [apply IH; intros y Hy; apply H; right; exact Hy|].
    apply Forall_app. split; [exact F|]. apply Forall_forall. intros y Hy. apply repeat_spec in Hy.
    subst y. apply H. left. reflexivity.
Qed.

Section Run.
  Context (W : world) (r : node) (objs : list Z) (w : Z).
  Let G := adj W.
  Context (FIN : finite_within G r objs w).

  Definition ob (x : node * nat) : Z := fst (fst x).

  Record Inv (A Q : list (node * nat)) (c : tree) : Prop := {
    i_nodup : NoDup (map ob (A ++ Q));
    i_col1 : forall o, w <= o < w + 2 ^ 31 -> tget c o <> 0 -> In o (map ob (A ++ Q));
    i_col2 : forall o, In o (map ob (A ++ tl Q)) -> tget c o <> 0;
    i_keys : keys_in w c;
    i_sorted : StronglySorted le (map snd (A ++ Q));
    i_bound : forall x y Q', Q = x :: Q' -> In y Q -> (snd y <= S (snd x))%nat;
    i_path : forall x n, In (x, n) (A ++ Q) -> path G r n x;
    i_clos : forall x n y, In (x, n) A -> In y (G x) ->
       exists t m, In ((fst y, t), m) (A ++ Q) /\ (m <= S n)%nat;
    i_root : In (r, O) (A ++ Q)
  }.

  Lemma path_win n x : path G r n x -> In (fst x) objs /\ w <= fst x < w + 2 ^ 31.
  Proof. intro P. destruct x as [o t]. apply (FIN o t). exists n. exact P. Qed.

  Lemma step_inv A u k Q c : Inv A ((u, k) :: Q) c ->
    exists new c2, enqueue_white (tset c (fst u) GREY) (map fst Q) (G u) = (c2, map fst Q ++ new) /\
      Inv (A ++ [(u, k)]) (Q ++ map (fun v => (v, S k)) new) (tset c2 (fst u) BLACK).
  Proof.
    intros [ND C1 C2 K SO BD PA CL RO].
    assert (Pu : path G r k u) by (apply PA, in_app_iff; right; left; reflexivity).
    destruct (path_win _ _ Pu) as [_ Wu].
    assert (WG : forall v, In v (G u) -> w <= fst v < w + 2 ^ 31).
    { intros v Hv. apply (path_win (S k)). econstructor; eauto. }
    set (c1 := tset c (fst u) GREY).
    assert (K1 : keys_in w c1) by (apply tset_keys; auto).
    assert (G1 : forall o, w <= o < w + 2 ^ 31 -> tget c1 o = if o =? fst u then GREY else tget c o)
      by (intros o Ho; apply (tget_tset w); auto).
    destruct (enqueue_spec w (G u) c1 (map fst Q) K1 WG) as (new & c2 & En & K2 & I2 & N2 & W2 & Co & A2).
    exists new, c2. split; [exact En|].
    set (Qn := map (fun v => (v, S k)) new).
    assert (ASSOC : (A ++ [(u, k)]) ++ Q ++ Qn = (A ++ (u, k) :: Q) ++ Qn)
      by (rewrite <- !app_assoc; reflexivity).
    assert (OQn : map ob Qn = map fst new) by (unfold Qn; rewrite map_map; reflexivity).
    assert (WIN : forall x n, In (x, n) (A ++ (u, k) :: Q) -> w <= fst x < w + 2 ^ 31).
    { intros x n Hx. eapply path_win, PA, Hx. }
    assert (G3 : forall o, w <= o < w + 2 ^ 31 -> tget (tset c2 (fst u) BLACK) o = if o =? fst u then BLACK else tget c2 o)
      by (intros o Ho; apply (tget_tset w); auto).
    assert (OLD1 : forall o, In o (map ob (A ++ (u, k) :: Q)) -> tget c1 o <> 0).
    { intros o Ho. assert (Wo : w <= o < w + 2 ^ 31).
      { apply in_map_iff in Ho. destruct Ho as ((x & n) & <- & Hx). exact (WIN _ _ Hx). }
      rewrite (G1 o Wo). destruct (Z.eqb_spec o (fst u)); [discriminate|].
      apply C2. cbn [tl]. rewrite map_app, in_app_iff in *. destruct Ho as [Ho|[Ho|Ho]]; auto.
      exfalso. apply n. symmetry. exact Ho. }
    constructor.
    - rewrite ASSOC, map_app, OQn. apply NoDup_app_iff || idtac.
      assert (D : forall o, In o (map ob (A ++ (u, k) :: Q)) -> In o (map fst new) -> False).
      { intros o Ho Hn. apply in_map_iff in Hn. destruct Hn as (v & <- & Hv). apply (OLD1 _ Ho), W2, Hv. }
      revert D ND. generalize (map ob (A ++ (u, k) :: Q)) as l. clear - N2. intro l.
      induction l as [|a l IH]; intros D ND; cbn; [exact N2|]. inversion ND; subst. constructor.
      + rewrite in_app_iff. intros [X|X]; [contradiction|]. apply (D a); [left; reflexivity|exact X].
      + apply IH; auto. intros o Ho. apply D. right. exact Ho.
    - intros o Wo Ho. rewrite (G3 o Wo) in Ho. rewrite ASSOC, map_app, OQn, in_app_iff.
      destruct (Z.eqb_spec o (fst u)) as [->|N].
      + left. rewrite map_app, in_app_iff. right. left. reflexivity.
      + apply (Co o Wo) in Ho. destruct Ho as [Ho|Ho]; [|right; exact Ho]. left.
        rewrite (G1 o Wo) in Ho. destruct (Z.eqb_spec o (fst u)); [contradiction|]. apply C1; assumption.
    - intros o Ho.
      assert (Ho' : In o (map ob (A ++ (u, k) :: Q)) \/ In o (map fst new)).
      { rewrite <- OQn, <- in_app_iff, <- map_app, <- ASSOC. rewrite map_app, in_app_iff in *.
        destruct Ho as [Ho|Ho]; [left; exact Ho|]. right.
        destruct (Q ++ Qn) as [|z l]; [destruct Ho|right; exact Ho]. }
      assert (Wo : w <= o < w + 2 ^ 31).
      { destruct Ho' as [X|X]; apply in_map_iff in X.
        - destruct X as ((x & n) & <- & Hx). exact (WIN _ _ Hx).
        - destruct X as (v & <- & Hv). apply WG, I2, Hv. }
      rewrite (G3 o Wo). destruct (o =? fst u); [discriminate|]. apply (Co o Wo).
      destruct Ho' as [X|X]; [left; apply OLD1, X|right; exact X].
    - apply tset_keys; assumption.
    - rewrite ASSOC, map_app. assert (E : map snd Qn = repeat (S k) (length new)).
      { unfold Qn. rewrite map_map. cbn. clear. induction new; cbn; f_equal; auto. }
      rewrite E. apply SS_app_le; [exact SO|]. intros y Hy. apply in_map_iff in Hy.
      destruct Hy as (z & <- & Hz). apply in_app_iff in Hz. destruct Hz as [Hz|Hz].
      + assert (X : (snd z <= k)%nat).
        { clear - SO Hz. rewrite map_app in SO. cbn in SO. induction A as [|a A' IH]; [destruct Hz|].
          cbn in SO. apply StronglySorted_inv in SO. destruct SO as [SO F]. destruct Hz as [->|Hz]; [|auto].
          rewrite Forall_forall in F. apply F, in_app_iff. right. left. reflexivity. }
        lia.
      + apply (BD (u, k) z Q eq_refl Hz).
    - intros x y Q' E Hy.
      assert (X : (k <= snd x)%nat).
      { destruct Q as [|z Q0].
        - cbn in E. destruct new as [|v new0]; [discriminate|]. cbn in E. injection E as <- _. cbn. lia.
        - cbn in E. injection E as -> _. clear - SO. rewrite map_app in SO. cbn in SO.
          induction A as [|a A' IH]; cbn in SO; apply StronglySorted_inv in SO; destruct SO as [SO F]; [|auto].
          rewrite Forall_forall in F. apply F. left. reflexivity. }
      apply in_app_iff in Hy. destruct Hy as [Hy|Hy].
      + assert (Z := BD (u, k) y Q eq_refl (or_intror Hy)). cbn in Z. lia.
      + unfold Qn in Hy. apply in_map_iff in Hy. destruct Hy as (v & <- & _). cbn. lia.
    - intros x n Hx. rewrite ASSOC, in_app_iff in Hx. destruct Hx as [Hx|Hx]; [apply PA, Hx|].
      unfold Qn in Hx. apply in_map_iff in Hx. destruct Hx as (v & E & Hv). injection E as <- <-.
      econstructor; [exact Pu|]. apply I2, Hv.
    - intros x n y Hx Hy. rewrite ASSOC. apply in_app_iff in Hx. destruct Hx as [Hx|[Hx|[]]].
      + destruct (CL x n y Hx Hy) as (t & m & H1 & H2). exists t, m. split; [|exact H2].
        apply in_app_iff. left. exact H1.
      + injection Hx as <- <-. assert (Wy := WG y Hy). assert (Z := A2 y Hy). apply (Co _ Wy) in Z.
        destruct Z as [Z|Z].
        * assert (In (fst y) (map ob (A ++ (u, k) :: Q))).
          { rewrite (G1 _ Wy) in Z. destruct (Z.eqb_spec (fst y) (fst u)) as [->|N].
            - rewrite map_app, in_app_iff. right. left. reflexivity.
            - apply C1; assumption. }
          apply in_map_iff in H. destruct H as (((o & t) & m) & E & Hm). unfold ob in E. cbn in E. subst o.
          exists t, m. split; [apply in_app_iff; left; exact Hm|].
          apply in_app_iff in Hm. destruct Hm as [Hm|Hm].
          -- assert (m <= k)%nat; [|lia].
             clear - SO Hm. rewrite map_app in SO. cbn in SO. induction A as [|a A' IH]; [destruct Hm|].
             cbn in SO. apply StronglySorted_inv in SO. destruct SO as [SO F]. destruct Hm as [->|Hm]; [|auto].
             rewrite Forall_forall in F. apply F, in_app_iff. right. left. reflexivity.
          -- apply (BD (u, k) _ Q eq_refl Hm).
        * apply in_map_iff in Z. destruct Z as ((o & t) & E & Hv). cbn in E. subst o.
          exists t, (S k). split; [|lia]. apply in_app_iff. right. unfold Qn. apply in_map_iff.
          exists (fst y, t). auto.
    - rewrite ASSOC. apply in_app_iff. left. exact RO.
  Qed.

  Lemma run_inv fuel : forall A Q c, Inv A Q c -> (length objs <= fuel + length A)%nat ->
    exists A' c', process fuel W c (map fst Q) (map fst A) = Ok (map fst A') /\ Inv A' [] c'.
  Proof.
    induction fuel as [|f IH]; intros A Q c I L.
    - destruct Q as [|[u k] Q]; [exists A, c; auto|]. exfalso.
      assert (X : (length (map ob (A ++ (u, k) :: Q)) <= length objs)%nat).
      { apply NoDup_incl_length; [apply (i_nodup _ _ _ I)|].
        intros o Ho. apply in_map_iff in Ho. destruct Ho as ((x & n) & <- & Hx).
        apply (path_win n x). apply (i_path _ _ _ I), Hx. }
      rewrite map_length, app_length in X. cbn in X. lia.
    - destruct Q as [|[u k] Q]; [exists A, c; auto|].
      destruct (step_inv A u k Q c I) as (new & c2 & E & I').
      change (process (S f) W c (map fst ((u, k) :: Q)) (map fst A)) with
        (let '(c2, q2) := enqueue_white (tset c (fst u) GREY) (map fst Q) (G u) in
         process f W (tset c2 (fst u) BLACK) q2 (map fst A ++ [u])).
      rewrite E.
      specialize (IH _ _ _ I'). destruct IH as (A' & c' & R & I2).
      + rewrite app_length. cbn. lia.
      + exists A', c'. split; [|exact I2]. rewrite <- R. cbn [fst]. f_equal.
        * rewrite map_app. f_equal. rewrite map_map. cbn. rewrite map_id. reflexivity.
        * rewrite map_app. reflexivity.
  Qed.

  Lemma init_inv : Inv [] [(r, O)] Lf.
  Proof.
    constructor.
    - repeat constructor; auto.
    - intros o _ H. exfalso. apply H. reflexivity.
    - intros o [].
    - exact I.
    - repeat constructor.
    - intros x y Q' E [<-|[]]. injection E as <- _. lia.
    - intros x n [E|[]]. injection E as <- <-. constructor.
    - intros x n y [].
    - left. reflexivity.
  Qed.

  Lemma run_spec fuel : (length objs <= fuel)%nat ->
    exists A c, process fuel W Lf [r] [] = Ok (map fst A) /\ Inv A [] c.
  Proof. intro L. apply (run_inv fuel [] [(r, O)] Lf init_inv). cbn. lia. Qed.
End Run.

(* adjacency lists are the pointer fields, where no array is nested in a structure *)
Lemma inner_ptrs W obj t : no_inner_arrays t -> forall start x,
  In x (adjacency W obj t start) <->
  exists o pt, ptr_field (pointee W) t o pt /\ In x (visit_pointer W (obj + (start + o)) pt).
Proof.
  intro N. induction N as [id size|id size ms H IH]; intros start x.
  - cbn. split; [intros []|]. intros (o & pt & P & _). inversion P.
  - cbn [adjacency]. rewrite in_flat_map. split.
    + intros ([off m] & Hm & Hx). cbn [fst snd] in Hx. destruct (pointee W (tid m)) as [pt|] eqn:E.
      * exists off, pt. split; [eapply pf_memb; eauto|exact Hx].
      * destruct m as [| |id' size' ms']; try (destruct Hx; fail).
        apply (IH off _ Hm (start + off) x) in Hx. destruct Hx as (o & pt & P & Hx).
        exists (off + o), pt. split; [eapply pf_memb_in; eauto|].
        replace (start + (off + o)) with (start + off + o) by lia. exact Hx.
    + intros (o & pt & P & Hx). inversion P as [| |? ? ? off m ? Hm E|? ? ? off m o' ? Hm E P']; subst.
      * exists (o, m). split; [exact Hm|]. cbn [fst snd]. rewrite E. exact Hx.
      * exists (off, m). split; [exact Hm|]. cbn [fst snd]. rewrite E.
        assert (HN := H off m Hm). destruct m as [| |id' size' ms']; [inversion P'|inversion HN|].
        apply (IH off _ Hm (start + off) x). exists o', pt. split; [exact P'|].
        replace (start + off + o') with (start + (off + o')) by lia. exact Hx.
Qed.

Lemma flat_ptrs W obj t : flat t -> forall x,
  In x (adjacency W obj t 0) <->
  exists o pt, ptr_field (pointee W) t o pt /\ In x (visit_pointer W (obj + o) pt).
Proof.
  intros F x. destruct F as [id size len e N|t N].
  - cbn [adjacency]. rewrite in_flat_map. split.
    + intros (i & Hi & Hx). apply in_seq in Hi. destruct (pointee W (tid e)) as [pt|] eqn:E.
      * exists (Z.of_nat i * tsize e), pt. split; [apply pf_elem; [lia|exact E]|].
        replace (obj + (0 + Z.of_nat i * tsize e)) with (obj + Z.of_nat i * tsize e) in Hx by lia. exact Hx.
      * destruct e as [| |id' size' ms']; try (destruct Hx; fail).
        apply (inner_ptrs W obj _ N) in Hx. destruct Hx as (o & pt & P & Hx).
        exists (Z.of_nat i * tsize (TComp id' size' ms') + o), pt. split; [apply pf_elem_in; [lia|exact E|exact P]|].
        match goal with |- In x (visit_pointer W ?a pt) =>
          match type of Hx with In x (visit_pointer W ?b pt) => replace a with b by lia end end. exact Hx.
    + intros (o & pt & P & Hx). inversion P as [? ? ? ? i ? R E|? ? ? ? i o' ? R E P'| |]; subst.
      * exists (Z.to_nat i). split; [apply in_seq; lia|]. rewrite E.
        rewrite Z2Nat.id by lia. replace (0 + i * tsize e) with (i * tsize e) by lia. exact Hx.
      * exists (Z.to_nat i). split; [apply in_seq; lia|]. rewrite E.
        destruct e as [| |id' size' ms']; [inversion P'|inversion N|].
        apply (inner_ptrs W obj _ N). exists o', pt. split; [exact P'|]. rewrite Z2Nat.id by lia.
        match goal with |- In x (visit_pointer W ?a pt) =>
          match type of Hx with In x (visit_pointer W ?b pt) => replace a with b by lia end end. exact Hx.
  - rewrite (inner_ptrs W obj t N 0 x). reflexivity.
Qed.

(* the linked queue represents a list *)
Fixpoint chain (nx : nat -> option nat) (h : option nat) (l : list nat) : Prop :=
  match l with
  | [] => h = None
  | x :: l' => h = Some x /\ chain nx (nx x) l'
  end.
Definition rep (q : queue) (l : list nat) : Prop :=
  chain (qnext q) (qhead q) l /\ NoDup l /\ qtail q = match rev l with [] => None | x :: _ => Some x end.

Lemma chain_set nx h l i x : chain nx h l -> ~ In i l -> chain (set_nxt nx i x) h l.
Proof.
  revert h. induction l as [|y l IH]; cbn; intros h C N; [exact C|]. destruct C as [E C]. split; [exact E|].
  unfold set_nxt at 2. destruct (Nat.eqb_spec y i) as [->|]; [exfalso; apply N; left; reflexivity|].
  apply IH; [exact C|]. intro. apply N. right. assumption.
Qed.
Lemma chain_snoc nx h l o n : chain nx h (l ++ [o]) -> ~ In o l -> ~ In n (l ++ [o]) -> nx n = None ->
  chain (set_nxt nx o (Some n)) h (l ++ [o] ++ [n]).
Proof.
  revert h. induction l as [|y l IH]; cbn; intros h C No Nn E.
  - destruct C as [-> C]. split; [reflexivity|]. unfold set_nxt at 1. rewrite Nat.eqb_refl. split; [reflexivity|].
    unfold set_nxt. destruct (Nat.eqb_spec n o) as [->|]; [exfalso; apply Nn; auto|]. exact E.
  - destruct C as [-> C]. split; [reflexivity|]. unfold set_nxt at 2.
    destruct (Nat.eqb_spec y o) as [->|]; [exfalso; apply No; auto|]. apply IH; auto.
Qed.

Lemma push_rep q l n : rep q l -> ~ In n l -> qnext q n = None ->
  exists q', push_tail q n = Ok q' /\ rep q' (l ++ [n]).
Proof.
  intros (C & ND & T) N E. unfold push_tail. rewrite E.
  destruct (rev l) as [|o rl] eqn:R.
  - assert (l = []) by (rewrite <- (rev_involutive l), R; reflexivity). subst l. cbn in *. rewrite T, C.
    eexists. split; [reflexivity|]. split; [cbn; auto|]. split; [repeat constructor; auto|reflexivity].
  - assert (L : l = rev rl ++ [o]) by (rewrite <- (rev_involutive l), R; reflexivity).
    rewrite T. eexists. split; [reflexivity|]. split; [|split].
    + cbn. rewrite L, <- app_assoc. apply chain_snoc; auto.
      * rewrite <- L. exact C.
      * rewrite L in ND. apply NoDup_remove_2 in ND. rewrite app_nil_r in ND. exact ND.
      * rewrite <- L. exact N.
    + apply NoDup_Add with (a := n) (l := l); [|split; assumption].
      rewrite <- (app_nil_r l) at 1. apply Add_app.
    + rewrite rev_app_distr. reflexivity.
Qed.

Lemma pop_rep q x l : rep q (x :: l) ->
  exists q', pop_head q = (q', Some x) /\ rep q' l /\ qnext q' x = None.
Proof.
  intros ((E & C) & ND & T). unfold pop_head. rewrite E. eexists. split; [reflexivity|].
  inversion ND as [|? ? Nx ND']; subst. split; [|unfold set_nxt; cbn; rewrite Nat.eqb_refl; reflexivity].
  split; [|split]; cbn.
  - apply chain_set; assumption.
  - exact ND'.
  - destruct l as [|y l']; [cbn in C; rewrite C; reflexivity|]. destruct C as [-> _]. rewrite T.
    cbn [rev]. destruct (rev l' ++ [y]) as [|z zs] eqn:R; [|reflexivity].
    apply app_eq_nil in R. destruct R. discriminate.
Qed.
Lemma pop_empty q : rep q [] -> pop_head q = (q, None).
Proof. intros (C & _). cbn in C. unfold pop_head. rewrite C. reflexivity. Qed.
