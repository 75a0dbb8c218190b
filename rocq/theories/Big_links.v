(* Link structure of the forest: insertion, removal and moving of a child, expressed by
   the equations between the fields before and after. *)
From Verif Require Import Base Big_model Big_set Big_spec Big_inv Big_lookup.

Fixpoint dllx (f : nat -> big) (pv : nat) (l : list nat) (nx : nat) : Prop :=
  match l with
  | [] => True
  | x :: r => b_prev (f x) = pv /\ b_next (f x) = hd nx r /\ dllx f x r nx
  end.

Lemma NoDup_app_l (A : Type) (l1 l2 : list A) : NoDup (l1 ++ l2) -> NoDup l1.
Proof.
  induction l1 as [|x l1 IH]; intro H; [constructor|]. inversion H; subst.
  constructor; [|auto]. intro Hx. apply H2, in_or_app; auto.
Qed.
Lemma NoDup_app_r (A : Type) (l1 l2 : list A) : NoDup (l1 ++ l2) -> NoDup l2.
Proof. induction l1 as [|x l1 IH]; intro H; [auto|]. inversion H; subst; auto. Qed.

Lemma dll_dllx f l : forall pv, dll f pv l <-> dllx f pv l 0.
Proof. induction l as [|x l IH]; intro pv; simpl; [tauto|]. rewrite IH. tauto. Qed.

Lemma last_cons (x : nat) l d : last (x :: l) d = last l x.
Proof.
  revert x d; induction l as [|y l IH]; intros x d; [reflexivity|].
  transitivity (last (y :: l) d); [reflexivity|]. rewrite !IH. reflexivity.
Qed.

Lemma last_In (l : list nat) d : l <> [] -> In (last l d) l.
Proof. revert d; induction l as [|x l IH]; intros d H; [congruence|]. rewrite last_cons. destruct l; [simpl; auto|]. right. apply IH. congruence. Qed.

Lemma last_indep (l : list nat) d e : l <> [] -> last l d = last l e.
Proof. destruct l as [|x l]; [congruence|]. rewrite !last_cons. reflexivity. Qed.

Lemma dllx_app f l2 nx : forall l1 pv,
  dllx f pv (l1 ++ l2) nx <-> dllx f pv l1 (hd nx l2) /\ dllx f (last l1 pv) l2 nx.
Proof.
  induction l1 as [|x l1 IH]; intro pv; [cbn; tauto|].
  cbn [app dllx]. rewrite IH, last_cons.
  assert (hd nx (l1 ++ l2) = hd (hd nx l2) l1) as -> by (destruct l1; reflexivity).
  tauto.
Qed.

Lemma dllx_retarget f g nx nx' : forall l pv, NoDup l ->
  (forall x, In x l -> b_prev (g x) = b_prev (f x)) ->
  (forall x, In x l -> b_next (g x) = if Nat.eqb x (last l 0%nat) then nx' else b_next (f x)) ->
  dllx f pv l nx -> dllx g pv l nx'.
Proof.
  induction l as [|x l IH]; intros pv Hn Hp Hx; [simpl; auto|].
  inversion Hn as [|? ? Hni Hnl]; subst.
  cbn [dllx]. intros (H1 & H2 & H3). split; [rewrite Hp; simpl; auto|].
  rewrite last_cons in Hx.
  destruct l as [|y l].
  - split; [|simpl; auto]. rewrite Hx by (simpl; auto). cbn [last]. rewrite Nat.eqb_refl. reflexivity.
  - split.
    + rewrite Hx by (left; auto). destruct (Nat.eqb_spec x (last (y :: l) x)) as [E|E]; [|exact H2].
      exfalso. apply Hni. rewrite E. apply last_In. congruence.
    + apply IH; auto.
      * intros z Hz. apply Hp; simpl; auto.
      * intros z Hz. rewrite Hx by (right; auto). rewrite (last_indep _ x 0%nat) by congruence. reflexivity.
Qed.

Lemma dllx_ext f g nx : forall l pv,
  (forall x, In x l -> b_prev (g x) = b_prev (f x)) ->
  (forall x, In x l -> b_next (g x) = b_next (f x)) ->
  dllx f pv l nx -> dllx g pv l nx.
Proof.
  induction l as [|x l IH]; intros pv Hp Hx; [simpl; auto|].
  cbn [dllx]. intros (H1 & H2 & H3). rewrite Hp, Hx by (simpl; auto).
  split; [auto|split; [auto|]]. apply IH; auto; intros; [apply Hp|apply Hx]; simpl; auto.
Qed.

Lemma dllx_rehead f g nx pv' : forall l pv, NoDup l ->
  (forall x, In x l -> b_next (g x) = b_next (f x)) ->
  (forall x, In x l -> b_prev (g x) = if Nat.eqb x (hd 0%nat l) then pv' else b_prev (f x)) ->
  dllx f pv l nx -> dllx g pv' l nx.
Proof.
  destruct l as [|x l]; intros pv Hn Hx Hp; [simpl; auto|].
  inversion Hn as [|? ? Hni Hnl]; subst.
  cbn [dllx hd] in *. intros (H1 & H2 & H3).
  split; [rewrite Hp by (simpl; auto); rewrite Nat.eqb_refl; auto|].
  split; [rewrite Hx by (simpl; auto); auto|].
  apply dllx_ext with (f := f); auto; intros y Hy.
  - rewrite Hp by (simpl; auto). destruct (Nat.eqb_spec y x); [subst; contradiction|auto].
  - apply Hx; simpl; auto.
Qed.

Record Links (nb : nat) (s : st) (K : nat -> list nat) (rk : nat -> nat) : Prop := {
  L_kid : forall p c, In c (K p) <-> (live s c /\ b_parent (bigs s c) = p);
  L_nodup : forall p, NoDup (K p);
  L_dll : forall p, dllx (bigs s) 0 (K p) 0;
  L_first : forall n, live s n -> b_first (bigs s n) = hd 0%nat (K n);
  L_par : forall n, live s n -> node s (b_parent (bigs s n));
  L_rk : forall n, live s n -> b_parent (bigs s n) <> 0%nat -> (rk (b_parent (bigs s n)) < rk n)%nat;
  L_bnd : forall n, live s n -> (n < nb)%nat;
  L_start : In (start s) (K 0%nat);
  L_free : forall n, n <> 0%nat -> in_use (bigs s n) = false -> b_parent (bigs s n) = 0%nat }.

Record Geo (s : st) (K : nat -> list nat) : Prop := {
  G_geo : forall n, live s n -> 0 < b_begin (bigs s n) < b_end (bigs s n);
  G_in : forall n, live s n -> b_parent (bigs s n) <> 0%nat ->
      b_begin (bigs s (b_parent (bigs s n))) <= b_begin (bigs s n) /\
      b_end (bigs s n) <= b_end (bigs s (b_parent (bigs s n)));
  G_disj : forall p a b, In a (K p) -> In b (K p) -> a <> b -> disj s a b;
  G_before : before s (K 0%nat);
  G_align : forall n, In n (K 0%nat) -> b_begin (bigs s n) mod PAGE = 0 /\ b_end (bigs s n) mod PAGE = 0;
  G_pix : forall q, node s (pidx s q) /\ spans0 s (pidx s q) q /\
            forall c, In c (K (pidx s q)) -> ~ spans s c q }.

Lemma Inv_Links nb s K rk : Inv nb s K rk -> Links nb s K rk.
Proof. intro H. destruct H. constructor; auto. intro p. apply dll_dllx. auto. Qed.
Lemma Inv_Geo nb s K rk : Inv nb s K rk -> Geo s K.
Proof. intro H. destruct H. constructor; auto. Qed.
Lemma mkInv nb s K rk : Links nb s K rk -> Geo s K -> Inv nb s K rk.
Proof. intros H G. destruct H, G. constructor; auto. intro p. apply dll_dllx. auto. Qed.

Lemma dead_no_kids nb s K rk n : Links nb s K rk -> n <> 0%nat -> in_use (bigs s n) = false -> K n = [].
Proof.
  intros H Hn Hu. destruct (K n) as [|c l] eqn:E; auto. exfalso.
  assert (Hc : In c (K n)) by (rewrite E; simpl; auto).
  apply (L_kid _ _ _ _ H) in Hc. destruct Hc as [Hc Hp].
  destruct (L_par _ _ _ _ H _ Hc) as [H0|[_ H0]]; congruence.
Qed.

Definition Kset (K : nat -> list nat) (p : nat) (l : list nat) : nat -> list nat :=
  fun m => if Nat.eqb m p then l else K m.
Lemma Kset_same K p l : Kset K p l p = l.
Proof. unfold Kset. rewrite Nat.eqb_refl. reflexivity. Qed.
Lemma Kset_other K p l m : m <> p -> Kset K p l m = K m.
Proof. unfold Kset. intro H. destruct (Nat.eqb_spec m p); congruence. Qed.

Lemma last_app_cons (l1 : list nat) n l2 d : last (l1 ++ n :: l2) d = last l2 n.
Proof.
  revert d; induction l1 as [|x l1 IH]; intro d; cbn [app].
  - apply last_cons.
  - rewrite last_cons. apply IH.
Qed.

Lemma in_mid (A : Type) (x n : A) l1 l2 : In x (l1 ++ n :: l2) <-> x = n \/ In x (l1 ++ l2).
Proof. rewrite !in_app_iff. simpl. intuition congruence. Qed.

(* The new record n has been linked between l1 and l2 in p's list. *)
Lemma links_insert nb s s' K rk n p l1 l2 r :
  Links nb s K rk -> (p <> 0%nat -> (rk p < r)%nat) -> K p = l1 ++ l2 -> node s p -> n <> 0%nat -> in_use (bigs s n) = false -> (n < nb)%nat ->
  in_use (bigs s' n) = true ->
  (forall m, m <> n -> in_use (bigs s' m) = in_use (bigs s m)) ->
  (forall m, b_parent (bigs s' m) = if Nat.eqb m n then p else b_parent (bigs s m)) ->
  b_first (bigs s' n) = 0%nat ->
  (forall m, m <> n -> live s m -> b_first (bigs s' m) = if Nat.eqb m p then hd 0%nat (l1 ++ n :: l2) else b_first (bigs s m)) ->
  b_next (bigs s' n) = hd 0%nat l2 ->
  b_prev (bigs s' n) = last l1 0%nat ->
  (forall m, live s m -> b_next (bigs s' m) = if Nat.eqb m (last l1 0%nat) then n else b_next (bigs s m)) ->
  (forall m, live s m -> b_prev (bigs s' m) = if Nat.eqb m (hd 0%nat l2) then n else b_prev (bigs s m)) ->
  start s' = start s ->
  Links nb s' (Kset K p (l1 ++ n :: l2)) (fun m => if Nat.eqb m n then r else rk m).
Proof.
  intros HL Hrk HK Hp Hn0 Hnu Hnb Hu Hu' Hpar Hfn Hf Hnn Hpn Hnx Hpv Hst.
  assert (Hlive : forall m, live s' m <-> m = n \/ live s m).
  { intro m. unfold live. destruct (Nat.eq_dec m n) as [->|E]; [tauto|]. rewrite Hu' by auto. tauto. }
  assert (Hnl : ~ live s n) by (intros [_ H]; congruence).
  assert (Hnk : forall q, ~ In n (K q)) by (intros q H; apply (L_kid _ _ _ _ HL) in H; tauto).
  assert (Hkn : K n = []) by (eapply dead_no_kids; eauto).
  assert (Hpn' : p <> n) by (intros ->; destruct Hp as [H|H]; tauto).
  assert (Hnode : forall m, node s m -> node s' m) by (intros m [H|H]; [left|right; rewrite Hlive]; auto).
  assert (Hnod : NoDup (l1 ++ n :: l2)).
  { pose proof (L_nodup _ _ _ _ HL p) as H. rewrite HK in H.
    apply NoDup_Add with (a := n) (l := l1 ++ l2).
    - apply Add_app.
    - split; auto. rewrite <- HK. apply Hnk. }
  constructor.
  - intros q c. destruct (Nat.eq_dec q p) as [->|E].
    + rewrite Kset_same, in_mid, <- HK, Hlive, Hpar.
      destruct (Nat.eqb_spec c n) as [->|E2]; [tauto|]. rewrite (L_kid _ _ _ _ HL). tauto.
    + rewrite Kset_other by auto. rewrite (L_kid _ _ _ _ HL), Hlive, Hpar.
      destruct (Nat.eqb_spec c n) as [->|E2]; [|tauto]. split; [tauto|]. intros [_ H]; congruence.
  - intro q. destruct (Nat.eq_dec q p) as [->|E]; [rewrite Kset_same; auto|rewrite Kset_other by auto; apply (L_nodup _ _ _ _ HL)].
  - intro q. destruct (Nat.eq_dec q p) as [->|E].
    + rewrite Kset_same. pose proof (L_dll _ _ _ _ HL p) as Hd. rewrite HK, dllx_app in Hd.
      destruct Hd as [Hd1 Hd2]. apply dllx_app. cbn [hd].
      assert (Hl1 : forall x, In x l1 -> live s x).
      { intros x Hx. assert (In x (K p)) by (rewrite HK; apply in_or_app; auto). apply (L_kid _ _ _ _ HL) in H; tauto. }
      assert (Hl2 : forall x, In x l2 -> live s x).
      { intros x Hx. assert (In x (K p)) by (rewrite HK; apply in_or_app; auto). apply (L_kid _ _ _ _ HL) in H; tauto. }
      pose proof (L_nodup _ _ _ _ HL p) as Hnd. rewrite HK in Hnd.
      assert (Hsep : forall x, In x l1 -> In x l2 -> False).
      { intros x H1 H2. clear - Hnd H1 H2. induction l1 as [|y l IH]; [contradiction|].
        inversion Hnd; subst. destruct H1 as [->|H1]; [|auto]. apply H3, in_or_app; auto. }
      assert (Hz : forall x, live s x -> Nat.eqb x 0 = false) by (intros x [H _]; apply Nat.eqb_neq; auto).
      split; [|cbn [dllx]; split; [|split]].
      * apply dllx_retarget with (f := bigs s) (nx := hd 0%nat l2); auto.
        -- eapply NoDup_app_l; eauto.
        -- intros x Hx. rewrite Hpv by auto. destruct (Nat.eqb_spec x (hd 0%nat l2)) as [E|E]; auto.
           exfalso. destruct l2 as [|y l2]; cbn [hd] in E; [|subst; eapply Hsep; eauto; simpl; auto].
           subst. apply (proj1 (Hl1 _ Hx)); auto.
      * exact Hpn.
      * exact Hnn.
      * apply dllx_rehead with (f := bigs s) (pv := last l1 0%nat); auto.
        -- eapply NoDup_app_r; eauto.
        -- intros x Hx. rewrite Hnx by auto. destruct (Nat.eqb_spec x (last l1 0%nat)) as [E|E]; auto.
           exfalso. destruct l1 as [|y l1].
           ++ cbn [last] in E. subst. apply (proj1 (Hl2 _ Hx)); auto.
           ++ apply (Hsep x); auto. rewrite E. apply last_In; congruence.
    + rewrite Kset_other by auto.
      assert (Hlq : forall x, In x (K q) -> live s x /\ ~ In x (K p)).
      { intros x Hx. apply (L_kid _ _ _ _ HL) in Hx. split; [tauto|]. rewrite (L_kid _ _ _ _ HL). intros [_ H]; destruct Hx; congruence. }
      apply dllx_ext with (f := bigs s); [| |apply (L_dll _ _ _ _ HL)]; intros x Hx; destruct (Hlq x Hx) as [Hxl Hxp].
      * rewrite Hpv by auto. destruct (Nat.eqb_spec x (hd 0%nat l2)) as [E2|E2]; auto. exfalso.
        destruct l2 as [|y l2]; cbn [hd] in E2; subst; [apply (proj1 Hxl); auto|].
        apply Hxp. rewrite HK. apply in_or_app; simpl; auto.
      * rewrite Hnx by auto. destruct (Nat.eqb_spec x (last l1 0%nat)) as [E2|E2]; auto. exfalso.
        destruct l1 as [|y l1]; [cbn in E2; subst; apply (proj1 Hxl); auto|].
        apply Hxp. rewrite HK. apply in_or_app. left. rewrite E2. apply last_In; congruence.
  - intros m Hm. apply Hlive in Hm. destruct (Nat.eq_dec m n) as [->|E].
    + rewrite Hfn, Kset_other, Hkn by auto. reflexivity.
    + destruct Hm as [Hm|Hm]; [congruence|]. rewrite Hf by auto. destruct (Nat.eqb_spec m p) as [->|E2].
      * rewrite Kset_same. reflexivity.
      * rewrite Kset_other by auto. apply (L_first _ _ _ _ HL); auto.
  - intros m Hm. rewrite Hpar. destruct (Nat.eqb_spec m n) as [->|E]; auto.
    apply Hnode. apply (L_par _ _ _ _ HL). apply Hlive in Hm. tauto.
  - intros m Hm. rewrite Hpar. destruct (Nat.eqb_spec m n) as [->|E].
    + intros Hz. destruct (Nat.eqb_spec p n); [congruence|auto].
    + apply Hlive in Hm. destruct Hm as [Hm|Hm]; [congruence|]. intro Hz.
      destruct (Nat.eqb_spec (b_parent (bigs s m)) n) as [E2|E2].
      * destruct (L_par _ _ _ _ HL _ Hm) as [H|H]; [congruence|]. rewrite E2 in H. tauto.
      * apply (L_rk _ _ _ _ HL); auto.
  - intros m Hm. apply Hlive in Hm. destruct Hm as [->|Hm]; auto. apply (L_bnd _ _ _ _ HL); auto.
  - rewrite Hst. pose proof (L_start _ _ _ _ HL) as H0. destruct (Nat.eq_dec 0 p) as [<-|E].
    + rewrite Kset_same, in_mid, <- HK. auto.
    + rewrite Kset_other by auto. auto.
  - intros m Hm Hmu. rewrite Hpar. destruct (Nat.eqb_spec m n) as [->|E]; [congruence|].
    apply (L_free _ _ _ _ HL); auto. rewrite Hu' in Hmu; auto.
Qed.

(* The leaf n has been unlinked from between l1 and l2 in p's list. *)
Lemma links_remove nb s s' K rk n p l1 l2 :
  Links nb s K rk -> K p = l1 ++ n :: l2 -> K n = [] ->
  in_use (bigs s' n) = false ->
  (forall m, m <> n -> in_use (bigs s' m) = in_use (bigs s m)) ->
  (forall m, b_parent (bigs s' m) = if Nat.eqb m n then 0%nat else b_parent (bigs s m)) ->
  (forall m, m <> n -> live s m -> b_first (bigs s' m) = if Nat.eqb m p then hd 0%nat (l1 ++ l2) else b_first (bigs s m)) ->
  (forall m, m <> n -> live s m -> b_next (bigs s' m) = if Nat.eqb m (last l1 0%nat) then hd 0%nat l2 else b_next (bigs s m)) ->
  (forall m, m <> n -> live s m -> b_prev (bigs s' m) = if Nat.eqb m (hd 0%nat l2) then last l1 0%nat else b_prev (bigs s m)) ->
  start s' = start s -> start s <> n ->
  Links nb s' (Kset K p (l1 ++ l2)) rk.
Proof.
  intros HL HK Hkn Hu Hu' Hpar Hf Hnx Hpv Hst Hstn.
  assert (Hnk : In n (K p)) by (rewrite HK; apply in_mid; auto).
  assert (Hln : live s n /\ b_parent (bigs s n) = p) by (apply (L_kid _ _ _ _ HL); auto).
  destruct Hln as [Hln Hpn].
  assert (Hlive : forall m, live s' m <-> m <> n /\ live s m).
  { intro m. unfold live. destruct (Nat.eq_dec m n) as [->|E]; [|rewrite Hu' by auto; tauto].
    rewrite Hu. intuition congruence. }
  pose proof (L_nodup _ _ _ _ HL p) as Hnd. rewrite HK in Hnd.
  assert (Hnd' : NoDup (l1 ++ l2)) by (eapply NoDup_remove_1; eauto).
  assert (Hni : ~ In n (l1 ++ l2)) by (eapply NoDup_remove_2; eauto).
  assert (Hpne : p <> n) by (intros ->; rewrite Hkn in HK; destruct l1; discriminate).
  assert (Hin : forall x, In x (l1 ++ l2) -> live s x /\ x <> n).
  { intros x Hx. split; [|intros ->; auto].
    assert (In x (K p)) by (rewrite HK; apply in_mid; auto). apply (L_kid _ _ _ _ HL) in H; tauto. }
  constructor.
  - intros q c. destruct (Nat.eq_dec q p) as [->|E].
    + rewrite Kset_same, Hlive, Hpar.
      assert (In c (l1 ++ l2) <-> c <> n /\ In c (K p)) as ->.
      { rewrite HK, in_mid. split; [|tauto]. intro H. split; [|auto]. intros ->; auto. }
      rewrite (L_kid _ _ _ _ HL). destruct (Nat.eqb_spec c n) as [->|E2]; tauto.
    + rewrite Kset_other by auto. rewrite (L_kid _ _ _ _ HL), Hlive, Hpar.
      destruct (Nat.eqb_spec c n) as [->|E2]; [|tauto]. split; [intros [_ H]; congruence|tauto].
  - intro q. destruct (Nat.eq_dec q p) as [->|E]; [rewrite Kset_same; auto|rewrite Kset_other by auto; apply (L_nodup _ _ _ _ HL)].
  - intro q. destruct (Nat.eq_dec q p) as [->|E].
    + rewrite Kset_same. pose proof (L_dll _ _ _ _ HL p) as Hd. rewrite HK, dllx_app in Hd.
      cbn [dllx hd] in Hd. destruct Hd as (Hd1 & _ & _ & Hd2). apply dllx_app.
      assert (Hsep : forall x, In x l1 -> In x l2 -> False).
      { intros x H1 H2. clear - Hnd' H1 H2. induction l1 as [|y l IH]; [contradiction|].
        inversion Hnd'; subst. destruct H1 as [->|H1]; [|auto]. apply H3, in_or_app; auto. }
      split.
      * apply dllx_retarget with (f := bigs s) (nx := n); auto.
        -- eapply NoDup_app_l; eauto.
        -- intros x Hx. destruct (Hin x ltac:(apply in_or_app; auto)) as [Hxl Hxn]. rewrite Hpv by auto.
           destruct (Nat.eqb_spec x (hd 0%nat l2)) as [E|E]; auto.
           exfalso. destruct l2 as [|y l2]; cbn [hd] in E; [subst; apply (proj1 Hxl); auto|].
           subst. eapply Hsep; eauto; simpl; auto.
        -- intros x Hx. destruct (Hin x ltac:(apply in_or_app; auto)) as [Hxl Hxn]. apply Hnx; auto.
      * apply dllx_rehead with (f := bigs s) (pv := n); auto.
        -- eapply NoDup_app_r; eauto.
        -- intros x Hx. destruct (Hin x ltac:(apply in_or_app; auto)) as [Hxl Hxn]. rewrite Hnx by auto.
           destruct (Nat.eqb_spec x (last l1 0%nat)) as [E|E]; auto.
           exfalso. destruct l1 as [|y l1].
           ++ cbn [last] in E. subst. apply (proj1 Hxl); auto.
           ++ apply (Hsep x); auto. rewrite E. apply last_In; congruence.
        -- intros x Hx. destruct (Hin x ltac:(apply in_or_app; auto)) as [Hxl Hxn]. apply Hpv; auto.
    + rewrite Kset_other by auto.
      assert (Hlq : forall x, In x (K q) -> live s x /\ x <> n /\ ~ In x (l1 ++ l2)).
      { intros x Hx. apply (L_kid _ _ _ _ HL) in Hx. destruct Hx as [Hx1 Hx2]. split; [auto|].
        assert (~ In x (K p)) by (rewrite (L_kid _ _ _ _ HL); intros [_ H]; congruence).
        rewrite HK, in_mid in H. tauto. }
      apply dllx_ext with (f := bigs s); [| |apply (L_dll _ _ _ _ HL)]; intros x Hx; destruct (Hlq x Hx) as (Hxl & Hxn & Hxp).
      * rewrite Hpv by auto. destruct (Nat.eqb_spec x (hd 0%nat l2)) as [E2|E2]; auto. exfalso.
        destruct l2 as [|y l2]; cbn [hd] in E2; subst; [apply (proj1 Hxl); auto|].
        apply Hxp. apply in_or_app; simpl; auto.
      * rewrite Hnx by auto. destruct (Nat.eqb_spec x (last l1 0%nat)) as [E2|E2]; auto. exfalso.
        destruct l1 as [|y l1]; [cbn in E2; subst; apply (proj1 Hxl); auto|].
        apply Hxp. apply in_or_app. left. rewrite E2. apply last_In; congruence.
  - intros m Hm. apply Hlive in Hm. destruct Hm as [E Hm].
    rewrite Hf by auto. destruct (Nat.eqb_spec m p) as [->|E2].
    + rewrite Kset_same. reflexivity.
    + rewrite Kset_other by auto. apply (L_first _ _ _ _ HL); auto.
  - intros m Hm. apply Hlive in Hm. destruct Hm as [E Hm]. rewrite Hpar. destruct (Nat.eqb_spec m n); [congruence|].
    destruct (L_par _ _ _ _ HL _ Hm) as [H|H]; [left; auto|right]. apply Hlive. split; auto.
    intro E2. assert (In m (K n)) by (apply (L_kid _ _ _ _ HL); auto). rewrite Hkn in H0. contradiction.
  - intros m Hm. apply Hlive in Hm. destruct Hm as [E Hm]. rewrite Hpar. destruct (Nat.eqb_spec m n); [congruence|].
    apply (L_rk _ _ _ _ HL); auto.
  - intros m Hm. apply Hlive in Hm. apply (L_bnd _ _ _ _ HL); tauto.
  - rewrite Hst. pose proof (L_start _ _ _ _ HL) as H0. destruct (Nat.eq_dec 0 p) as [<-|E].
    + rewrite Kset_same. rewrite HK, in_mid in H0. tauto.
    + rewrite Kset_other by auto. auto.
  - intros m Hm Hmu. rewrite Hpar. destruct (Nat.eqb_spec m n) as [->|E]; auto.
    apply (L_free _ _ _ _ HL); auto. rewrite Hu' in Hmu; auto.
Qed.

(* The child c has been moved from between l1 and l2 in b's list to the head of w's. *)
Lemma links_move nb s s' K rk c b w l1 l2 :
  Links nb s K rk -> K b = l1 ++ c :: l2 -> b <> w -> b <> 0%nat -> live s w -> (rk w < rk c)%nat ->
  (forall m, in_use (bigs s' m) = in_use (bigs s m)) ->
  (forall m, b_parent (bigs s' m) = if Nat.eqb m c then w else b_parent (bigs s m)) ->
  (forall m, live s m -> b_first (bigs s' m) =
      if Nat.eqb m w then c else if Nat.eqb m b then hd 0%nat (l1 ++ l2) else b_first (bigs s m)) ->
  (forall m, live s m -> b_next (bigs s' m) =
      if Nat.eqb m c then hd 0%nat (K w) else if Nat.eqb m (last l1 0%nat) then hd 0%nat l2 else b_next (bigs s m)) ->
  (forall m, live s m -> b_prev (bigs s' m) =
      if Nat.eqb m c then 0%nat else if Nat.eqb m (hd 0%nat (K w)) then c
      else if Nat.eqb m (hd 0%nat l2) then last l1 0%nat else b_prev (bigs s m)) ->
  start s' = start s ->
  Links nb s' (Kset (Kset K b (l1 ++ l2)) w (c :: K w)) rk.
Proof.
  intros HL HK Hbw Hb0 Hw Hrw Hu Hpar Hf Hnx Hpv Hst.
  assert (Hck : In c (K b)) by (rewrite HK; apply in_mid; auto).
  assert (Hlc : live s c /\ b_parent (bigs s c) = b) by (apply (L_kid _ _ _ _ HL); auto).
  destruct Hlc as [Hlc Hpc].
  assert (Hlive : forall m, live s' m <-> live s m) by (intro m; unfold live; rewrite Hu; tauto).
  assert (Hcw : c <> w) by (intros ->; lia).
  assert (Hw0 : w <> 0%nat) by (apply Hw).
  pose proof (L_nodup _ _ _ _ HL b) as Hnd. rewrite HK in Hnd.
  assert (Hnd' : NoDup (l1 ++ l2)) by (eapply NoDup_remove_1; eauto).
  assert (Hni : ~ In c (l1 ++ l2)) by (eapply NoDup_remove_2; eauto).
  assert (Hcnw : ~ In c (K w)) by (rewrite (L_kid _ _ _ _ HL); intros [_ H]; congruence).
  assert (Hin : forall x, In x (l1 ++ l2) -> live s x /\ x <> c /\ ~ In x (K w)).
  { intros x Hx. assert (In x (K b)) by (rewrite HK; apply in_mid; auto).
    apply (L_kid _ _ _ _ HL) in H. split; [tauto|]. split; [intros ->; auto|].
    rewrite (L_kid _ _ _ _ HL). intros [_ H2]. destruct H; congruence. }
  assert (Hhd : forall x l, live s x -> x = hd 0%nat l -> In x l).
  { intros x l [Hx _] H. destruct l; simpl in *; [congruence|auto]. }
  assert (Hls : forall x l, live s x -> x = last l 0%nat -> In x l).
  { intros x l [Hx _] H. destruct l; [simpl in *; congruence|]. rewrite H. apply last_In; congruence. }
  constructor.
  - intros q x. destruct (Nat.eq_dec q w) as [->|E].
    + rewrite Kset_same, Hlive, Hpar. cbn [In]. rewrite (L_kid _ _ _ _ HL).
      destruct (Nat.eqb_spec x c) as [->|E2]; [tauto|]. intuition congruence.
    + rewrite Kset_other by auto. destruct (Nat.eq_dec q b) as [->|E2].
      * rewrite Kset_same, Hlive, Hpar.
        assert (In x (l1 ++ l2) <-> x <> c /\ In x (K b)) as ->.
        { rewrite HK, in_mid. split; [|tauto]. intro H. split; [|auto]. intros ->; auto. }
        rewrite (L_kid _ _ _ _ HL). destruct (Nat.eqb_spec x c) as [->|E3]; [|tauto]. split; [tauto|intros [_ H]; congruence].
      * rewrite Kset_other by auto. rewrite (L_kid _ _ _ _ HL), Hlive, Hpar.
        destruct (Nat.eqb_spec x c) as [->|E3]; [|tauto]. split; [intros [_ H]; congruence|intros [_ H]; congruence].
  - intro q. destruct (Nat.eq_dec q w) as [->|E].
    + rewrite Kset_same. constructor; auto. apply (L_nodup _ _ _ _ HL).
    + rewrite Kset_other by auto. destruct (Nat.eq_dec q b) as [->|E2]; [rewrite Kset_same; auto|].
      rewrite Kset_other by auto. apply (L_nodup _ _ _ _ HL).
  - intro q. destruct (Nat.eq_dec q w) as [->|E].
    + rewrite Kset_same. cbn [dllx]. rewrite Hpv, Hnx by auto. rewrite Nat.eqb_refl.
      split; [reflexivity|split; [reflexivity|]].
      assert (Hkw : forall x, In x (K w) -> live s x /\ x <> c /\ ~ In x (l1 ++ l2)).
      { intros x Hx. split; [apply (L_kid _ _ _ _ HL) in Hx; tauto|]. split; [intros ->; auto|].
        intro H. apply Hin in H. tauto. }
      apply dllx_rehead with (f := bigs s) (pv := 0%nat).
      * apply (L_nodup _ _ _ _ HL).
      * intros x Hx. destruct (Hkw x Hx) as (H1 & H2 & H3). rewrite Hnx by auto.
        destruct (Nat.eqb_spec x c); [congruence|].
        destruct (Nat.eqb_spec x (last l1 0%nat)) as [E2|E2]; auto.
        exfalso. apply H3, in_or_app. left. apply Hls; auto.
      * intros x Hx. destruct (Hkw x Hx) as (H1 & H2 & H3). rewrite Hpv by auto.
        destruct (Nat.eqb_spec x c); [congruence|].
        destruct (Nat.eqb_spec x (hd 0%nat (K w))) as [E2|E2]; auto.
        destruct (Nat.eqb_spec x (hd 0%nat l2)) as [E3|E3]; auto.
        exfalso. apply H3, in_or_app. right. apply Hhd; auto.
      * apply (L_dll _ _ _ _ HL).
    + rewrite Kset_other by auto. destruct (Nat.eq_dec q b) as [->|E2].
      * rewrite Kset_same. pose proof (L_dll _ _ _ _ HL b) as Hd. rewrite HK, dllx_app in Hd.
        cbn [dllx hd] in Hd. destruct Hd as (Hd1 & _ & _ & Hd2). apply dllx_app.
        assert (Hsep : forall x, In x l1 -> In x l2 -> False).
        { intros x H1 H2. clear - Hnd' H1 H2. induction l1 as [|y l IH]; [contradiction|].
          inversion Hnd'; subst. destruct H1 as [->|H1]; [|auto]. apply H3, in_or_app; auto. }
        split.
        -- apply dllx_retarget with (f := bigs s) (nx := c); auto.
           ++ eapply NoDup_app_l; eauto.
           ++ intros x Hx. destruct (Hin x ltac:(apply in_or_app; auto)) as (Hxl & Hxn & Hxw). rewrite Hpv by auto.
              destruct (Nat.eqb_spec x c); [congruence|].
              destruct (Nat.eqb_spec x (hd 0%nat (K w))) as [E2|E2]; [exfalso; apply Hxw, Hhd; auto|].
              destruct (Nat.eqb_spec x (hd 0%nat l2)) as [E3|E3]; auto.
              exfalso. eapply Hsep; eauto.
           ++ intros x Hx. destruct (Hin x ltac:(apply in_or_app; auto)) as (Hxl & Hxn & Hxw). rewrite Hnx by auto.
              destruct (Nat.eqb_spec x c); [congruence|]. reflexivity.
        -- apply dllx_rehead with (f := bigs s) (pv := c); auto.
           ++ eapply NoDup_app_r; eauto.
           ++ intros x Hx. destruct (Hin x ltac:(apply in_or_app; auto)) as (Hxl & Hxn & Hxw). rewrite Hnx by auto.
              destruct (Nat.eqb_spec x c); [congruence|].
              destruct (Nat.eqb_spec x (last l1 0%nat)) as [E3|E3]; auto.
              exfalso. eapply Hsep; eauto.
           ++ intros x Hx. destruct (Hin x ltac:(apply in_or_app; auto)) as (Hxl & Hxn & Hxw). rewrite Hpv by auto.
              destruct (Nat.eqb_spec x c); [congruence|].
              destruct (Nat.eqb_spec x (hd 0%nat (K w))) as [E2|E2]; [exfalso; apply Hxw, Hhd; auto|]. reflexivity.
      * rewrite Kset_other by auto.
        assert (Hlq : forall x, In x (K q) -> live s x /\ x <> c /\ ~ In x (l1 ++ l2) /\ ~ In x (K w)).
        { intros x Hx. apply (L_kid _ _ _ _ HL) in Hx. destruct Hx as [Hx1 Hx2]. split; [auto|].
          assert (~ In x (K b)) by (rewrite (L_kid _ _ _ _ HL); intros [_ H]; congruence).
          assert (~ In x (K w)) by (rewrite (L_kid _ _ _ _ HL); intros [_ H']; congruence).
          rewrite HK, in_mid in H. tauto. }
        apply dllx_ext with (f := bigs s); [| |apply (L_dll _ _ _ _ HL)]; intros x Hx; destruct (Hlq x Hx) as (Hxl & Hxn & Hxp & Hxw).
        -- rewrite Hpv by auto. destruct (Nat.eqb_spec x c); [congruence|].
           destruct (Nat.eqb_spec x (hd 0%nat (K w))) as [E3|E3]; [exfalso; apply Hxw, Hhd; auto|].
           destruct (Nat.eqb_spec x (hd 0%nat l2)) as [E4|E4]; auto. exfalso. apply Hxp, in_or_app; auto.
        -- rewrite Hnx by auto. destruct (Nat.eqb_spec x c); [congruence|].
           destruct (Nat.eqb_spec x (last l1 0%nat)) as [E4|E4]; auto. exfalso. apply Hxp, in_or_app; auto.
  - intros m Hm. apply Hlive in Hm. rewrite Hf by auto. destruct (Nat.eqb_spec m w) as [->|E].
    + rewrite Kset_same. reflexivity.
    + rewrite Kset_other by auto. destruct (Nat.eqb_spec m b) as [->|E2]; [rewrite Kset_same; reflexivity|].
      rewrite Kset_other by auto. apply (L_first _ _ _ _ HL); auto.
  - intros m Hm. apply Hlive in Hm. rewrite Hpar. destruct (Nat.eqb_spec m c) as [->|E].
    + right. apply Hlive; auto.
    + destruct (L_par _ _ _ _ HL _ Hm) as [H|H]; [left; auto|right; apply Hlive; auto].
  - intros m Hm. apply Hlive in Hm. rewrite Hpar. destruct (Nat.eqb_spec m c) as [->|E]; auto.
    apply (L_rk _ _ _ _ HL); auto.
  - intros m Hm. apply Hlive in Hm. apply (L_bnd _ _ _ _ HL); auto.
  - rewrite Hst, !Kset_other by auto. apply (L_start _ _ _ _ HL).
  - intros m Hm Hmu. rewrite Hu in Hmu. rewrite Hpar. destruct (Nat.eqb_spec m c) as [->|E].
    + destruct Hlc; congruence.
    + apply (L_free _ _ _ _ HL); auto.
Qed.

(* Change of ranges only. *)
Lemma links_same nb s s' K rk :
  Links nb s K rk ->
  (forall m, in_use (bigs s' m) = in_use (bigs s m)) ->
  (forall m, b_parent (bigs s' m) = b_parent (bigs s m)) ->
  (forall m, b_first (bigs s' m) = b_first (bigs s m)) ->
  (forall m, b_next (bigs s' m) = b_next (bigs s m)) ->
  (forall m, b_prev (bigs s' m) = b_prev (bigs s m)) ->
  start s' = start s -> Links nb s' K rk.
Proof.
  intros HL Hu Hp Hf Hn Hv Hs.
  assert (Hlive : forall m, live s' m <-> live s m) by (intro m; unfold live; rewrite Hu; tauto).
  destruct HL. constructor.
  - intros p c. rewrite Hlive, Hp. apply L_kid0.
  - auto.
  - intro p. apply dllx_ext with (f := bigs s); auto.
  - intros n Hl. rewrite Hf. apply L_first0, Hlive, Hl.
  - intros n Hl. rewrite Hp. apply Hlive in Hl. destruct (L_par0 n Hl) as [H0|H0]; [left; auto|right; apply Hlive; auto].
  - intros n Hl. rewrite Hp. apply L_rk0, Hlive, Hl.
  - intros n Hl. apply L_bnd0, Hlive, Hl.
  - rewrite Hs; auto.
  - intros n H0 H1. rewrite Hp. apply L_free0; auto. rewrite <- Hu; auto.
Qed.
