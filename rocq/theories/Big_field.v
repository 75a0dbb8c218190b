(* What the linking primitives do to each field. *)
From Verif Require Import Base Big_model Big_set Big_spec Big_inv Big_lookup Big_links.

Lemma asrt_true d b : b = true -> asrt d b = Ok tt.
Proof. intros ->. unfold asrt. rewrite andb_false_r. reflexivity. Qed.

Definition same_data (s s' : st) : Prop :=
  (forall m, b_begin (bigs s' m) = b_begin (bigs s m) /\ b_end (bigs s' m) = b_end (bigs s m) /\
     b_alloc (bigs s' m) = b_alloc (bigs s m) /\ b_sub (bigs s' m) = b_sub (bigs s m) /\
     b_priv (bigs s' m) = b_priv (bigs s m) /\ b_subpriv (bigs s' m) = b_subpriv (bigs s m)) /\
  pidx s' = pidx s /\ start s' = start s /\ log s' = log s.

Lemma same_data_refl s : same_data s s.
Proof. unfold same_data. tauto. Qed.
Lemma same_data_trans s1 s2 s3 : same_data s1 s2 -> same_data s2 s3 -> same_data s1 s3.
Proof.
  intros (A & B & C & D) (A' & B' & C' & D'). split; [|split; [|split]]; try congruence.
  intro m. specialize (A m). specialize (A' m). intuition congruence.
Qed.
Ltac sd := unfold same_data; split; [intro m|]; autorewrite with big; repeat split; auto.
Lemma same_data_parent s n v : same_data s (s_parent s n v). Proof. sd. Qed.
Lemma same_data_first s n v : same_data s (s_first s n v). Proof. sd. Qed.
Lemma same_data_next s n v : same_data s (s_next s n v). Proof. sd. Qed.
Lemma same_data_prev s n v : same_data s (s_prev s n v). Proof. sd. Qed.
Lemma same_data_if (b : bool) s s' : same_data s s' -> same_data s (if b then s else s').
Proof. destruct b; auto using same_data_refl. Qed.
Lemma same_data_in_use s s' m : same_data s s' -> in_use (bigs s' m) = in_use (bigs s m).
Proof. intros (H & _). unfold in_use. destruct (H m) as (-> & -> & _). reflexivity. Qed.

Lemma add_child_ok dbg s n p :
  n <> p -> n <> 0%nat -> p <> 0%nat ->
  b_parent (bigs s n) = 0%nat -> b_next (bigs s n) = 0%nat -> b_prev (bigs s n) = 0%nat ->
  b_first (bigs s p) <> n ->
  (b_first (bigs s p) <> 0%nat -> b_prev (bigs s (b_first (bigs s p))) = 0%nat) ->
  exists s', add_child dbg s n p = Ok s' /\ same_data s s' /\
    (forall m, b_parent (bigs s' m) = if Nat.eqb m n then p else b_parent (bigs s m)) /\
    (forall m, b_first (bigs s' m) = if Nat.eqb m p then n else b_first (bigs s m)) /\
    (forall m, b_next (bigs s' m) = if Nat.eqb m n then b_first (bigs s p) else b_next (bigs s m)) /\
    (forall m, m <> 0%nat -> b_prev (bigs s' m) = if Nat.eqb m (b_first (bigs s p)) then n else b_prev (bigs s m)).
Proof.
  intros Hnp Hn0 Hp0 Hpar Hnx Hpv Hfn Hfp. unfold add_child. cbn zeta.
  rewrite asrt_true by (rewrite Hpar; reflexivity). cbn [bind].
  rewrite asrt_true by (autorewrite with big; rewrite Hnx; reflexivity). cbn [bind].
  autorewrite with big. set (f := b_first (bigs s p)) in *.
  rewrite asrt_true by (destruct (Nat.eqb_spec f 0) as [E|E]; [reflexivity|rewrite Hfp by auto; reflexivity]).
  cbn [bind].
  rewrite asrt_true.
  2:{ destruct (Nat.eqb_spec f 0) as [E|E]; autorewrite with big; [|destruct (Nat.eqb_spec n f); [congruence|]]; rewrite Hpv; reflexivity. }
  cbn [bind]. eexists. split; [reflexivity|]. split.
  { eapply same_data_trans; [|apply same_data_if, same_data_prev].
    eapply same_data_trans; [|apply same_data_next]. eapply same_data_trans; [|apply same_data_first]. apply same_data_parent. }
  destruct (Nat.eqb_spec f 0) as [E|E]; repeat split; intros; autorewrite with big; auto.
  destruct (Nat.eqb_spec m f) as [E2|E2]; congruence.
Qed.

Lemma unlink_child_ok dbg s n p :
  b_parent (bigs s n) = p -> p <> 0%nat -> n <> 0%nat -> n <> p ->
  (b_first (bigs s p) = n <-> b_prev (bigs s n) = 0%nat) ->
  b_prev (bigs s n) <> n -> b_next (bigs s n) <> n ->
  exists s', unlink_child dbg s n = Ok s' /\ same_data s s' /\
    (forall m, b_parent (bigs s' m) = if Nat.eqb m n then 0%nat else b_parent (bigs s m)) /\
    (forall m, b_first (bigs s' m) = if Nat.eqb m p && Nat.eqb n (b_first (bigs s p)) then b_next (bigs s n) else b_first (bigs s m)) /\
    (forall m, m <> 0%nat -> b_next (bigs s' m) = if Nat.eqb m n then 0%nat else if Nat.eqb m (b_prev (bigs s n)) then b_next (bigs s n) else b_next (bigs s m)) /\
    (forall m, m <> 0%nat -> b_prev (bigs s' m) = if Nat.eqb m n then 0%nat else if Nat.eqb m (b_next (bigs s n)) then b_prev (bigs s n) else b_prev (bigs s m)).
Proof.
  intros Hpar Hp0 Hn0 Hnp Hfp Hpn Hnn. unfold unlink_child. cbn zeta. rewrite Hpar.
  destruct (Nat.eqb_spec p 0) as [E|_]; [congruence|].
  set (s1 := if Nat.eqb n (b_first (bigs s p)) then s_first s p (b_next (bigs s n)) else s).
  assert ((if Nat.eqb n (b_first (bigs s p))
           then do _ <- asrt dbg (Nat.eqb (b_prev (bigs s n)) 0); Ok (s_first s p (b_next (bigs s n)))
           else do _ <- asrt dbg (negb (Nat.eqb (b_prev (bigs s n)) 0)); Ok s) = Ok s1) as ->.
  { unfold s1. destruct (Nat.eqb_spec n (b_first (bigs s p))) as [E|E].
    - rewrite asrt_true by (apply Nat.eqb_eq, Hfp; auto). reflexivity.
    - rewrite asrt_true; [reflexivity|]. apply negb_true_iff, Nat.eqb_neq. intro H. apply Hfp in H. auto. }
  cbn [bind].
  assert (S1 : same_data s s1) by (unfold s1; destruct (Nat.eqb n (b_first (bigs s p))); auto using same_data_refl, same_data_first).
  assert (N1 : forall m, b_next (bigs s1 m) = b_next (bigs s m)) by (intro; unfold s1; destruct (Nat.eqb n (b_first (bigs s p))); autorewrite with big; auto).
  assert (V1 : forall m, b_prev (bigs s1 m) = b_prev (bigs s m)) by (intro; unfold s1; destruct (Nat.eqb n (b_first (bigs s p))); autorewrite with big; auto).
  assert (P1 : forall m, b_parent (bigs s1 m) = b_parent (bigs s m)) by (intro; unfold s1; destruct (Nat.eqb n (b_first (bigs s p))); autorewrite with big; auto).
  assert (F1 : forall m, b_first (bigs s1 m) = if Nat.eqb m p && Nat.eqb n (b_first (bigs s p)) then b_next (bigs s n) else b_first (bigs s m)).
  { intro; unfold s1; destruct (Nat.eqb n (b_first (bigs s p))); autorewrite with big; auto.
    - rewrite andb_true_r; auto.
    - rewrite andb_false_r; auto. }
  clearbody s1.
  rewrite V1, N1. set (pv := b_prev (bigs s n)) in *. set (nx := b_next (bigs s n)) in *.
  set (s2 := if Nat.eqb pv 0 then s1 else s_next s1 pv nx).
  assert (S2 : same_data s1 s2) by (apply same_data_if, same_data_next).
  assert (N2 : forall m, m <> 0%nat -> b_next (bigs s2 m) = if Nat.eqb m pv then nx else b_next (bigs s m)).
  { intros m Hm. unfold s2. destruct (Nat.eqb_spec pv 0) as [E|E]; autorewrite with big; rewrite ?N1; auto.
    destruct (Nat.eqb_spec m pv); congruence. }
  assert (V2 : forall m, b_prev (bigs s2 m) = b_prev (bigs s m)) by (intro; unfold s2; destruct (Nat.eqb pv 0); autorewrite with big; auto).
  assert (P2 : forall m, b_parent (bigs s2 m) = b_parent (bigs s m)) by (intro; unfold s2; destruct (Nat.eqb pv 0); autorewrite with big; auto).
  assert (F2 : forall m, b_first (bigs s2 m) = if Nat.eqb m p && Nat.eqb n (b_first (bigs s p)) then nx else b_first (bigs s m)) by (intro; unfold s2; destruct (Nat.eqb pv 0); autorewrite with big; auto).
  clearbody s2.
  rewrite V2, N2 by auto. destruct (Nat.eqb_spec n pv) as [E|_]; [congruence|]. fold nx. fold pv.
  set (s3 := if Nat.eqb nx 0 then s2 else s_prev s2 nx pv).
  assert (S3 : same_data s2 s3) by (apply same_data_if, same_data_prev).
  eexists; split; [reflexivity|]. split.
  { eapply same_data_trans; [|apply same_data_parent]. eapply same_data_trans; [|apply same_data_next].
    eapply same_data_trans; [|apply same_data_prev]. eapply same_data_trans; [|exact S3].
    eapply same_data_trans; eauto. }
  unfold s3. repeat split; intros; autorewrite with big.
  - destruct (Nat.eqb m n); auto. destruct (Nat.eqb nx 0); autorewrite with big; auto.
  - destruct (Nat.eqb nx 0); autorewrite with big; auto.
  - destruct (Nat.eqb m n); auto. destruct (Nat.eqb nx 0); autorewrite with big; auto.
  - destruct (Nat.eqb m n); auto. destruct (Nat.eqb_spec nx 0) as [E|E]; autorewrite with big; auto.
    + rewrite V2. destruct (Nat.eqb_spec m nx); congruence.
    + rewrite V2. auto.
Qed.

Lemma unlink_toplevel_ok s n :
  n <> 0%nat -> b_prev (bigs s n) <> n ->
  same_data s (unlink_toplevel s n) /\
    (forall m, b_parent (bigs (unlink_toplevel s n) m) = b_parent (bigs s m)) /\
    (forall m, b_first (bigs (unlink_toplevel s n) m) = b_first (bigs s m)) /\
    (forall m, m <> 0%nat -> b_next (bigs (unlink_toplevel s n) m) = if Nat.eqb m (b_prev (bigs s n)) then b_next (bigs s n) else b_next (bigs s m)) /\
    (forall m, m <> 0%nat -> b_prev (bigs (unlink_toplevel s n) m) = if Nat.eqb m (b_next (bigs s n)) then b_prev (bigs s n) else b_prev (bigs s m)).
Proof.
  intros Hn0 Hpn. unfold unlink_toplevel. cbn zeta.
  set (pv := b_prev (bigs s n)) in *. set (nx := b_next (bigs s n)) in *.
  set (s2 := if Nat.eqb pv 0 then s else s_next s pv nx).
  assert (S2 : same_data s s2) by (apply same_data_if, same_data_next).
  assert (N2 : forall m, m <> 0%nat -> b_next (bigs s2 m) = if Nat.eqb m pv then nx else b_next (bigs s m)).
  { intros m Hm. unfold s2. destruct (Nat.eqb_spec pv 0) as [E|E]; autorewrite with big; auto.
    destruct (Nat.eqb_spec m pv); congruence. }
  assert (V2 : forall m, b_prev (bigs s2 m) = b_prev (bigs s m)) by (intro; unfold s2; destruct (Nat.eqb pv 0); autorewrite with big; auto).
  assert (P2 : forall m, b_parent (bigs s2 m) = b_parent (bigs s m)) by (intro; unfold s2; destruct (Nat.eqb pv 0); autorewrite with big; auto).
  assert (F2 : forall m, b_first (bigs s2 m) = b_first (bigs s m)) by (intro; unfold s2; destruct (Nat.eqb pv 0); autorewrite with big; auto).
  clearbody s2. rewrite V2, N2 by auto. destruct (Nat.eqb_spec n pv) as [E|_]; [congruence|]. fold nx. fold pv.
  split; [eapply same_data_trans; [exact S2|]; apply same_data_if, same_data_prev|].
  destruct (Nat.eqb_spec nx 0) as [E|E]; repeat split; intros; autorewrite with big; rewrite ?V2; auto.
  destruct (Nat.eqb_spec m nx); congruence.
Qed.

(* ---- searches of the top-level list ---- *)
Lemma search_next s p : forall l pv prev fuel, dllx (bigs s) pv l 0 -> (forall x, In x l -> x <> 0%nat) ->
  (length l < fuel)%nat ->
  exists la lb, l = la ++ lb /\ (forall x, In x la -> p (bigs s x) = false) /\
    (lb = [] \/ p (bigs s (hd 0%nat lb)) = true) /\
    search fuel s b_next p (hd 0%nat l) prev = Ok (hd 0%nat lb, last la prev).
Proof.
  induction l as [|x l IH]; intros pv prev fuel Hd Hnz Hf; (destruct fuel as [|fuel]; [lia|]).
  - exists [], []. split; [reflexivity|]. split; [intros x []|]. split; [auto|]. reflexivity.
  - cbn [search hd]. destruct (Nat.eqb_spec x 0) as [E|_]; [exfalso; apply (Hnz x); simpl; auto|].
    destruct (p (bigs s x)) eqn:E.
    + exists [], (x :: l). split; [reflexivity|]. split; [intros y []|]. split; [auto|reflexivity].
    + cbn [dllx] in Hd. destruct Hd as (_ & H2 & H3). rewrite H2.
      destruct (IH x x fuel H3) as (la & lb & -> & Ha & Hb & Hr); [intros; apply Hnz; simpl; auto|cbn [length] in Hf; lia|].
      exists (x :: la), lb. split; [reflexivity|]. split; [intros y [<-|Hy]; auto|]. split; [auto|].
      rewrite last_cons. exact Hr.
Qed.

Lemma search_prev s p : forall l nx prev fuel, dllx (bigs s) 0 l nx -> (forall x, In x l -> x <> 0%nat) ->
  (length l < fuel)%nat ->
  exists la lb, l = la ++ lb /\ (forall x, In x lb -> p (bigs s x) = false) /\
    (la = [] \/ p (bigs s (last la 0%nat)) = true) /\
    search fuel s b_prev p (last l 0%nat) prev = Ok (last la 0%nat, hd prev lb).
Proof.
  induction l as [|x l IH] using rev_ind; intros nx prev fuel Hd Hnz Hf; (destruct fuel as [|fuel]; [lia|]).
  - exists [], []. split; [reflexivity|]. split; [intros x []|]. split; [auto|]. reflexivity.
  - rewrite last_app_cons. cbn [search last].
    destruct (Nat.eqb_spec x 0) as [E|_]; [exfalso; apply (Hnz x); [apply in_or_app; simpl; auto|auto]|].
    destruct (p (bigs s x)) eqn:E.
    + exists (l ++ [x]), []. rewrite app_nil_r, last_app_cons. split; [reflexivity|]. split; [intros y []|]. split; [auto|reflexivity].
    + apply dllx_app in Hd. cbn [dllx] in Hd. destruct Hd as (H1 & H2 & _). rewrite H2.
      destruct (IH (hd nx [x]) x fuel H1) as (la & lb & -> & Ha & Hb & Hr); [intros; apply Hnz; apply in_or_app; auto|rewrite app_length in Hf; cbn [length] in Hf; lia|].
      exists la, (lb ++ [x]). split; [rewrite app_assoc; reflexivity|].
      split; [intros y Hy; apply in_app_or in Hy; destruct Hy as [Hy|[<-|[]]]; auto|]. split; [auto|].
      rewrite Hr. destruct lb; reflexivity.
Qed.

Lemma before_app s l1 l2 : before s (l1 ++ l2) <->
  before s l1 /\ before s l2 /\ (forall x y, In x l1 -> In y l2 -> b_end (bigs s x) <= b_begin (bigs s y)).
Proof.
  induction l1 as [|z l1 IH]; cbn [app before].
  - split; [intro H; split; [auto|split; [auto|intros x y []]]|tauto].
  - rewrite IH. split.
    + intros (H1 & H2 & H3 & H4). split; [split; [|auto]|split; [auto|]].
      * intros y Hy. apply H1, in_or_app; auto.
      * intros x y [<-|Hx] Hy; [apply H1, in_or_app; auto|apply H4; auto].
    + intros ((H1 & H2) & H3 & H4). split; [|split; [auto|split; [auto|]]].
      * intros y Hy. apply in_app_or in Hy. destruct Hy; [auto|apply H4; simpl; auto].
      * intros x y Hx Hy. apply H4; simpl; auto.
Qed.

Section Top.
Variables (nb : nat) (dbg : bool) (s : st) (l : list nat).
Hypothesis Hd : dllx (bigs s) 0 l 0.
Hypothesis Hb : before s l.
Hypothesis Hnd : NoDup l.
Hypothesis Hg : forall x, In x l -> x <> 0%nat /\ b_begin (bigs s x) < b_end (bigs s x).
Hypothesis Hl : (length l < S nb)%nat.
Hypothesis Hs : In (start s) l.

Lemma lowest_ge_ok a : exists la lb, l = la ++ lb /\
  (forall x, In x la -> b_end (bigs s x) - 1 < a) /\ (forall x, In x lb -> a <= b_end (bigs s x) - 1) /\
  toplevel_lowest_ge nb dbg s a = Ok (hd 0%nat lb).
Proof.
  destruct (in_split _ _ Hs) as (l1 & l2 & E). 
  pose proof Hd as Hd'. rewrite E in Hd'. apply dllx_app in Hd'. destruct Hd' as [Hd1 Hd2].
  pose proof Hb as Hb'. rewrite E in Hb'. apply before_app in Hb'. destruct Hb' as (Hb1 & Hb2 & Hb3).
  assert (Hlen : (length l1 + S (length l2) < S nb)%nat) by (rewrite E, app_length in Hl; cbn [length] in Hl; lia).
  assert (Hg1 : forall x, In x l1 -> x <> 0%nat /\ b_begin (bigs s x) < b_end (bigs s x)) by (intros; apply Hg; rewrite E; apply in_or_app; auto).
  assert (Hg2 : forall x, In x (start s :: l2) -> x <> 0%nat /\ b_begin (bigs s x) < b_end (bigs s x)) by (intros; apply Hg; rewrite E; apply in_or_app; auto).
  unfold toplevel_lowest_ge.
  destruct (search_next s (fun b => a <=? b_end b - 1) _ _ 0 (S nb) Hd2) as (la & lb & El & Ha & Hbb & Hr);
    [intros x Hx; apply (Hg2 x Hx)|cbn [length]; lia|].
  cbn [hd] in Hr. rewrite Hr. cbn [bind].
  destruct lb as [|y lb].
  - cbn [hd]. exists l, []. rewrite app_nil_r in *. split; [reflexivity|]. split; [|split; [intros x []|reflexivity]].
    rewrite E. intros x Hx. apply in_app_or in Hx. subst la. destruct Hx as [Hx|Hx].
    + specialize (Hb3 x (start s) Hx ltac:(simpl; auto)). specialize (Ha (start s) ltac:(simpl; auto)).
      pose proof (Hg2 (start s) ltac:(simpl; auto)). pose proof (Hg1 x Hx). cbn beta in Ha. lia.
    + specialize (Ha x Hx). cbn beta in Ha. lia.
  - cbn [hd] in *. destruct Hbb as [?|Hbb]; [discriminate|].
    assert (y <> 0%nat) by (apply Hg2; rewrite El; apply in_or_app; simpl; auto).
    destruct (Nat.eqb_spec y 0) as [?|_]; [congruence|]. cbn [negb andb].
    destruct (Nat.eqb_spec y (start s)) as [Ey|Ey]; cbn [negb].
    + subst y.
      destruct (search_prev s (fun b => negb (a <=? b_end b - 1)) (l1 ++ [start s]) (hd 0%nat l2) 0 (S nb)) as (lc & ld & El2 & Hc & Hdd & Hr2).
      { apply dllx_app. cbn [hd]. split; [exact Hd1|]. cbn [dllx] in Hd2 |- *. tauto. }
      { intros x Hx. apply in_app_or in Hx. destruct Hx as [Hx|[<-|[]]]; [apply (Hg1 x Hx)|apply Hg2; simpl; auto]. }
      { rewrite app_length; cbn [length]; lia. }
      rewrite last_app_cons in Hr2. cbn [last] in Hr2. rewrite Hr2. cbn [bind].
      assert (Hld : exists ld', ld = ld' ++ [start s]).
      { destruct ld as [|z ld] using rev_ind.
        - rewrite app_nil_r in El2. subst lc. destruct Hdd as [Hdd|Hdd]; [destruct l1; discriminate|].
          rewrite last_app_cons in Hdd. cbn [last] in Hdd. rewrite Hbb in Hdd. discriminate.
        - rewrite app_assoc in El2. apply app_inj_tail in El2. exists ld. destruct El2; congruence. }
      destruct Hld as (ld' & ->).
      assert (El3 : l1 = lc ++ ld') by (rewrite app_assoc in El2; apply app_inj_tail in El2; tauto).
      assert (Hlc : lc = [] \/ (In (last lc 0%nat) l1)).
      { destruct lc as [|z lc]; auto. right. rewrite El3. apply in_or_app. left. apply last_In. congruence. }
      rewrite asrt_true.
      2:{ apply negb_true_iff, Nat.eqb_neq. intro Hx. destruct Hlc as [->|Hlc].
          - cbn in Hx. apply (proj1 (Hg2 (start s) ltac:(simpl; auto))). auto.
          - rewrite Hx in Hlc. rewrite E in Hnd. apply NoDup_remove_2 in Hnd. apply Hnd, in_or_app; auto. }
      cbn [bind].
      assert (Hin : In (hd 0%nat (ld' ++ [start s])) l).
      { rewrite E, El3. destruct ld' as [|z ld']; cbn [app hd]; rewrite <- app_assoc; apply in_or_app; right; simpl; auto. }
      rewrite asrt_true.
      2:{ apply negb_true_iff, Nat.eqb_neq. intro Hx. rewrite Hx in Hin. apply (proj1 (Hg _ Hin)); auto. }
      cbn [bind]. exists lc, (ld' ++ start s :: l2).
      split; [rewrite E, El3, <- app_assoc; reflexivity|].
      split; [|split].
      * intros x Hx. destruct Hdd as [->|Hdd]; [contradiction|].
        assert (Hin2 : In (last lc 0%nat) lc) by (apply last_In; intros ->; contradiction).
        assert (b_end (bigs s x) <= b_end (bigs s (last lc 0%nat))).
        { assert (Hbl : before s lc) by (rewrite El3, before_app in Hb1; tauto).
          assert (Hgl : forall z, In z lc -> b_begin (bigs s z) < b_end (bigs s z)) by (intros; apply Hg1; rewrite El3; apply in_or_app; auto).
          clear - Hbl Hgl Hx. revert Hx Hbl Hgl. induction lc as [|w lc IH] using rev_ind; intros; [contradiction|].
          rewrite last_app_cons. cbn [last]. apply in_app_or in Hx. destruct Hx as [Hx|[->|[]]]; [|lia].
          apply before_app in Hbl. destruct Hbl as (_ & _ & H). specialize (H x w Hx ltac:(simpl; auto)).
          specialize (Hgl w ltac:(apply in_or_app; simpl; auto)). lia. }
        cbn beta in Hdd. lia.
      * intros x Hx. apply in_app_or in Hx. destruct Hx as [Hx|Hx].
        -- specialize (Hc x ltac:(apply in_or_app; auto)). cbn beta in Hc. lia.
        -- destruct Hx as [<-|Hx]; [cbn beta in Hbb; lia|].
           cbn [before] in Hb2. destruct Hb2 as [Hb2 _]. specialize (Hb2 x Hx). pose proof (Hg2 x ltac:(simpl; auto)).
           cbn beta in Hbb. lia.
      * destruct ld'; reflexivity.
    + exists (l1 ++ la), (y :: lb). split; [rewrite E, El, app_assoc; reflexivity|].
      assert (Hs2 : In (start s) la).
      { destruct la as [|z la]; cbn [app] in El; injection El; intros; subst; [congruence|simpl; auto]. }
      split; [|split; [|reflexivity]].
      * intros x Hx. apply in_app_or in Hx. destruct Hx as [Hx|Hx].
        -- specialize (Hb3 x (start s) Hx ltac:(simpl; auto)). specialize (Ha (start s) Hs2).
           pose proof (Hg2 (start s) ltac:(simpl; auto)). cbn beta in Ha. lia.
        -- specialize (Ha x Hx). cbn beta in Ha. lia.
      * rewrite El in Hb2. apply before_app in Hb2. destruct Hb2 as (_ & Hb2 & _). cbn [before] in Hb2.
        intros x [<-|Hx]; [cbn beta in Hbb; lia|]. destruct Hb2 as [Hb2 _]. specialize (Hb2 x Hx).
        pose proof (Hg2 x ltac:(rewrite El; apply in_or_app; simpl; auto)). cbn beta in Hbb. lia.
Qed.

Lemma highest_lt_ok a : exists la lb, l = la ++ lb /\
  (forall x, In x la -> b_begin (bigs s x) < a) /\ (forall x, In x lb -> a <= b_begin (bigs s x)) /\
  toplevel_highest_lt nb dbg s a = Ok (last la 0%nat).
Proof.
  destruct (in_split _ _ Hs) as (l1 & l2 & E).
  pose proof Hd as Hd'. rewrite E in Hd'. apply dllx_app in Hd'. destruct Hd' as [Hd1 Hd2].
  pose proof Hb as Hb'. rewrite E in Hb'. apply before_app in Hb'. destruct Hb' as (Hb1 & Hb2 & Hb3).
  assert (Hlen : (length l1 + S (length l2) < S nb)%nat) by (rewrite E, app_length in Hl; cbn [length] in Hl; lia).
  assert (Hg1 : forall x, In x l1 -> x <> 0%nat /\ b_begin (bigs s x) < b_end (bigs s x)) by (intros; apply Hg; rewrite E; apply in_or_app; auto).
  assert (Hg2 : forall x, In x (start s :: l2) -> x <> 0%nat /\ b_begin (bigs s x) < b_end (bigs s x)) by (intros; apply Hg; rewrite E; apply in_or_app; auto).
  assert (Hss : start s <> 0%nat) by (apply Hg2; simpl; auto).
  unfold toplevel_highest_lt.
  destruct (search_prev s (fun b => b_begin b <? a) (l1 ++ [start s]) (hd 0%nat l2) 0 (S nb)) as (lc & ld & El2 & Hc & Hdd & Hr2).
  { apply dllx_app. cbn [hd]. split; [exact Hd1|]. cbn [dllx] in Hd2 |- *. tauto. }
  { intros x Hx. apply in_app_or in Hx. destruct Hx as [Hx|[<-|[]]]; [apply (Hg1 x Hx)|apply Hg2; simpl; auto]. }
  { rewrite app_length; cbn [length]; lia. }
  rewrite last_app_cons in Hr2. cbn [last] in Hr2. rewrite Hr2. cbn [bind].
  assert (Hbs : before s (l1 ++ [start s])).
  { apply before_app. split; [auto|]. split; [cbn [before]; split; [intros y []|auto]|]. intros x y Hx [<-|[]]. apply Hb3; simpl; auto. }
  destruct lc as [|z lc0] using rev_ind; [|clear IHlc0; rename lc0 into lc].
  - (* nothing at or below START begins below a *)
    cbn [last Nat.eqb negb andb]. cbn [app] in El2. subst ld. exists [], l.
    split; [reflexivity|]. split; [intros x []|]. split; [|reflexivity].
    intros x Hx. rewrite E in Hx. apply in_app_or in Hx. destruct Hx as [Hx|Hx].
    + specialize (Hc x ltac:(apply in_or_app; auto)). cbn beta in Hc. lia.
    + specialize (Hc (start s) ltac:(apply in_or_app; simpl; auto)). cbn beta in Hc.
      destruct Hx as [<-|Hx]; [lia|]. cbn [before] in Hb2. destruct Hb2 as [Hb2 _]. specialize (Hb2 x Hx).
      pose proof (Hg2 (start s) ltac:(simpl; auto)). lia.
  - rewrite last_app_cons in *. cbn [last] in *. destruct Hdd as [Hdd|Hdd]; [destruct lc; discriminate|].
    assert (Hz : In z l).
    { assert (In z (l1 ++ [start s])) by (rewrite El2; apply in_or_app; left; apply in_or_app; simpl; auto).
      rewrite E. apply in_app_or in H. apply in_or_app. destruct H as [H|[<-|[]]]; simpl; auto. }
    destruct (Nat.eqb_spec z 0) as [Hz0|_]; [exfalso; apply (proj1 (Hg _ Hz)); auto|]. cbn [negb andb].
    destruct (Nat.eqb_spec z (start s)) as [Ez|Ez]; cbn [negb].
    + subst z.
      destruct (search_next s (fun b => negb (b_begin b <? a)) _ _ 0 (S nb) Hd2) as (la & lb & El & Ha & Hbb & Hr);
        [intros x Hx; apply (Hg2 x Hx)|cbn [length]; lia|].
      cbn [hd] in Hr. rewrite Hr. cbn [bind].
      assert (Hla : exists la', la = start s :: la').
      { destruct la as [|w la]; cbn [app] in El.
        - subst lb. destruct Hbb as [?|Hbb]; [discriminate|]. cbn [hd] in Hbb. cbn beta in Hbb, Hdd. lia.
        - injection El; intros; subst. eexists; reflexivity. }
      destruct Hla as (la' & ->). cbn [app] in El. injection El; intros El3. 
      rewrite asrt_true.
      2:{ apply negb_true_iff, Nat.eqb_neq. intro Hx. destruct lb as [|w lb]; cbn [hd] in Hx; [congruence|]. subst w.
          rewrite E in Hnd. apply NoDup_remove_2 in Hnd. apply Hnd, in_or_app. right. rewrite El3. apply in_or_app; simpl; auto. }
      cbn [bind].
      rewrite last_cons in *.
      assert (Hin : In (last la' (start s)) (start s :: la')) by (destruct la'; [simpl; auto|right; apply last_In; congruence]).
      rewrite asrt_true.
      2:{ apply negb_true_iff, Nat.eqb_neq. intro Hx. rewrite Hx in Hin. apply (proj1 (Hg2 0%nat ltac:(rewrite El; change (start s :: la' ++ lb) with ((start s :: la') ++ lb); apply in_or_app; auto))); auto. }
      cbn [bind]. exists (l1 ++ start s :: la'), lb. split; [rewrite E, El3, <- app_assoc; reflexivity|].
      split; [|split; [|rewrite last_app_cons; reflexivity]].
      * intros x Hx. apply in_app_or in Hx. destruct Hx as [Hx|Hx].
        -- specialize (Hb3 x (start s) Hx ltac:(simpl; auto)). pose proof (Hg1 x Hx). cbn beta in Hdd. lia.
        -- specialize (Ha x Hx). cbn beta in Ha. lia.
      * intros x Hx. destruct lb as [|w lb]; [contradiction|]. destruct Hbb as [?|Hbb]; [discriminate|]. cbn [hd] in Hbb. cbn beta in Hbb.
        cbn [before] in Hb2. destruct Hb2 as [_ Hb2]. rewrite El3, before_app in Hb2. destruct Hb2 as (_ & Hb2 & _).
        cbn [before] in Hb2. destruct Hx as [<-|Hx]; [lia|]. destruct Hb2 as [Hb2 _]. specialize (Hb2 x Hx).
        pose proof (Hg2 w ltac:(right; rewrite El3; apply in_or_app; simpl; auto)). lia.
    + assert (Hld : exists ld', ld = ld' ++ [start s]).
      { destruct ld as [|w ld] using rev_ind.
        - rewrite app_nil_r in El2. apply app_inj_tail in El2. destruct El2; congruence.
        - rewrite app_assoc in El2. apply app_inj_tail in El2. exists ld. destruct El2; congruence. }
      destruct Hld as (ld' & ->).
      assert (El3 : l1 = (lc ++ [z]) ++ ld') by (rewrite app_assoc in El2; apply app_inj_tail in El2; tauto).
      exists (lc ++ [z]), (ld' ++ start s :: l2). split; [rewrite E, El3, <- app_assoc; reflexivity|].
      split; [|split; [|rewrite last_app_cons; reflexivity]].
      * intros x Hx. apply in_app_or in Hx. destruct Hx as [Hx|[<-|[]]]; [|cbn beta in Hdd; lia].
        rewrite El3, before_app in Hb1. destruct Hb1 as (Hb1 & _). apply before_app in Hb1. destruct Hb1 as (_ & _ & Hb1).
        specialize (Hb1 x z Hx ltac:(simpl; auto)). pose proof (Hg1 x ltac:(rewrite El3; apply in_or_app; left; apply in_or_app; auto)).
        cbn beta in Hdd. lia.
      * intros x Hx. apply in_app_or in Hx. destruct Hx as [Hx|Hx].
        -- specialize (Hc x ltac:(apply in_or_app; auto)). cbn beta in Hc. lia.
        -- specialize (Hc (start s) ltac:(apply in_or_app; simpl; auto)). cbn beta in Hc.
           destruct Hx as [<-|Hx]; [lia|]. cbn [before] in Hb2. destruct Hb2 as [Hb2 _]. specialize (Hb2 x Hx).
           pose proof (Hg2 (start s) ltac:(simpl; auto)). lia.
Qed.
End Top.
