(* The policy bits agree with the history, through nested releases. *)
From Coq Require Import FinFun.
From Verif Require Import Base Life_model Life_spec.

Lemma pol_zero p : 0 <= p -> (p = 0 <-> forall i, Z.testbit p i = false).
Proof.
  intro H. split; [intros -> i; apply Z.bits_0|]. intro Z0. apply Z.bits_inj'. intros n _. rewrite Z.bits_0. apply Z0.
Qed.
Lemma ldiff_range p q : 0 <= p < 16 -> 0 <= Z.ldiff p q < 16.
Proof.
  intro H. assert (0 <= Z.ldiff p q) by (apply Z.ldiff_nonneg; lia). split; [assumption|].
  assert (E : Z.ldiff p q = Z.land (Z.ldiff p q) (Z.ones 4)).
  { apply Z.bits_inj'. intros n Hn. rewrite Z.land_spec, Z.ldiff_spec, Z.testbit_ones_nonneg by lia. destruct (Z.ltb_spec n 4); [rewrite andb_true_r; reflexivity|].
    assert (T : Z.testbit p n = false). { destruct (Z.eq_dec p 0) as [->|]; [apply Z.bits_0|]. apply Z.bits_above_log2; [lia|]. assert (Z.log2 p < 4) by (apply Z.log2_lt_pow2; lia). lia. }
    rewrite T. reflexivity. }
  rewrite E, Z.land_ones by lia. apply Z.mod_pos_bound. lia.
Qed.
Lemma bit_small p i : 0 <= p < 16 -> Z.testbit p i = true -> 0 <= i < 4.
Proof.
  intros H T. destruct (Z.ltb_spec i 0); [rewrite Z.testbit_neg_r in T by lia; discriminate|]. split; [lia|].
  destruct (Z.eq_dec p 0) as [->|]; [rewrite Z.bits_0 in T; discriminate|].
  assert (Z.log2 p < 4) by (apply Z.log2_lt_pow2; lia). destruct (Z.ltb_spec i 4); [lia|]. rewrite Z.bits_above_log2 in T by lia. discriminate.
Qed.
Lemma attach_bits p j i : 0 <= p < 16 -> 0 <= j < 4 -> Z.testbit (Z.lor p (2 ^ j) mod 16) i = (if j =? i then true else Z.testbit p i).
Proof.
  intros Hp Hj. change 16 with (2 ^ 4). destruct (Z.ltb_spec i 0).
  { rewrite !Z.testbit_neg_r by lia. destruct (Z.eqb_spec j i); [lia|reflexivity]. }
  rewrite <- Z.land_ones by lia. rewrite Z.land_spec, Z.lor_spec, Z.testbit_ones_nonneg, Z.pow2_bits_eqb by lia.
  destruct (Z.eqb_spec j i) as [->|]; [rewrite orb_true_r; destruct (Z.ltb_spec i 4); [reflexivity|lia]|]. rewrite orb_false_r.
  destruct (Z.testbit p i) eqn:T; [|reflexivity]. destruct (bit_small p i Hp T). destruct (Z.ltb_spec i 4); [reflexivity|lia].
Qed.
Lemma detach_bits p j i : 0 <= j -> Z.testbit (Z.ldiff p (2 ^ j)) i = (if j =? i then false else Z.testbit p i).
Proof.
  intro Hj. rewrite Z.ldiff_spec, Z.pow2_bits_eqb by lia. destruct (j =? i); cbn; [apply andb_false_r|apply andb_true_r].
Qed.

Section L.
Variables (LP : Z) (dbg : bool) (U : Type) (addref : U -> Z -> nat -> nat -> U) (delref : U -> Z -> nat -> nat -> U * bool).
Hypothesis HLP : 1 <= LP <= 4.
Notation world := (Life_model.world U).
Notation detach_with := (detach_with dbg U).
Notation del_loop := (del_loop U delref).
Notation notify_old := (notify_old LP U delref).
Notation notify_new := (notify_new LP U addref).
Notation add_loop := (add_loop U addref).
Notation each := (each U).
Notation do_free := (do_free LP dbg U delref).
Notation ids := (ids LP).
Notation lstep := (lstep LP dbg U addref delref).

(* Dy: the objects being released *)
Record J (g : gst) (Dy : list nat) : Prop := {
  j_early : no_early (g_log g);
  j_live : forall o, o_live (g_obj g o) = true -> allocated (g_log g) o /\ (forall i, Z.testbit (o_pol (g_obj g o)) i = att (g_log g) o i) /\
    releases (g_log g) o = 0%nat /\ (o_pol (g_obj g o) = 0 <-> In o Dy) /\ 0 <= o_pol (g_obj g o) < 16;
  j_dead : forall o, o_live (g_obj g o) = false -> ~ In o Dy /\ (forall i, att (g_log g) o i = false) /\
    (allocated (g_log g) o -> releases (g_log g) o = 1%nat) /\ (~ allocated (g_log g) o -> releases (g_log g) o = 0%nat);
  j_reg : forall o i, att (g_log g) o i = true -> 0 <= i < LP /\ (i = 0 \/ i < g_next g);
  j_next : 1 <= g_next g <= LP }.

Definition le (g' g : gst) : Prop := forall o, (o_live (g_obj g' o) = true -> o_live (g_obj g o) = true /\ (o_pol (g_obj g' o) <> 0 -> o_pol (g_obj g o) <> 0)).
Lemma le_refl g : le g g. Proof. intros o H. auto. Qed.
Lemma le_trans a b c : le a b -> le b c -> le a c.
Proof. intros H1 H2 o L. destruct (H1 o L) as [L1 P1]. destruct (H2 o L1) as [L2 P2]. auto. Qed.
Definition nd (N : nat) (g : gst) : nat := length (filter (fun o => o_live (g_obj g o) && negb (o_pol (g_obj g o) =? 0)) (seq 0 N)).
Lemma flt_le {A} (f h : A -> bool) l : (forall x, f x = true -> h x = true) -> (length (filter f l) <= length (filter h l))%nat.
Proof. intro H. induction l as [|x l IH]; [auto|]. cbn. destruct (f x) eqn:E; [rewrite (H x E); cbn; lia|destruct (h x); cbn; lia]. Qed.
Lemma flt_lt {A} (f h : A -> bool) l y : (forall x, f x = true -> h x = true) -> In y l -> f y = false -> h y = true -> (length (filter f l) < length (filter h l))%nat.
Proof.
  intros H I F Hy. induction l as [|x l IH]; [destruct I|]. cbn. assert (Q := flt_le f h l H). destruct I as [->|I].
  - rewrite F, Hy. cbn. lia.
  - specialize (IH I). destruct (f x) eqn:E; [rewrite (H x E); cbn; lia|destruct (h x); cbn; lia].
Qed.
Lemma le_nd N g' g : le g' g -> (nd N g' <= nd N g)%nat.
Proof.
  intro H. apply flt_le. intros x X. apply andb_prop in X. destruct X as [X Y]. destruct (H x X) as [L P]. rewrite L. cbn.
  destruct (Z.eqb_spec (o_pol (g_obj g' x)) 0); [discriminate|]. destruct (Z.eqb_spec (o_pol (g_obj g x)) 0); [tauto|reflexivity].
Qed.
Lemma lt_nd N g' g o : le g' g -> (o < N)%nat -> o_live (g_obj g o) = true -> o_pol (g_obj g o) <> 0 -> o_pol (g_obj g' o) = 0 -> (nd N g' < nd N g)%nat.
Proof.
  intros H Ho L P Z0. apply flt_lt with (y := o).
  - intros x X. apply andb_prop in X. destruct X as [X Y]. destruct (H x X) as [L' P']. rewrite L'. cbn.
    destruct (Z.eqb_spec (o_pol (g_obj g' x)) 0); [discriminate|]. destruct (Z.eqb_spec (o_pol (g_obj g x)) 0); [tauto|reflexivity].
  - apply in_seq. lia.
  - rewrite Z0. cbn. apply andb_false_r.
  - rewrite L. cbn. destruct (Z.eqb_spec (o_pol (g_obj g o)) 0); [contradiction|reflexivity].
Qed.
Definition below (N : nat) (g : gst) : Prop := forall o, o_live (g_obj g o) = true -> (o < N)%nat.
Lemma below_le N g' g : le g' g -> below N g -> below N g'.
Proof. intros H B o L. destruct (H o L). auto. Qed.

(* an outcome that may only run out of fuel under a condition *)
Definition fine (b : Prop) (r : res world) (P : world -> Prop) : Prop :=
  match r with Ok w => P w | Fuel => b | Abort => False | UB => False end.
Lemma fine_bind b r (k : world -> res world) P Q : fine b r P -> (forall w, P w -> fine b (k w) Q) -> fine b (bind r k) Q.
Proof. destruct r; cbn; auto. Qed.
Lemma fine_weak (b b' : Prop) r (P P' : world -> Prop) : fine b r P -> (b -> b') -> (forall w, P w -> P' w) -> fine b' r P'.
Proof. destruct r; cbn; auto. Qed.

Lemma upd_same {A} (f : nat -> A) n v : upd f n v n = v. Proof. unfold upd. rewrite Nat.eqb_refl. reflexivity. Qed.
Lemma upd_other {A} (f : nat -> A) n v m : m <> n -> upd f n v m = f m. Proof. intro H. unfold upd. destruct (Nat.eqb_spec m n); [contradiction|reflexivity]. Qed.

Definition quiet (e : event) : Prop := match e with ENew _ | ERelease _ => False | _ => True end.
Lemma early_quiet e l : quiet e -> no_early l -> no_early (e :: l).
Proof.
  intros Q H l1 o l2 E. destruct l1 as [|x l1]; cbn in E; injection E as -> E; [destruct Q|]. exact (H l1 o l2 E).
Qed.
Lemma rel_quiet e l o : quiet e -> releases (e :: l) o = releases l o.
Proof. destruct e; intro Q; destruct Q; reflexivity. Qed.
Lemma alloc_quiet e l o : quiet e -> (allocated (e :: l) o <-> allocated l o).
Proof. destruct e; intro Q; destruct Q; unfold allocated; cbn; intuition discriminate. Qed.

Lemma J_set g Dy Dy' o p e : J g Dy -> o_live (g_obj g o) = true -> quiet e ->
  (forall x, x <> o -> (In x Dy' <-> In x Dy)) -> (p = 0 <-> In o Dy') -> 0 <= p < 16 ->
  (forall i, Z.testbit p i = att (e :: g_log g) o i) -> (forall x i, x <> o -> att (e :: g_log g) x i = att (g_log g) x i) ->
  (forall i, Z.testbit p i = true -> 0 <= i < LP /\ (i = 0 \/ i < g_next g)) -> J (log_ (set_pol g o p) e) Dy'.
Proof.
  intros I L Q Ds Do Rp Bt Fr Rg. constructor; cbn [log_ set_pol g_log g_obj g_next].
  - apply early_quiet; [exact Q|apply I].
  - intros x Lx. destruct (Nat.eq_dec x o) as [->|N].
    + rewrite upd_same. cbn [o_pol]. destruct (j_live _ _ I o L) as (A & _ & R & _). split; [apply alloc_quiet; assumption|]. split; [exact Bt|].
      rewrite rel_quiet by exact Q. auto.
    + rewrite upd_other in Lx |- * by exact N. destruct (j_live _ _ I x Lx) as (A & B & R & D & P). split; [apply alloc_quiet; assumption|].
      split; [intro i; rewrite Fr by exact N; apply B|]. rewrite rel_quiet by exact Q. split; [exact R|]. rewrite Ds by exact N. auto.
  - intros x Lx. destruct (Nat.eq_dec x o) as [->|N]; [rewrite upd_same in Lx; cbn in Lx; congruence|]. rewrite upd_other in Lx by exact N.
    destruct (j_dead _ _ I x Lx) as (A & B & C & D). split; [rewrite Ds by exact N; exact A|]. split; [intro i; rewrite Fr by exact N; apply B|].
    rewrite rel_quiet by exact Q. rewrite alloc_quiet by exact Q. auto.
  - intros x i T. destruct (Nat.eq_dec x o) as [->|N]; [rewrite <- Bt in T; apply Rg, T|]. rewrite Fr in T by exact N. exact (j_reg _ _ I x i T).
  - apply I.
Qed.
Lemma le_set g o p e : (p <> 0 -> o_pol (g_obj g o) <> 0) -> le (log_ (set_pol g o p) e) g.
Proof.
  intros H x Lx. cbn in Lx |- *. destruct (Nat.eq_dec x o) as [->|N]; [rewrite upd_same in *; cbn in *; auto|rewrite upd_other in * by exact N; auto].
Qed.

Lemma detach_att l i o x j : att (EDetach i o :: l) x j = (if Nat.eqb o x && (i =? j) then false else att l x j). Proof. reflexivity. Qed.

(* what the allocator's free must do *)
Definition frees (N : nat) (f : nat) (fr : world -> nat -> res world) : Prop := forall u g o Dy,
  J g (o :: Dy) -> ~ In o Dy -> o_live (g_obj g o) = true -> below N g ->
  fine (f <= nd N g)%nat (fr (u, g) o) (fun w => J (snd w) Dy /\ le (snd w) g).

Lemma detach_ok N f fr u g i o Dy : frees N f fr -> J g Dy -> below N g -> 0 <= i < 31 -> ~ In o Dy ->
  fine (S f <= nd N g)%nat (detach_with fr (u, g) i o) (fun w => J (snd w) Dy /\ le (snd w) g /\
    ((exists j, j <> i /\ att (g_log g) o j = true) -> o_live (g_obj (snd w) o) = true /\ forall j, j <> i -> att (g_log (snd w)) o j = att (g_log g) o j)).
Proof.
  intros F I B Hi Nd. unfold Life_model.detach_with. destruct (Z.ltb_spec i 0); [lia|].
  destruct (o_live (g_obj g o)) eqn:L; cbn [fine].
  2:{ split; [exact I|]. split; [apply le_refl|]. intros (j & _ & X). cbn [snd]. destruct (j_dead _ _ I o L) as (_ & D & _). rewrite D in X. discriminate. }
  destruct (j_live _ _ I o L) as (A & Bt & Rl & Dz & Rp).
  assert (Pn : o_pol (g_obj g o) <> 0) by (rewrite Dz; exact Nd).
  unfold flag. destruct (Z.leb_spec 0 i); [|lia]. destruct (Z.ltb_spec i 31); [|lia]. cbn [andb bind].
  set (p := Z.ldiff (o_pol (g_obj g o)) (2 ^ i)).
  assert (Bp : forall j, Z.testbit p j = att (EDetach i o :: g_log g) o j).
  { intro j. unfold p. rewrite detach_bits by lia. rewrite detach_att, Nat.eqb_refl. cbn [andb]. destruct (i =? j); [reflexivity|apply Bt]. }
  assert (Fr : forall x j, x <> o -> att (EDetach i o :: g_log g) x j = att (g_log g) x j).
  { intros x j N1. rewrite detach_att. destruct (Nat.eqb_spec o x); [congruence|reflexivity]. }
  assert (Rp' : 0 <= p < 16) by (apply ldiff_range, Rp).
  assert (Rg : forall j, Z.testbit p j = true -> 0 <= j < LP /\ (j = 0 \/ j < g_next g)).
  { intros j T. rewrite Bp, detach_att, Nat.eqb_refl in T. cbn [andb] in T. destruct (i =? j); [discriminate|]. exact (j_reg _ _ I o j T). }
  destruct (Z.eqb_spec p 0) as [Z0|NZ].
  - assert (J1 : J (log_ (set_pol g o p) (EDetach i o)) (o :: Dy)).
    { apply (J_set g Dy); auto. - exact Logic.I. - intros x N1. cbn. intuition congruence. - split; [left; reflexivity|auto]. }
    assert (L1 : le (log_ (set_pol g o p) (EDetach i o)) g) by (apply le_set; tauto).
    eapply fine_weak. { apply (F u _ o Dy J1 Nd). - cbn. rewrite upd_same. exact L. - exact (below_le _ _ _ L1 B). }
    + intro Hf. assert (X := lt_nd N _ _ o L1 (B o L) L Pn). cbn [log_ set_pol g_obj] in X. rewrite upd_same in X. specialize (X Z0). lia.
    + intros w [Jw Lw]. split; [exact Jw|]. split; [eapply le_trans; eassumption|]. intros (j & Nj & X). exfalso.
      assert (T : Z.testbit p j = true). { rewrite Bp, detach_att, Nat.eqb_refl. cbn [andb]. destruct (Z.eqb_spec i j); [congruence|exact X]. }
      rewrite Z0, Z.bits_0 in T. discriminate.
  - cbn [fine snd]. split; [|split].
    + apply (J_set g Dy); auto. * exact Logic.I. * intros x N1. reflexivity. * tauto.
    + apply le_set. auto.
    + intros _. cbn [log_ set_pol g_obj g_log]. rewrite upd_same. split; [exact L|]. intros j Nj. rewrite detach_att, Nat.eqb_refl. cbn [andb]. destruct (Z.eqb_spec i j); [congruence|reflexivity].
Qed.

Lemma ids_in i : In i ids <-> 1 <= i < LP.
Proof.
  unfold Life_model.ids. rewrite in_map_iff. split.
  - intros (n & <- & X). apply in_seq in X. lia.
  - intro H. exists (Z.to_nat i). split; [lia|]. apply in_seq. lia.
Qed.
Lemma ids_nodup : NoDup ids.
Proof. unfold Life_model.ids. apply FinFun.Injective_map_NoDup; [intros x y H; lia|apply seq_NoDup]. Qed.

Lemma del_ok N f fr saved o s Dy (Hf : frees N f fr) : forall is_ u g, J g Dy -> below N g -> ~ In o Dy -> NoDup is_ -> (forall i, In i is_ -> 1 <= i < LP) ->
  (forall i, In i is_ -> Z.testbit saved i = true -> o_live (g_obj g o) = true /\ att (g_log g) o i = true) ->
  fine (S f <= nd N g)%nat (del_loop (detach_with fr) saved o s is_ (u, g)) (fun w => J (snd w) Dy /\ le (snd w) g).
Proof.
  intros is_. induction is_ as [|i r IH]; intros u g I B Nd ND Hi Hs; [cbn; auto using le_refl|]. cbn [Life_model.del_loop]. inversion ND as [|? ? N1 N2]; subst.
  destruct (Z.testbit saved i) eqn:T.
  - destruct (Hs i (or_introl eq_refl) T) as [Lo At]. cbn [snd fst]. destruct (j_reg _ _ I o i At) as [Ri [Z0|Rg]]; [specialize (Hi i (or_introl eq_refl)); lia|].
    destruct (Z.leb_spec (g_next g) i); [lia|]. destruct (delref u i o s) as [u' b].
    eapply fine_bind with (P := fun w => J (snd w) Dy /\ le (snd w) g /\ forall k, In k r -> Z.testbit saved k = true -> o_live (g_obj (snd w) o) = true /\ att (g_log (snd w)) o k = true).
    + destruct b.
      * eapply fine_weak; [apply (detach_ok N f fr u' g i o Dy Hf I B); [lia|exact Nd]|auto|].
        intros w (X1 & X2 & X3). split; [exact X1|]. split; [exact X2|]. intros k Ik Tk. assert (k <> i) by (intros ->; contradiction).
        destruct (Hs k (or_intror Ik) Tk) as [_ Ak]. destruct X3 as [X3 X4]; [exists k; auto|]. split; [exact X3|]. rewrite X4 by assumption. exact Ak.
      * cbn. split; [exact I|]. split; [apply le_refl|]. intros k Ik Tk. apply (Hs k (or_intror Ik) Tk).
    + intros [u2 g2] (X1 & X2 & X3). cbn [snd] in *. eapply fine_weak; [apply (IH u2 g2 X1 (below_le _ _ _ X2 B) Nd N2)|..].
      * intros k Ik. apply Hi. right. exact Ik.
      * exact X3.
      * intro Q. assert (Y := le_nd N _ _ X2). lia.
      * intros w [Y1 Y2]. split; [exact Y1|eapply le_trans; eassumption].
  - apply IH; auto. + intros k Ik. apply Hi. right. exact Ik. + intros k Ik. apply Hs. right. exact Ik.
Qed.

Lemma old_ok N f fr s u g Dy : frees N f fr -> J g Dy -> below N g ->
  fine (S f <= nd N g)%nat (notify_old (detach_with fr) s (u, g)) (fun w => J (snd w) Dy /\ le (snd w) g).
Proof.
  intros F I B. unfold Life_model.notify_old. cbn [snd]. destruct (g_mem g s) as [o|]; [|cbn; auto using le_refl].
  destruct (o_live (g_obj g o)) eqn:L; cbn [andb]; [|cbn; auto using le_refl]. destruct (Z.eqb_spec (Z.ldiff (o_pol (g_obj g o)) 1) 0) as [|Nz]; cbn [negb]; [cbn; auto using le_refl|].
  destruct (j_live _ _ I o L) as (A & Bt & Rl & Dz & Rp).
  apply del_ok; auto.
  - rewrite <- Dz. intro Z0. apply Nz. rewrite Z0. reflexivity.
  - apply ids_nodup.
  - intros i Ii. apply ids_in, Ii.
  - intros i _ T. split; [exact L|]. rewrite <- Bt. exact T.
Qed.
Lemma each_ok N f fr Dy (Hf : frees N f fr) : forall l u g, J g Dy -> below N g ->
  fine (S f <= nd N g)%nat (each (notify_old (detach_with fr)) l (u, g)) (fun w => J (snd w) Dy /\ le (snd w) g).
Proof.
  intro l. induction l as [|s l IH]; intros u g I B; [cbn; auto using le_refl|]. cbn [Life_model.each]. eapply fine_bind; [apply (old_ok N f fr s u g Dy Hf I B)|].
  intros [u2 g2] [X1 X2]. cbn [snd] in *. eapply fine_weak; [apply (IH u2 g2 X1 (below_le _ _ _ X2 B))|..].
  - intro Q. assert (Y := le_nd N _ _ X2). lia.
  - intros w [Y1 Y2]. split; [exact Y1|eapply le_trans; eassumption].
Qed.

Lemma free_att l o x j : att (EFree o :: l) x j = (if Nat.eqb o x && (j =? 0) then false else att l x j). Proof. reflexivity. Qed.

(* the first step of free(): the manual policy goes *)
Lemma free_enter g o Dy Dy0 : J g Dy0 -> o_live (g_obj g o) = true -> ~ In o Dy -> (Dy0 = Dy \/ Dy0 = o :: Dy) ->
  let p := Z.ldiff (o_pol (g_obj g o)) 1 in
  J (log_ (set_pol g o p) (EFree o)) (if p =? 0 then o :: Dy else Dy) /\ le (log_ (set_pol g o p) (EFree o)) g /\ (p <> 0 -> Dy0 = Dy).
Proof.
  intros I L Nd E p. destruct (j_live _ _ I o L) as (A & Bt & Rl & Dz & Rp). change 1 with (2 ^ 0) in p.
  assert (Bp : forall j, Z.testbit p j = att (EFree o :: g_log g) o j).
  { intro j. unfold p. rewrite detach_bits by lia. rewrite free_att, Nat.eqb_refl. cbn [andb]. rewrite (Z.eqb_sym j 0). destruct (0 =? j); [reflexivity|apply Bt]. }
  assert (Mono : p <> 0 -> o_pol (g_obj g o) <> 0). { intros H1 H2. apply H1. unfold p. rewrite H2. reflexivity. }
  split; [|split].
  - apply (J_set g Dy0).
    + exact I. + exact L. + exact Logic.I.
    + intros x N1. destruct E as [->| ->]; destruct (p =? 0); cbn; intuition congruence.
    + destruct (Z.eqb_spec p 0); [split; auto; left; reflexivity|tauto].
    + apply ldiff_range, Rp.
    + exact Bp.
    + intros x j N1. rewrite free_att. destruct (Nat.eqb_spec o x); [congruence|reflexivity].
    + intros j T. rewrite Bp, free_att, Nat.eqb_refl in T. cbn [andb] in T. destruct (j =? 0); [discriminate|]. exact (j_reg _ _ I o j T).
  - apply le_set, Mono.
  - intro NZ. destruct E as [E| ->]; [exact E|]. exfalso. apply (Mono NZ). apply Dz. left. reflexivity.
Qed.

Lemma release_ok g o Dy : J g (o :: Dy) -> ~ In o Dy -> o_live (g_obj g o) = true -> J (log_ (kill g o) (ERelease o)) Dy.
Proof.
  intros I Nd L. destruct (j_live _ _ I o L) as (A & Bt & Rl & Dz & Rp). assert (P0 : o_pol (g_obj g o) = 0) by (apply Dz; left; reflexivity).
  assert (At : forall i, att (g_log g) o i = false) by (intro i; rewrite <- Bt, P0; apply Z.bits_0).
  constructor; cbn [log_ kill g_log g_obj g_next].
  - intros l1 x l2 E. destruct l1 as [|y l1]; cbn in E; injection E as E1 E2; [|exact (j_early _ _ I l1 x l2 E2)].
    subst. auto.
  - intros x Lx. destruct (Nat.eq_dec x o) as [->|N]; [rewrite upd_same in Lx; discriminate|]. rewrite upd_other in * by exact N.
    destruct (j_live _ _ I x Lx) as (A1 & B1 & R1 & D1 & P1). split; [right; exact A1|]. split; [exact B1|]. split; [cbn; destruct (Nat.eqb_spec o x); [congruence|exact R1]|].
    split; [|exact P1]. rewrite D1. cbn. intuition congruence.
  - intros x Lx. destruct (Nat.eq_dec x o) as [->|N].
    + split; [exact Nd|]. split; [exact At|]. split; [intros _; cbn; rewrite Nat.eqb_refl, Rl; reflexivity|]. intro X. exfalso. apply X. right. exact A.
    + rewrite upd_other in Lx by exact N. destruct (j_dead _ _ I x Lx) as (A1 & B1 & C1 & D1). split; [intro; apply A1; right; assumption|]. split; [exact B1|].
      cbn. destruct (Nat.eqb_spec o x); [congruence|]. split.
      * intros [X|X]; [discriminate|exact (C1 X)].
      * intro X. apply D1. intro Y. apply X. right. exact Y.
  - exact (j_reg _ _ I).
  - apply I.
Qed.
Lemma le_kill g o e : le (log_ (kill g o) e) g.
Proof. intros x Lx. cbn in Lx |- *. destruct (Nat.eq_dec x o) as [->|N]; [rewrite upd_same in Lx; discriminate|rewrite upd_other in * by exact N; auto]. Qed.

Lemma free_gen N k u g o Dy Dy0 : frees N k (do_free k) -> J g Dy0 -> ~ In o Dy -> (Dy0 = Dy \/ Dy0 = o :: Dy) -> o_live (g_obj g o) = true -> below N g ->
  fine (S k <= nd N g)%nat (do_free (S k) (u, g) o) (fun w => J (snd w) Dy /\ le (snd w) g).
Proof.
  intros F I Nd E L B. cbn [Life_model.do_free]. rewrite L. cbn [negb]. destruct (free_enter g o Dy Dy0 I L Nd E) as (J1 & L1 & _).
  set (p := Z.ldiff (o_pol (g_obj g o)) 1) in *. set (g1 := log_ (set_pol g o p) (EFree o)) in *.
  destruct (p =? 0) eqn:Z0; cbn [negb]; [|cbn; auto].
  eapply fine_bind; [eapply fine_weak; [apply (each_ok N k (do_free k) (o :: Dy) F (o_slots (g_obj g o)) u g1 J1 (below_le _ _ _ L1 B))|..]|].
  - intro Q. assert (Y := le_nd N _ _ L1). lia.
  - intros w X. exact X.
  - intros [u2 g2] [X1 X2]. cbn [snd] in *. destruct (o_live (g_obj g2 o)) eqn:L2; cbn [negb].
    + cbn. split; [apply release_ok; assumption|]. eapply le_trans; [apply le_kill|]. eapply le_trans; eassumption.
    + exfalso. destruct (j_dead _ _ X1 o L2) as [X _]. apply X. left. reflexivity.
Qed.
Lemma free_frees N k : frees N k (do_free k).
Proof.
  induction k as [|k IH]; intros u g o Dy I Nd L B; [cbn; lia|]. exact (free_gen N k u g o Dy (o :: Dy) IH I Nd (or_intror eq_refl) L B).
Qed.
Lemma add_ok o s Dy : forall is_ u g b, J g Dy -> (forall i, In i is_ -> 1 <= i < LP) -> o_live (g_obj g o) = true ->
  fine b (add_loop o s is_ (u, g)) (fun w => snd w = g).
Proof.
  intro is_. induction is_ as [|i r IH]; intros u g b I Hi L; [reflexivity|]. cbn [Life_model.add_loop snd fst]. destruct (Z.testbit (o_pol (g_obj g o)) i) eqn:T.
  - destruct (j_live _ _ I o L) as (_ & Bt & _). rewrite Bt in T. destruct (j_reg _ _ I o i T) as [_ [Z0|Rg]]; [specialize (Hi i (or_introl eq_refl)); lia|].
    destruct (Z.leb_spec (g_next g) i); [lia|]. apply IH; auto. intros k Ik. apply Hi. right. exact Ik.
  - apply IH; auto. intros k Ik. apply Hi. right. exact Ik.
Qed.
Lemma J_store g Dy s v : J g Dy -> J (store g s v) Dy.
Proof. intros [A B C D E]. constructor; assumption. Qed.

(* histories *)
Definition legal (g : gst) (op : lop) : Prop :=
  match op with
  | Register => g_next g < LP
  | New o slots stale => ~ allocated (g_log g) o /\ stale = 0
  | Attach i o => 0 <= i < LP /\ (i = 0 \/ i < g_next g)
  | Detach i o => 0 <= i < 31
  | Free o => allocated (g_log g) o /\ releases (g_log g) o = 0%nat
  | Write s v => True
  end.
Definition start (mem : nat -> option nat) : gst := mkG 1 (fun _ => mkObj false 0 []) mem [].
Inductive lreach : world -> Prop :=
| lr_start u mem : lreach (u, start mem)
| lr_step f w op w' : lreach w -> legal (snd w) op -> lstep f w op = Ok w' -> lreach w'.

Lemma J_start mem : J (start mem) [].
Proof.
  constructor; cbn.
  - intros l1 o l2 E. destruct l1; discriminate.
  - discriminate.
  - intros o _. split; [auto|]. split; [reflexivity|]. split; [intros []|reflexivity].
  - discriminate.
  - lia.
Qed.
Lemma live_iff g Dy o : J g Dy -> (o_live (g_obj g o) = true <-> allocated (g_log g) o /\ releases (g_log g) o = 0%nat).
Proof.
  intro I. split.
  - intro L. destruct (j_live _ _ I o L) as (A & _ & R & _). auto.
  - intros [A R]. destruct (o_live (g_obj g o)) eqn:L; [reflexivity|]. destruct (j_dead _ _ I o L) as (_ & _ & X & _). rewrite (X A) in R. discriminate.
Qed.

Definition mk_below (N : nat) (op : lop) : Prop := match op with New o _ _ => (o < N)%nat | _ => True end.
Lemma step_ok N f w op : J (snd w) [] -> legal (snd w) op -> below N (snd w) -> mk_below N op ->
  fine (f <= nd N (snd w))%nat (lstep f w op) (fun w' => J (snd w') [] /\ below N (snd w')).
Proof.
  intros I Lg B Mb. destruct w as [u g]. cbn [snd fst] in *. destruct op as [|o slots stale|i o|i o|o|s v]; cbn [Life_model.lstep legal mk_below fst snd] in *.
  - unfold register. assert (X := j_next _ _ I). unfold as_int. destruct (Z.ltb_spec (g_next g) (2 ^ 31)); [|lia].
    destruct (Z.gtb_spec (g_next g) LP); [lia|]. destruct (Z.leb_spec 0 (g_next g)); [|lia]. destruct (Z.ltb_spec (g_next g) LP); [|lia]. cbn [andb bind fine snd].
    split; [|exact B]. destruct I as [I1 I2 I3 I4 I5]. constructor; cbn [g_log g_obj g_next]; try assumption.
    + intros o i T. destruct (I4 o i T). rewrite Z.mod_small by lia. lia.
    + rewrite Z.mod_small by lia. lia.
  - destruct Lg as [Na ->]. cbn [fine snd]. split.
    + constructor; cbn [new_obj log_ g_log g_obj g_next].
      * intros l1 x l2 E. destruct l1 as [|y l1]; cbn in E; [discriminate|]. injection E as _ E. exact (j_early _ _ I l1 x l2 E).
      * intros x Lx. destruct (Nat.eq_dec x o) as [->|Ne].
        -- rewrite upd_same. cbn [o_pol]. split; [left; reflexivity|]. split.
           ++ intro i. change (Z.lor 0 1) with (2 ^ 0). rewrite Z.pow2_bits_eqb by lia. cbn [att]. rewrite Nat.eqb_refl. apply Z.eqb_sym.
           ++ split; [|cbn; split; [split; [discriminate|tauto]|lia]]. cbn. destruct (o_live (g_obj g o)) eqn:L; [exfalso; apply Na; apply (j_live _ _ I o L)|].
              destruct (j_dead _ _ I o L) as (_ & _ & _ & D). auto.
        -- rewrite upd_other in * by exact Ne. destruct (j_live _ _ I x Lx) as (A1 & B1 & R1 & D1). split; [right; exact A1|].
           split; [intro i; rewrite B1; cbn; destruct (Nat.eqb_spec o x); [congruence|reflexivity]|]. auto.
      * intros x Lx. destruct (Nat.eq_dec x o) as [->|Ne]; [rewrite upd_same in Lx; discriminate|]. rewrite upd_other in Lx by exact Ne.
        destruct (j_dead _ _ I x Lx) as (A1 & B1 & C1 & D1). split; [exact A1|]. split; [intro i; cbn; destruct (Nat.eqb_spec o x); [congruence|apply B1]|].
        cbn [releases]. split; [intros [X|X]; [injection X; congruence|auto]|]. intro X. apply D1. intro Y. apply X. right. exact Y.
      * intros x i T. cbn in T. destruct (Nat.eqb_spec o x); [|exact (j_reg _ _ I x i T)]. apply Z.eqb_eq in T. lia.
      * apply I.
    + intros x Lx. cbn in Lx. destruct (Nat.eq_dec x o) as [->|Ne]; [exact Mb|]. rewrite upd_other in Lx by exact Ne. apply B, Lx.
  - destruct Lg as [Hi Rg]. unfold attach. destruct (Z.ltb_spec i 0); [lia|]. destruct (o_live (g_obj g o)) eqn:L; cbn [bind fine snd]; [|auto].
    unfold flag. destruct (Z.leb_spec 0 i); [|lia]. destruct (Z.ltb_spec i 31); [|lia]. cbn [andb bind fine snd].
    destruct (j_live _ _ I o L) as (A & Bt & Rl & Dz & Rp). split.
    + apply (J_set g []).
      * exact I. * exact L. * exact Logic.I. * reflexivity.
      * split; [|intros []]. intro Z0. assert (T := attach_bits _ i i Rp ltac:(lia)). rewrite Z0, Z.bits_0, Z.eqb_refl in T. discriminate.
      * apply Z.mod_pos_bound. lia.
      * intro j. rewrite (attach_bits _ i j Rp ltac:(lia)). cbn. rewrite Nat.eqb_refl. cbn. destruct (i =? j); [reflexivity|apply Bt].
      * intros x j Ne. cbn. destruct (Nat.eqb_spec o x); [congruence|reflexivity].
      * intros j T. rewrite (attach_bits _ i j Rp ltac:(lia)) in T. destruct (Z.eqb_spec i j) as [Ej|]; [rewrite <- Ej; auto|]. rewrite Bt in T. exact (j_reg _ _ I o j T).
    + intros x Lx. cbn in Lx. destruct (Nat.eq_dec x o) as [->|Ne]; [apply B, L|]. rewrite upd_other in Lx by exact Ne. apply B, Lx.
  - eapply fine_weak; [apply (detach_ok N f (do_free f) u g i o [] (free_frees N f) I B Lg); intros []|lia|].
    intros w (X1 & X2 & _). split; [exact X1|exact (below_le _ _ _ X2 B)].
  - destruct f as [|k]; [cbn; lia|]. apply (live_iff g [] o I) in Lg. eapply fine_weak; [apply (free_gen N k u g o [] [] (free_frees N k) I (fun X => X) (or_introl eq_refl) Lg B)|auto|].
    intros w [X1 X2]. split; [exact X1|exact (below_le _ _ _ X2 B)].
  - unfold write. eapply fine_bind with (P := fun w => J (snd w) [] /\ le (snd w) g).
    { eapply fine_weak; [apply (old_ok N f (do_free f) s u g [] (free_frees N f) I B)|lia|]. intros w X. exact X. }
    intros [u2 g2] [X1 X2]. cbn [snd] in *. assert (Fn : fine (f <= nd N g)%nat (notify_new s v (u2, g2)) (fun w => snd w = g2)).
    { unfold Life_model.notify_new. destruct v as [o|]; [|reflexivity]. cbn [snd]. destruct (o_live (g_obj g2 o)) eqn:L; cbn [andb]; [|reflexivity].
      destruct (negb _); [|reflexivity]. apply (add_ok o s []); auto. intros i Ii. apply ids_in, Ii. }
    eapply fine_bind; [exact Fn|]. intros [u3 g3] E. cbn [snd] in E. subst g3. cbn. split; [apply J_store, X1|]. intros x Lx. cbn in Lx. apply (below_le _ _ _ X2 B x Lx).
Qed.

Lemma reach_J w : lreach w -> J (snd w) [] /\ exists N, below N (snd w).
Proof.
  induction 1 as [u mem|f w op w' H [I [N B]] Lg E].
  - split; [apply J_start|]. exists 0%nat. intros o L. discriminate.
  - set (M := match op with New o _ _ => Nat.max N (S o) | _ => N end).
    assert (B' : below M (snd w)) by (intros o L; specialize (B o L); unfold M; destruct op; lia).
    assert (Mb : mk_below M op) by (unfold M; destruct op; cbn; auto; lia).
    assert (X := step_ok M f w op I Lg B' Mb). rewrite E in X. cbn in X. destruct X as [X Y]. split; [exact X|]. exists M. exact Y.
Qed.
End L.
