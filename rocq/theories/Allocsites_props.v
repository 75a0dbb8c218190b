(* C29: allocation-site ids. *)
From Verif Require Import Base Allocsites_model.

(* ---- specification ---- *)

(* strictly increasing *)
Fixpoint increasing (l : list Z) : Prop :=
  match l with
  | x :: (y :: _) as l' => x < y /\ increasing l'
  | _ => True
  end.

(* A legal history, given the files currently live: a loaded file's range is disjoint from
   every live one, its sites lie in its range, and its array is sorted, as the tools that
   emit it guarantee. *)
Definition wf_file (f : file) : Prop :=
  match f_sites f with
  | None => True
  | Some l => increasing l /\ forall v, In v l -> f_lo f <= f_base f + v < f_hi f
  end.
Definition apart (f g : file) : Prop := f_hi f <= f_lo g \/ f_hi g <= f_lo f.
Fixpoint legal (live : list file) (h : list aop) : Prop :=
  match h with
  | [] => True
  | Load f :: h' => wf_file f /\ f_lo f < f_hi f /\ (forall g, In g live -> apart f g) /\ legal (f :: live) h'
  | Unload lo :: h' => legal (filter (fun f => negb (f_lo f =? lo)) live) h'
  end.
Fixpoint live_after (live : list file) (h : list aop) : list file :=
  match h with
  | [] => live
  | Load f :: h' => live_after (f :: live) h'
  | Unload lo :: h' => live_after (filter (fun f => negb (f_lo f =? lo)) live) h'
  end.

(* [a] is an allocation site of live file [f] *)
Definition site_of (f : file) (a : Z) : Prop :=
  exists l v, f_sites f = Some l /\ In v l /\ a = f_base f + v.

(* how many objects with site tables, and how many sites, a history ever loads *)
Fixpoint tables (h : list aop) : Z :=
  match h with
  | [] => 0
  | Load f :: h' => (match f_sites f with Some _ => 1 | None => 0 end) + tables h'
  | _ :: h' => tables h'
  end.
Fixpoint sites_loaded (h : list aop) : Z :=
  match h with
  | [] => 0
  | Load f :: h' => (match f_sites f with Some l => Z.of_nat (length l) | None => 0 end) + sites_loaded h'
  | _ :: h' => sites_loaded h'
  end.

(* ---- proof ---- *)

Lemma leq_from_spec keys : forall t i best,
  (exists j, leq_from keys t i best = Some (i + j)%nat /\ (j < length keys)%nat /\
     nth j keys 0 <= t /\ forall j', (j < j' < length keys)%nat -> t < nth j' keys 0) \/
  (leq_from keys t i best = best /\ forall j, (j < length keys)%nat -> t < nth j keys 0).
Proof.
  induction keys as [|k ks IH]; intros t i best; cbn [leq_from].
  - right. split; [reflexivity|]. cbn. lia.
  - destruct (IH t (S i) (if k <=? t then Some i else best)) as [(j & E & L & N & A)|[E A]].
    + left. exists (S j). rewrite E. split; [f_equal; lia|]. cbn [length nth]. split; [lia|].
      split; [exact N|]. intros [|j'] H; [lia|]. apply A. lia.
    + destruct (Z.leb_spec k t) as [K|K].
      * left. exists 0%nat. rewrite E. split; [f_equal; lia|]. cbn [length nth]. split; [lia|].
        split; [exact K|]. intros [|j'] H; [lia|]. apply A. lia.
      * right. split; [exact E|]. cbn [length]. intros [|j] H; [exact K|]. apply A. lia.
Qed.

Lemma bsearch_at keys t k :
  (k < length keys)%nat -> nth k keys 0 <= t ->
  (forall j, (k < j < length keys)%nat -> t < nth j keys 0) ->
  bsearch_leq keys t = Some k.
Proof.
  intros L N A. unfold bsearch_leq.
  destruct (leq_from_spec keys t 0 None) as [(j & E & L' & N' & A')|[E A']].
  - rewrite E. f_equal. cbn.
    destruct (Nat.lt_trichotomy j k) as [H|[H|H]]; [|exact H|].
    + specialize (A' k). lia.
    + specialize (A j). lia.
  - specialize (A' k L). lia.
Qed.

Lemma increasing_nth l : forall i j,
  increasing l -> (i < j < length l)%nat -> nth i l 0 < nth j l 0.
Proof.
  induction l as [|x [|y l] IH]; intros i j H Hij; cbn [length] in Hij; [lia|lia|].
  destruct H as [H1 H2]. destruct j as [|j]; [lia|]. destruct i as [|i].
  - destruct j as [|j]; [exact H1|].
    assert (X := IH 0%nat (S j) H2 ltac:(cbn [length]; lia)). cbn [nth] in *. lia.
  - apply (IH i j H2). cbn [length]. lia.
Qed.

(* the spine after any legal history *)
Definition spine_ok (sp : list entry) (total : Z) : Prop :=
  (forall k e, nth_error sp k = Some e -> e_count e = Z.of_nat (length (e_ptr e)) /\ 0 <= e_start e /\
       e_start e + e_count e <= total) /\
  (forall j k e e', (j < k)%nat -> nth_error sp j = Some e -> nth_error sp k = Some e' ->
       e_start e + e_count e <= e_start e') /\
  (forall e, nth_error sp (length sp - 1) = Some e -> e_start e + e_count e = total) /\
  (sp = [] -> total = 0).

Definition file_ok (sp : list entry) (p : file * option nat) : Prop :=
  wf_file (fst p) /\ f_lo (fst p) < f_hi (fst p) /\
  match snd p with
  | None => f_sites (fst p) = None
  | Some k => exists e, nth_error sp k = Some e /\ e_base e = f_base (fst p) /\
                        f_sites (fst p) = Some (e_ptr e)
  end.

Definition Inv (s : st) (live : list file) (total : Z) : Prop :=
  spine_ok (spine s) total /\ map fst (files s) = live /\
  (forall p, In p (files s) -> file_ok (spine s) p) /\
  ForallOrdPairs apart live.

Lemma last_nth_error (A : Type) (l : list A) d : l <> [] -> nth_error l (length l - 1) = Some (last l d).
Proof.
  induction l as [|x [|y l] IH]; intro H; [congruence|reflexivity|].
  cbn [length] in *. replace (S (S (length l)) - 1)%nat with (S (S (length l) - 1)) by lia.
  cbn [nth_error]. change (last (x :: y :: l) d) with (last (y :: l) d).
  apply IH. discriminate.
Qed.

Lemma spine_app sp total e :
  spine_ok sp total -> 0 <= total -> e_start e = total -> e_count e = Z.of_nat (length (e_ptr e)) ->
  spine_ok (sp ++ [e]) (total + e_count e).
Proof.
  intros (A & B & C & D) T S E.
  assert (N : forall k x, nth_error (sp ++ [e]) k = Some x ->
            nth_error sp k = Some x /\ (k < length sp)%nat \/ k = length sp /\ x = e).
  { intros k x H. destruct (Nat.lt_ge_cases k (length sp)) as [L|L].
    - left. rewrite nth_error_app1 in H by exact L. auto.
    - rewrite nth_error_app2 in H by exact L.
      destruct (k - length sp)%nat as [|n] eqn:Q; cbn in H.
      + right. split; [lia|congruence].
      + destruct n; discriminate. }
  split; [|split; [|split]].
  - intros k x H. destruct (N k x H) as [[H1 _]|[_ ->]].
    + destruct (A k x H1) as (A1 & A2 & A3). repeat split; lia.
    + repeat split; lia.
  - intros j k x y L H1 H2. destruct (N j x H1) as [[H3 L3]|[-> ->]].
    + destruct (N k y H2) as [[H4 _]|[_ ->]].
      * apply (B j k); assumption.
      * destruct (A j x H3) as (_ & _ & Q). lia.
    + destruct (N k y H2) as [[_ L4]|[-> _]]; lia.
  - intros x H. rewrite app_length in H. cbn in H. destruct (N _ x H) as [[_ L]|[_ ->]]; lia.
  - intro H. destruct sp; discriminate.
Qed.

Lemma load_inv s live total f :
  Inv s live total -> 0 <= total -> wf_file f -> f_lo f < f_hi f -> (forall g, In g live -> apart f g) ->
  (f_sites f <> None -> Z.of_nat (length (spine s)) < 256) ->
  let m := match f_sites f with Some l => Z.of_nat (length l) | None => 0 end in
  total + m <= 65535 ->
  exists s', load s f = Ok s' /\ Inv s' (f :: live) (total + m) /\
    Z.of_nat (length (spine s')) =
    Z.of_nat (length (spine s)) + (match f_sites f with Some _ => 1 | None => 0 end).
Proof.
  intros (S & Fm & Fo & P) T W Hl Ap Hs m Hm. unfold load.
  destruct (f_sites f) as [l|] eqn:Ef.
  - assert (L : Z.of_nat (length (spine s)) < 256) by (apply Hs; congruence).
    unfold INDEX_SIZE. rewrite Z.gtb_ltb.
    destruct (Z.ltb_spec 256 (Z.of_nat (length (spine s)))); [lia|].
    destruct (Z.eqb_spec (Z.of_nat (length (spine s))) 256); [lia|].
    set (d := mkEntry 0 0 0 []).
    assert (St : (if Z.of_nat (length (spine s)) =? 0 then 0
                  else u16 (e_start (last (spine s) d) + e_count (last (spine s) d))) = total /\
                 negb (Z.of_nat (length (spine s)) =? 0) && (total <? e_start (last (spine s) d)) = false).
    { destruct S as (A & _ & C & D).
      destruct (Z.eqb_spec (Z.of_nat (length (spine s))) 0) as [Z0|Z0]; cbn [negb andb].
      - split; [symmetry; apply D; destruct (spine s); [reflexivity|cbn in Z0; lia]|reflexivity].
      - assert (NE : spine s <> []) by (intro Q; rewrite Q in Z0; cbn in Z0; lia).
        assert (Q := last_nth_error _ (spine s) d NE).
        assert (Q1 := C _ Q). destruct (A _ _ Q) as (A1 & A2 & A3).
        unfold u16. rewrite Z.mod_small by lia. split; [exact Q1|]. apply Z.ltb_ge. lia. }
    destruct St as [St1 St2]. rewrite St1, St2.
    assert (U : u16 (Z.of_nat (length l)) = m) by (unfold u16, m; apply Z.mod_small; lia).
    rewrite U. eexists. split; [reflexivity|]. cbn [spine files]. split.
    + split; [|split; [|split]]; cbn [spine files].
      * apply (spine_app (spine s) total (mkEntry total m (f_base f) l)); auto.
      * cbn. rewrite Fm. reflexivity.
      * intros p [<-|Hp].
        -- split; [exact W|]. split; [exact Hl|]. cbn [fst snd].
           eexists. rewrite nth_error_app2 by lia. rewrite Nat.sub_diag.
           split; [reflexivity|]. cbn. auto.
        -- destruct (Fo p Hp) as (W1 & H1 & X). split; [exact W1|]. split; [exact H1|].
           destruct (snd p) as [k|]; [|exact X].
           destruct X as (e & E1 & E2). exists e. split; [|exact E2].
           rewrite nth_error_app1; [exact E1|]. apply nth_error_Some. congruence.
      * constructor; [|exact P]. apply Forall_forall. exact Ap.
    + rewrite app_length. cbn. lia.
  - eexists. split; [reflexivity|]. unfold m. rewrite Z.add_0_r. cbn [spine files]. split; [|lia].
    split; [exact S|]. cbn [files]. split; [cbn; rewrite Fm; reflexivity|]. split.
    + intros p [<-|Hp]; [|exact (Fo p Hp)]. split; [exact W|]. split; [exact Hl|exact Ef].
    + constructor; [|exact P]. apply Forall_forall. exact Ap.
Qed.

Lemma FOP_filter (A : Type) (R : A -> A -> Prop) (g : A -> bool) l :
  ForallOrdPairs R l -> ForallOrdPairs R (filter g l).
Proof.
  induction 1 as [|x l H _ IH]; cbn; [constructor|].
  destruct (g x); [|exact IH]. constructor; [|exact IH].
  rewrite Forall_forall in *. intros y Hy. apply filter_In in Hy. apply H, Hy.
Qed.

Lemma unload_inv s live total lo :
  Inv s live total -> Inv (unload s lo) (filter (fun f => negb (f_lo f =? lo)) live) total.
Proof.
  intros (S & Fm & Fo & P). split; [exact S|]. cbn [unload files spine]. split; [|split].
  - rewrite <- Fm. clear. induction (files s) as [|p l IH]; cbn; [reflexivity|].
    destruct (negb (f_lo (fst p) =? lo)); cbn; rewrite IH; reflexivity.
  - intros p Hp. apply filter_In in Hp. apply Fo, Hp.
  - apply FOP_filter, P.
Qed.

Lemma tables_pos h : 0 <= tables h.
Proof. induction h as [|[f|lo] h IH]; cbn; [lia| |lia]. destruct (f_sites f); lia. Qed.
Lemma sites_pos h : 0 <= sites_loaded h.
Proof. induction h as [|[f|lo] h IH]; cbn; [lia| |lia]. destruct (f_sites f); lia. Qed.

Lemma arun_inv h : forall s live total,
  Inv s live total -> 0 <= total -> legal live h ->
  Z.of_nat (length (spine s)) + tables h <= 256 -> total + sites_loaded h <= 65535 ->
  exists s', arun s h = Ok s' /\ Inv s' (live_after live h) (total + sites_loaded h).
Proof.
  induction h as [|[f|lo] h IH]; intros s live total I T L B1 B2;
    cbn [arun astep legal live_after tables sites_loaded] in *.
  - exists s. rewrite Z.add_0_r. auto.
  - destruct L as (W & Hl & Ap & L). assert (TP := tables_pos h). assert (SP := sites_pos h).
    destruct (load_inv s live total f I T W Hl Ap) as (s1 & E & I1 & N1).
    + intro H. destruct (f_sites f); [lia|congruence].
    + lia.
    + rewrite E. cbn [bind]. rewrite Z.add_assoc. apply IH; auto; destruct (f_sites f); lia.
  - apply IH; auto. apply unload_inv, I.
Qed.

Lemma get_file_ok s live total p a :
  Inv s live total -> In p (files s) -> f_lo (fst p) <= a < f_hi (fst p) -> get_file s a = Some p.
Proof.
  intros (_ & Fm & Fo & P) Hp Ha. unfold get_file. subst live. clear Fo.
  induction (files s) as [|q l IH]; [destruct Hp|]. cbn [find].
  cbn [map] in P. inversion P as [|? ? HF P']; subst.
  destruct Hp as [->|Hp].
  - replace ((f_lo (fst p) <=? a) && (a <? f_hi (fst p))) with true; [reflexivity|].
    symmetry. apply andb_true_iff. rewrite Z.leb_le, Z.ltb_lt. exact Ha.
  - rewrite Forall_forall in HF. specialize (HF (fst p) (in_map fst _ _ Hp)).
    destruct ((f_lo (fst q) <=? a) && (a <? f_hi (fst q))) eqn:Q; [|apply IH; assumption].
    apply andb_true_iff in Q. rewrite Z.leb_le, Z.ltb_lt in Q. destruct HF; lia.
Qed.

Lemma site_id_inv s live total f a :
  Inv s live total -> total <= 65535 -> In f live -> site_of f a ->
  0 <= site_id s a < total /\ site_by_id s (site_id s a) = Ok (Some a).
Proof.
  intros I T Hf (l & v & El & Hv & ->).
  assert (I0 := I). destruct I as (S & Fm & Fo & P). rewrite <- Fm in Hf.
  apply in_map_iff in Hf. destruct Hf as ((f' & o) & E & Hp). cbn in E. subst f'.
  destruct (Fo _ Hp) as (W & Hl & X). cbn [fst snd] in *.
  unfold wf_file in W. rewrite El in W. destruct W as [Inc Rng].
  destruct o as [k|]; [|congruence]. destruct X as (e & Ek & Eb & Ep).
  assert (l = e_ptr e) by congruence. subst l.
  assert (G := get_file_ok s live total (f, Some k) (f_base f + v) I0 Hp (Rng v Hv)).
  unfold site_id, find_entry. rewrite G, Ek.
  destruct S as (A & B & C & D). destruct (A k e Ek) as (A1 & A2 & A3).
  replace (f_base f + v - f_base f) with v by lia.
  destruct (In_nth _ _ 0 Hv) as (i & Hi & Ni).
  rewrite A1, Nat2Z.id, firstn_all.
  assert (BS : bsearch_leq (e_ptr e) v = Some i).
  { apply bsearch_at; [exact Hi|lia|]. intros j Hj. rewrite <- Ni. apply increasing_nth; [exact Inc|lia]. }
  rewrite BS.
  unfold u16. rewrite Z.mod_small by lia. split; [lia|].
  unfold site_by_id.
  rewrite (bsearch_at (map e_start (spine s)) (e_start e + Z.of_nat i) k).
  - rewrite Ek. replace (Z.to_nat (e_start e + Z.of_nat i - e_start e)) with i by lia.
    rewrite (nth_error_nth' (e_ptr e) 0 Hi), Ni, Eb. reflexivity.
  - rewrite map_length. apply nth_error_Some. congruence.
  - rewrite (nth_error_nth _ _ 0 (map_nth_error e_start _ _ Ek)). lia.
  - rewrite map_length. intros j Hj.
    destruct (nth_error (spine s) j) as [e'|] eqn:Ej; [|apply nth_error_None in Ej; lia].
    rewrite (nth_error_nth _ _ 0 (map_nth_error e_start _ _ Ej)).
    assert (Q := B k j e e' ltac:(lia) Ek Ej). lia.
Qed.

(* ---- C29 ---- *)

(* After every legal history that loads at most 256 objects with site tables and at most
   65535 sites, nothing has gone wrong, every site of every live object has an id below
   the number of sites loaded (so never the "none" id), and the id maps back to the site. *)
Theorem site_ids_roundtrip_partial : forall h,
  legal [] h -> tables h <= 256 -> sites_loaded h <= 65535 ->
  exists s, arun init h = Ok s /\
    forall f a, In f (live_after [] h) -> site_of f a ->
      0 <= site_id s a < sites_loaded h /\ site_by_id s (site_id s a) = Ok (Some a).
Proof.
  intros h L T S.
  destruct (arun_inv h init [] 0) as (s & E & I); auto; try (cbn; lia).
  - split; [|split; [reflexivity|split; [intros p []|constructor]]].
    split; [intros [|k] e; discriminate|]. split; [intros [|j] k e e' _; discriminate|].
    split; [discriminate|reflexivity].
  - exists s. split; [exact E|]. intros f a Hf Ha. rewrite Z.add_0_l in I.
    apply (site_id_inv s (live_after [] h) (sites_loaded h) f a); auto.
Qed.

(* Hence different sites have different ids. *)
Theorem site_ids_distinct_partial : forall h,
  legal [] h -> tables h <= 256 -> sites_loaded h <= 65535 ->
  exists s, arun init h = Ok s /\
    forall f g a b, In f (live_after [] h) -> In g (live_after [] h) ->
      site_of f a -> site_of g b -> site_id s a = site_id s b -> a = b.
Proof.
  intros h L T S. destruct (site_ids_roundtrip_partial h L T S) as (s & E & H).
  exists s. split; [exact E|]. intros f g a b Hf Hg Ha Hb Q.
  destruct (H f a Hf Ha) as [_ R1]. destruct (H g b Hg Hb) as [_ R2].
  rewrite Q in R1. congruence.
Qed.

(* ---- where the full claim fails ---- *)

(* the 257th object with a site table overruns the table of tables *)
Fixpoint small_files (n : nat) : list aop :=
  match n with
  | O => []
  | S m => Load (mkFile (Z.of_nat n * 16) (Z.of_nat n * 16 + 16) (Z.of_nat n * 16) (Some [1])) :: small_files m
  end.
Theorem site_ids_257_files_refuted :
  exists h, tables h = 257 /\ arun init h = UB.
Proof. exists (small_files 257). split; vm_compute; reflexivity. Qed.

(* ids wrap inside the last object: two sites share an id *)
Fixpoint upto (n : nat) (z : Z) : list Z := match n with O => [] | S m => z :: upto m (z + 1) end.
Definition many (n : Z) : list Z := upto (Z.to_nat n) 0.
Definition wrap1 := mkFile 100000 200000 100000 (Some (many 40000)).
Definition wrap2 := mkFile 200000 300000 200000 (Some (many 30000)).
Theorem site_ids_wrap_refuted : exists h s a b,
  tables h = 2 /\ arun init h = Ok s /\ a <> b /\ site_id s a = site_id s b /\
  (exists f, In f (live_after [] h) /\ f_lo f <= a < f_hi f) /\
  (exists f, In f (live_after [] h) /\ f_lo f <= b < f_hi f).
Proof.
  assert (A : match arun init [Load wrap1; Load wrap2] with
              | Ok s => (site_id s 100000 =? site_id s 225536) = true
              | _ => False end) by (vm_compute; reflexivity).
  destruct (arun init [Load wrap1; Load wrap2]) as [s| | |] eqn:E; try contradiction.
  exists [Load wrap1; Load wrap2], s, 100000, 225536.
  split; [reflexivity|]. split; [exact E|]. split; [discriminate|].
  split; [apply Z.eqb_eq, A|].
  split; [exists wrap1|exists wrap2]; (split; [cbn [live_after In]; auto|]);
    unfold wrap1, wrap2; cbn [f_lo f_hi]; lia.
Qed.

(* an address that is no site gets the id of the site before it; an address in no object
   gets id 0, a real site's; and an id nobody issued is looked up out of bounds *)
Theorem site_ids_exact_refuted : exists h s,
  arun init h = Ok s /\ site_id s 104 = site_id s 103 /\ site_id s 999 = site_id s 103 /\
  site_by_id s (site_id s 103) = Ok (Some 103) /\ site_by_id s 1 = UB.
Proof.
  exists [Load (mkFile 100 200 100 (Some [3]))].
  eexists. split; [vm_compute; reflexivity|]. vm_compute. auto.
Qed.

Module Allocsites_ex.
  Definition h := [Load (mkFile 100 200 100 (Some [3; 7; 20]));
                   Load (mkFile 300 400 250 None);
                   Load (mkFile 400 500 400 (Some []));
                   Load (mkFile 600 700 650 (Some [-50; 0; 49]));
                   Unload 300].
  Example hyps : legal [] h /\ tables h <= 256 /\ sites_loaded h <= 65535.
  Proof.
    split; [|vm_compute; split; discriminate].
    cbn. unfold wf_file, apart; cbn.
    repeat match goal with |- _ /\ _ => split end; intros; auto; try lia;
      repeat match goal with H : _ \/ _ |- _ => destruct H end; subst; try contradiction; cbn; lia.
  Qed.
  Example ids : exists s, arun init h = Ok s /\ site_id s 120 = 2 /\ site_id s 650 = 4 /\
    site_by_id s 4 = Ok (Some 650).
  Proof. eexists. split; [vm_compute; reflexivity|]. vm_compute. auto. Qed.
End Allocsites_ex.

Print Assumptions site_ids_roundtrip_partial.
Print Assumptions site_ids_distinct_partial.
Print Assumptions site_ids_257_files_refuted.
Print Assumptions site_ids_wrap_refuted.
Print Assumptions site_ids_exact_refuted.
