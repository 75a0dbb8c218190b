(* Lemmas about the small-object index. *)
From Verif Require Import Base Small_model.
From Coq Require Import Permutation.

(* ---- specification: the objects recorded and not removed ---- *)
Record obj := mkO { o_start : Z; o_size : Z; o_site : Z }.
Definition covers (p : Z) (o : obj) : bool := (o_start o <=? p) && (p <? o_start o + o_size o).
Definition meets (lo hi : Z) (o : obj) : bool := (o_start o <? hi) && (lo <? o_start o + o_size o).
Definition alive1 (l : list obj) (o : sop) : list obj :=
  match o with
  | SIndex p sz site => mkO p sz site :: filter (fun x => negb (meets p (p + sz) x)) l
  | SUnindex p => filter (fun x => negb (covers p x)) l
  end.
Definition alive (l : list obj) (h : list sop) : list obj := fold_left alive1 h l.
(* where an object is within buckets of pitch P starting at base *)
Definition begins (c : chunk) (k : Z) (o : obj) : bool := (c_base c + k * c_pitch c <=? o_start o) && (o_start o <? c_base c + (k + 1) * c_pitch c).
Definition spills (c : chunk) (k : Z) (o : obj) : bool := begins c (k - 1) o && (c_base c + k * c_pitch c <? o_start o + o_size o).
Definition roomy (c : chunk) (l : list obj) : Prop :=
  forall k, Z.of_nat (length (filter (begins c k) l) + length (filter (spills c k) l)) < c_pitch c.
(* the part of an object in the bucket where it starts *)
Definition first_part (c : chunk) (o : obj) : Z := Z.min (o_size o) (c_pitch c - (o_start o - c_base c) mod c_pitch c).
Definition okobj (c : chunk) (o : obj) : Prop :=
  c_base c <= o_start o /\ o_start o + o_size o <= c_base c + c_nb c * c_pitch c /\ 1 <= o_size o < MINUSER /\
  MINUSER <= o_site o < 2 ^ 47 /\ first_part c o < 256.
Definition okop (c : chunk) (l : list obj) (o : sop) : Prop :=
  match o with
  | SIndex p sz site => okobj c (mkO p sz site) /\ roomy c (alive1 l o)
  | SUnindex p => exists x, In x l /\ covers p x = true
  end.
Fixpoint lawful (c : chunk) (l : list obj) (h : list sop) : Prop :=
  match h with [] => True | o :: t => okop c l o /\ lawful c (alive1 l o) t end.
Definition wf (c : chunk) : Prop := 1 <= c_pitch c <= 256 /\ MINUSER <= c_base c /\ c_base c + c_nb c * c_pitch c < W64.

(* ---- buckets ---- *)
Section Arith.
Context (c : chunk) (W : wf c).
Lemma bb_next k : bbase c (k + 1) = bbase c k + c_pitch c.
Proof using. unfold bbase. lia. Qed.
Lemma bb_mono j k : j <= k -> bbase c j <= bbase c k.
Proof using W. unfold bbase. destruct W as (P & _). intros. nia. Qed.
Lemma bb_lt j k : bbase c j < bbase c k -> j < k.
Proof using W. unfold bbase. destruct W as (P & _). intros. nia. Qed.
Lemma bb_step j k : j < k -> bbase c j + c_pitch c <= bbase c k.
Proof using W. intros. rewrite <- bb_next. apply bb_mono. lia. Qed.
Lemma nb_spec a : bbase c (nbucket c a) <= a < bbase c (nbucket c a) + c_pitch c.
Proof using W.
  unfold bbase, nbucket. destruct W as (P & _). pose proof (Z.div_mod (a - c_base c) (c_pitch c) ltac:(lia)) as D.
  pose proof (Z.mod_pos_bound (a - c_base c) (c_pitch c) ltac:(lia)) as M. clear - D M.
  set (q := _ / _) in *. set (r := _ mod _) in *. clearbody q r. nia.
Qed.
Lemma nb_uniq a k : bbase c k <= a < bbase c k + c_pitch c -> nbucket c a = k.
Proof using W.
  intros H. pose proof (nb_spec a) as N.
  destruct (Z.lt_trichotomy (nbucket c a) k) as [L|[E|L]]; auto; apply bb_step in L; lia.
Qed.
Lemma bo_spec a : boffset c a = a - bbase c (nbucket c a).
Proof using W.
  unfold bbase, nbucket, boffset. destruct W as (P & _). pose proof (Z.div_mod (a - c_base c) (c_pitch c) ltac:(lia)) as D.
  clear - D. set (q := _ / _) in *. set (r := _ mod _) in *. clearbody q r. nia.
Qed.
Lemma begins_spec k o : begins c k o = true <-> bbase c k <= o_start o < bbase c k + c_pitch c.
Proof using. unfold begins, bbase. lia. Qed.
Lemma begins_nb k o : begins c k o = true <-> nbucket c (o_start o) = k.
Proof using W.
  rewrite begins_spec. split; [apply nb_uniq|]. intros <-. apply nb_spec.
Qed.
Lemma spills_spec k o : spills c k o = true <-> bbase c (k - 1) <= o_start o < bbase c k /\ bbase c k < o_start o + o_size o.
Proof using.
  unfold spills. rewrite andb_true_iff, begins_spec. pose proof (bb_next (k - 1)) as N. replace (k - 1 + 1) with k in N by lia.
  unfold bbase in *. lia.
Qed.
Lemma fp_spec o : first_part c o = Z.min (o_size o) (c_pitch c - (o_start o - bbase c (nbucket c (o_start o)))).
Proof using W. unfold first_part. change ((o_start o - c_base c) mod c_pitch c) with (boffset c (o_start o)). rewrite bo_spec. reflexivity. Qed.
End Arith.

(* ---- entries ---- *)
Definition sent (c : chunk) (o : obj) : ent := mkE (o_site o) (boffset c (o_start o)) (first_part c o).
Definition after (c : chunk) (o : obj) : Z := let a := o_size o - first_part c o in if c_pitch c <? a then 0 else a.
Definition cent (c : chunk) (o : obj) : ent := mkE (o_size o) 0 (after c o mod 256).
Definition apart (a b : obj) : Prop := o_start a + o_size a <= o_start b \/ o_start b + o_size b <= o_start a.
Definition ents (c : chunk) (l : list obj) (k : Z) : list ent :=
  map (sent c) (filter (begins c k) l) ++ map (cent c) (filter (spills c k) l).
Record Inv (c : chunk) (l : list obj) (s : st) : Prop := mkInv {
  i_ok : Forall (okobj c) l;
  i_apart : ForallOrdPairs apart l;
  i_ents : forall k, Permutation (s_b s k) (ents c l k);
  i_room : roomy c l;
  i_big : 0 <= s_big s < MINUSER /\ Forall (fun o => o_size o <= s_big s) l }.

Lemma FOP_in (l : list obj) a b : ForallOrdPairs apart l -> In a l -> In b l -> a = b \/ apart a b.
Proof.
  intros F A B. destruct (ForallOrdPairs_In F a b A B) as [E|[E|E]]; auto. right. unfold apart in *. lia.
Qed.
Lemma FOP_perm (l l' : list obj) : Permutation l l' -> ForallOrdPairs apart l -> ForallOrdPairs apart l'.
Proof.
  induction 1 as [|x l l' P IH|x y l|l l' l'' P IH P' IH']; intros F; auto.
  - inversion F; subst. constructor; [|auto]. rewrite Forall_forall in *. intros z Z. apply H1. eapply Permutation_in; [symmetry|]; eauto.
  - inversion F as [|? ? Fx F']; subst. inversion F' as [|? ? Fy F'']; subst. inversion Fx; subst.
    constructor; [constructor; [unfold apart in *; lia|auto]|constructor; auto].
Qed.
Lemma filter_permutation {A} (f : A -> bool) l l' : Permutation l l' -> Permutation (filter f l) (filter f l').
Proof.
  induction 1 as [|x l l' P IH|x y l|l l' l'' P IH P' IH']; cbn; auto.
  - destruct (f x); auto.
  - destruct (f y), (f x); auto. apply perm_swap.
  - etransitivity; eauto.
Qed.
Lemma ents_perm c l l' k : Permutation l l' -> Permutation (ents c l k) (ents c l' k).
Proof. intros P. unfold ents. apply Permutation_app; apply Permutation_map; apply filter_permutation; auto. Qed.
Lemma roomy_perm c l l' : Permutation l l' -> roomy c l -> roomy c l'.
Proof.
  intros P R k. rewrite <- (Permutation_length (filter_permutation (begins c k) _ _ P)), <- (Permutation_length (filter_permutation (spills c k) _ _ P)). apply R.
Qed.
Lemma Inv_perm c l l' s : Permutation l l' -> Inv c l s -> Inv c l' s.
Proof.
  intros P [A B C D [E F]]. constructor.
  - eapply Permutation_Forall; eauto.
  - eapply FOP_perm; eauto.
  - intros k. rewrite C. apply ents_perm; auto.
  - eapply roomy_perm; eauto.
  - split; auto. eapply Permutation_Forall; eauto.
Qed.

Lemma biggest_spec l0 pos best :
  match biggest l0 pos best with
  | Some (p, o) => (best = Some (p, o) \/ exists i e, p = (pos + i)%nat /\ nth_error l0 i = Some e /\ is_cont e = false /\ o = e_off e) /\
                   (forall e, In e l0 -> is_cont e = false -> e_off e <= o) /\ (forall p0 o0, best = Some (p0, o0) -> o0 <= o)
  | None => best = None /\ forall e, In e l0 -> is_cont e = true
  end.
Proof.
  revert pos best. induction l0 as [|e t IH]; intros pos best; cbn [biggest].
  - destruct best as [[p o]|]; [|split; [auto|easy]]. split; [auto|]. split; [easy|]. intros p0 o0 E. inversion E; lia.
  - destruct (is_cont e) eqn:C.
    + specialize (IH (S pos) best). destruct (biggest t (S pos) best) as [[p o]|].
      * destruct IH as (A & B & D). split; [|split; [|auto]].
        -- destruct A as [A|(i & e0 & -> & A)]; auto. right. exists (S i), e0. split; [lia|auto].
        -- intros e0 [<-|H]; [congruence|auto].
      * destruct IH as (A & B). split; auto. intros e0 [<-|H]; auto.
    + assert (G : forall best', (best' = Some (pos, e_off e) \/ best' = best) ->
        (forall p0 o0, best' = Some (p0, o0) -> e_off e <= o0 /\ forall p1 o1, best = Some (p1, o1) -> o1 <= o0) -> best' <> None ->
        match biggest t (S pos) best' with
        | Some (p, o) => (best = Some (p, o) \/ exists i e0, p = (pos + i)%nat /\ nth_error (e :: t) i = Some e0 /\ is_cont e0 = false /\ o = e_off e0) /\
                         (forall e0, In e0 (e :: t) -> is_cont e0 = false -> e_off e0 <= o) /\ (forall p0 o0, best = Some (p0, o0) -> o0 <= o)
        | None => best = None /\ forall e0, In e0 (e :: t) -> is_cont e0 = true
        end).
      { intros best' Hb Hm Hn. specialize (IH (S pos) best'). destruct (biggest t (S pos) best') as [[p o]|]; [|tauto].
        destruct IH as (A & B & D). split; [|split].
        - destruct A as [A|(i & e0 & -> & A)].
          + destruct Hb as [Hb|Hb].
            * right. exists O, e. rewrite A in Hb. injection Hb as -> ->. split; [lia|]. cbn. auto.
            * left. congruence.
          + right. exists (S i), e0. split; [lia|auto].
        - intros e0 [<-|H]; [|auto]. intros _. destruct best' as [[p0 o0]|]; [|easy]. destruct (Hm _ _ eq_refl). specialize (D _ _ eq_refl). lia.
        - intros p0 o0 E. destruct best' as [[p1 o1]|]; [|easy]. destruct (Hm _ _ eq_refl) as (_ & Q). specialize (Q _ _ E). specialize (D _ _ eq_refl). lia. }
      destruct best as [[p0 o0]|].
      * destruct (o0 <? e_off e) eqn:L; apply G; auto; try easy.
        -- intros p1 o1 E. inversion E; subst. split; [lia|]. intros p2 o2 E2. inversion E2; subst. lia.
        -- intros p1 o1 E. inversion E; subst. split; [lia|]. intros p2 o2 E2. inversion E2; subst. lia.
      * apply G; auto; try easy. intros p1 o1 E. inversion E; subst. split; [lia|easy].
Qed.

Section Facts.
Context (c : chunk) (W : wf c) (l : list obj) (s : st) (I : Inv c l s).
Let P := c_pitch c.
Lemma ok_in o : In o l -> okobj c o.
Proof using I. intros H. destruct I as [A _ _ _ _]. rewrite Forall_forall in A. auto. Qed.
Lemma len_room k : (length (s_b s k) < Z.to_nat P)%nat.
Proof using I.
  destruct I as [_ _ E R _]. rewrite (Permutation_length (E k)). unfold ents. rewrite app_length, !map_length. specialize (R k). fold P in R. lia.
Qed.
Lemma room_ok k : room c (s_b s k) = true.
Proof using I. unfold room. pose proof (len_room k). fold P. lia. Qed.
Lemma ent_in k e : In e (s_b s k) <-> (exists o, In o l /\ begins c k o = true /\ e = sent c o) \/ (exists o, In o l /\ spills c k o = true /\ e = cent c o).
Proof using I.
  destruct I as [_ _ E _ _]. split.
  - intros H. apply (Permutation_in _ (E k)) in H. unfold ents in H. rewrite in_app_iff, !in_map_iff in H.
    destruct H as [(o & <- & H)|(o & <- & H)]; apply filter_In in H; destruct H; [left|right]; exists o; auto.
  - intros H. apply (Permutation_in _ (Permutation_sym (E k))). unfold ents. rewrite in_app_iff, !in_map_iff.
    destruct H as [(o & A & B & ->)|(o & A & B & ->)]; [left|right]; exists o; (split; [reflexivity|]); apply filter_In; auto.
Qed.
Lemma sent_start o : okobj c o -> is_cont (sent c o) = false.
Proof using. unfold okobj, is_cont, sent. cbn. intros. lia. Qed.
Lemma cent_cont o : okobj c o -> is_cont (cent c o) = true.
Proof using. unfold okobj, is_cont, cent. cbn. intros. lia. Qed.
Lemma spills_begins k o : spills c k o = true -> begins c (k - 1) o = true.
Proof using. unfold spills. intros H. apply andb_true_iff in H. tauto. Qed.
(* both reach the last byte of the bucket *)
Lemma spills_last k o o' : In o l -> In o' l -> spills c k o = true -> begins c (k - 1) o' = true -> boffset c (o_start o) <= boffset c (o_start o') -> o = o'.
Proof using I W.
  intros A B S T L. pose proof (spills_begins _ _ S) as S0. rewrite begins_nb in S0, T by auto. rewrite !(bo_spec c W) in L. rewrite S0, T in L.
  apply spills_spec in S. destruct I as [_ F _ _ _]. destruct (FOP_in _ _ _ F A B) as [|D]; auto.
  pose proof (ok_in _ A) as (_ & _ & ? & _). pose proof (ok_in _ B) as (_ & _ & ? & _).
  pose proof (nb_spec c W (o_start o')) as N. rewrite T in N. rewrite <- (bb_next c (k - 1)) in N. replace (k - 1 + 1) with k in N by lia.
  unfold apart in D. lia.
Qed.
Lemma spills_one k o o' : In o l -> In o' l -> spills c k o = true -> spills c k o' = true -> o = o'.
Proof using I W.
  intros A B S T. destruct (Z.le_ge_cases (boffset c (o_start o)) (boffset c (o_start o'))).
  - eapply spills_last; eauto using spills_begins.
  - symmetry. eapply spills_last; eauto using spills_begins.
Qed.
Lemma off_bound o : 0 <= boffset c (o_start o) < 256.
Proof using W. rewrite (bo_spec c W). pose proof (nb_spec c W (o_start o)). destruct W as (? & _). lia. Qed.

Lemma get_start_spec k o : 1 <= k -> In o l -> spills c k o = true ->
  exists pos, get_start c s k = Ok (pos, boffset c (o_start o)) /\ nth_error (s_b s (k - 1)) pos = Some (sent c o).
Proof using I W.
  intros K A S. unfold get_start. replace (k <? 1) with false by lia. rewrite room_ok. cbn [negb].
  pose proof (biggest_spec (s_b s (k - 1)) 0 None) as B. pose proof (spills_begins _ _ S) as Sb.
  assert (So : In (sent c o) (s_b s (k - 1))) by (apply ent_in; left; exists o; auto).
  destruct (biggest _ _ _) as [[p f]|].
  - destruct B as ([B|(i & e & -> & N & C & ->)] & M & _); [easy|]. cbn [Nat.add] in *.
    pose proof (M _ So (sent_start o (ok_in _ A))) as Mo. cbn [sent e_off] in Mo.
    pose proof (nth_error_In _ _ N) as Ni. apply ent_in in Ni. destruct Ni as [(o' & A' & B' & ->)|(o' & A' & B' & ->)].
    + cbn [sent e_off] in Mo. assert (o = o') by (eapply spills_last; eauto). subst o'. exists i. split; auto.
    + rewrite cent_cont in C by (apply ok_in; auto). easy.
  - destruct B as (_ & B). specialize (B _ So). rewrite sent_start in B by (apply ok_in; auto). easy.
Qed.
Lemma start_nonneg o : In o l -> 0 <= nbucket c (o_start o) < c_nb c.
Proof using I W.
  intros A. pose proof (ok_in _ A) as (B & E & Sz & _). pose proof (nb_spec c W (o_start o)) as N.
  assert (Bz : bbase c 0 = c_base c) by (unfold bbase; lia). assert (Bn : bbase c (c_nb c) = c_base c + c_nb c * c_pitch c) by reflexivity.
  rewrite <- Bz in B. rewrite <- Bn in E. split.
  - assert (bbase c 0 < bbase c (nbucket c (o_start o) + 1)) by (rewrite bb_next; lia). apply bb_lt in H; [lia|auto].
  - apply (bb_lt c W). lia.
Qed.
(* what a bucket's scan finds *)
Definition hitok (ptr : Z) (h : hit) : Prop :=
  let '((j, p), os, sz) := h in exists o, In o l /\ covers ptr o = true /\ nth_error (s_b s j) p = Some (sent c o) /\ begins c j o = true /\ os = o_start o /\
    (sz = Some (first_part c o) \/ sz = None /\ first_part c o < o_size o).
Lemma sent_os k o : begins c k o = true -> bbase c k + e_off (sent c o) = o_start o.
Proof using W. intros B. apply begins_nb in B; auto. cbn. rewrite (bo_spec c W), B. lia. Qed.
Lemma sent_tsz k o : begins c k o = true -> okobj c o -> 1 <= first_part c o <= o_size o /\ o_start o + first_part c o <= bbase c k + P /\
   (o_start o + first_part c o < bbase c k + P -> first_part c o = o_size o).
Proof using W.
  intros B K. apply begins_nb in B; auto. rewrite (fp_spec c W), B. pose proof (nb_spec c W (o_start o)) as N. rewrite B in N.
  unfold okobj in K. unfold P. lia.
Qed.
Lemma scan_spec k ptr must : 0 <= k -> bbase c k <= ptr -> forall suf pre, s_b s k = pre ++ suf ->
  match scan c s k ptr must suf (length pre) with
  | Ok (Hit h) => hitok ptr h
  | Ok Miss => (forall o, In o l -> begins c k o = true -> In (sent c o) suf -> ptr < bbase c k + P -> covers ptr o = false) /\
               (forall o, In o l -> spills c k o = true -> In (cent c o) suf -> covers ptr o = false)
  | Ok Fail => must = true /\ exists o, In o l /\ spills c k o = true /\ covers ptr o = false
  | _ => False
  end.
Proof using I W.
  intros K0 Lp suf. induction suf as [|e t IH]; intros pre E.
  - cbn. pose proof (len_room k) as R. rewrite E, app_nil_r in R. fold P. replace (Z.of_nat (length pre) <? P) with true by lia. split; easy.
  - cbn [scan]. assert (Ein : In e (s_b s k)) by (rewrite E; apply in_or_app; right; left; reflexivity).
    assert (Rec : forall Q1 Q2, Q1 ++ Q2 = s_b s k -> True) by auto.
    specialize (IH (pre ++ [e])). rewrite app_length in IH. cbn [length] in IH. replace (length pre + 1)%nat with (S (length pre)) in IH by lia.
    rewrite <- app_assoc in IH. specialize (IH E).
    apply ent_in in Ein. destruct Ein as [(o & A & B & ->)|(o & A & B & ->)].
    + pose proof (ok_in _ A) as Ko. rewrite sent_start by auto. rewrite (sent_os k o B). cbn [sent e_tsz].
      pose proof (sent_tsz k o B Ko) as T.
      destruct ((o_start o <=? ptr) && (ptr <? o_start o + first_part c o)) eqn:H.
      * exists o. split; [auto|]. split; [unfold covers; lia|]. split; [|split; [auto|split; [auto|left; auto]]].
        rewrite E, nth_error_app2, Nat.sub_diag by lia. reflexivity.
      * destruct (scan _ _ _ _ _ _ _) as [[h| |]| | |]; auto. destruct IH as (IH1 & IH2). split.
        -- intros o' A' B' [D|D] L'; [|auto]. assert (covers ptr o = false) as Q by (unfold covers; lia).
           destruct I as [_ F _ _ _]. destruct (FOP_in _ _ _ F A A') as [<-|D']; [auto|].
           exfalso. pose proof (sent_os k o' B') as Q1. rewrite <- D, (sent_os k o B) in Q1. pose proof (ok_in _ A'). unfold apart, okobj in *. lia.
        -- intros o' A' B' [D|D]; [|auto]. exfalso. pose proof (cent_cont o' (ok_in _ A')) as Q. rewrite <- D, sent_start in Q; auto. easy.
    + pose proof (ok_in _ A) as Ko. rewrite cent_cont by auto.
      assert (K1 : 1 <= k). { pose proof (spills_begins _ _ B) as Sb. apply begins_nb in Sb; auto. pose proof (start_nonneg o A). lia. }
      destruct (get_start_spec k o K1 A B) as (p & -> & N). cbn [bind].
      pose proof (sent_os (k - 1) o (spills_begins _ _ B)) as Os. cbn [sent e_off] in Os. rewrite Os. cbn [cent e_discr].
      replace (o_size o mod 2 ^ 22) with (o_size o) by (unfold okobj, MINUSER in Ko; change (2 ^ 22) with 4194304; lia).
      apply spills_spec in B as B'.
      pose proof (sent_tsz (k - 1) o (spills_begins _ _ B) Ko) as T. rewrite <- (bb_next c (k - 1) : _ = _ + P) in T. replace (k - 1 + 1) with k in T by lia.
      destruct (ptr <? o_start o + o_size o) eqn:H.
      * exists o. split; [auto|]. split; [unfold covers; lia|]. split; [auto|]. split; [apply spills_begins; auto|]. split; [auto|]. right. split; [auto|]. lia.
      * assert (Q : covers ptr o = false) by (unfold covers; lia).
        destruct must; [split; [auto|]; exists o; auto|].
        destruct (scan _ _ _ _ _ _ _) as [[h| |]| | |]; auto. destruct IH as (IH1 & IH2). split.
        -- intros o' A' B2 [D|D] L'; [|auto]. exfalso. pose proof (cent_cont o (ok_in _ A)) as Q1. rewrite D, sent_start in Q1; auto using ok_in. easy.
        -- intros o' A' B2 [D|D]; [|auto]. rewrite (spills_one k o' o); auto.
Qed.
Lemma walk_spec ptr : bbase c 0 <= ptr < W64 -> forall n must,
  Z.of_nat n <= nbucket c ptr -> must = negb (Z.of_nat n =? nbucket c ptr) ->
  (Z.of_nat n < nbucket c ptr -> forall o, In o l -> covers ptr o = true -> nbucket c (o_start o) < Z.of_nat n) ->
  match walk c s ptr n must with
  | Ok (Some h) => hitok ptr h
  | Ok None => forall o, In o l -> covers ptr o = false
  | _ => False
  end.
Proof using I W.
  intros Lp n. assert (Np := nb_spec c W ptr).
  assert (Before : forall o, covers ptr o = true -> nbucket c (o_start o) <= nbucket c ptr).
  { intros o C. pose proof (nb_spec c W (o_start o)). assert (bbase c (nbucket c (o_start o)) < bbase c (nbucket c ptr + 1)) as Q by (rewrite bb_next; unfold covers in C; lia).
    apply bb_lt in Q; auto. lia. }
  assert (Dec : forall n', Z.of_nat n' <= nbucket c ptr -> (Z.of_nat n' < nbucket c ptr -> forall o, In o l -> covers ptr o = true -> nbucket c (o_start o) < Z.of_nat n') ->
     (forall o, In o l -> begins c (Z.of_nat n') o = true -> ptr < bbase c (Z.of_nat n') + P -> covers ptr o = false) ->
     (forall o, In o l -> spills c (Z.of_nat n') o = true -> covers ptr o = false) -> forall o, In o l -> covers ptr o = true -> nbucket c (o_start o) < Z.of_nat n' - 1).
  { intros n' Ln H1 H2 H3 o A C. pose proof (nb_spec c W (o_start o)) as N.
    assert (H4 : nbucket c (o_start o) <> Z.of_nat n').
    { intros E. destruct (Z.eq_dec (Z.of_nat n') (nbucket c ptr)) as [E'|E'].
      - rewrite H2 in C; auto; [easy|apply begins_nb; auto|]. rewrite E'. unfold P. lia.
      - specialize (H1 ltac:(lia) o A C). lia. }
    assert (H5 : nbucket c (o_start o) <> Z.of_nat n' - 1).
    { intros E. rewrite H3 in C; [easy|auto|]. apply spills_spec. rewrite E in N. rewrite <- (bb_next c) in N. replace (Z.of_nat n' - 1 + 1) with (Z.of_nat n') in N by lia.
      split; [lia|]. pose proof (bb_mono c W _ _ Ln). unfold covers in C. lia. }
    destruct (Z.eq_dec (Z.of_nat n') (nbucket c ptr)) as [E'|E'].
    - specialize (Before o C). lia.
    - specialize (H1 ltac:(lia) o A C). lia. }
  induction n as [|m IH]; intros must Ln Em Cov.
  - cbn [walk]. change (Z.of_nat 0) with 0 in *. pose proof (bb_mono c W _ _ Ln) as Lb.
    pose proof (scan_spec 0 ptr must ltac:(lia) ltac:(lia) (s_b s 0) [] eq_refl) as H. cbn [length] in H.
    destruct (scan _ _ _ _ _ _ _) as [[h| |]| | |]; cbn [bind]; auto.
    + destruct H as (H1 & H2). intros o A. destruct (covers ptr o) eqn:C; auto.
      exfalso. assert (nbucket c (o_start o) < 0 - 1); [|pose proof (start_nonneg o A); lia].
      apply (Dec 0%nat); auto.
      * intros o' A' B'. apply H1; auto. apply ent_in. left. exists o'. auto.
      * intros o' A' B'. apply H2; auto. apply ent_in. right. exists o'. auto.
    + destruct H as (-> & o & A & B & _). pose proof (spills_begins _ _ B) as Sb. apply begins_nb in Sb; auto. pose proof (start_nonneg o A). lia.
  - cbn [walk]. set (k := Z.of_nat (S m)) in *. pose proof (bb_mono c W _ _ Ln) as Lb.
    pose proof (scan_spec k ptr must ltac:(lia) ltac:(lia) (s_b s k) [] eq_refl) as H. cbn [length] in H.
    destruct (scan _ _ _ _ _ _ _) as [[h| |]| | |]; cbn [bind]; auto.
    + destruct H as (H1 & H2).
      assert (D : forall o, In o l -> covers ptr o = true -> nbucket c (o_start o) < k - 1).
      { intros o A C. apply (Dec (S m)); auto.
        * intros o' A' B'. apply H1; auto. apply ent_in. left. exists o'. auto.
        * intros o' A' B'. apply H2; auto. apply ent_in. right. exists o'. auto. }
      assert (Eb : (ptr - s_big s) mod W64 = ptr - s_big s).
      { apply Z.mod_small. destruct I as [_ _ _ _ [Bg _]]. destruct W as (_ & Wb & _). unfold bbase in Lp. unfold MINUSER in *. lia. }
      rewrite Eb. destruct (ptr - s_big s <? bend c (Z.of_nat m)) eqn:L.
      * apply IH; [lia|lia|]. intros _ o A C. specialize (D o A C). lia.
      * intros o A. destruct (covers ptr o) eqn:C; auto. exfalso. specialize (D o A C).
        destruct I as [_ _ _ _ [_ Bg]]. rewrite Forall_forall in Bg. specialize (Bg o A).
        pose proof (nb_spec c W (o_start o)) as N. pose proof (bb_step c W (nbucket c (o_start o)) (Z.of_nat m) ltac:(lia)). unfold bend in L. unfold covers in C.
        destruct W as (? & _). lia.
    + destruct H as (-> & o & A & B & C). intros o' A'. destruct (covers ptr o') eqn:C'; auto. exfalso.
      assert (Lk : k < nbucket c ptr) by lia. specialize (Cov Lk o' A' C').
      destruct I as [_ F _ _ _]. destruct (FOP_in _ _ _ F A A') as [E|D]; [congruence|].
      apply spills_spec in B. pose proof (nb_spec c W (o_start o')) as N. pose proof (bb_step c W _ _ Cov). unfold covers in C'. unfold apart in D. lia.
Qed.
Lemma lookup_spec ptr : bbase c 0 <= ptr < W64 ->
  match lookup c s ptr with
  | Ok (Some h) => hitok ptr h
  | Ok None => forall o, In o l -> covers ptr o = false
  | _ => False
  end.
Proof using I W.
  intros L. unfold lookup.
  assert (0 <= nbucket c ptr). { pose proof (nb_spec c W ptr). assert (bbase c 0 < bbase c (nbucket c ptr + 1)) as Q by (rewrite bb_next; lia). apply bb_lt in Q; auto. lia. }
  assert (E : Z.of_nat (Z.to_nat (nbucket c ptr)) = nbucket c ptr) by lia.
  apply walk_spec; auto; [lia| |]; rewrite E; lia.
Qed.
End Facts.
