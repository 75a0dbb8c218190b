(* Theorems about packed sequences: see properties.jsonl C33. *)
From Verif Require Import Base Big_model Big_field Packed_model Packed_spec Packed_proof.

(* what a walk should deliver, starting with the element numbered [c + 1] *)
Fixpoint expect (c : Z) (l : list el) : list visit :=
  match l with [] => [] | e :: t => mkV (l_start e) (l_type e) (l_size e) (c + 1) :: expect (c + 1) t end.
(* delivery stops after the first visit for which the callback returns non-zero *)
Fixpoint deliver (cb : visit -> Z) (vs : list visit) : list visit * Z :=
  match vs with
  | [] => ([], 0)
  | v :: t => if cb v =? 0 then let '(a, r) := deliver cb t in (v :: a, r) else ([v], cb v)
  end.

Section P.
Context (dbg : bool) (f : fam) (beg en : Z) (l : list el).
Context (Hla : 0 <= la f) (Hal : beg mod align f = 0) (HT : tile f beg en l) (Hsz : 0 <= en - beg < 2 ^ 31).

Lemma get_info_cached pre post s x s' r : cachedto f beg l pre post s -> beg <= x < en -> get_info dbg f beg en s x = Ok (s', r) ->
  exists pre' post', cachedto f beg l pre' post' s'.
Proof.
  intros CT Hx R. unfold get_info in R.
  assert (XM : (x - beg) mod W32 = x - beg). { change W32 with 4294967296. change (2 ^ 31) with 2147483648 in Hsz. clear - Hx Hsz. lia. }
  rewrite XM in R. assert (HO : 0 <= x - beg + 1 <= en - beg) by (clear - Hx; lia).
  destruct (ensure dbg f beg en s (x - beg + 1)) as [s1| | |] eqn:ER; cbn [bind] in R; try easy.
  destruct (ensure_cached dbg f beg en l Hla Hal HT Hsz _ _ _ _ _ CT HO ER) as (pre' & post' & CT' & _).
  assert (s' = s1) as ->.
  { destruct (rfind_leq _ _); [|congruence]. destruct (mwidths f); [|easy]. destruct (nth_error (mv s1) _) as [((ti, na), d)|]; [|easy].
    destruct (nth_error _ _); [|easy]. congruence. }
  eauto.
Qed.
Lemma walk_cached pre post s rb re cb s' r : cachedto f beg l pre post s -> legal beg en (PWalk rb re cb) ->
  walk dbg f beg en s rb re cb = Ok (s', r) -> exists pre' post', cachedto f beg l pre' post' s'.
Proof.
  intros CT (_ & L) R. unfold walk in R.
  assert (HO : 0 <= match re with Some e => e | None => en end - beg <= en - beg) by (clear - L Hsz; destruct re; lia).
  destruct (ensure dbg f beg en s _) as [s1| | |] eqn:ER; cbn [bind] in R; try easy.
  destruct (ensure_cached dbg f beg en l Hla Hal HT Hsz _ _ _ _ _ CT HO ER) as (pre' & post' & CT' & _).
  destruct (walk_loop _ _ _ _ _ _ _ _ _ _ _) as [r'| | |]; cbn [bind] in R; try easy. injection R as <- <-. eauto.
Qed.
Lemma prun_cached h : forall pre post s s', cachedto f beg l pre post s -> Forall (legal beg en) h ->
  prun dbg f beg en s h = Ok s' -> exists pre' post', cachedto f beg l pre' post' s'.
Proof.
  induction h as [|o h IH]; intros pre post s s' CT L R; cbn in R; [injection R as <-; eauto|].
  inversion L as [|? ? Lo Lh]; subst.
  destruct o as [x|rb re cb]; cbn [pstep] in R.
  - destruct (get_info dbg f beg en s x) as [(s1, r)| | |] eqn:G; cbn [bind] in R; try easy.
    destruct (get_info_cached _ _ _ _ _ _ CT Lo G) as (p & q & CT'). eauto.
  - destruct (walk dbg f beg en s rb re cb) as [(s1, r)| | |] eqn:G; cbn [bind] in R; try easy.
    destruct (walk_cached _ _ _ _ _ _ _ _ CT Lo G) as (p & q & CT'). eauto.
Qed.

Lemma pos_end_in p1 e p2 : l = p1 ++ e :: p2 -> forall x, l_start e <= x < l_start e + l_size e -> beg <= x < en.
Proof.
  intros E x Hx. destruct (split_bounds f beg en l Hla Hal HT _ _ _ E) as (_ & _ & A & _ & B & _). clear - A B Hx. lia.
Qed.

(* one round of the walk's loop for each element *)
Lemma walk_loop_ok s cb p0 : bits s = map (bit_of f beg) l -> Forall (tight f) l ->
  forall ty, (forall e, In e p0 -> l_type e = ty) ->
  (mwidths f = None -> nth_error (types f) 0 = Some ty) ->
  forall n, (mwidths f <> None -> exists ti na, nth_error (mv s) n = Some (ti, na, 0) /\ nth_error (types f) (Z.to_nat ti) = Some ty) ->
  forall p2 e p1 fuel c acc, l = p1 ++ e :: p2 -> (forall a, In a (e :: p2) -> In a p0) -> (length p2 + 1 < fuel)%nat ->
  walk_loop fuel f en beg s None n cb c (Some (bit_of f beg e)) acc =
  (let '(a, r) := deliver cb (expect c (e :: p2)) in Ok (acc ++ a, r)).
Proof.
  intros B Ti ty Hty Hn0 n Hn. pose proof (align_pos f Hla) as AP.
  induction p2 as [|e2 p2 IH]; intros e p1 fuel c acc E I0 LF; (destruct fuel as [|fuel]; [lia|]); cbn [walk_loop expect deliver].
  - destruct (split_bounds f beg en l Hla Hal HT _ _ _ E) as (S1 & SM & S2 & S3 & S4 & S5 & BL & BH).
    assert (BB : beg + Z.shiftl (bit_of f beg e) (la f) = l_start e).
    { rewrite shiftl_align by auto. unfold bit_of. pose proof (sub_mod0 _ _ _ AP SM Hal) as DM. apply Z_div_exact_full_2 in DM; clear - DM AP; lia. }
    rewrite BB. cbn [andb].
    rewrite B. rewrite fgeq_none.
    2:{ intros b Hb. apply in_map_iff in Hb. destruct Hb as (a & <- & Ia). rewrite E in Ia. apply in_app_or in Ia. destruct Ia as [Ia|[<-|[]]]; [specialize (BL a Ia)|]; clear - BL || idtac; lia. }
    assert (SZ : en - l_start e = l_size e).
    { assert (K : tight f e) by (eapply Forall_forall; [exact Ti|rewrite E; apply in_or_app; right; left; auto]). unfold tight in K.
      assert (l = (p1 ++ [e]) ++ []) by (rewrite app_nil_r; auto). pose proof (rest_done f beg en l HT Hsz (p1 ++ [e]) H) as RD.
      rewrite pos_after_app in RD. cbn in RD. clear - K RD S4. lia. }
    rewrite SZ.
    assert (TY : l_type e = ty) by (apply Hty, I0; left; auto).
    assert (X : match mwidths f with
            | Some _ => match nth_error (mv s) n with
                        | None => UB
                        | Some (ti, _, d) => match nth_error (types f) (Z.to_nat ti) with
                                             | None => UB
                                             | Some t => Ok (t, l_size e - d)
                                             end
                        end
            | None => match nth_error (types f) 0 with None => UB | Some t => Ok (t, l_size e) end
            end = Ok (ty, l_size e)).
    { destruct (mwidths f). { destruct Hn as (ti & na & -> & ->); [easy|]. f_equal. f_equal. lia. } rewrite Hn0; auto. }
    rewrite X. cbn [bind]. rewrite TY.
    destruct (cb (mkV (l_start e) ty (l_size e) (c + 1)) =? 0) eqn:Q; cbn [negb]; [|reflexivity].
    destruct fuel; [cbn in LF; lia|]. reflexivity.
  - destruct (split_bounds f beg en l Hla Hal HT _ _ _ E) as (S1 & SM & S2 & S3 & S4 & S5 & BL & BH).
    assert (BB : beg + Z.shiftl (bit_of f beg e) (la f) = l_start e).
    { rewrite shiftl_align by auto. unfold bit_of. pose proof (sub_mod0 _ _ _ AP SM Hal) as DM. apply Z_div_exact_full_2 in DM; clear - DM AP; lia. }
    rewrite BB. cbn [andb].
    assert (E2 : l = (p1 ++ [e]) ++ e2 :: p2) by (rewrite <- app_assoc; auto).
    destruct (split_bounds f beg en l Hla Hal HT _ _ _ E2) as (S1' & SM' & _ & _ & _ & _ & BL' & BH').
    assert (FG : find_geq (bits s) (bit_of f beg e + 1) = Some (bit_of f beg e2)).
    { rewrite B, E2, map_app. cbn [map]. apply fgeq_split.
      - intros b Hb. apply in_map_iff in Hb. destruct Hb as (a & <- & Ia). apply in_app_or in Ia. destruct Ia as [Ia|[<-|[]]]; [specialize (BL a Ia); clear - BL; lia|clear; lia].
      - specialize (BH e2 (or_introl eq_refl)). clear - BH. lia.
      - intros b Hb. apply in_map_iff in Hb. destruct Hb as (a & <- & Ia). specialize (BH' a Ia). clear - BH'. lia. }
    rewrite FG.
    assert (SZ : Z.shiftl (bit_of f beg e2 - bit_of f beg e) (la f) = l_size e).
    { assert (K : tight f e) by (eapply Forall_forall; [exact Ti|rewrite E; apply in_or_app; right; left; auto]). unfold tight in K.
      rewrite pos_after_app in S1'. cbn in S1'. rewrite shiftl_align by auto. unfold bit_of.
      pose proof (sub_mod0 _ _ _ AP SM Hal) as DM. apply Z_div_exact_full_2 in DM; [|clear - AP; lia].
      pose proof (sub_mod0 _ _ _ AP SM' Hal) as DM'. apply Z_div_exact_full_2 in DM'; [|clear - AP; lia]. clear - DM DM' S1' K. lia. }
    rewrite SZ.
    assert (TY : l_type e = ty) by (apply Hty, I0; left; auto).
    assert (X : match mwidths f with
            | Some _ => match nth_error (mv s) n with
                        | None => UB
                        | Some (ti, _, d) => match nth_error (types f) (Z.to_nat ti) with
                                             | None => UB
                                             | Some t => Ok (t, l_size e - d)
                                             end
                        end
            | None => match nth_error (types f) 0 with None => UB | Some t => Ok (t, l_size e) end
            end = Ok (ty, l_size e)).
    { destruct (mwidths f). { destruct Hn as (ti & na & -> & ->); [easy|]. f_equal. f_equal. lia. } rewrite Hn0; auto. }
    rewrite X. cbn [bind]. rewrite TY.
    destruct (cb (mkV (l_start e) ty (l_size e) (c + 1)) =? 0) eqn:Q; cbn [negb]; [|reflexivity].
    rewrite (IH e2 (p1 ++ [e]) fuel (c + 1) _ E2). 2:{ intros a Ha. apply I0. right. auto. } 2:{ cbn in LF. lia. }
    cbn [expect deliver]. destruct (cb (mkV (l_start e2) _ _ _) =? 0).
    + destruct (deliver cb (expect (c + 1 + 1) p2)) as (a, r). rewrite <- app_assoc. reflexivity.
    + rewrite <- app_assoc. reflexivity.
Qed.
End P.

(* C33: whatever queries and walks came before, a query for an address of an element of a sequence
   whose family keeps records is answered with that element's type, start and size *)
Theorem packed_query_right : forall dbg f beg en l h s x s' r p1 e p2,
  0 <= la f -> beg mod align f = 0 -> tile f beg en l -> 0 <= en - beg < 2 ^ 31 -> mwidths f <> None -> Forall (fits f) l ->
  Forall (legal beg en) h -> prun dbg f beg en seq0 h = Ok s ->
  l = p1 ++ e :: p2 -> l_start e <= x < l_start e + l_size e ->
  get_info dbg f beg en s x = Ok (s', r) -> r = Some (l_type e, l_start e, l_size e).
Proof.
  intros dbg f beg en l h s x s' r p1 e p2 Hla Hal HT Hsz W HF HL R E Hx G.
  destruct (mwidths f) as [w|] eqn:EW; [|easy].
  destruct (prun_cached dbg f beg en l Hla Hal HT Hsz h _ _ _ _ (cachedto0 f beg l) HL R) as (p & q & CT).
  pose proof (pos_end_in f beg en l Hla Hal HT _ _ _ E x Hx) as IN. pose proof (nextpos_ge f e Hla) as NG.
  assert (Hx' : l_start e <= x < nextpos f e) by (clear - Hx NG; lia).
  exact (proj1 (query_answer dbg f beg en l Hla Hal HT Hsz w _ _ _ _ _ _ _ _ _ CT EW HF IN G E Hx')).
Qed.

(* and if the elements are packed with no padding, every such query is answered *)
Theorem packed_query_partial : forall dbg f beg en l h s x p1 e p2,
  0 <= la f -> beg mod align f = 0 -> tile f beg en l -> 0 <= en - beg < 2 ^ 31 -> mwidths f <> None -> Forall (fits f) l ->
  Forall (tight f) l -> Forall (legal beg en) h -> prun dbg f beg en seq0 h = Ok s ->
  l = p1 ++ e :: p2 -> l_start e <= x < l_start e + l_size e ->
  exists s', get_info dbg f beg en s x = Ok (s', Some (l_type e, l_start e, l_size e)).
Proof.
  intros dbg f beg en l h s x p1 e p2 Hla Hal HT Hsz W HF Ti HL R E Hx.
  destruct (prun_cached dbg f beg en l Hla Hal HT Hsz h _ _ _ _ (cachedto0 f beg l) HL R) as (p & q & CT).
  pose proof (pos_end_in f beg en l Hla Hal HT _ _ _ E x Hx) as IN. pose proof (nextpos_ge f e Hla) as NG.
  assert (HO : 0 <= x - beg + 1 <= en - beg) by (clear - IN; lia).
  destruct (ensure_runs dbg f beg en l Hla Hal HT Hsz _ _ _ _ CT HO Ti) as (s1 & ER).
  assert (exists s' r, get_info dbg f beg en s x = Ok (s', r)) as (s' & r & G).
  { assert (Hx' : l_start e <= x < nextpos f e) by (clear - Hx NG; lia).
    destruct (mwidths f) as [w|] eqn:EW; [|easy].
    unfold get_info.
    assert (XM : (x - beg) mod W32 = x - beg). { change W32 with 4294967296. change (2 ^ 31) with 2147483648 in Hsz. clear - IN Hsz. lia. }
    rewrite XM, ER. cbn [bind].
    destruct (ensure_cached dbg f beg en l Hla Hal HT Hsz _ _ _ _ _ CT HO ER) as (pre' & post' & (E' & B' & M' & C') & G).
    destruct (rfind_leq (bits s1) _) as [b|] eqn:RF; [|eauto]. rewrite EW.
    assert (RI : exists a, In a pre' /\ b = bit_of f beg a).
    { rewrite B' in RF. clear - RF. unfold rfind_leq in RF. change (fold_left (mx (Z.shiftr (beg + (x - beg) - rdown beg (align f)) (la f))) (map (bit_of f beg) pre') None = Some b) in RF.
      assert (K : forall l m, fold_left (mx (Z.shiftr (beg + (x - beg) - rdown beg (align f)) (la f))) l m = Some b -> m = Some b \/ In b l).
      { induction l as [|a l IH]; intros m H; cbn in *; auto. destruct (IH _ H) as [H2|H2]; auto. unfold mx in H2. destruct (a <=? _); auto.
        destruct m as [y|]; [|injection H2 as ->; auto]. injection H2 as H2. destruct (Z.max_spec y a) as [(_ & M)|(_ & M)]; rewrite M in H2; subst; auto. }
      destruct (K _ _ RF) as [?|H]; [easy|]. apply in_map_iff in H. destruct H as (a & <- & ?). eauto. }
    destruct RI as (a & Ia & ->). apply in_split in Ia. destruct Ia as (q1 & q2 & Eq).
    assert (El : l = q1 ++ a :: (q2 ++ post')) by (rewrite E', Eq, <- app_assoc; auto).
    destruct (split_bounds f beg en l Hla Hal HT _ _ _ El) as (_ & SM & _ & S3 & _ & _ & BL & BH).
    rewrite B', Eq, map_app. cbn [map]. rewrite count_split.
    2:{ intros b Hb. apply in_map_iff in Hb. destruct Hb as (z & <- & Iz). auto. }
    2:{ intros b [<-|Hb]; [lia|]. apply in_map_iff in Hb. destruct Hb as (z & <- & Iz). assert (J : In z (q2 ++ post')) by (apply in_or_app; auto). specialize (BH _ J). clear - BH. lia. }
    rewrite map_length, M', Eq, (flat_nth f w) by auto.
    assert (FE : fits f a). { eapply Forall_forall; [exact HF|]. rewrite El. apply in_or_app. right. left. auto. }
    destruct (entry_back f beg en Hla Hal Hsz w a EW FE SM S3) as (ti & na & d & EE & ET & _). rewrite EE. cbn [hd]. rewrite ET. eauto. }
  exists s'. rewrite G. f_equal. f_equal. eapply (packed_query_right dbg f beg en l h); eauto.
Qed.

(* C33: a walk from the start of any element, or of the sequence, to the end visits each element
   from there on once, in order, with its number, type and size, until the callback says stop --
   for elements packed with no padding and all of one type *)
Theorem packed_walk_partial : forall dbg f beg en l h s rb cb ty p1 e p2,
  0 <= la f -> beg mod align f = 0 -> tile f beg en l -> 0 <= en - beg < 2 ^ 31 -> Forall (fits f) l -> Forall (tight f) l ->
  Forall (fun a => l_type a = ty) l -> (mwidths f = None -> nth_error (types f) 0 = Some ty) ->
  Forall (legal beg en) h -> prun dbg f beg en seq0 h = Ok s ->
  l = p1 ++ e :: p2 -> (rb = Some (l_start e) \/ (rb = None /\ p1 = [])) ->
  exists s', walk dbg f beg en s rb None cb = Ok (s', deliver cb (expect (Z.of_nat (length p1)) (e :: p2))).
Proof.
  intros dbg f beg en l h s rb cb ty p1 e p2 Hla Hal HT Hsz HF Ti HU H0 HL R E Hrb. pose proof (align_pos f Hla) as AP.
  destruct (prun_cached dbg f beg en l Hla Hal HT Hsz h _ _ _ _ (cachedto0 f beg l) HL R) as (p & q & CT).
  assert (HO : 0 <= en - beg <= en - beg) by (clear - Hsz; lia).
  destruct (ensure_runs dbg f beg en l Hla Hal HT Hsz _ _ _ _ CT HO Ti) as (s1 & ER).
  destruct (ensure_cached dbg f beg en l Hla Hal HT Hsz _ _ _ _ _ CT HO ER) as (pre' & post' & (E' & B' & M' & C') & G).
  assert (P0 : post' = []).
  { destruct post' as [|a post']; auto. destruct (split_bounds f beg en l Hla Hal HT _ _ _ E') as (S1 & _ & _ & S3 & S4 & _). clear - S1 S3 S4 G. lia. }
  subst post'. rewrite app_nil_r in E'. subst pre'.
  destruct (split_bounds f beg en l Hla Hal HT _ _ _ E) as (S1 & SM & S2 & S3 & S4 & S5 & BL & BH).
  unfold walk. rewrite ER. cbn [bind]. rewrite (rdown_same beg _ AP Hal).
  assert (ST : Z.shiftr (match rb with Some b => b | None => beg end - beg) (la f) = bit_of f beg e).
  { rewrite shiftr_align by auto. unfold bit_of. destruct Hrb as [->|(-> & ->)]; auto. cbn in S1. rewrite S1. auto. }
  rewrite ST.
  assert (CS : count_set (bits s1) (bit_of f beg e) = length p1).
  { rewrite B', E, map_app, count_split; [apply map_length| |].
    - intros b Hb. apply in_map_iff in Hb. destruct Hb as (z & <- & Iz). auto.
    - intros b [<-|Hb]; [lia|]. apply in_map_iff in Hb. destruct Hb as (z & <- & Iz). specialize (BH _ Iz). clear - BH. lia. }
  rewrite CS.
  rewrite (walk_loop_ok f beg en l Hla Hal HT Hsz s1 cb l B' Ti ty) with (p1 := p1) (p2 := p2).
  - destruct (deliver cb (expect (Z.of_nat (length p1)) (e :: p2))) as (a, r). cbn. eauto.
  - intros z Iz. rewrite Forall_forall in HU. apply HU. auto.
  - auto.
  - intros W. destruct (mwidths f) as [w|] eqn:EW; [|easy]. rewrite M', E, (flat_nth f w) by auto.
    assert (FE : fits f e). { eapply Forall_forall; [exact HF|]. rewrite E. apply in_or_app. right. left. auto. }
    destruct (entry_back f beg en Hla Hal Hsz w e EW FE SM S3) as (ti & na & d & EE & ET & _ & ED). rewrite EE. cbn [hd].
    assert (K : tight f e) by (eapply Forall_forall; [exact Ti|rewrite E; apply in_or_app; right; left; auto]). unfold tight in K.
    exists ti, na. split. { f_equal. f_equal. clear - ED K. lia. }
    rewrite ET. f_equal. rewrite Forall_forall in HU. apply HU. rewrite E. apply in_or_app. right. left. auto.
  - exact E.
  - intros a Ia. rewrite E. apply in_or_app. right. exact Ia.
  - rewrite B', map_length, E, app_length. cbn. lia.
Qed.

(* ---- strings ---- *)
(* [e] is a string of memory [m]: no null but perhaps the last byte; one unless at the end *)
Definition is_string (m : Z -> Z) (en : Z) (e : el) : Prop :=
  l_type e = 1 /\ (forall i, 0 <= i < l_size e - 1 -> m (l_start e + i) <> 0) /\
  (m (l_start e + l_size e - 1) = 0 \/ l_start e + l_size e = en).

Lemma str_len_spec m en : forall k pos, Z.of_nat k = en - pos -> 0 < en - pos ->
  0 < str_len k m pos en /\ pos + str_len k m pos en <= en /\ (forall i, 0 <= i < str_len k m pos en - 1 -> m (pos + i) <> 0) /\
  (m (pos + str_len k m pos en - 1) = 0 \/ pos + str_len k m pos en = en).
Proof.
  induction k as [|k IH]; intros pos Hk P; [lia|]. cbn [str_len].
  destruct (pos =? en) eqn:E; [lia|]. destruct (m pos =? 0) eqn:N.
  { split; [lia|]. split; [lia|]. split; [intros; lia|]. left. replace (pos + 1 - 1) with pos by lia. lia. }
  destruct (Z.eq_dec (en - pos) 1) as [E1|E1].
  { assert (k = 0%nat) by lia. subst k. cbn. split; [lia|]. split; [lia|]. split; [intros; lia|right; lia]. }
  destruct (IH (pos + 1)) as (A & B & C & D); [lia|lia|].
  split; [lia|]. split; [lia|]. split.
  - intros i Hi. destruct (Z.eq_dec i 0) as [->|Ni]; [rewrite Z.add_0_r; lia|]. replace (pos + i) with (pos + 1 + (i - 1)) by lia. apply C. lia.
  - destruct D as [D|D]; [left|right; lia]. replace (pos + (1 + str_len k m (pos + 1) en) - 1) with (pos + 1 + str_len k m (pos + 1) en - 1) by lia. auto.
Qed.

Lemma rup1 a : rup a 1 = a.
Proof. unfold rup. rewrite Z.div_1_r. lia. Qed.
(* every range of memory is a sequence of strings *)
Theorem strings_tile : forall m beg en, beg <= en ->
  exists l, tile (string8 m en) beg en l /\ Forall (is_string m en) l /\ Forall (tight (string8 m en)) l.
Proof.
  intros m beg en. remember (Z.to_nat (en - beg)) as n eqn:En. revert beg En.
  induction n as [n IH] using lt_wf_ind. intros beg En H.
  destruct (Z.eq_dec beg en) as [->|N].
  { exists []. cbn. unfold enum_string8. rewrite Z.eqb_refl. repeat split; auto; lia. }
  destruct (str_len_spec m en (Z.to_nat (en - beg)) beg ltac:(lia) ltac:(lia)) as (A & B & C & D).
  set (k := str_len (Z.to_nat (en - beg)) m beg en) in *.
  assert (NX : nextpos (string8 m en) (mkEl beg k 1) = beg + k) by (apply rup1).
  destruct (IH (Z.to_nat (en - (beg + k))) ltac:(lia) (beg + k) eq_refl B) as (l & T & F1 & F2).
  exists (mkEl beg k 1 :: l). split; [|split].
  - cbn [tile l_start l_size l_type]. split; [auto|]. split. { cbn. unfold enum_string8. destruct (beg =? en) eqn:E; [lia|]. reflexivity. }
    split; [lia|]. split; [lia|]. rewrite NX. auto.
  - constructor; auto. repeat split; auto.
  - constructor; auto.
Qed.

(* C33: walking a non-empty range of strings visits exactly its strings, in order, whatever was
   walked before *)
Theorem packed_walk_strings : forall dbg m beg en h s cb, beg < en -> en - beg < 2 ^ 31 ->
  Forall (legal beg en) h -> prun dbg (string8 m en) beg en seq0 h = Ok s ->
  exists l s', tile (string8 m en) beg en l /\ Forall (is_string m en) l /\
    walk dbg (string8 m en) beg en s None None cb = Ok (s', deliver cb (expect 0 l)).
Proof.
  intros dbg m beg en h s cb H1 H2 HL R. destruct (strings_tile m beg en ltac:(lia)) as (l & T & F1 & F2).
  destruct l as [|e l]; [cbn in T; lia|].
  destruct (packed_walk_partial dbg (string8 m en) beg en (e :: l) h s None cb 1 [] e l) as (s' & W); auto.
  - cbn. lia.
  - cbn. apply Z.mod_1_r.
  - lia.
  - apply Forall_forall. intros. exact Logic.I.
  - apply Forall_forall. intros a Ia. rewrite Forall_forall in F1. apply F1. auto.
  - exists (e :: l), s'. auto.
Qed.

(* C33, false: no query for an address in a range of strings is ever answered *)
Theorem packed_string_query_never : forall dbg m beg en h s x, beg <= x < en -> en - beg < 2 ^ 31 ->
  Forall (legal beg en) h -> prun dbg (string8 m en) beg en seq0 h = Ok s ->
  get_info dbg (string8 m en) beg en s x = UB.
Proof.
  intros dbg m beg en h s x Hx H2 HL R. destruct (strings_tile m beg en ltac:(lia)) as (l & T & F1 & F2).
  assert (Hla : 0 <= la (string8 m en)) by (cbn; lia). assert (Hal : beg mod align (string8 m en) = 0) by apply Z.mod_1_r.
  assert (Hsz : 0 <= en - beg < 2 ^ 31) by lia.
  destruct (prun_cached dbg _ beg en l Hla Hal T Hsz h _ _ _ _ (cachedto0 _ beg l) HL R) as (p & q & CT).
  assert (HO : 0 <= x - beg + 1 <= en - beg) by (clear - Hx; lia).
  destruct (ensure_runs dbg _ beg en l Hla Hal T Hsz _ _ _ _ CT HO F2) as (s1 & ER).
  destruct (ensure_cached dbg _ beg en l Hla Hal T Hsz _ _ _ _ _ CT HO ER) as (pre' & post' & CT' & G).
  unfold get_info.
  assert (XM : (x - beg) mod W32 = x - beg). { change W32 with 4294967296. change (2 ^ 31) with 2147483648 in Hsz. clear - Hx Hsz. lia. }
  rewrite XM, ER. cbn [bind]. destruct CT' as (E' & B' & _).
  destruct pre' as [|e pre']; [cbn in G; clear - G Hx; lia|].
  assert (El : l = [] ++ e :: (pre' ++ post')) by (rewrite E'; auto).
  destruct (split_bounds _ beg en l Hla Hal T _ _ _ El) as (S1 & _). cbn in S1.
  rewrite (rdown_same beg _ (align_pos _ Hla) Hal). replace (beg + (x - beg) - beg) with (x - beg) by lia.
  assert (RF : exists b, rfind_leq (bits s1) (Z.shiftr (x - beg) (la (string8 m en))) = Some b).
  { rewrite B'. cbn [map]. unfold bit_of at 1. rewrite S1, Z.sub_diag.
    change (align (string8 m en)) with 1. rewrite Z.div_1_r. cbn [la string8]. rewrite Z.shiftr_0_r.
    unfold rfind_leq. cbn [fold_left]. destruct (0 <=? x - beg) eqn:LE; [|lia].
    generalize (map (bit_of (string8 m en) beg) pre') as lz. generalize 0 as z. intros z lz. revert z.
    induction lz as [|a lz IH]; intros z; cbn [fold_left]; eauto. destruct (a <=? x - beg); apply IH. }
  destruct RF as (b & ->). reflexivity.
Qed.

(* ---- cases in which C33 fails ---- *)
Module PkEx.
Definition mem (s : list Z) (a : Z) : Z := nth (Z.to_nat (a - 1000)) s 0.
(* "ab", "c", "def" at 1000 *)
Definition strs := mem [97; 98; 0; 99; 0; 100; 101; 102; 0].
Definition all (_ : visit) : Z := 0.
Definition visits (r : res (seq * (list visit * Z))) := match r with Ok (_, (vs, _)) => Some (map (fun v => (v_obj v, v_size v, v_coord v)) vs) | _ => None end.
(* records of 16 bits; elements of 8 and 24 bytes of types 7 and 9 *)
Definition two (pos : Z) : option (Z * Z) := if pos =? 1024 then Some (8, 7) else if pos =? 1032 then Some (24, 9) else None.
Definition twofam := mkFam 3 rec16 [7; 9] two.
Definition ans {A} (r : res (seq * option A)) := match r with Ok (_, a) => a | _ => None end.
End PkEx.
Import PkEx.

Example packed_query_ex : ans (get_info true twofam 1024 1056 seq0 1040) = Some (9, 1032, 24) /\
  ans (get_info true twofam 1024 1056 seq0 1031) = Some (7, 1024, 8).
Proof. vm_compute. auto. Qed.
Example packed_query_hyp : tile twofam 1024 1056 [mkEl 1024 8 7; mkEl 1032 24 9] /\
  Forall (fits twofam) [mkEl 1024 8 7; mkEl 1032 24 9] /\ Forall (tight twofam) [mkEl 1024 8 7; mkEl 1032 24 9].
Proof.
  split; [cbn; repeat split; try reflexivity; vm_compute; congruence|]. split.
  - repeat constructor; cbn -[rup Z.mul]; try lia; try (vm_compute; congruence); [exists 0%nat | exists 1%nat]; split; auto; vm_compute; lia.
  - repeat constructor.
Qed.
Example packed_walk_ex : visits (walk true (string8 strs 1009) 1000 1009 seq0 None None all) = Some [(1000, 3, 1); (1003, 2, 2); (1005, 4, 3)].
Proof. vm_compute. auto. Qed.
Example packed_walk_hyp : exists l, tile (string8 strs 1009) 1000 1009 l /\ length l = 3%nat.
Proof. exists [mkEl 1000 3 1; mkEl 1003 2 1; mkEl 1005 4 1]. split; auto. cbn. repeat split; try reflexivity; vm_compute; congruence. Qed.

(* a walk bounded above gives its last element the rest of the sequence: here "ab" is given 9 bytes *)
Theorem packed_walk_range_refuted : exists m beg en re,
  beg <= re <= en /\ visits (walk true (string8 m en) beg en seq0 None (Some re) all) = Some [(beg, en - beg, 1)] /\
  enum (string8 m en) beg = Some (3, 1) /\ en - beg = 9.
Proof. exists strs, 1000, 1009, 1003. vm_compute. repeat split; auto; congruence. Qed.
(* a walk from inside an element visits the rest of it as if it were an element, numbered as the next *)
Theorem packed_walk_inside_refuted : exists m beg en rb,
  beg <= rb <= en /\ visits (walk true (string8 m en) beg en seq0 (Some rb) None all) = Some [(1001, 2, 2); (1003, 2, 3); (1005, 4, 4)] /\ rb = 1001.
Proof. exists strs, 1000, 1009, 1001. vm_compute. repeat split; auto; congruence. Qed.
(* a walk of an empty sequence visits an element *)
Theorem packed_walk_empty_refuted : exists m beg, visits (walk true (string8 m beg) beg beg seq0 None None all) = Some [(beg, 0, 1)].
Proof. exists strs, 1000. vm_compute. auto. Qed.
(* where elements have records, a walk gives every element the first one's type *)
Theorem packed_walk_type_refuted : exists f beg en,
  match walk true f beg en seq0 None None all with Ok (_, (vs, _)) => map (fun v => (v_obj v, v_type v)) vs | _ => [] end = [(1024, 7); (1032, 7)] /\
  enum f 1032 = Some (24, 9).
Proof. exists twofam, 1024, 1056. vm_compute. auto. Qed.
(* a query for a string is undefined *)
Theorem packed_string_query_refuted : exists m beg en x, beg <= x < en /\ get_info true (string8 m en) beg en seq0 x = UB.
Proof. exists strs, 1000, 1009, 1000. vm_compute. repeat split; congruence. Qed.
(* an element of 512 units is given size 0 if records are of 16 bits *)
Theorem packed_size_refuted : exists f en, ans (get_info true f 0 en seq0 5) = Some (7, 0, 0) /\ enum f 0 = Some (512, 7) /\ mwidths f = rec16.
Proof. exists (mkFam 0 rec16 [7] (fun p => if p =? 0 then Some (512, 7) else None)), 512. vm_compute. auto. Qed.
(* a first element that is not aligned is given a start below the sequence *)
Theorem packed_unaligned_refuted : exists f beg en b sz, ans (get_info true f beg en seq0 beg) = Some (7, b, sz) /\ b < beg.
Proof. exists (mkFam 3 rec16 [7] (fun p => if p =? 1028 then Some (12, 7) else None)), 1028, 1040, 1024, 8. vm_compute. auto. Qed.
(* with padding, caching may set a bit beyond the bitmap: here bit 64 of a bitmap of one word *)
Theorem packed_overflow_refuted : exists f beg en x e1 e2, tile f beg en [e1; e2] /\ Forall (fits f) [e1; e2] /\ beg mod align f = 0 /\ beg <= x < en /\
  get_info true f beg en seq0 x = UB.
Proof.
  exists (mkFam 3 rec16 [7] (fun p => if p =? 1024 then Some (505, 7) else if p =? 1536 then Some (24, 7) else None)), 1024, 1560, (1024 + 509), (mkEl 1024 505 7), (mkEl 1536 24 7).
  split; [cbn; repeat split; try reflexivity; vm_compute; congruence|].
  split; [repeat constructor; cbn -[rup Z.mul]; try lia; try (vm_compute; congruence); exists 0%nat; split; auto; vm_compute; lia|].
  vm_compute. repeat split; congruence.
Qed.
(* an element whose type the family does not list makes the query read outside the table of types *)
Theorem packed_type_refuted : exists f en, get_info true f 0 en seq0 0 = UB /\ enum f 0 = Some (8, 9) /\ types f = [7].
Proof. exists (mkFam 0 rec32 [7] (fun p => if p =? 0 then Some (8, 9) else None)), 8. vm_compute. auto. Qed.

Print Assumptions packed_query_right.
Print Assumptions packed_query_partial.
Print Assumptions packed_walk_partial.
Print Assumptions packed_walk_strings.
Print Assumptions packed_string_query_never.
