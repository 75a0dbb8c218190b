(* Proofs about mapping over part of a sequence. *)
From Verif Require Import Base Big_model Map_model Map_spec Big_field Map_seq.

Lemma list_last {A} (l : list A) : l <> [] -> exists l' x, l = l' ++ [x].
Proof. intro H. destruct (exists_last H) as (l' & x & ->). eauto. Qed.

Section Replace.
  Context (b x : Z) (P Q : entry -> Prop).
  Hypothesis QP : forall z, Q z -> P z.
  Hypothesis Qbb : forall z, Q z -> Q (e_w_begin z b).
  Hypothesis Qeb : forall z, Q z -> Q (e_w_end z b).
  Hypothesis Qbx : forall z, Q z -> Q (e_w_begin z x).
  Hypothesis Qex : forall z, Q z -> Q (e_w_end z x).

  (* the state after the front split *)
  Lemma front q A m0 M1 C R : q_maps q = A ++ (m0 :: M1) ++ C ++ R -> length (q_maps q) = MAXLEN ->
    q_nused q = (length A + S (length M1) + length C)%nat -> (q_nused q < MAXLEN)%nat ->
    Q m0 -> (forall z, In z (q_maps q) -> P z) ->
    exists R', (do q1 <- copy_right q (length A) 1 ;
                do l1 <- store (q_maps q1) (length A) (e_w_end (slot (q_maps q1) (length A)) b) ;
                do l2 <- store l1 (S (length A)) (e_w_begin (slot l1 (S (length A))) b) ;
                Ok (w_maps q1 l2)) =
               Ok (w_used q (S (q_nused q)) ((A ++ [e_w_end m0 b]) ++ (e_w_begin m0 b :: M1) ++ C ++ R')) /\
      length ((A ++ [e_w_end m0 b]) ++ (e_w_begin m0 b :: M1) ++ C ++ R') = MAXLEN /\
      (forall z, In z R' -> P z).
  Proof.
    intros Hm L U N Qm PP.
    destruct (copy_right_spec q A m0 (M1 ++ C) R) as (R' & E & L' & IR).
    - rewrite Hm. cbn. rewrite <- app_assoc. reflexivity.
    - exact L.
    - rewrite app_length. lia.
    - exact N.
    - exists R'. rewrite E. cbn [bind w_used q_maps]. rewrite <- app_assoc in *. rewrite slot_app.
      rewrite store_app by exact L'. cbn [bind].
      replace (A ++ e_w_end m0 b :: m0 :: M1 ++ C ++ R') with ((A ++ [e_w_end m0 b]) ++ m0 :: M1 ++ C ++ R')
        by (rewrite <- app_assoc; reflexivity).
      replace (S (length A)) with (length (A ++ [e_w_end m0 b])) by (rewrite app_length; cbn; lia).
      rewrite slot_app. rewrite app_length in L'. cbn [length] in L'.
      rewrite store_app by (rewrite !app_length in *; cbn [length] in *; rewrite ?app_length in *; lia).
      cbn [bind]. split; [unfold w_maps, w_used; reflexivity|]. split.
      + rewrite !app_length in *; cbn [length] in *; rewrite ?app_length in *; lia.
      + intros z Hz. apply PP, IR, Hz.
  Qed.

  Lemma back q A M1 ml C R : q_maps q = A ++ (M1 ++ [ml]) ++ C ++ R -> length (q_maps q) = MAXLEN ->
    q_nused q = (length A + S (length M1) + length C)%nat -> (q_nused q < MAXLEN)%nat ->
    (forall z, In z R -> P z) -> (forall z, In z (q_maps q) -> P z) ->
    let lo := (length A + length M1)%nat in
    exists R', (do q2 <- copy_right q lo 1 ;
                do l1 <- store (q_maps q2) (S lo) (e_w_begin (slot (q_maps q2) (S lo)) x) ;
                do l2 <- store l1 lo (e_w_end (slot l1 lo) x) ;
                Ok (w_maps q2 l2)) =
               Ok (w_used q (S (q_nused q)) (A ++ (M1 ++ [e_w_end ml x]) ++ (e_w_begin ml x :: C) ++ R')) /\
      length (A ++ (M1 ++ [e_w_end ml x]) ++ (e_w_begin ml x :: C) ++ R') = MAXLEN /\
      (forall z, In z R' -> P z).
  Proof.
    intros Hm L U N PR PP lo.
    assert (LO : lo = length (A ++ M1)) by (rewrite app_length; reflexivity). clearbody lo. subst lo.
    destruct (copy_right_spec q (A ++ M1) ml C R) as (R' & E & L' & IR).
    - rewrite Hm, <- !app_assoc. reflexivity.
    - exact L.
    - rewrite app_length. lia.
    - exact N.
    - exists R'. rewrite E. cbn [bind w_used q_maps].
      replace ((A ++ M1) ++ ml :: ml :: C ++ R') with (((A ++ M1) ++ [ml]) ++ ml :: C ++ R') by (rewrite <- app_assoc; reflexivity).
      replace (S (length (A ++ M1))) with (length ((A ++ M1) ++ [ml])) by (rewrite (app_length (A ++ M1)); cbn; lia).
      rewrite slot_app. rewrite app_length in L'. cbn [length] in L'.
      rewrite store_app by (rewrite app_length; cbn [length]; rewrite (app_length (A ++ M1)); cbn [length]; lia). cbn [bind].
      replace (((A ++ M1) ++ [ml]) ++ e_w_begin ml x :: C ++ R') with ((A ++ M1) ++ ml :: e_w_begin ml x :: C ++ R') by (rewrite <- !app_assoc; reflexivity).
      rewrite slot_app. rewrite store_app by (rewrite app_length; cbn [length]; lia). cbn [bind].
      assert (EL : (A ++ M1) ++ e_w_end ml x :: e_w_begin ml x :: C ++ R' =
                   A ++ (M1 ++ [e_w_end ml x]) ++ (e_w_begin ml x :: C) ++ R') by (rewrite <- !app_assoc; reflexivity).
      rewrite EL. split; [unfold w_maps, w_used; reflexivity|]. split.
      + rewrite <- EL, app_length. cbn [length]. lia.
      + intros z Hz. apply PP, IR, Hz.
  Qed.

  Lemma replace_span_spec q A M C R (bpart epart : bool) e m0 ml : q_maps q = A ++ M ++ C ++ R -> length (q_maps q) = MAXLEN ->
    q_nused q = (length A + length M + length C)%nat ->
    (exists M1, M = m0 :: M1) -> (exists M2, M = M2 ++ [ml]) ->
    (q_nused q + (if bpart then 1 else 0) + (if epart then 1 else 0) <= MAXLEN)%nat ->
    (forall z, In z M -> Q z) -> (forall z, In z (q_maps q) -> P z) -> P e ->
    exists q', replace_span q (length A) (length A + length M - 1) bpart epart b x e = Ok (q', true) /\
      used q' = A ++ (if bpart then [e_w_end m0 b] else []) ++ e :: (if epart then [e_w_begin ml x] else []) ++ C /\
      q_begin q' = q_begin q /\ q_end q' = q_end q /\ q_file q' = q_file q /\ length (q_maps q') = MAXLEN /\
      q_nused q' = length (A ++ (if bpart then [e_w_end m0 b] else []) ++ e :: (if epart then [e_w_begin ml x] else []) ++ C) /\
      (forall z, In z (q_maps q') -> P z).
  Proof.
    intros Hm L U (M1 & EM1) (M2 & EM2) Room QM PP Pe. unfold replace_span.
    replace (Nat.ltb (MAXLEN - q_nused q) ((if bpart then 1 else 0) + (if epart then 1 else 0))) with false
      by (destruct bpart, epart; cbn [Nat.add] in *; lia).
    (* front *)
    set (bp := if bpart then [e_w_end m0 b] else []).
    set (m0' := if bpart then e_w_begin m0 b else m0).
    assert (F : exists R1, (if bpart then
       do q1 <- copy_right q (length A) 1 ;
       do l1 <- store (q_maps q1) (length A) (e_w_end (slot (q_maps q1) (length A)) b) ;
       do l2 <- store l1 (S (length A)) (e_w_begin (slot l1 (S (length A))) b) ;
       Ok (w_maps q1 l2, S (length A), S (length A + length M - 1))
     else Ok (q, length A, (length A + length M - 1)%nat)) =
       Ok (w_used q (q_nused q + length bp) ((A ++ bp) ++ (m0' :: M1) ++ C ++ R1), length (A ++ bp), (length (A ++ bp) + length M - 1)%nat) /\
       length ((A ++ bp) ++ (m0' :: M1) ++ C ++ R1) = MAXLEN /\ (forall z, In z R1 -> P z)).
    { unfold bp, m0'. assert (QM0 : Q m0) by (apply QM; rewrite EM1; left; reflexivity).
      destruct bpart.
      - destruct (front q A m0 M1 C R) as (R1 & E & L1 & PR); try assumption.
        + rewrite Hm, EM1. reflexivity.
        + rewrite U, EM1. reflexivity.
        + destruct epart; lia.
        + exists R1. split; [|auto]. revert E.
          destruct (copy_right q (length A) 1) as [q1| | |]; cbn [bind]; try discriminate.
          destruct (store (q_maps q1) _ _) as [l1| | |]; cbn [bind]; try discriminate.
          destruct (store l1 _ _) as [l2| | |]; cbn [bind]; try discriminate.
          intro E. apply (f_equal (fun r => match r with Ok v => v | _ => q end)) in E. cbv beta iota in E. rewrite E. rewrite EM1. cbn [length]. rewrite app_length. cbn [length].
          f_equal. f_equal; [f_equal; [|lia]|lia]. replace (S (q_nused q)) with (q_nused q + 1)%nat by lia. reflexivity.
      - exists R. rewrite app_nil_r. cbn [length]. rewrite Nat.add_0_r. split; [|split].
        + f_equal. f_equal. f_equal. rewrite <- EM1, <- Hm. destruct q; reflexivity.
        + rewrite <- EM1, <- Hm. exact L.
        + intros z Hz. apply PP. rewrite Hm, !in_app_iff. auto. }
    destruct F as (R1 & E & L1 & PR1). rewrite E. cbn [bind]. clear E.
    set (A' := A ++ bp) in *. set (q1 := w_used q (q_nused q + length bp) (A' ++ (m0' :: M1) ++ C ++ R1)).
    set (ml' := match M2 with [] => m0' | _ => ml end).
    set (M2' := match M2 with [] => [] | _ :: t => m0' :: t end).
    assert (EM : m0' :: M1 = M2' ++ [ml']).
    { unfold M2', ml'. destruct M2 as [|z t]; cbn in *.
      - rewrite EM1 in EM2. injection EM2 as _ ->. reflexivity.
      - rewrite EM1 in EM2. injection EM2 as _ ->. reflexivity. }
    assert (LM : length M2' = (length M - 1)%nat).
    { apply (f_equal (@length _)) in EM. rewrite app_length in EM. cbn in EM. rewrite EM1. cbn. lia. }
    assert (LM1 : length M = S (length M1)) by (rewrite EM1; reflexivity).
    assert (QM0' : Q m0').
    { unfold m0'. assert (Q m0) by (apply QM; rewrite EM1; left; reflexivity). destruct bpart; auto. }
    assert (Qml : Q ml) by (apply QM; rewrite EM2; apply in_app_iff; right; left; reflexivity).
    assert (Qml' : Q ml') by (unfold ml'; destruct M2; auto).
    assert (Bml : e_w_begin ml' x = e_w_begin ml x).
    { unfold ml', m0'. destruct M2; [|reflexivity]. rewrite EM1 in EM2. injection EM2 as -> _. destruct bpart; reflexivity. }
    assert (PP1 : forall z, In z (A' ++ (m0' :: M1) ++ C ++ R1) -> P z).
    { intros z Hz. unfold A' in Hz. rewrite !in_app_iff in Hz. destruct Hz as [[Hz|Hz]|[[Hz|Hz]|[Hz|Hz]]].
      - apply PP. rewrite Hm, !in_app_iff. auto.
      - unfold bp in Hz. destruct bpart; [|destruct Hz]. destruct Hz as [<-|[]]. apply QP, Qeb, QM. rewrite EM1. left. reflexivity.
      - subst z. apply QP, QM0'.
      - apply PP. rewrite Hm, !in_app_iff, EM1. right. left. right. exact Hz.
      - apply PP. rewrite Hm, !in_app_iff. auto.
      - apply PR1, Hz. }
    set (ep := if epart then [e_w_begin ml x] else []).
    assert (G : exists M3 R2, (if epart then
       do q2 <- copy_right q1 (length A' + length M - 1) 1 ;
       do l1 <- store (q_maps q2) (S (length A' + length M - 1)) (e_w_begin (slot (q_maps q2) (S (length A' + length M - 1))) x) ;
       do l2 <- store l1 (length A' + length M - 1) (e_w_end (slot l1 (length A' + length M - 1)) x) ;
       Ok (w_maps q2 l2)
     else Ok q1) = Ok (w_used q (q_nused q + length bp + length ep) (A' ++ M3 ++ (ep ++ C) ++ R2)) /\
       length M3 = length M /\ length (A' ++ M3 ++ (ep ++ C) ++ R2) = MAXLEN /\
       (forall z, In z (A' ++ M3 ++ (ep ++ C) ++ R2) -> P z)).
    { unfold ep. destruct epart.
      - destruct (back q1 A' M2' ml' C R1) as (R2 & E & L2 & PR2); try assumption.
        + unfold q1. cbn [w_used q_maps]. rewrite EM. reflexivity.
        + unfold q1. cbn [w_used q_nused]. unfold A'. rewrite app_length. lia.
        + unfold q1. cbn [w_used q_nused]. unfold bp. destruct bpart; cbn [length]; lia.
        + replace (length A' + length M - 1)%nat with (length A' + length M2')%nat by lia.
          exists (M2' ++ [e_w_end ml' x]), R2. rewrite E. rewrite Bml in *. split; [|split; [|split]].
          * f_equal. unfold w_used, q1, w_used. cbn. f_equal. lia.
          * rewrite app_length. cbn [length]. lia.
          * exact L2.
          * intros z Hz. rewrite !in_app_iff in Hz. destruct Hz as [Hz|[[Hz|Hz]|[[Hz|Hz]|Hz]]].
            -- apply PP1. rewrite in_app_iff. auto.
            -- apply PP1. rewrite EM, !in_app_iff. auto.
            -- destruct Hz as [<-|[]]. apply QP, Qex, Qml'.
            -- destruct Hz as [<-|[]]. apply QP, Qbx, Qml.
            -- apply PP1. rewrite !in_app_iff. auto.
            -- apply PR2, Hz.
      - exists (m0' :: M1), R1. split; [|split; [|split]].
        + f_equal. unfold q1. cbn [length app]. rewrite Nat.add_0_r. reflexivity.
        + rewrite EM1. reflexivity.
        + exact L1.
        + exact PP1. }
    destruct G as (M3 & R2 & E & L3 & L2 & PP2). rewrite E. cbn [bind]. clear E.
    set (q2 := w_used q (q_nused q + length bp + length ep) (A' ++ M3 ++ (ep ++ C) ++ R2)).
    destruct M3 as [|z M3]; [cbn in L3; lia|]. cbn [length] in L3.
    assert (H : exists R3, (if Nat.ltb (length A') (length A' + length M - 1) then copy_left q2 (S (length A' + length M - 1)) (length A' + length M - 1 - length A') else Ok q2) =
       Ok (w_used q (length A' + 1 + length ep + length C) (A' ++ z :: (ep ++ C) ++ R3)) /\ length (A' ++ z :: (ep ++ C) ++ R3) = MAXLEN /\
       (forall z, In z R3 -> P z)).
    { destruct (Nat.ltb_spec (length A') (length A' + length M - 1)).
      - destruct (copy_left_spec q2 (A' ++ [z]) M3 (ep ++ C) R2) as (R3 & E & LL & IR).
        + unfold q2. cbn [w_used q_maps]. rewrite <- !app_assoc. reflexivity.
        + exact L2.
        + unfold q2. cbn [w_used q_nused]. unfold A'. rewrite !app_length. cbn [length]. lia.
        + rewrite app_length in E. cbn [length] in E.
          replace (S (length A' + length M - 1)) with (length A' + 1 + length M3)%nat by lia.
          replace (length A' + length M - 1 - length A')%nat with (length M3) by lia.
          exists R3. rewrite E. split; [|split].
          * f_equal. unfold w_used, q2, w_used. cbn. f_equal; [rewrite app_length; lia|rewrite <- !app_assoc; reflexivity].
          * rewrite <- LL. f_equal. rewrite <- !app_assoc. reflexivity.
          * intros y Hy. apply PP2. apply IR in Hy. exact Hy.
      - destruct M3; [|cbn in L3; lia]. exists R2. split; [|split].
        + f_equal. unfold q2. cbn [app]. f_equal. unfold A'. rewrite app_length. cbn [length] in *. lia.
        + exact L2.
        + intros y Hy. apply PP2. cbn [app]. rewrite in_app_iff. right. right. rewrite in_app_iff. right. exact Hy. }
    destruct H as (R3 & E & L4 & PR3). rewrite E. cbn [bind w_used q_maps]. clear E.
    rewrite store_app by exact L4. cbn [bind]. eexists. split; [reflexivity|]. unfold w_maps. cbn [w_used q_begin q_end q_file q_nused q_maps].
    assert (EL : A' ++ e :: (ep ++ C) ++ R3 = (A ++ bp ++ e :: ep ++ C) ++ R3).
    { unfold A'. rewrite <- !app_assoc. cbn [app]. rewrite <- !app_assoc. reflexivity. }
    assert (LL : (length A' + 1 + length ep + length C)%nat = length (A ++ bp ++ e :: ep ++ C)).
    { unfold A'. rewrite !app_length. cbn [length]. rewrite app_length. lia. }
    split; [unfold used; cbn [q_nused q_maps]; rewrite EL; apply firstn_app_l; symmetry; exact LL|].
    split; [reflexivity|]. split; [reflexivity|]. split; [reflexivity|]. split; [|split; [exact LL|]].
    - rewrite app_length in L4 |- *. cbn [length] in *. exact L4.
    - intros y Hy. rewrite in_app_iff in Hy. destruct Hy as [Hy|[<-|Hy]]; [| exact Pe|].
      + apply PP1. rewrite in_app_iff. auto.
      + rewrite in_app_iff in Hy. destruct Hy as [Hy|Hy]; [|apply PR3, Hy].
        apply PP2. rewrite !in_app_iff. right. right. left. rewrite <- in_app_iff. exact Hy.
  Qed.
End Replace.

(* ---- locating the overlapped entries ---- *)
Lemma first_split (f : entry -> bool) l : (exists z, In z l /\ f z = true) ->
  exists A m R, l = A ++ m :: R /\ f m = true /\ forall z, In z A -> f z = false.
Proof.
  induction l as [|y l IH]; intros (z & Hz & Fz); [destruct Hz|].
  destruct (f y) eqn:Fy.
  - exists [], y, l. split; [reflexivity|]. split; [auto|]. intros ? [].
  - destruct IH as (A & m & R & -> & Fm & FA).
    { exists z. destruct Hz as [->|Hz]; [congruence|auto]. }
    exists (y :: A), m, R. split; [reflexivity|]. split; [auto|]. intros w [<-|Hw]; auto.
Qed.
Lemma last_split (f : entry -> bool) l : (exists z, In z l /\ f z = true) ->
  exists M m C, l = M ++ m :: C /\ f m = true /\ forall z, In z C -> f z = false.
Proof.
  intros (z & Hz & Fz). destruct (first_split f (rev l)) as (A & m & R & E & Fm & FA).
  { exists z. rewrite <- in_rev. auto. }
  exists (rev R), m, (rev A). split; [|split; [auto|]].
  - rewrite <- (rev_involutive l), E, rev_app_distr. cbn. rewrite <- app_assoc. reflexivity.
  - intros w Hw. apply FA. rewrite in_rev. exact Hw.
Qed.

Lemma first_overlapped_at b x A : forall fuel P m R, (length A < fuel)%nat ->
  OVERLAPS (e_begin m) (e_end m) b x = true ->
  (forall z, In z A -> OVERLAPS (e_begin z) (e_end z) b x = false) ->
  first_overlapped fuel (P ++ A ++ m :: R) (length P) b x = Ok (length P + length A)%nat.
Proof.
  induction A as [|z A IH]; intros fuel P m R F Om OA; (destruct fuel as [|f]; [lia|]); cbn [first_overlapped app].
  - rewrite slot_app, Om. cbn. f_equal. lia.
  - rewrite slot_app, (OA z (or_introl eq_refl)).
    replace (P ++ z :: A ++ m :: R) with ((P ++ [z]) ++ A ++ m :: R) by (rewrite <- app_assoc; reflexivity).
    replace (S (length P)) with (length (P ++ [z])) by (rewrite app_length; cbn; lia).
    rewrite IH; [|cbn in F; lia|exact Om|intros w Hw; apply OA; right; exact Hw].
    f_equal. rewrite app_length. cbn. lia.
Qed.
Lemma last_overlapped_at b x C : forall P m R,
  OVERLAPS (e_begin m) (e_end m) b x = true ->
  (forall z, In z C -> OVERLAPS (e_begin z) (e_end z) b x = false) ->
  last_overlapped (P ++ m :: C ++ R) (length P + S (length C)) b x = Ok (length P).
Proof.
  induction C as [|z C IH] using rev_ind; intros P m R Om OC.
  - cbn [length]. rewrite Nat.add_1_r. cbn [last_overlapped app]. rewrite slot_app, Om. reflexivity.
  - rewrite app_length. cbn [length]. replace (length P + S (length C + 1))%nat with (S (length P + S (length C))) by lia.
    cbn [last_overlapped].
    assert (E : P ++ m :: (C ++ [z]) ++ R = (P ++ m :: C) ++ z :: R) by (rewrite <- !app_assoc; cbn; rewrite <- ?app_assoc; reflexivity).
    assert (SL : slot (P ++ m :: (C ++ [z]) ++ R) (length P + S (length C)) = z).
    { rewrite E. replace (length P + S (length C))%nat with (length (P ++ m :: C)) by (rewrite app_length; reflexivity). apply slot_app. }
    rewrite SL, (OC z) by (apply in_app_iff; right; left; reflexivity).
    replace (P ++ m :: (C ++ [z]) ++ R) with (P ++ m :: C ++ z :: R) by (rewrite <- app_assoc; reflexivity).
    apply IH; [exact Om|]. intros w Hw. apply OC. apply in_app_iff. left. exact Hw.
Qed.

Section Over.
  Context (obj_of : Z -> Z).

  (* the entries overlapped by [b,x) *)
  Lemma overlapped q b x : seq_ok q -> q_begin q <= b -> b < x -> x <= q_end q ->
    exists A M C m0 ml, used q = A ++ M ++ C /\ (exists M1, M = m0 :: M1) /\ (exists M2, M = M2 ++ [ml]) /\
      first_overlapped (S MAXLEN) (q_maps q) 0 b x = Ok (length A) /\
      last_overlapped (q_maps q) (q_nused q) b x = Ok (length A + length M - 1)%nat /\
      chain (q_begin q) A (e_begin m0) /\ e_begin m0 <= b <= e_end m0 /\
      e_begin ml < x <= e_end ml /\ chain (e_end ml) C (q_end q) /\ chain (e_begin m0) M (e_end ml).
  Proof.
    intros OK B1 B2 B3. assert (CH := so_chain _ OK). assert (LU := used_len _ OK). assert (UU := so_used _ OK).
    set (f := fun z => OVERLAPS (e_begin z) (e_end z) b x).
    assert (EX : exists z, In z (used q) /\ f z = true).
    { destruct (chain_cover _ _ _ b CH ltac:(lia)) as (z & Hz & Cz). exists z. split; [auto|]. unfold f, OVERLAPS. lia. }
    destruct (first_split f _ EX) as (A & m0 & R1 & E1 & F0 & FA).
    destruct (last_split f (m0 :: R1)) as (M2 & ml & C & E2 & Fl & FC).
    { exists m0. split; [left; reflexivity|auto]. }
    assert (EM : exists M1, M2 ++ [ml] = m0 :: M1).
    { destruct M2 as [|y M2]; cbn in E2 |- *; injection E2 as <- _; eauto. }
    assert (EU : used q = A ++ (M2 ++ [ml]) ++ C) by (rewrite E1, E2, <- !app_assoc; reflexivity).
    assert (SP := used_split q). set (R := skipn (q_nused q) (q_maps q)) in *.
    exists A, (M2 ++ [ml]), C, m0, ml. split; [exact EU|]. split; [exact EM|]. split; [eauto|].
    split; [|split].
    - rewrite SP, E1, <- app_assoc. cbn [app].
      apply (first_overlapped_at b x A (S MAXLEN) [] m0 (R1 ++ R)); [|exact F0|exact FA].
      rewrite E1, app_length in LU. lia.
    - rewrite EU in SP. rewrite SP, <- LU, EU, !app_length. cbn [length].
      replace (length A + (length M2 + 1 + length C))%nat with (length (A ++ M2) + S (length C))%nat by (rewrite app_length; lia).
      replace (length A + (length M2 + 1) - 1)%nat with (length (A ++ M2)) by (rewrite app_length; lia).
      replace ((A ++ (M2 ++ [ml]) ++ C) ++ R) with ((A ++ M2) ++ ml :: C ++ R) by (rewrite <- !app_assoc; cbn; rewrite <- ?app_assoc; reflexivity).
      apply last_overlapped_at; [exact Fl|exact FC].
    - assert (CH1 := CH). rewrite E1 in CH1. apply chain_app in CH1. destruct CH1 as (s & CA & CR). cbn in CR.
      destruct CR as (CR0 & CR1 & CR2). assert (CA2 : chain (q_begin q) A (e_begin m0)) by (rewrite CR0; exact CA).
      assert (CH2 := CH). rewrite EU in CH2. apply chain_app in CH2. destruct CH2 as (s2 & CA' & CMC).
      apply chain_app in CMC. destruct CMC as (s3 & CM & CC).
      assert (ES : s2 = e_begin m0).
      { destruct EM as (M1 & EM). rewrite EM in CM. cbn in CM. destruct CM as (CM & _). congruence. }
      assert (ES3 : s3 = e_end ml).
      { apply chain_app in CM. destruct CM as (s4 & _ & CM). cbn in CM. destruct CM as (_ & _ & CM). congruence. }
      subst s2 s3.
      assert (B0 : e_begin m0 <= b).
      { destruct A as [|a0 A0] eqn:EA; [cbn in CA2; lia|].
        destruct (list_last (a0 :: A0)) as (A1 & al & EL); [discriminate|]. rewrite <- EA in *. rewrite EL in *.
        assert (X : f al = false) by (apply FA, in_app_iff; right; left; reflexivity).
        apply chain_app in CA2. destruct CA2 as (s5 & _ & C5). cbn in C5. destruct C5 as (C5 & C6 & C7).
        unfold f, OVERLAPS in X, F0. lia. }
      assert (X0 : x <= e_end ml).
      { destruct C as [|c0 C0]; [cbn in CC; lia|]. cbn in CC. destruct CC as (C5 & C6 & _).
        assert (X : f c0 = false) by (apply FC; left; reflexivity). unfold f, OVERLAPS in X, Fl. lia. }
      unfold f, OVERLAPS in F0, Fl. split; [exact CA2|]. split; [lia|]. split; [lia|]. split; [exact CC|exact CM].
  Qed.

  Lemma augment_overlap_spec q b x prot flags off file caller : seq_inv q ->
    q_begin q <= b -> b < x -> x <= q_end q -> (file = None \/ q_file q <> None) ->
    exists q' ok, augment_overlap obj_of q b x prot flags off file caller = Ok (q', ok) /\
    (if ok then seq_inv q' /\ q_begin q' = q_begin q /\ q_end q' = q_end q /\
       forall a t, says q' a t <-> (b <= a < x /\ t = mkAttr prot flags file caller) \/ (~ (b <= a < x) /\ says q a t)
     else q' = q) /\
    (file = None -> q_file q = None -> (q_nused q + 2 <= MAXLEN)%nat -> ok = true).
  Proof.
    intros [OK RE] B1 B2 B3 FI.
    destruct (overlapped q b x OK B1 B2 B3) as (A & M & C & m0 & ml & EU & (M1 & EM1) & (M2 & EM2) & FO & LO & CA & Bm0 & Bml & CC & CM).
    unfold augment_overlap. rewrite FO, LO. cbn [bind].
    assert (SP := used_split q). set (R := skipn (q_nused q) (q_maps q)) in *. rewrite EU in SP. rewrite <- !app_assoc in SP.
    assert (S0 : slot (q_maps q) (length A) = m0) by (rewrite SP, EM1; cbn [app]; apply slot_app).
    assert (S1 : slot (q_maps q) (length A + length M - 1) = ml).
    { rewrite SP, EM2, app_length. cbn [length]. replace (length A + (length M2 + 1) - 1)%nat with (length (A ++ M2)) by (rewrite app_length; lia).
      replace (A ++ (M2 ++ [ml]) ++ C ++ R) with ((A ++ M2) ++ ml :: C ++ R) by (rewrite <- !app_assoc; reflexivity). apply slot_app. }
    rewrite S0, S1.
    set (bpart := negb (e_begin m0 =? b)). set (epart := negb (e_end ml =? x)).
    set (e := mkE b x prot flags off (is_none file) caller).
    match goal with |- context [if negb ?c then _ else _] => set (consistent := c) end.
    assert (CF : consistent = true -> file = None \/ file = q_file q).
    { unfold consistent. destruct file as [g|]; [|auto]. cbn [is_none andb orb negb].
      assert (N0 := so_used _ OK). replace (Nat.eqb (q_nused q) 0) with false by lia.
      destruct (q_file q) as [h|]; [|destruct FI; congruence]. cbn [is_none negb andb same_file].
      destruct (Z.eqb_spec g h); [subst; auto|]. cbn [negb]. discriminate. }
    assert (CN : file = None -> q_file q = None -> consistent = true).
    { intros -> Fq. unfold consistent. rewrite Fq. reflexivity. }
    clearbody consistent. destruct consistent; cbn [negb].
    2:{ exists q, false. split; [reflexivity|]. split; [reflexivity|]. intros X Y. discriminate (CN X Y). }
    assert (LU := used_len _ OK). assert (UU := so_used _ OK).
    assert (NU : q_nused q = (length A + length M + length C)%nat) by (rewrite <- LU, EU, !app_length; lia).
    destruct (Nat.ltb (MAXLEN - q_nused q) ((if bpart then 1 else 0) + (if epart then 1 else 0))) eqn:RM.
    { unfold replace_span. rewrite RM. exists q, false. split; [reflexivity|]. split; [reflexivity|]. intros _ _ H.
      destruct bpart, epart; cbn [Nat.add] in RM; lia. }
    assert (QM : forall z, In z M -> q_begin q <= e_begin z /\ e_end z <= q_end q).
    { intros z Hz. assert (Hu : In z (used q)) by (rewrite EU, !in_app_iff; auto).
      assert (X := chain_in _ _ _ _ (so_chain _ OK) Hu). lia. }
    destruct (replace_span_spec b x (fun z => e_begin z < e_end z -> q_begin q <= e_begin z /\ e_end z <= q_end q)
                (fun z => q_begin q <= e_begin z /\ e_end z <= q_end q)) with (q := q) (A := A) (M := M) (C := C) (R := R)
                (bpart := bpart) (epart := epart) (e := e) (m0 := m0) (ml := ml)
      as (q' & E & UQ & Eb & Ee & Ef & L' & N' & P').
    - intros z Hz _. exact Hz.
    - intros z Hz. cbn. lia.
    - intros z Hz. cbn. lia.
    - intros z Hz. cbn. lia.
    - intros z Hz. cbn. lia.
    - exact SP.
    - apply (so_len _ OK).
    - exact NU.
    - eauto.
    - eauto.
    - destruct bpart, epart; cbn [Nat.add] in RM; lia.
    - exact QM.
    - exact RE.
    - intros _. cbn. lia.
    - exists q', true. split; [exact E|]. split; [|reflexivity].
      set (bp := if bpart then [e_w_end m0 b] else []) in *. set (ep := if epart then [e_w_begin ml x] else []) in *.
      assert (FF := CF eq_refl).
      assert (Mb : forall z, In z M -> In z (used q)) by (intros z Hz; rewrite EU, !in_app_iff; auto).
      assert (I0 : In m0 M) by (rewrite EM1; left; reflexivity).
      assert (Il : In ml M) by (rewrite EM2, in_app_iff; right; left; reflexivity).
      assert (X0 := chain_in _ _ _ _ CM I0). assert (Xl := chain_in _ _ _ _ CM Il).
      assert (CH' : chain (q_begin q) (used q') (q_end q)).
      { rewrite UQ. apply chain_app. exists (e_begin m0). split; [exact CA|]. apply chain_app. exists b. split.
        - unfold bp, bpart. destruct (Z.eqb_spec (e_begin m0) b); cbn; [auto|]. lia.
        - cbn [chain]. split; [reflexivity|]. split; [exact B2|]. cbn [e e_end]. apply chain_app. exists (e_end ml). split; [|exact CC].
          unfold ep, epart. destruct (Z.eqb_spec (e_end ml) x); cbn; [auto|]. split; [auto|]. split; [lia|reflexivity]. }
      assert (OK' : seq_ok q').
      { constructor.
        - exact L'.
        - rewrite N', !app_length. cbn [length]. rewrite !app_length.
          assert (length bp = (if bpart then 1 else 0)%nat) by (unfold bp; destruct bpart; reflexivity).
          assert (length ep = (if epart then 1 else 0)%nat) by (unfold ep; destruct epart; reflexivity).
          assert (length M = S (length M1)) by (rewrite EM1; reflexivity).
          destruct bpart, epart; cbn [Nat.add] in RM; lia.
        - rewrite Eb. apply (so_pos _ OK).
        - rewrite Eb, Ee. exact CH'.
        - rewrite Ef, UQ. intros z Hz Az. rewrite !in_app_iff in Hz. cbn [In] in Hz. rewrite in_app_iff in Hz.
          destruct Hz as [Hz|[Hz|[<-|[Hz|Hz]]]].
          + apply (so_file _ OK z); [rewrite EU, !in_app_iff; auto|exact Az].
          + unfold bp in Hz. destruct bpart; [|destruct Hz]. destruct Hz as [<-|[]]. apply (so_file _ OK m0); auto.
          + cbn in Az. destruct file; [|discriminate]. destruct FF as [FF|FF]; [discriminate|]. rewrite <- FF. discriminate.
          + unfold ep in Hz. destruct epart; [|destruct Hz]. destruct Hz as [<-|[]]. apply (so_file _ OK ml); auto.
          + apply (so_file _ OK z); [rewrite EU, !in_app_iff; auto|exact Az]. }
      split; [split; [exact OK'|]|split; [exact Eb|split; [exact Ee|]]].
      + intros z Hz Nz. rewrite Eb, Ee. apply P'; auto.
      + assert (AT : attr_of q' e = mkAttr prot flags file caller).
        { unfold attr_of, e. cbn. rewrite Ef. destruct FF as [->|<-]; [reflexivity|]. destruct file; reflexivity. }
        assert (AQ : forall z, attr_of q' z = attr_of q z) by (intro z; unfold attr_of; rewrite Ef; reflexivity).
        intros a t. split.
        * intros (z & Hz & Ha & ->). rewrite UQ, !in_app_iff in Hz. cbn [In] in Hz. rewrite in_app_iff in Hz.
          destruct Hz as [Hz|[Hz|[<-|[Hz|Hz]]]].
          -- right. assert (Y := chain_in _ _ _ _ CA Hz). split; [lia|]. exists z. rewrite AQ. split; [rewrite EU, !in_app_iff; auto|auto].
          -- right. unfold bp in Hz. destruct bpart; [|destruct Hz]. destruct Hz as [<-|[]]. cbn in Ha. split; [lia|].
             exists m0. rewrite AQ. split; [auto|]. split; [lia|reflexivity].
          -- left. cbn in Ha. auto.
          -- right. unfold ep in Hz. destruct epart; [|destruct Hz]. destruct Hz as [<-|[]]. cbn in Ha. split; [lia|].
             exists ml. rewrite AQ. split; [auto|]. split; [lia|reflexivity].
          -- right. assert (Y := chain_in _ _ _ _ CC Hz). split; [lia|]. exists z. rewrite AQ. split; [rewrite EU, !in_app_iff; auto|auto].
        * intros [(Ha & ->)|(Ha & z & Hz & Hb & ->)].
          -- exists e. split; [rewrite UQ, !in_app_iff; cbn [In]; auto|]. split; [cbn; lia|auto].
          -- rewrite <- AQ. assert (Hz' := Hz). rewrite EU, !in_app_iff in Hz. destruct Hz as [Hz|[Hz|Hz]].
             ++ exists z. split; [rewrite UQ, in_app_iff; auto|]. auto.
             ++ destruct (Z.lt_ge_cases a b) as [Hl|Hl].
                ** assert (z = m0).
                   { apply (chain_uniq _ _ _ z m0 a CM Hz I0 Hb). assert (Y := chain_in _ _ _ _ CM Hz). lia. }
                   subst z. exists (e_w_end m0 b). split; [|split; [cbn; lia|reflexivity]].
                   rewrite UQ, !in_app_iff. right. left. unfold bp, bpart. destruct (Z.eqb_spec (e_begin m0) b); [lia|]. left. reflexivity.
                ** assert (z = ml).
                   { apply (chain_uniq _ _ _ z ml a CM Hz Il Hb). assert (Y := chain_in _ _ _ _ CM Hz). lia. }
                   subst z. exists (e_w_begin ml x). split; [|split; [cbn; lia|reflexivity]].
                   rewrite UQ, !in_app_iff. right. right. cbn [In]. right. rewrite in_app_iff. left. unfold ep, epart.
                   destruct (Z.eqb_spec (e_end ml) x); [lia|]. left. reflexivity.
             ++ exists z. split; [|auto]. rewrite UQ, !in_app_iff. right. right. cbn [In]. rewrite in_app_iff. auto.
  Qed.

  (* augment_sequence as a whole, when the range starts inside the sequence or at its end and
     does not run past the end of what it overlaps *)
  Lemma augment_spec dbg q b x prot flags off file caller : seq_inv q ->
    q_begin q <= b -> b < x -> (b = q_end q \/ x <= q_end q) -> (file = None \/ q_file q <> None \/ b = q_end q) ->
    exists q' ok, augment dbg obj_of q b x prot flags off file caller = Ok (q', ok) /\
    (if ok then seq_inv q' /\ q_begin q' = q_begin q /\ q_end q' = Z.max x (q_end q) /\
       forall a t, says q' a t <-> (b <= a < x /\ t = mkAttr prot flags file caller) \/ (~ (b <= a < x) /\ says q a t)
     else q' = q) /\
    (file = None -> q_file q = None -> (q_nused q + 2 <= MAXLEN)%nat -> ok = true).
  Proof.
    intros INV B1 B2 B3 FI. assert (OK := proj1 INV). unfold augment. rewrite (asrt_true _ _ (seq_ok_sane _ OK)). cbn [bind].
    assert (LT := seq_ok_lt _ OK). assert (P := so_pos _ OK).
    replace (q_end q =? 0) with false by lia. cbn [orb].
    replace (q_begin q <=? b) with true by lia. rewrite andb_true_r.
    assert (OV : (q_end q =? b) || OVERLAPS (q_begin q) (q_end q) b x = true) by (unfold OVERLAPS; lia).
    rewrite OV. cbn [andb].
    destruct (Nat.eqb_spec (q_nused q) MAXLEN) as [F|F]; cbn [negb].
    { cbn [bind]. rewrite (asrt_true _ _ (seq_ok_sane _ OK)). cbn [bind]. exists q, false. split; [reflexivity|]. split; [reflexivity|]. lia. }
    destruct (Z.eqb_spec (q_end q) b) as [E|E].
    - subst b. assert (NF : (q_nused q < MAXLEN)%nat) by (assert (Y := so_used _ OK); lia).
      destruct (store_end q (mkE (q_end q) x prot flags off (is_none file) caller) (so_len _ OK) NF) as (R & ES & _).
      assert (EX : exists q' ok, augment_clean obj_of q (q_end q) x prot flags off file caller = Ok (q', ok) /\
                   (file = None -> q_file q = None -> ok = true)).
      { unfold augment_clean. match goal with |- context [if negb ?c then _ else _] => destruct c eqn:CO end; cbn [negb].
        - rewrite ES. cbn [bind]. eauto.
        - exists q, false. split; [reflexivity|]. intros -> Fq. rewrite Fq in CO. discriminate. }
      destruct EX as (q' & ok & EX & T). rewrite EX. cbn [bind].
      assert (X := augment_clean_spec obj_of q x prot flags off file caller q' ok INV NF ltac:(lia) EX).
      assert (SS : seq_sane q' = true).
      { destruct ok; [destruct X as ((X & _) & _); apply seq_ok_sane, X|subst q'; apply seq_ok_sane, OK]. }
      rewrite (asrt_true _ _ SS). cbn [bind]. exists q', ok. split; [reflexivity|]. split; [|auto].
      destruct ok; [|exact X]. destruct X as (X1 & X2 & X3 & X4). split; [exact X1|]. split; [exact X2|]. split; [lia|].
      intros a t. rewrite X4. split.
      + intros [Y|Y]; [|auto]. right. split; [|auto]. assert (Z0 := proj1 (says_range q a OK) (ex_intro _ t Y)). lia.
      + intros [Y|[_ Y]]; auto.
    - assert (B4 : x <= q_end q) by lia. assert (FI' : file = None \/ q_file q <> None) by (destruct FI as [|[|]]; auto; congruence).
      destruct (augment_overlap_spec q b x prot flags off file caller INV B1 B2 B4 FI') as (q' & ok & EX & X & T).
      rewrite EX. cbn [bind].
      assert (SS : seq_sane q' = true).
      { destruct ok; [destruct X as ((X & _) & _); apply seq_ok_sane, X|subst q'; apply seq_ok_sane, OK]. }
      rewrite (asrt_true _ _ SS). cbn [bind]. exists q', ok. split; [reflexivity|]. split; [|exact T].
      destruct ok; [|exact X]. destruct X as (X1 & X2 & X3 & X4). split; [exact X1|]. split; [exact X2|]. split; [lia|exact X4].
  Qed.
End Over.
