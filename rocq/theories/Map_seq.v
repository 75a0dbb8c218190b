(* Proofs about single mapping sequences. *)
From Verif Require Import Base Big_model Map_model Map_spec Big_field.

(* slots not in use are never a partial obstacle: whatever non-empty range they hold lies
   within the sequence *)
Definition rest_ok (q : mseq) : Prop :=
  forall e, In e (q_maps q) -> e_begin e < e_end e -> q_begin q <= e_begin e /\ e_end e <= q_end q.
Definition seq_inv (q : mseq) : Prop := seq_ok q /\ rest_ok q.

Lemma chain_le l : forall lo hi, chain lo l hi -> lo <= hi.
Proof. induction l as [|e l IH]; cbn; intros lo hi H; [lia|]. destruct H as (_ & H1 & H2). apply IH in H2. lia. Qed.
Lemma chain_app l1 : forall lo l2 hi, chain lo (l1 ++ l2) hi <-> exists m, chain lo l1 m /\ chain m l2 hi.
Proof.
  induction l1 as [|e l1 IH]; cbn; intros lo l2 hi.
  - split; [intro H; exists lo; auto|intros (m & -> & H); auto].
  - split.
    + intros (A & B & C). apply IH in C. destruct C as (m & C & D). exists m. auto.
    + intros (m & (A & B & C) & D). split; [auto|]. split; [auto|]. apply IH. exists m. auto.
Qed.
Lemma chain_in l : forall lo hi e, chain lo l hi -> In e l -> lo <= e_begin e /\ e_begin e < e_end e /\ e_end e <= hi.
Proof.
  induction l as [|x l IH]; cbn; intros lo hi e H [].
  - subst x. destruct H as (A & B & C). apply chain_le in C. lia.
  - destruct H as (A & B & C). specialize (IH _ _ _ C H0). lia.
Qed.
Lemma chain_uniq l : forall lo hi e e' a, chain lo l hi -> In e l -> In e' l ->
  e_begin e <= a < e_end e -> e_begin e' <= a < e_end e' -> e = e'.
Proof.
  induction l as [|x l IH]; intros lo hi e e' a H Hin Hin' Ha Ha'; [destruct Hin|]. destruct H as (A & B & C). destruct Hin as [->|H1], Hin' as [->|H2]; auto.
  - apply (chain_in _ _ _ _ C) in H2. lia.
  - apply (chain_in _ _ _ _ C) in H1. lia.
  - eapply IH; eauto.
Qed.
Lemma chain_cover l : forall lo hi a, chain lo l hi -> lo <= a < hi -> exists e, In e l /\ e_begin e <= a < e_end e.
Proof.
  induction l as [|x l IH]; cbn; intros lo hi a H Ha; [lia|]. destruct H as (A & B & C).
  destruct (Z.lt_ge_cases a (e_end x)); [exists x; split; [auto|lia]|].
  destruct (IH _ _ a C) as (e & H1 & H2); [lia|]. exists e. auto.
Qed.

Lemma used_len q : seq_ok q -> length (used q) = q_nused q.
Proof. intro H. unfold used. rewrite firstn_length, (so_len _ H). destruct (so_used _ H). lia. Qed.

Lemma contiguous_chain l : forall lo hi, 0 < lo -> chain lo l hi -> contiguous l lo = true.
Proof.
  induction l as [|e l IH]; cbn; intros lo hi P H; [reflexivity|]. destruct H as (A & B & C).
  rewrite (IH _ _ (Z.lt_trans _ _ _ P B) C), A.
  destruct (Z.eqb_spec lo 0), (Z.eqb_spec (e_end e) 0), (Z.ltb_spec lo (e_end e)), (Z.eqb_spec lo lo); cbn; try lia.
Qed.
Lemma chain_last l : forall lo hi, chain lo l hi -> l <> [] -> e_end (nth (length l - 1) l ent0) = hi.
Proof.
  induction l as [|e l IH]; intros lo hi H N; [congruence|]. destruct H as (A & B & C).
  destruct l as [|e' l]; [cbn in *; auto|].
  replace (length (e :: e' :: l) - 1)%nat with (S (length (e' :: l) - 1)) by (cbn; lia).
  cbn [nth]. apply (IH _ _ C). discriminate.
Qed.
Lemma nth_firstn {A} (d : A) l : forall n i, (i < n)%nat -> nth i (firstn n l) d = nth i l d.
Proof.
  induction l as [|x l IH]; intros n i H; [rewrite firstn_nil; reflexivity|].
  destruct n; [lia|]. destruct i; cbn; [reflexivity|]. apply IH. lia.
Qed.
Lemma seq_ok_sane q : seq_ok q -> seq_sane q = true.
Proof.
  intro H. unfold seq_sane. destruct (Nat.eqb (q_nused q) 0); [reflexivity|]. cbn [orb].
  assert (C := so_chain _ H). assert (L := used_len _ H). destruct (so_used _ H) as [U1 U2].
  fold (used q). rewrite (contiguous_chain _ _ _ (so_pos _ H) C). cbn [andb].
  apply Z.eqb_eq. rewrite <- (chain_last _ _ _ C) by (intro E; rewrite E in L; cbn in L; lia).
  rewrite L. unfold used, slot. rewrite nth_firstn by lia. reflexivity.
Qed.

(* ---- deleting a span ---- *)
  Lemma store_app P e R x : length (P ++ e :: R) = MAXLEN -> store (P ++ e :: R) (length P) x = Ok (P ++ x :: R).
  Proof.
    intro L. unfold store. rewrite app_length in L. cbn in L. destruct (Nat.ltb_spec (length P) MAXLEN); [|lia].
    rewrite firstn_app, Nat.sub_diag, firstn_all. cbn [firstn]. rewrite app_nil_r.
    replace (S (length P)) with (length P + 1)%nat by lia. rewrite skipn_app.
    replace (length P + 1 - length P)%nat with 1%nat by lia.
    rewrite (skipn_all2 P) by lia. reflexivity.
  Qed.
  Lemma slot_app P e R : slot (P ++ e :: R) (length P) = e.
  Proof. unfold slot. rewrite app_nth2, Nat.sub_diag by lia. reflexivity. Qed.

  Definition nz (e : entry) : bool := negb (e_begin e =? 0).

  Lemma compact_spec M : forall fuel q P R, q_maps q = P ++ M ++ R -> length (q_maps q) = MAXLEN ->
    q_nused q = (length P + length M)%nat -> (length M <= fuel)%nat ->
    exists k, compact fuel q (length P) =
      Ok (w_used q (length P + length (filter nz M)) (P ++ filter nz M ++ repeat ent0 k ++ R)) /\
      (length (filter nz M) + k = length M)%nat.
  Proof.
    induction M as [|e M IH]; intros fuel q P R Hm L U F.
    - exists O. split; [|reflexivity]. cbn [filter length app repeat] in *. rewrite Nat.add_0_r in *.
      assert (N : (length P <? q_nused q)%nat = false) by (apply Nat.ltb_ge; lia).
      assert (Q : w_used q (length P) (P ++ R) = q) by (destruct q; unfold w_used; cbn in *; congruence).
      rewrite Q. destruct fuel; cbn [compact]; rewrite N; reflexivity.
    - destruct fuel as [|f]; [cbn in F; lia|]. cbn [compact].
      destruct (Nat.ltb_spec (length P) (q_nused q)); [|cbn in U; lia].
      assert (SL : slot (q_maps q) (length P) = e) by (rewrite Hm; cbn [app]; apply slot_app).
      rewrite SL. assert (NZ : nz e = negb (e_begin e =? 0)) by reflexivity. cbn [filter].
      destruct (e_begin e =? 0); cbn [negb] in NZ; rewrite NZ.
      + (* remove it *)
        assert (MM : memmove (q_maps q) (length P) (S (length P)) (q_nused q - S (length P)) =
                     Ok (P ++ M ++ skipn (length P + length M) (q_maps q))).
        { unfold memmove. assert (LL := L). rewrite Hm in L. rewrite !app_length in L. cbn [length] in L.
          assert (X : (q_nused q - S (length P))%nat = length M) by (rewrite U; cbn [length]; lia). rewrite X.
          replace (Nat.leb (length P + length M) MAXLEN && Nat.leb (S (length P) + length M) MAXLEN) with true by lia.
          f_equal. f_equal; [rewrite Hm, firstn_app, Nat.sub_diag, firstn_all; cbn; apply app_nil_r|]. f_equal.
          rewrite Hm. replace (S (length P)) with (length P + 1)%nat by lia. rewrite skipn_app.
          replace (length P + 1 - length P)%nat with 1%nat by lia. rewrite (skipn_all2 P) by lia. cbn [skipn app].
          rewrite firstn_app, Nat.sub_diag, firstn_all. cbn. apply app_nil_r. }
        rewrite MM. cbn [bind].
        assert (SK : exists z, skipn (length P + length M) (q_maps q) = z :: R).
        { rewrite Hm. rewrite skipn_app. rewrite (skipn_all2 P) by lia.
          replace (length P + length M - length P)%nat with (length M) by lia. cbn [app].
          change (e :: M ++ R) with ((e :: M) ++ R). rewrite skipn_app.
          replace (length M - length (e :: M))%nat with O by (cbn; lia). cbn [skipn].
          assert (Y : length (skipn (length M) (e :: M)) = 1%nat) by (rewrite skipn_length; cbn [length]; lia).
          destruct (skipn (length M) (e :: M)) as [|z [|z' t]]; cbn in Y; try lia. exists z. reflexivity. }
        destruct SK as (z & SK). rewrite SK.
        assert (ST : store (P ++ M ++ z :: R) (q_nused q - 1) ent0 = Ok (P ++ M ++ ent0 :: R)).
        { rewrite !app_assoc. replace (q_nused q - 1)%nat with (length (P ++ M)) by (rewrite app_length, U; cbn [length]; lia).
          apply store_app. rewrite Hm in L. rewrite !app_length in *. cbn [length] in *. rewrite ?app_length in L. lia. }
        rewrite ST. cbn [bind].
        destruct (IH f (w_used q (q_nused q - 1) (P ++ M ++ ent0 :: R)) P (ent0 :: R)) as (k & E & K).
        * reflexivity.
        * cbn. rewrite Hm in L. rewrite !app_length in *. cbn [length] in *. rewrite ?app_length in L. lia.
        * cbn. rewrite U. cbn [length]. lia.
        * cbn in F. lia.
        * exists (S k). split; [|cbn [length]; lia]. rewrite E. unfold w_used. cbn.
          replace (repeat ent0 k ++ ent0 :: R) with (ent0 :: repeat ent0 k ++ R); [reflexivity|].
          clear. induction k; cbn; [reflexivity|]. rewrite <- IHk. reflexivity.
      + destruct (IH f q (P ++ [e]) R) as (k & E & K).
        * rewrite Hm, <- app_assoc. reflexivity.
        * exact L.
        * rewrite U, app_length. cbn [length]. lia.
        * cbn in F. lia.
        * rewrite app_length in E. cbn [length] in E. rewrite Nat.add_1_r in E. exists k. split; [|cbn [length]; lia].
          rewrite E. f_equal. cbn [length]. rewrite <- app_assoc. cbn [app].
          replace (S (length P) + length (filter nz M))%nat with (length P + S (length (filter nz M)))%nat by lia. reflexivity.
  Qed.

Section Cut.
  Context (addr len : Z).
  Let y := addr + len.

  Definition cut (e : entry) : entry :=
    if (e_begin e <=? y) && (addr <? e_end e) then
      if e_begin e <? addr then e_w_end e addr
      else if e_end e <=? y then ent0 else e_w_begin e y
    else e.
  Definition nosplit (e : entry) : Prop := ~ (e_begin e < addr /\ y < e_end e).

  Lemma del_slot_spec q P e R : q_maps q = P ++ e :: R -> length (q_maps q) = MAXLEN -> nosplit e ->
    exists b x, del_slot q (length P) addr len = Ok (mkM b x (q_file q) (q_nused q) (P ++ cut e :: R)) /\
      (b = q_begin q \/ (b = y /\ P = [] /\ addr <= e_begin e)) /\
      (x = q_end q \/ (x = addr /\ e_begin e < addr < e_end e)) /\
      (S (length P) = q_nused q -> e_begin e < addr < e_end e -> e_end e <= y -> x = addr).
  Proof.
    intros M L NS. unfold del_slot. rewrite M, slot_app. unfold cut, nosplit in *. fold y.
    assert (St := fun z => store_app P e R z). rewrite <- M in St. specialize (fun z => St z L). rewrite M in St.
    destruct ((e_begin e <=? y) && (addr <? e_end e)) eqn:C.
    - apply andb_prop in C. destruct C as [C1 C2]. apply Z.leb_le in C1. apply Z.ltb_lt in C2.
      destruct (Z.ltb_spec (e_begin e) addr) as [H1|H1]; cbn [andb].
      + destruct (Z.ltb_spec y (e_end e)) as [H2|H2]; [exfalso; apply NS; auto|].
        assert (X : (addr - e_begin e =? 0) = false) by lia. rewrite X. cbn [andb]. rewrite St. cbn [bind].
        replace (e_end e - (e_end e - e_begin e - (addr - e_begin e))) with addr by lia.
        eexists. eexists. split; [reflexivity|]. split; [left; reflexivity|].
        split; [|intros -> _ _; rewrite Nat.eqb_refl; reflexivity].
        destruct (Nat.eqb (S (length P)) (q_nused q)); [right; auto|left; reflexivity].
      + cbn [Z.eqb andb]. destruct (Z.ltb_spec (e_end e) y) as [H2|H2]; cbn [Z.eqb].
        * rewrite St. cbn [bind]. destruct (Z.leb_spec (e_end e) y); [|lia].
          exists (q_begin q), (q_end q). split; [reflexivity|]. split; [auto|]. split; [auto|]. intros; lia.
        * destruct (Z.leb_spec (e_end e) y) as [H3|H3].
          -- replace (e_end e - y =? 0) with true by lia. rewrite St. cbn [bind].
             exists (q_begin q), (q_end q). split; [reflexivity|]. split; [auto|]. split; [auto|]. intros; lia.
          -- replace (e_end e - y =? 0) with false by lia. rewrite St. cbn [bind].
             replace (e_begin e + (e_end e - e_begin e - (e_end e - y))) with y by lia.
             eexists. eexists. split; [reflexivity|]. split; [|split; [auto|intros; lia]].
             destruct P as [|z P]; cbn [length Nat.eqb]; [right; auto|left; reflexivity].
    - exists (q_begin q), (q_end q). split; [destruct q; cbn in *; rewrite M; reflexivity|].
      split; [auto|]. split; [auto|]. intros _ H1 H2. exfalso.
      apply andb_false_iff in C. destruct C as [C|C]; [apply Z.leb_gt in C|apply Z.ltb_ge in C]; lia.
  Qed.

  Lemma del_slots_spec R : forall q P, q_maps q = P ++ R -> length (q_maps q) = MAXLEN ->
    (forall e, In e R -> nosplit e) ->
    exists b x, del_slots q (seq (length P) (length R)) addr len = Ok (mkM b x (q_file q) (q_nused q) (P ++ map cut R)) /\
      (b = q_begin q \/ (b = y /\ P = [] /\ exists e R', R = e :: R' /\ addr <= e_begin e)) /\
      (x = q_end q \/ (x = addr /\ exists e, In e R /\ e_begin e < addr < e_end e)).
  Proof.
    induction R as [|e R IH]; intros q P M L NS.
    - exists (q_begin q), (q_end q). split; [|auto]. cbn. destruct q; cbn in *. rewrite M. reflexivity.
    - cbn [seq del_slots length].
      destruct (del_slot_spec q P e R M L (NS e (or_introl eq_refl))) as (b & x & E & Hb & Hx & _).
      rewrite E. cbn [bind].
      destruct (IH (mkM b x (q_file q) (q_nused q) (P ++ cut e :: R)) (P ++ [cut e])) as (b' & x' & E' & Hb' & Hx').
      + cbn. rewrite <- app_assoc. reflexivity.
      + cbn. rewrite <- L, M, !app_length. reflexivity.
      + intros z Hz. apply NS. right. exact Hz.
      + rewrite app_length in E'. cbn [length q_file q_nused] in E'. rewrite Nat.add_1_r in E'.
        exists b', x'. split; [rewrite E', <- app_assoc; reflexivity|]. cbn in Hb', Hx'. split.
        * destruct Hb' as [->|(_ & Y & _)]; [|apply app_eq_nil in Y; destruct Y; discriminate].
          destruct Hb as [->|(-> & -> & Y)]; [auto|]. right. split; [auto|]. split; [auto|]. exists e, R. auto.
        * destruct Hx' as [->|(-> & z & Hz & Y)].
          -- destruct Hx as [->|(-> & Y)]; [auto|]. right. split; [auto|]. exists e. split; [left; reflexivity|auto].
          -- right. split; [auto|]. exists z. split; [right; auto|auto].
  Qed.

  Lemma cut_covers e a : e_begin e < e_end e -> nosplit e -> len >= 0 ->
    (e_begin (cut e) <= a < e_end (cut e) <-> e_begin e <= a < e_end e /\ ~ (addr <= a < y)).
  Proof.
    intros N NS PL. unfold cut, nosplit in *.
    destruct (Z.leb_spec (e_begin e) y); cbn [andb]; [|lia].
    destruct (Z.ltb_spec addr (e_end e)); [|lia].
    destruct (Z.ltb_spec (e_begin e) addr); cbn; [lia|]. destruct (Z.leb_spec (e_end e) y); cbn; lia.
  Qed.
  Lemma cut_attr q e : cut e = ent0 \/ attr_of q (cut e) = attr_of q e /\ e_anon (cut e) = e_anon e.
  Proof.
    unfold cut. destruct (_ && _); [|auto]. destruct (e_begin e <? addr); [right; auto|].
    destruct (e_end e <=? y); [left; auto|right; auto].
  Qed.

  Lemma cut_left l : forall lo hi, 0 < lo -> addr <= lo -> y < hi -> chain lo l hi ->
    chain (Z.max lo y) (filter nz (map cut l)) hi.
  Proof.
    induction l as [|e l IH]; intros lo hi P A Y C; cbn in C |- *; [lia|]. destruct C as (C1 & C2 & C3).
    unfold cut at 1 2. rewrite C1.
    destruct (Z.leb_spec lo y) as [H1|H1]; cbn [andb].
    - destruct (Z.ltb_spec addr (e_end e)); [|lia]. destruct (Z.ltb_spec lo addr); [lia|].
      destruct (Z.leb_spec (e_end e) y) as [H2|H2].
      + cbn [nz ent0 e_begin Z.eqb negb]. specialize (IH (e_end e) hi ltac:(lia) ltac:(lia) Y C3).
        replace (Z.max lo y) with (Z.max (e_end e) y) by lia. exact IH.
      + assert (N : nz (e_w_begin e y) = true) by (unfold nz; cbn; lia). rewrite N. cbn [chain].
        split; [cbn; lia|]. split; [cbn; lia|]. cbn [e_w_begin e_end].
        specialize (IH (e_end e) hi ltac:(lia) ltac:(lia) Y C3). rewrite Z.max_l in IH by lia. exact IH.
    - assert (N : nz e = true) by (unfold nz; rewrite C1; lia). rewrite N. cbn [chain].
      split; [lia|]. split; [lia|].
      specialize (IH (e_end e) hi ltac:(lia) ltac:(lia) Y C3). rewrite Z.max_l in IH by lia. exact IH.
  Qed.

  Lemma cut_right l : forall lo hi, 0 < lo -> hi <= y -> addr < y -> chain lo l hi ->
    chain (Z.min lo addr) (filter nz (map cut l)) (Z.min hi addr).
  Proof.
    induction l as [|e l IH]; intros lo hi P A Y C; cbn in C |- *; [lia|]. destruct C as (C1 & C2 & C3).
    assert (LH := chain_le _ _ _ C3). specialize (IH (e_end e) hi ltac:(lia) A Y C3).
    unfold cut at 1 2. rewrite C1. destruct (Z.leb_spec lo y); [|lia]. cbn [andb].
    destruct (Z.ltb_spec addr (e_end e)) as [H1|H1].
    - rewrite (Z.min_r (e_end e)) in IH by lia.
      destruct (Z.ltb_spec lo addr) as [H2|H2].
      + assert (N : nz (e_w_end e addr) = true) by (unfold nz; cbn; rewrite C1; lia). rewrite N. cbn [chain e_w_end e_begin e_end].
        split; [lia|]. split; [lia|]. exact IH.
      + destruct (Z.leb_spec (e_end e) y); [|lia]. cbn [nz ent0 e_begin Z.eqb negb].
        replace (Z.min lo addr) with addr by lia. exact IH.
    - assert (N : nz e = true) by (unfold nz; rewrite C1; lia). rewrite N. cbn [chain].
      split; [lia|]. split; [lia|]. rewrite Z.min_l in IH by lia. exact IH.
  Qed.
End Cut.

Lemma firstn_app_l {A} (l1 l2 : list A) n : length l1 = n -> firstn n (l1 ++ l2) = l1.
Proof. intros <-. rewrite firstn_app, Nat.sub_diag, firstn_all. cbn. apply app_nil_r. Qed.

(* the two forms in which spans are deleted: a prefix and a suffix *)
Lemma delete_span_gen dbg q addr len : seq_inv q -> 0 < len ->
  (addr = q_begin q /\ addr + len < q_end q) \/ (q_begin q < addr < q_end q /\ addr + len = q_end q) ->
  exists q', delete_span dbg q addr len = Ok q' /\ seq_inv q' /\ q_file q' = q_file q /\
    q_begin q' = (if addr =? q_begin q then addr + len else q_begin q) /\
    q_end q' = (if addr =? q_begin q then q_end q else addr) /\
    forall a t, says q' a t <-> says q a t /\ ~ (addr <= a < addr + len).
Proof.
  intros [OK RE] PL Hc. unfold delete_span. rewrite (asrt_true _ _ (seq_ok_sane _ OK)). cbn [bind].
  set (y := addr + len) in *.
  assert (L := so_len _ OK). assert (U := so_used _ OK). assert (CH := so_chain _ OK).
  assert (NS : forall e, In e (q_maps q) -> nosplit addr len e).
  { intros e He [N1 N2]. fold y in N2. destruct (RE e He) as [R1 R2]; lia. }
  destruct (del_slots_spec addr len (q_maps q) q [] eq_refl L NS) as (b & x & E1 & Hb & Hx).
  cbn [length app] in E1. rewrite L in E1. rewrite E1. cbn [bind]. fold y in Hb.
  set (q1 := mkM b x (q_file q) (q_nused q) (map (cut addr len) (q_maps q))).
  assert (SP : q_maps q = used q ++ skipn (q_nused q) (q_maps q)) by (symmetry; apply firstn_skipn).
  destruct (compact_spec (map (cut addr len) (used q)) (S (2 * MAXLEN)) q1 [] (map (cut addr len) (skipn (q_nused q) (q_maps q))))
    as (k & E2 & K).
  { cbn [q_maps q1 app]. rewrite <- map_app, <- SP. reflexivity. }
  { cbn [q_maps q1]. rewrite map_length. exact L. }
  { cbn [q_nused q1 length]. rewrite map_length, (used_len _ OK). reflexivity. }
  { rewrite map_length, (used_len _ OK). unfold MAXLEN in *. lia. }
  cbn [length app] in E2. rewrite E2. cbn [bind]. clear E1 E2.
  set (F := filter nz (map (cut addr len) (used q))) in *.
  set (R := map (cut addr len) (skipn (q_nused q) (q_maps q))) in *.
  cbn [w_used q_begin q_end q_file q_nused q_maps q1 Nat.add].
  assert (HB : (if (addr <=? b) && (b <? y) then y else b) = (if addr =? q_begin q then y else q_begin q)).
  { destruct Hc as [(-> & H2)|(H1 & H2)].
    - rewrite Z.eqb_refl. destruct Hb as [->|(-> & _)].
      + replace ((q_begin q <=? q_begin q) && (q_begin q <? y)) with true by lia. reflexivity.
      + replace ((q_begin q <=? y) && (y <? y)) with false by lia. reflexivity.
    - destruct (Z.eqb_spec addr (q_begin q)); [lia|].
      destruct Hb as [->|(_ & _ & e & R' & ER & HE)].
      + replace ((addr <=? q_begin q) && (q_begin q <? y)) with false by lia. reflexivity.
      + exfalso. destruct (used q) as [|e0 u] eqn:EU; [apply (f_equal (@length _)) in EU; rewrite (used_len _ OK) in EU; cbn in EU; lia|].
        rewrite SP in ER. injection ER as -> _. cbn in CH. destruct CH as (CH & _). lia. }
  assert (HX : (if (addr <? x) && (x <=? y) then addr else x) = (if addr =? q_begin q then q_end q else addr)).
  { destruct Hc as [(-> & H2)|(H1 & H2)].
    - rewrite Z.eqb_refl. destruct Hx as [->|(_ & e & He & Y)].
      + replace ((q_begin q <? q_end q) && (q_end q <=? y)) with false by lia. reflexivity.
      + exfalso. destruct (RE e He); lia.
    - destruct (Z.eqb_spec addr (q_begin q)); [lia|]. destruct Hx as [->|(-> & _)].
      + replace ((addr <? q_end q) && (q_end q <=? y)) with true by lia. reflexivity.
      + destruct ((addr <? addr) && (addr <=? y)); reflexivity. }
  rewrite HB, HX. set (b' := if addr =? q_begin q then y else q_begin q). set (x' := if addr =? q_begin q then q_end q else addr).
  set (q' := mkM b' x' (q_file q) (length F) (F ++ repeat ent0 k ++ R)).
  assert (CH' : chain b' F x').
  { unfold b', x'. destruct Hc as [(H1 & H2)|(H1 & H2)].
    - subst addr. rewrite Z.eqb_refl.
      assert (X := cut_left (q_begin q) len (used q) (q_begin q) (q_end q) (so_pos _ OK) (Z.le_refl _) H2 CH).
      fold y F in X. rewrite Z.max_r in X by lia. exact X.
    - destruct (Z.eqb_spec addr (q_begin q)); [lia|].
      assert (X := cut_right addr len (used q) (q_begin q) (q_end q) (so_pos _ OK)).
      fold y F in X. specialize (X ltac:(lia) ltac:(lia) CH). rewrite Z.min_l, Z.min_r in X by lia. exact X. }
  assert (UF : used q' = F) by (unfold used, q'; cbn; apply firstn_app_l; reflexivity).
  assert (LF : (1 <= length F <= length (used q))%nat).
  { split.
    - assert (b' < x') by (unfold b', x'; destruct Hc as [(-> & H2)|(H1 & H2)];
        [rewrite Z.eqb_refl; lia|destruct (Z.eqb_spec addr (q_begin q)); lia]).
      destruct F; [cbn in CH'; lia|cbn; lia].
    - rewrite map_length in K. lia. }
  rewrite (used_len _ OK) in LF.
  assert (INF : forall e, In e F -> exists e0, In e0 (used q) /\ e = cut addr len e0 /\ e <> ent0).
  { intros e He. unfold F in He. apply filter_In in He. destruct He as [He Nz]. apply in_map_iff in He.
    destruct He as (e0 & <- & H0). exists e0. split; [auto|]. split; [auto|]. intro Z0. rewrite Z0 in Nz. discriminate. }
  assert (US : forall e, In e (used q) -> In e (q_maps q)) by (intros e He; rewrite SP; apply in_app_iff; left; exact He).
  assert (OK' : seq_ok q').
  { constructor; try assumption.
    - unfold q'. cbn [q_maps]. rewrite !app_length, repeat_length. unfold R. rewrite map_length, skipn_length, L.
      rewrite map_length, (used_len _ OK) in K. unfold MAXLEN in *. lia.
    - unfold q'. cbn [q_nused]. lia.
    - unfold q', b'. cbn [q_begin]. assert (P := so_pos _ OK). destruct (addr =? q_begin q) eqn:EB; lia.
    - rewrite UF. exact CH'.
    - rewrite UF. intros e He An. destruct (INF e He) as (e0 & H0 & -> & Nz). cbn.
      destruct (cut_attr addr len q e0) as [Z0|[_ Z0]]; [congruence|]. apply (so_file _ OK e0 H0). congruence. }
  exists q'. rewrite (asrt_true _ _ (seq_ok_sane _ OK')). cbn [bind]. split; [reflexivity|].
  split; [split; [exact OK'|]|split; [reflexivity|split; [reflexivity|split; [reflexivity|]]]].
  - intros e He Ne. unfold q' in He. cbn [q_maps] in He. rewrite !in_app_iff in He.
    assert (Z0 : e = ent0 \/ exists e0, In e0 (q_maps q) /\ e = cut addr len e0).
    { destruct He as [He|[He|He]].
      - right. destruct (INF e He) as (e0 & H0 & -> & _). exists e0. auto.
      - left. apply repeat_spec in He. exact He.
      - right. unfold R in He. apply in_map_iff in He. destruct He as (e0 & <- & H0). exists e0.
        split; [rewrite SP; apply in_app_iff; right; exact H0|reflexivity]. }
    destruct Z0 as [->|(e0 & H0 & ->)]; [cbn in Ne; lia|]. specialize (RE e0 H0). specialize (NS e0 H0).
    unfold q', b', x'. cbn [q_begin q_end]. unfold cut, nosplit in *. fold y in Ne, NS |- *.
    destruct (Z.leb_spec (e_begin e0) y); cbn [andb] in *.
    + destruct (Z.ltb_spec addr (e_end e0)) as [Y1|Y1].
      * destruct (Z.ltb_spec (e_begin e0) addr); cbn [e_w_end e_w_begin e_begin e_end] in *.
        -- destruct Hc as [(T1 & T2)|(T1 & T2)]; [lia|]. destruct (Z.eqb_spec addr (q_begin q)); lia.
        -- destruct (Z.leb_spec (e_end e0) y); cbn in *; [lia|].
           destruct Hc as [(T1 & T2)|(T1 & T2)]; destruct (Z.eqb_spec addr (q_begin q)); lia.
      * destruct Hc as [(T1 & T2)|(T1 & T2)]; destruct (Z.eqb_spec addr (q_begin q)); lia.
    + destruct Hc as [(T1 & T2)|(T1 & T2)]; destruct (Z.eqb_spec addr (q_begin q)); lia.
  - intros a t. unfold says. rewrite UF. split.
    + intros (e & He & Ha & ->). destruct (INF e He) as (e0 & H0 & -> & Nz).
      assert (N0 := chain_in _ _ _ _ CH H0).
      apply cut_covers in Ha; [|lia|apply NS, US, H0|lia]. fold y in Ha. split; [|apply Ha].
      exists e0. split; [auto|]. split; [apply Ha|].
      destruct (cut_attr addr len q e0) as [Z0|[Z0 _]]; [congruence|]. exact Z0.
    + intros ((e0 & H0 & Ha & ->) & Hn). assert (N0 := chain_in _ _ _ _ CH H0).
      assert (Hc' : e_begin (cut addr len e0) <= a < e_end (cut addr len e0)).
      { apply cut_covers; [lia|apply NS, US, H0|lia|]. split; [exact Ha|exact Hn]. }
      exists (cut addr len e0). split; [|split; [exact Hc'|]].
      * unfold F. apply filter_In. split; [apply in_map, H0|]. unfold nz.
        destruct (Z.eqb_spec (e_begin (cut addr len e0)) 0) as [Z0|]; [|reflexivity]. exfalso.
        assert (P := so_pos _ OK). revert Z0 Hc'. unfold cut. fold y.
        destruct ((e_begin e0 <=? y) && (addr <? e_end e0)); [|lia].
        destruct (e_begin e0 <? addr); cbn; [lia|]. destruct (e_end e0 <=? y); cbn; [lia|].
        destruct Hc as [(H1 & H2)|(H1 & H2)]; lia.
      * destruct (cut_attr addr len q e0) as [Z0|[Z0 _]]; [rewrite Z0 in Hc'; cbn in Hc'; lia|]. symmetry. exact Z0.
Qed.

(* ---- looking an entry up ---- *)
Lemma find_entry_some q a e : find_entry q a = Some e -> In e (used q) /\ e_begin e <= a < e_end e.
Proof. unfold find_entry. intro H. apply find_some in H. fold (used q) in H. destruct H as [H H0]. split; [exact H|]. cbv beta in H0. lia. Qed.
Lemma find_entry_spec q a : seq_ok q ->
  match find_entry q a with
  | Some e => In e (used q) /\ e_begin e <= a < e_end e /\ q_begin q <= a < q_end q /\
              forall e', In e' (used q) -> e_begin e' <= a < e_end e' -> e' = e
  | None => ~ (q_begin q <= a < q_end q)
  end.
Proof.
  intro OK. assert (CH := so_chain _ OK). destruct (find_entry q a) as [e|] eqn:E.
  - apply find_entry_some in E. destruct E as [E1 E2]. split; [auto|]. split; [auto|].
    assert (X := chain_in _ _ _ _ CH E1). split; [lia|]. intros e' H1 H2. eapply chain_uniq; eauto.
  - intro Ha. destruct (chain_cover _ _ _ _ CH Ha) as (e & H1 & H2).
    unfold find_entry in E. fold (used q) in E. apply (find_none _ _ E) in H1. cbv beta in H1. lia.
Qed.
Lemma says_find q a t : seq_ok q -> (says q a t <-> exists e, find_entry q a = Some e /\ t = attr_of q e).
Proof.
  intro OK. assert (X := find_entry_spec q a OK). split.
  - intros (e & H1 & H2 & ->). destruct (find_entry q a) as [e1|].
    + destruct X as (_ & _ & _ & X). rewrite (X e H1 H2). eauto.
    + assert (Y := chain_in _ _ _ _ (so_chain _ OK) H1). lia.
  - intros (e & E & ->). rewrite E in X. exists e. destruct X as (X1 & X2 & _). auto.
Qed.
Lemma says_range q a : seq_ok q -> ((exists t, says q a t) <-> q_begin q <= a < q_end q).
Proof.
  intro OK. split.
  - intros (t & e & H1 & H2 & _). assert (Y := chain_in _ _ _ _ (so_chain _ OK) H1). lia.
  - intro H. destruct (chain_cover _ _ _ _ (so_chain _ OK) H) as (e & H1 & H2). exists (attr_of q e), e. auto.
Qed.
Lemma says_fun q a t t' : seq_ok q -> says q a t -> says q a t' -> t = t'.
Proof.
  intros OK (e & H1 & H2 & ->) (e' & H1' & H2' & ->). f_equal. eapply chain_uniq; eauto. apply (so_chain _ OK).
Qed.

(* ---- extending a sequence ---- *)
Lemma used_split q : q_maps q = used q ++ skipn (q_nused q) (q_maps q).
Proof. symmetry. apply firstn_skipn. Qed.
Lemma seq_ok_lt q : seq_ok q -> q_begin q < q_end q.
Proof.
  intro OK. assert (C := so_chain _ OK). assert (U := used_len _ OK). assert (V := so_used _ OK).
  destruct (used q) as [|e u]; [cbn in U; lia|]. cbn in C. destruct C as (A & B & C). apply chain_le in C. lia.
Qed.
Lemma in_used q e : In e (used q) -> In e (q_maps q).
Proof. intro H. rewrite used_split. apply in_app_iff. left. exact H. Qed.

Lemma store_end q e : length (q_maps q) = MAXLEN -> (q_nused q < MAXLEN)%nat ->
  exists R, store (q_maps q) (q_nused q) e = Ok (used q ++ e :: R) /\ length (used q ++ e :: R) = MAXLEN /\
            (forall z, In z R -> In z (q_maps q)).
Proof.
  intros L N. assert (SP := used_split q). assert (LU : length (used q) = q_nused q) by (unfold used; rewrite firstn_length; lia).
  assert (LS : length (skipn (q_nused q) (q_maps q)) = (MAXLEN - q_nused q)%nat) by (rewrite skipn_length, L; reflexivity).
  destruct (skipn (q_nused q) (q_maps q)) as [|r R]; [cbn [length] in LS; lia|]. exists R. split; [|split].
  - rewrite SP, <- LU. apply store_app. rewrite <- SP. exact L.
  - rewrite app_length. cbn [length] in *. lia.
  - intros z Hz. rewrite SP. apply in_app_iff. right. right. exact Hz.
Qed.

Section Aug.
  Context (obj_of : Z -> Z) (dbg : bool).

  Lemma augment_new b x prot flags off file caller : 0 < b -> b < x ->
    exists q, augment dbg obj_of seq0 b x prot flags off file caller = Ok (q, true) /\ seq_inv q /\
      q_begin q = b /\ q_end q = x /\
      forall a t, says q a t <-> b <= a < x /\ t = mkAttr prot flags file caller.
  Proof.
    intros P0 P1. unfold augment. rewrite (asrt_true _ _ (eq_refl : seq_sane seq0 = true)). cbn [bind].
    cbn [seq0 q_begin q_end q_file q_nused q_maps Z.eqb orb andb Nat.eqb MAXLEN].
    replace (0 <=? b) with true by lia. cbn [andb negb]. unfold augment_clean.
    cbn [seq0 q_begin q_end q_file q_nused q_maps Z.eqb orb andb Nat.eqb].
    rewrite andb_true_r, orb_true_r. cbn [orb negb store Nat.ltb Nat.leb MAXLEN firstn skipn app repeat bind is_none].
    set (e := mkE b x prot flags off (is_none file) caller).
    set (q := mkM b x file 1 [e; ent0; ent0; ent0; ent0; ent0; ent0; ent0]).
    assert (OK : seq_ok q).
    { constructor; cbn.
      - reflexivity.
      - unfold MAXLEN. lia.
      - exact P0.
      - split; [reflexivity|]. split; [exact P1|reflexivity].
      - intros z [<-|[]] A. unfold e in A. cbn in A. destruct file; [discriminate|discriminate]. }
    rewrite (asrt_true _ _ (seq_ok_sane _ OK)). cbn [bind]. exists q. split; [reflexivity|].
    split; [split; [exact OK|]|split; [reflexivity|split; [reflexivity|]]].
    - intros z Hz Nz. cbn in Hz. destruct Hz as [<-|Hz]; [cbn; lia|].
      repeat (destruct Hz as [<-|Hz]; [cbn in Nz; lia|]). destruct Hz.
    - assert (AT : attr_of q e = mkAttr prot flags file caller) by (unfold attr_of, e, q; cbn; destruct file; reflexivity).
      intros a t. split.
      + intros (z & [<-|[]] & H1 & ->). cbn in H1. auto.
      + intros (H1 & ->). exists e. split; [left; reflexivity|]. auto.
  Qed.

  (* clean extension *)
  Lemma augment_clean_spec q x prot flags off file caller q' ok : seq_inv q -> (q_nused q < MAXLEN)%nat -> q_end q < x ->
    augment_clean obj_of q (q_end q) x prot flags off file caller = Ok (q', ok) ->
    if ok then seq_inv q' /\ q_begin q' = q_begin q /\ q_end q' = x /\
      forall a t, says q' a t <-> says q a t \/ (q_end q <= a < x /\ t = mkAttr prot flags file caller)
    else q' = q.
  Proof.
    intros [OK RE] N Px. unfold augment_clean.
    match goal with |- context [if negb ?c then _ else _] => destruct c eqn:CO end; cbn [negb];
      [|intro E; injection E as <- <-; reflexivity].
    destruct (store_end q (mkE (q_end q) x prot flags off (is_none file) caller) (so_len _ OK) N) as (R & E & L' & IR).
    rewrite E. cbn [bind]. intro EE. injection EE as <- <-.
    assert (P := so_pos _ OK). assert (LT := seq_ok_lt _ OK). replace (q_begin q =? 0) with false by lia.
    set (e := mkE (q_end q) x prot flags off (is_none file) caller) in *.
    set (f := if is_none (q_file q) then file else q_file q).
    assert (FF : (file = None \/ file = q_file q) /\ f = q_file q).
    { unfold f. destruct (so_used _ OK) as [U1 _]. destruct file as [g|].
      - cbn [is_none andb orb] in CO. rewrite andb_false_r in CO. replace (Nat.eqb (q_nused q) 0) with false in CO by lia.
        cbn [orb] in CO. unfold same_file in CO. destruct (q_file q) as [h|]; [|discriminate].
        apply Z.eqb_eq in CO. subst h. cbn. auto.
      - split; [auto|]. destruct (q_file q); reflexivity. }
    destruct FF as (FF & EF). rewrite EF.
    set (q' := mkM (q_begin q) x (q_file q) (S (q_nused q)) (used q ++ e :: R)).
    assert (UQ : used q' = used q ++ [e]).
    { unfold used at 1, q'. cbn [q_nused q_maps].
      change (e :: R) with ([e] ++ R). rewrite app_assoc. apply firstn_app_l. rewrite app_length, (used_len _ OK). cbn. lia. }
    assert (OK' : seq_ok q').
    { constructor.
      - exact L'.
      - cbn. lia.
      - exact P.
      - rewrite UQ. cbn [q' q_begin q_end]. apply chain_app. exists (q_end q). split; [apply (so_chain _ OK)|].
        cbn. auto.
      - rewrite UQ. cbn [q' q_file]. intros z Hz A. apply in_app_iff in Hz. destruct Hz as [Hz|[<-|[]]].
        + apply (so_file _ OK z Hz A).
        + cbn in A. destruct file; [|discriminate]. destruct FF as [FF|FF]; [discriminate|]. rewrite <- FF. discriminate. }
    split; [split; [exact OK'|]|split; [reflexivity|split; [reflexivity|]]].
    - intros z Hz Nz. cbn [q' q_maps q_begin q_end] in *. apply in_app_iff in Hz. destruct Hz as [Hz|[<-|Hz]].
      + apply in_used in Hz. specialize (RE z Hz Nz). lia.
      + cbn. lia.
      + specialize (RE z (IR z Hz) Nz). lia.
    - assert (AT : attr_of q' e = mkAttr prot flags file caller).
      { unfold attr_of, e, q'. cbn. destruct FF as [->|FF]; [reflexivity|]. rewrite <- FF. destruct file; reflexivity. }
      intros a t. unfold says. rewrite UQ. split.
      + intros (z & Hz & H1 & ->). apply in_app_iff in Hz. destruct Hz as [Hz|[<-|[]]]; [left; exists z; auto|]. right. cbn in H1. auto.
      + intros [(z & Hz & H1 & ->)|(H1 & ->)].
        * exists z. split; [apply in_app_iff; left; exact Hz|auto].
        * exists e. split; [apply in_app_iff; right; left; reflexivity|auto].
  Qed.

End Aug.

(* ---- array shifts ---- *)
  Lemma copy_right_spec q X y Y R : q_maps q = X ++ y :: Y ++ R -> length (q_maps q) = MAXLEN ->
    q_nused q = (length X + S (length Y))%nat -> (q_nused q < MAXLEN)%nat ->
    exists R', copy_right q (length X) 1 = Ok (w_used q (S (q_nused q)) (X ++ y :: y :: Y ++ R')) /\
      length (X ++ y :: y :: Y ++ R') = MAXLEN /\ (forall z, In z R' -> In z (q_maps q)).
  Proof.
    intros Hm L U N. rewrite Hm in L. rewrite app_length in L. cbn [length] in L. rewrite app_length in L.
    destruct R as [|r R]; [cbn in L; lia|]. cbn [length] in L. exists R.
    assert (E : copy_right q (length X) 1 = Ok (w_used q (S (q_nused q)) (X ++ y :: y :: Y ++ R))).
    { unfold copy_right, memmove. replace (q_nused q - length X)%nat with (S (length Y)) by lia.
      replace (Nat.leb (length X + 1 + S (length Y)) MAXLEN && Nat.leb (length X + S (length Y)) MAXLEN) with true by lia.
      cbn [bind]. replace (length X + 1)%nat with (S (length X)) by lia. f_equal. apply (f_equal2 (w_used q)); [lia|]. rewrite Hm.
      assert (E1 : firstn (S (length X)) (X ++ y :: Y ++ r :: R) = X ++ [y]).
      { change (y :: Y ++ r :: R) with ([y] ++ (Y ++ r :: R)). rewrite app_assoc. apply firstn_app_l. rewrite app_length. cbn. lia. }
      assert (E2 : skipn (length X) (X ++ y :: Y ++ r :: R) = y :: Y ++ r :: R).
      { rewrite skipn_app, skipn_all, Nat.sub_diag. reflexivity. }
      assert (E3 : skipn (S (length X) + S (length Y)) (X ++ y :: Y ++ r :: R) = R).
      { replace (X ++ y :: Y ++ r :: R) with ((X ++ y :: Y ++ [r]) ++ R) by (rewrite <- app_assoc; cbn; rewrite <- app_assoc; reflexivity).
        rewrite skipn_app. rewrite (skipn_all2 (X ++ _)) by (rewrite app_length; cbn [length]; rewrite app_length; cbn [length]; lia).
        match goal with |- _ ++ skipn ?k _ = _ => replace k with O; [reflexivity|] end.
        rewrite app_length. cbn [length]. rewrite app_length. cbn [length]. lia. }
      rewrite E1, E2, E3. change (y :: Y ++ r :: R) with ((y :: Y) ++ r :: R). rewrite (firstn_app_l (y :: Y)) by reflexivity.
      rewrite <- app_assoc. reflexivity. }
    split; [exact E|]. split.
    - rewrite app_length. cbn [length]. rewrite app_length. cbn [length]. lia.
    - intros z Hz. rewrite Hm. apply in_app_iff. right. right. apply in_app_iff. right. right. exact Hz.
  Qed.

  Lemma copy_left_spec q X D Y R : q_maps q = X ++ D ++ Y ++ R -> length (q_maps q) = MAXLEN ->
    q_nused q = (length X + length D + length Y)%nat ->
    exists R', copy_left q (length X + length D) (length D) = Ok (w_used q (length X + length Y) (X ++ Y ++ R')) /\
      length (X ++ Y ++ R') = MAXLEN /\ (forall z, In z R' -> In z (q_maps q)).
  Proof.
    intros Hm L U. assert (L2 := L). rewrite Hm in L2. rewrite !app_length in L2.
    exists (skipn (length X + length Y) (q_maps q)). split; [|split].
    - unfold copy_left, memmove. replace (length X + length D - length D)%nat with (length X) by lia.
      replace (q_nused q - (length X + length D))%nat with (length Y) by lia.
      replace (Nat.leb (length X + length Y) MAXLEN && Nat.leb (length X + length D + length Y) MAXLEN) with true by lia.
      cbn [bind]. f_equal. apply (f_equal2 (w_used q)); [lia|].
      assert (E1 : firstn (length X) (q_maps q) = X) by (rewrite Hm; apply firstn_app_l; reflexivity).
      assert (E2 : firstn (length Y) (skipn (length X + length D) (q_maps q)) = Y).
      { rewrite Hm, (app_assoc X D). rewrite skipn_app. rewrite (skipn_all2 (X ++ D)) by (rewrite app_length; lia).
        rewrite app_length, Nat.sub_diag. cbn [skipn app]. apply firstn_app_l. reflexivity. }
      rewrite E1, E2. reflexivity.
    - rewrite !app_length, skipn_length, L. lia.
    - intros z Hz. rewrite <- (firstn_skipn (length X + length Y) (q_maps q)). apply in_app_iff. right. exact Hz.
  Qed.
