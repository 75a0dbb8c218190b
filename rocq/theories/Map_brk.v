(* The program break's mapping grows and shrinks. *)
From Verif Require Import Base Big_model Big_spec Big_inv Big_lookup Big_links Big_create Big_hist Big_props Map_model Map_spec Big_field Map_seq Map_aug Map_state Map_unmap Map_loop Map_map.

Section Br.
Variables (nb : nat) (biggest : Z) (dbg : bool) (al : nat -> Z) (cur_ max_ : Z).
Notation R := (reach nb biggest dbg al cur_ max_).
Notation MInv := (MInv nb biggest dbg al cur_ max_).

(* the last entry of a sequence *)
Lemma used_last q : seq_ok q -> exists u e k, used q = u ++ [e] /\ q_nused q = S k /\ length u = k /\
  slot (q_maps q) k = e /\ e_end e = q_end q /\ e_begin e < q_end q /\ chain (q_begin q) u (e_begin e).
Proof.
  intro OK. assert (L := used_len _ OK). assert (U := so_used _ OK). assert (C := so_chain _ OK).
  destruct (exists_last (l := used q)) as (u & e & E); [intro X; rewrite X in L; cbn in L; lia|].
  rewrite E in *. rewrite app_length in L. cbn [length] in L. exists u, e, (length u).
  split; [reflexivity|]. split; [lia|]. split; [reflexivity|]. apply chain_app in C. destruct C as (m & C1 & C2). cbn [chain] in C2.
  destruct C2 as (C2 & C3 & C4). split; [|split; [exact C4|split; [lia|rewrite C2; exact C1]]].
  unfold slot. rewrite used_split, E, <- app_assoc, app_nth2, Nat.sub_diag by lia. reflexivity.
Qed.

(* the sequence after an extension *)
Definition grown (q : mseq) (x : Z) : res mseq :=
  match q_nused q with
  | O => UB
  | Datatypes.S k =>
      let last := slot (q_maps q) k in
      if e_anon last then
        do l <- store (q_maps q) k (e_w_end last x) ;
        Ok (mkM (q_begin q) x (q_file q) (q_nused q) l)
      else
        do l <- store (q_maps q) (q_nused q) (mkE (e_end last) x 3 0 0 true 0) ;
        Ok (mkM (q_begin q) x (q_file q) (1 + q_nused q) l)
  end.

Lemma grown_spec q x t : seq_inv q -> q_end q < x -> says q (q_end q - 1) t ->
  ((length (used q) < MAXLEN)%nat \/ at_file t = None) ->
  exists q', grown q x = Ok q' /\ seq_inv q' /\ q_begin q' = q_begin q /\ q_end q' = x /\
    forall a t', says q' a t' <-> (q_end q <= a < x /\ t' = brk_attr (Some t)) \/ (~ (q_end q <= a < x) /\ says q a t').
Proof.
  intros [OK RE] Px Sy Rm. destruct (used_last q OK) as (u & e & k & EU & NK & LU & SL & EE & EB & CH).
  assert (P := so_pos _ OK). assert (LT := seq_ok_lt _ OK). assert (LN := so_len _ OK). assert (UM := so_used _ OK).
  assert (ULEN := used_len _ OK).
  assert (TE : t = attr_of q e).
  { apply (says_fun q (q_end q - 1) t _ OK Sy). exists e. split; [rewrite EU; apply in_app_iff; right; left; reflexivity|]. split; [lia|reflexivity]. }
  assert (LOW : forall a t', says q a t' -> a < q_end q) by (intros a t' H; apply (says_in _ _ _ OK) in H; lia).
  unfold grown. rewrite NK, SL. destruct (e_anon e) eqn:AN.
  - set (R0 := skipn (q_nused q) (q_maps q)).
    assert (SP : q_maps q = u ++ e :: R0) by (rewrite used_split, EU, <- app_assoc; reflexivity).
    assert (ST : store (q_maps q) k (e_w_end e x) = Ok (u ++ e_w_end e x :: R0)).
    { rewrite SP, <- LU. apply store_app. rewrite <- SP. exact LN. }
    rewrite ST. cbn [bind]. set (e' := e_w_end e x). set (q' := mkM (q_begin q) x (q_file q) (S k) (u ++ e' :: R0)).
    assert (UQ : used q' = u ++ [e']).
    { unfold used, q'. cbn [q_nused q_maps]. change (e' :: R0) with ([e'] ++ R0). rewrite app_assoc. apply firstn_app_l. rewrite app_length. cbn. lia. }
    assert (AT : attr_of q' e' = attr_of q e) by reflexivity.
    exists q'. split; [reflexivity|]. split; [split|split; [reflexivity|split; [reflexivity|]]].
    + constructor.
      * cbn [q_maps q']. rewrite SP in LN. rewrite app_length in *. cbn [length] in *. exact LN.
      * cbn [q_nused q']. lia.
      * exact P.
      * rewrite UQ. cbn [q_begin q_end q']. apply chain_app. exists (e_begin e). split; [exact CH|]. cbn. split; [reflexivity|]. split; [lia|reflexivity].
      * rewrite UQ. cbn [q_file q']. intros z Hz A. apply in_app_iff in Hz. destruct Hz as [Hz|[<-|[]]].
        -- apply (so_file _ OK z); [rewrite EU; apply in_app_iff; left; exact Hz|exact A].
        -- cbn in A. congruence.
    + intros z Hz Nz. cbn [q' q_maps q_begin q_end] in *. apply in_app_iff in Hz. destruct Hz as [Hz|[<-|Hz]].
      * specialize (RE z ltac:(rewrite SP; apply in_app_iff; left; exact Hz) Nz). lia.
      * assert (CI := chain_in _ _ _ e (so_chain _ OK) ltac:(rewrite EU; apply in_app_iff; right; left; reflexivity)). cbn. lia.
      * specialize (RE z ltac:(rewrite SP; apply in_app_iff; right; right; exact Hz) Nz). lia.
    + assert (BA : brk_attr (Some t) = t) by (rewrite TE; unfold brk_attr, attr_of; cbn; rewrite AN; reflexivity). rewrite BA, TE.
      intros a t'. unfold says. rewrite UQ, EU. split.
      * intros (z & Hz & H1 & ->). apply in_app_iff in Hz. destruct Hz as [Hz|[<-|[]]].
        -- right. assert (X := chain_in _ _ _ _ CH Hz). split; [lia|]. exists z. split; [apply in_app_iff; left; exact Hz|]. split; [exact H1|reflexivity].
        -- rewrite AT. cbn in H1. destruct (Z_lt_le_dec a (q_end q)).
           ++ right. split; [lia|]. exists e. split; [apply in_app_iff; right; left; reflexivity|]. split; [lia|reflexivity].
           ++ left. split; [lia|reflexivity].
      * intros [(H1 & ->)|(H1 & z & Hz & H2 & ->)].
        -- exists e'. split; [apply in_app_iff; right; left; reflexivity|]. cbn. split; [lia|reflexivity].
        -- apply in_app_iff in Hz. destruct Hz as [Hz|[<-|[]]].
           ++ exists z. split; [apply in_app_iff; left; exact Hz|]. split; [exact H2|reflexivity].
           ++ exists e'. split; [apply in_app_iff; right; left; reflexivity|]. cbn. split; [lia|reflexivity].
  - assert (N8 : (q_nused q < MAXLEN)%nat).
    { destruct Rm as [Rm|Rm]; [lia|]. exfalso. rewrite TE in Rm. unfold attr_of in Rm. rewrite AN in Rm. cbn in Rm.
      apply (so_file _ OK e); [rewrite EU; apply in_app_iff; right; left; reflexivity|exact AN|exact Rm]. }
    rewrite EE. set (e' := mkE (q_end q) x 3 0 0 true 0).
    destruct (store_end q e' LN N8) as (R0 & ST & L' & IR). rewrite NK in ST. rewrite ST. cbn [bind].
    set (q' := mkM (q_begin q) x (q_file q) (1 + S k) (used q ++ e' :: R0)).
    assert (UQ : used q' = used q ++ [e']).
    { unfold used at 1, q'. cbn [q_nused q_maps]. change (e' :: R0) with ([e'] ++ R0). rewrite app_assoc. apply firstn_app_l. rewrite app_length. cbn [length]. lia. }
    assert (BA : brk_attr (Some t) = mkAttr 3 0 None 0).
    { rewrite TE. unfold brk_attr, attr_of. rewrite AN. cbn. destruct (q_file q) eqn:QF; [reflexivity|].
      exfalso. apply (so_file _ OK e); [rewrite EU; apply in_app_iff; right; left; reflexivity|exact AN|exact QF]. }
    exists q'. split; [reflexivity|]. split; [split|split; [reflexivity|split; [reflexivity|]]].
    + constructor.
      * exact L'.
      * cbn [q_nused q']. lia.
      * exact P.
      * rewrite UQ. cbn [q_begin q_end q']. apply chain_app. exists (q_end q). split; [exact (so_chain _ OK)|]. cbn. auto.
      * rewrite UQ. cbn [q_file q']. intros z Hz A. apply in_app_iff in Hz. destruct Hz as [Hz|[<-|[]]]; [apply (so_file _ OK z Hz A)|discriminate].
    + intros z Hz Nz. cbn [q' q_maps q_begin q_end] in *. apply in_app_iff in Hz. destruct Hz as [Hz|[<-|Hz]].
      * apply in_used in Hz. specialize (RE z Hz Nz). lia.
      * cbn. lia.
      * specialize (RE z (IR z Hz) Nz). lia.
    + rewrite BA. intros a t'. unfold says at 1. rewrite UQ. split.
      * intros (z & Hz & H1 & ->). apply in_app_iff in Hz. destruct Hz as [Hz|[<-|[]]].
        -- right. assert (Sz : says q a (attr_of q z)) by (exists z; auto). split; [specialize (LOW _ _ Sz); lia|exact Sz].
        -- left. cbn in H1. split; [lia|reflexivity].
      * intros [(H1 & ->)|(H1 & z & Hz & H2 & ->)].
        -- exists e'. split; [apply in_app_iff; right; left; reflexivity|]. cbn. split; [lia|reflexivity].
        -- exists z. split; [apply in_app_iff; left; exact Hz|]. split; [exact H2|reflexivity].
Qed.

Lemma RUP_al x : aligned (RUP x).
Proof. unfold aligned, RUP, PAGE. lia. Qed.

Theorem brk_ok S M n new : MInv S -> mirrors S M -> may_brk biggest S n new ->
  exists S', mmap_notify_brk biggest dbg S n new = Ok S' /\ MInv S' /\ mirrors S' (brk_moved M (b_end (bigs (fo S) n)) (RUP new)) /\
    (forall m w, other S' m w <-> other S m w) /\ start (fo S') = start (fo S) /\
    forall m, view (fo S') m = if Nat.eqb m n then Some (mkAttrs (b_begin (bigs (fo S) n)) (RUP new) (b_parent (bigs (fo S) n)) (b_alloc (bigs (fo S) n)) (b_sub (bigs (fo S) n)) (b_priv (bigs (fo S) n)) (b_subpriv (bigs (fo S) n))) else view (fo S) m.
Proof.
  intros MI MR [[Ln An] Fit CL BS RM KD]. assert (HR := mi_R _ _ _ _ _ _ _ MI).
  assert (Hn := live_as _ _ Ln). set (v := attrs_of (bigs (fo S) n)) in *.
  destruct (mi_seq _ _ _ _ _ _ _ MI n v Hn An) as (Pn & SI & Eb & Ee & FR).
  destruct (vf_align _ _ _ _ _ _ (fo S) HR n v Hn Pn) as [A1 A2]. change (aligned (a_begin v)) in A1. change (aligned (a_end v)) in A2.
  assert (RV := vf_range _ _ _ _ _ _ (fo S) HR n v Hn).
  change (b_begin (bigs (fo S) n)) with (a_begin v) in *. change (b_end (bigs (fo S) n)) with (a_end v) in *.
  change (priv_of S n) with (a_priv v) in *. unfold mmap_notify_brk. cbv zeta. assert (A3 := RUP_al new). set (hi := RUP new) in *. clearbody hi.
  destruct (Nat.eqb_spec n 0) as [Z0|_]; [exfalso; apply (proj1 Ln), Z0|].
  fold v. change (priv_of S n) with (a_priv v). change (b_end (bigs (fo S) n)) with (a_end v).
  unfold brk_moved. destruct (Z.ltb_spec (a_end v) hi) as [HG|HG].
  - (* growing *)
    destruct (proj2 (says_range _ (a_end v - 1) (proj1 SI)) ltac:(lia)) as (t & St).
    assert (Rt : recorded S (a_end v - 1) t) by (apply (rec_iff nb biggest dbg al cur_ max_ S _ _ MI); exists n, v; auto).
    destruct (grown_spec (seqs S (a_priv v)) hi t SI ltac:(lia)) as (q' & GE & SI' & Qb & Qe & SY).
    { rewrite Ee. exact St. }
    { destruct (RM HG) as [X|X]; [auto|right; exact (X t Rt)]. }
    destruct (big_extend_exact nb biggest dbg al cur_ max_ (fo S) n hi HR) as (s1 & EX & HR1 & (VW & St1 & _)).
    { split; [exact Ln|]. change (b_begin (bigs (fo S) n)) with (a_begin v). change (b_end (bigs (fo S) n)) with (a_end v).
      split; [lia|]. split; [|split; [lia|left; rewrite (rdown_id nb al _ A2); lia]].
      assert (Fpa : b_parent (bigs (fo S) n) = 0%nat) by exact Pn.
      assert (Fb : b_begin (bigs (fo S) n) = a_begin v) by reflexivity. assert (Fe : b_end (bigs (fo S) n) = a_end v) by reflexivity.
      constructor; try lia.
      - intros c Lc Pc. assert (KI := kid_in nb biggest dbg al cur_ max_ S n v c _ MI Hn (proj1 Ln) (live_as _ _ Lc) Pc). cbn in KI. change (a_begin v <= b_begin (bigs (fo S) c) /\ b_end (bigs (fo S) c) <= hi). lia.
      - intros m Lm Nm Pm. destruct (Z.le_gt_cases (b_end (bigs (fo S) m)) (a_begin v)); [auto|].
        destruct (Z.le_gt_cases hi (b_begin (bigs (fo S) m))); [auto|]. exfalso.
        assert (RM2 := vf_range _ _ _ _ _ _ (fo S) HR m _ (live_as _ _ Lm)). cbn in RM2.
        assert (Pm0 : a_parent (attrs_of (bigs (fo S) m)) = 0%nat) by (cbn; rewrite Pm; exact Pn).
        destruct (vf_top _ _ _ _ _ _ (fo S) HR m n _ _ (live_as _ _ Lm) Hn Pm0 Pn Nm) as [Y|Y]; cbn in Y; [lia|].
        apply (CL m Lm). exists (Z.max (a_end v) (b_begin (bigs (fo S) m))). clear A1 A2 A3. unfold covers. change (a_end v) with (b_end (bigs (fo S) n)) in *. lia.
      - intros _. split; [exact A1|exact A3]. }
    unfold adjust_end. change (b_end (bigs (fo S) n)) with (a_end v). replace (hi <? a_end v) with false by lia. replace (a_end v <? hi) with true by lia.
    rewrite EX. cbn [bind].
    assert (GE' := GE). unfold grown in GE'. destruct (q_nused (seqs S (a_priv v))) as [|k] eqn:NK; [discriminate|]. cbn zeta in GE'.
    cbn zeta. rewrite GE'. cbn [bind]. rewrite (asrt_true _ _ (seq_ok_sane _ (proj1 SI'))). cbn [bind].
    eexists. split; [reflexivity|].
    destruct (finish_put nb biggest dbg al cur_ max_ (fun x => x) S n v s1 q' (a_end v) hi hi (brk_attr (Some t))) as [X Y]; try assumption; try lia.
    { intros a t'. rewrite SY, Ee. reflexivity. }
    { intros a t' (m & w & Nm & Hm & Am & Sm) Ca.
      destruct (mi_seq _ _ _ _ _ _ _ MI m w Hm Am) as (Pk & SIm & Ebm & Eem & _). assert (X := says_in _ _ _ (proj1 SIm) Sm).
      apply view_inv in Hm. destruct Hm as [Lm ->]. apply (CL m Lm). exists a. split; [exact Ca|]. unfold covers. cbn in *. lia. }
    split; [exact X|]. split; [|split; [exact (ma_oth _ _ _ _ _ Y)|split; [exact St1|exact VW]]].
    intros a t'. rewrite (ma_rec _ _ _ _ _ Y). unfold map_over. rewrite (proj2 (MR _ t) Rt).
    destruct (Z.leb_spec (a_end v) a), (Z.ltb_spec a hi); cbn [andb].
    + split; [intro Z0; injection Z0 as <-; left; split; [lia|reflexivity]|]. intros [[_ ->]|[Z0 _]]; [reflexivity|lia].
    + rewrite (MR a t'). split; [intro Z0; right; split; [lia|exact Z0]|]. intros [[Z0 _]|[_ Z0]]; [lia|exact Z0].
    + rewrite (MR a t'). split; [intro Z0; right; split; [lia|exact Z0]|]. intros [[Z0 _]|[_ Z0]]; [lia|exact Z0].
    + rewrite (MR a t'). split; [intro Z0; right; split; [lia|exact Z0]|]. intros [[Z0 _]|[_ Z0]]; [lia|exact Z0].
  - destruct (Z.ltb_spec hi (a_end v)) as [HS|HE].
    + (* shrinking *)
      assert (KO : kids_off S n hi (a_end v)).
      { intros c wc Hc Pc. left. apply view_inv in Hc. destruct Hc as [Lc ->]. exact (KD c Lc Pc). }
      destruct (step_back nb biggest dbg al cur_ max_ S n v hi MI Hn An ltac:(lia) A3 KO) as (s' & q' & E1 & E2 & X & Y & S1 & V1 & V2).
      rewrite E2. cbn [bind]. unfold adjust_end. change (b_end (bigs (fo S) n)) with (a_end v). replace (hi <? a_end v) with true by lia.
      rewrite E1. cbn [bind].
      assert (SQ : seq_sane q' = true).
      { assert (Z0 := mi_seq _ _ _ _ _ _ _ X n _ V2 An). cbn [set_seq seqs a_priv] in Z0. rewrite Nat.eqb_refl in Z0.
        destruct Z0 as (_ & Z0 & _). exact (seq_ok_sane _ (proj1 Z0)). }
      rewrite (asrt_true _ _ SQ). cbn [bind]. eexists. split; [reflexivity|].
      change (set_fo (set_seq S (a_priv v) q') s') with (set_seq (set_fo S s') (a_priv v) q').
      split; [exact X|]. split; [|split; [|split; [exact S1|]]].
      * intros a t. rewrite (un_rec _ _ _ _ Y), <- (MR a t). unfold unmap.
        destruct (Z.leb_spec hi a), (Z.ltb_spec a (a_end v)); cbn [andb]; (split; [intro Z0; first [discriminate|split; [exact Z0|lia]]|intros [Z0 Z1]; first [exact Z0|lia]]).
      * intros m w. rewrite (un_oth _ _ _ _ Y). split; [tauto|]. intro Z0. split; [exact Z0|].
        apply (kids_off_oth nb biggest dbg al cur_ max_ S n v hi (a_end v) m w MI Hn An ltac:(lia) ltac:(lia) KO Z0).
      * intro m. cbn [fo set_seq set_fo]. destruct (Nat.eqb_spec m n) as [->|N]; [exact V2|exact (V1 m N)].
    + assert (hi = a_end v) by lia. subst hi. exists S. split; [reflexivity|]. split; [exact MI|]. split; [|split; [tauto|split; [reflexivity|]]].
      * intros a t. rewrite <- (MR a t). unfold unmap. destruct (Z.leb_spec (a_end v) a), (Z.ltb_spec a (a_end v)); cbn [andb]; try reflexivity. lia.
      * intro m. destruct (Nat.eqb_spec m n) as [->|]; [exact Hn|reflexivity].
Qed.
End Br.
