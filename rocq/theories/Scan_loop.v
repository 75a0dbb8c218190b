(* The start-up scan: the loop over the lines. *)
From Verif Require Import Base Big_model Big_spec Big_inv Big_lookup Big_links Big_create Big_hist Big_props Big_field
  Map_model Map_spec Map_seq Map_state Map_unmap Map_loop Map_map Scan_model Scan_spec Scan_seq Scan_new Scan_absent.

Lemma fop_app {A} (P : A -> A -> Prop) l1 l2 : ForallOrdPairs P (l1 ++ l2) -> forall x y, In x l1 -> In y l2 -> P x y.
Proof.
  induction l1 as [|a l1 IH]; cbn; intros H x y Hx Hy; [destruct Hx|]. inversion H; subst. destruct Hx as [<-|Hx].
  - rewrite Forall_forall in H2. apply H2, in_app_iff. auto.
  - apply IH; auto.
Qed.

Section L.
Variables (nb : nat) (biggest : Z) (dbg : bool) (al : nat -> Z) (cur_ max_ : Z) (obj_of : Z -> Z) (argcp asc dseg : Z).
Notation MInv := (MInv nb biggest dbg al cur_ max_).

(* one line, already known to be considered *)
Definition add1 (w : scan) (l : line) : res scan :=
  do '(q, ok) <- extend_current dbg obj_of (sc_cur w) l ;
  if ok then Ok (mkSc (sc_m w) q (sc_our w)) else
  do '(S1, our) <- if_absent nb biggest dbg argcp asc dseg (sc_m w) (sc_our w) q ;
  do '(q1, ok1) <- extend_current dbg obj_of seq0 l ;
  if ok1 then Ok (mkSc S1 q1 our) else Abort.
Fixpoint loop1 (w : scan) (ls : list line) : res scan :=
  match ls with [] => Ok w | l :: r => do w' <- add1 w l ; loop1 w' r end.

Variables (S0 : mst) (X : list line).
Definition Run (lo hi : Z) : Prop := lo < hi /\ forall a, lo <= a < hi -> exists l, In l X /\ l_first l <= a < l_second l.
Hypothesis XL : forall l, In l X -> plain l /\ 0 < l_first l < l_second l /\ l_second l <= W64 /\ aligned (l_first l) /\ aligned (l_second l).
Hypothesis XO : ForallOrdPairs (fun x y => l_second x <= l_first y) X.
Hypothesis XS : forall l, In l X -> unknown S0 (l_first l) (l_second l) \/ exists n, kn S0 l n.
Hypothesis XK : forall l n, In l X -> kn S0 l n -> ~ Run (l_first l - 1) (l_second l + 1).
Hypothesis XT : forall l l' n n', In l X -> In l' X -> kn S0 l n -> kn S0 l' n' -> l_first l < l_first l' -> ~ Run (l_first l) (l_second l').
Hypothesis XZ : forall lo hi, Run lo hi -> hi - lo <= biggest.
Hypothesis XU : forall l l', In l X -> In l' X -> stack_line l -> stack_line l' -> l = l'.
Hypothesis XA : forall l, In l X -> stack_line l -> l_first l < argcp <= l_second l.

Record J (F G L : list line) (w : scan) : Prop := {
  j_app : X = F ++ G ++ L;
  j_inv : MInv (sc_m w);
  j_cur : (G = [] /\ sc_cur w = seq0) \/ gathered (sc_cur w) G;
  j_rec : forall a t, recorded (sc_m w) a t <-> recorded S0 a t \/ exists l, In l F /\ l_first l <= a < l_second l /\ t = line_attr l;
  j_unk : forall l, In l (G ++ L) -> unknown S0 (l_first l) (l_second l) -> unknown (sc_m w) (l_first l) (l_second l);
  j_kn : forall l n, In l (G ++ L) -> kn S0 l n -> kn (sc_m w) l n;
  j_free : frees nb (fo (sc_m w)) (length (G ++ L) + if Nat.eqb (sc_our w) 0 then 2 else 0);
  j_oth : forall m f, other S0 m f -> other (sc_m w) m f;
  j_stk : (sc_our w = 0%nat /\ (forall l, In l F -> ~ stack_line l) /\ forall m f, other (sc_m w) m f -> other S0 m f) \/
          (sc_our w <> 0%nat /\ exists l k, In l F /\ stack_line l /\ stack_at (fo (sc_m w)) (l_first l) (l_second l) argcp (sc_our w) k /\
             forall m f, other (sc_m w) m f -> other S0 m f \/ m = sc_our w \/ m = k) }.

Lemma in_order F G l l' : X = F ++ G -> In l F -> In l' G -> l_second l <= l_first l'.
Proof. intros EQ H H'. rewrite EQ in XO. exact (fop_app _ _ _ XO l l' H H'). Qed.

Lemma ga_head q G : gathered q G -> exists h G', G = h :: G' /\ q_begin q = l_first h.
Proof.
  intro GA. destruct G as [|h G']; [exfalso; exact (ga_ne _ _ GA eq_refl)|]. exists h, G'. split; [reflexivity|].
  assert (C := ga_chain _ _ GA). cbn in C. symmetry. apply C.
Qed.
Lemma ga_last q G : gathered q G -> exists h, In h G /\ q_end q = l_second h.
Proof.
  intro GA. destruct (exists_last (ga_ne _ _ GA)) as (G' & h & EG). subst G. exists h. split; [apply in_app_iff; right; left; reflexivity|].
  assert (C := ga_chain _ _ GA). rewrite map_app in C. apply chain_app in C. destruct C as (m & _ & C). cbn in C. symmetry. apply C.
Qed.
Lemma ga_run q G lo hi : gathered q G -> (forall l, In l G -> In l X) -> q_begin q <= lo < hi -> hi <= q_end q -> Run lo hi.
Proof.
  intros GA IN H H'. split; [lia|]. intros a Ha. destruct (chain_cover _ _ _ a (ga_chain _ _ GA)) as (e & He & Hc); [lia|].
  apply in_map_iff in He. destruct He as (l & <- & Hl). exists l. split; [apply IN, Hl|exact Hc].
Qed.

(* where the known line of a sequence can be *)
Lemma split_known G : (forall l, In l G -> In l X) ->
  (forall l, In l G -> unknown S0 (l_first l) (l_second l)) \/
  exists G1 k G2 n, G = G1 ++ k :: G2 /\ kn S0 k n /\ forall l, In l G1 -> unknown S0 (l_first l) (l_second l).
Proof.
  induction G as [|g G IH]; intro IN; [left; intros l []|].
  destruct (XS g (IN g (or_introl eq_refl))) as [U|(n & K)].
  - destruct IH as [A|(G1 & k & G2 & n & -> & K & A)]; [intros l H; apply IN; right; exact H| |].
    + left. intros l [<-|H]; auto.
    + right. exists (g :: G1), k, G2, n. split; [reflexivity|]. split; [exact K|]. intros l [<-|H]; auto.
  - right. exists [], g, G, n. split; [reflexivity|]. split; [exact K|]. intros l [].
Qed.

Lemma unk_frame top S our q S' our' l : flushed nb biggest dbg al cur_ max_ argcp top S our q S' our' -> q_end q <= l_first l ->
  unknown S (l_first l) (l_second l) -> unknown S' (l_first l) (l_second l).
Proof.
  intros FL H U m Lm (a & Ha & Ca). assert (V := live_as _ _ Lm). destruct (fl_new _ _ _ _ _ _ _ _ _ _ _ _ _ FL m _ V) as [V'|V'].
  - destruct (view_inv _ _ _ V') as [Lm' EQ]. apply (U m Lm'). exists a. split; [exact Ha|].
    assert (X1 := f_equal a_begin EQ). assert (X2 := f_equal a_end EQ). cbn [attrs_of a_begin a_end] in X1, X2. unfold covers in *. lia.
  - cbn in V'. unfold covers in Ca. lia.
Qed.
Lemma view_fields s n v : view s n = Some v -> b_begin (bigs s n) = a_begin v /\ b_end (bigs s n) = a_end v /\ b_alloc (bigs s n) = a_alloc v /\
  b_priv (bigs s n) = a_priv v /\ b_parent (bigs s n) = a_parent v /\ live s n.
Proof. intro H. destruct (view_inv _ _ _ H) as [L EQ]. rewrite EQ. cbn. auto 7. Qed.
Lemma kn_frame top S our q S' our' l n : flushed nb biggest dbg al cur_ max_ argcp top S our q S' our' -> q_end q <= l_first l -> kn S l n -> kn S' l n.
Proof.
  intros FL H (N & L & A & B & C & U). assert (V := live_as _ _ L).
  assert (V' := fl_keep _ _ _ _ _ _ _ _ _ _ _ _ _ FL n _ V ltac:(right; cbn; lia)).
  assert (SQ := fl_seq _ _ _ _ _ _ _ _ _ _ _ _ _ FL n _ V A ltac:(right; cbn; lia)). cbn in SQ.
  destruct (view_fields _ _ _ V') as (F1 & F2 & F3 & F4 & F5 & L'). cbn in F1, F2, F3, F4.
  split; [exact N|]. split; [exact L'|]. split; [congruence|]. split; [congruence|]. split; [congruence|].
  unfold priv_of. rewrite F4, SQ. exact U.
Qed.

Lemma flush F G L w : J F G L w -> G <> [] ->
  exists S' our', if_absent nb biggest dbg argcp asc dseg (sc_m w) (sc_our w) (sc_cur w) = Ok (S', our') /\ J (F ++ G) [] L (mkSc S' seq0 our').
Proof.
  intros [JA MI JC JR JU JK JF JO JS] NE. destruct JC as [[-> _]|GA]; [congruence|]. set (S := sc_m w) in *. set (q := sc_cur w) in *. set (our := sc_our w) in *.
  assert (GX : forall l, In l G -> In l X) by (intros l H; rewrite JA; apply in_app_iff; right; apply in_app_iff; auto).
  assert (UG : forall l, In l G -> unknown S0 (l_first l) (l_second l) -> unknown S (l_first l) (l_second l)) by (intros l H; apply JU, in_app_iff; auto).
  assert (KG : forall l n, In l G -> kn S0 l n -> kn S l n) by (intros l n H; apply JK, in_app_iff; auto).
  assert (SIq := ga_seq _ _ GA). assert (LT := seq_ok_lt _ (proj1 SIq)).
  destruct (ga_head _ _ GA) as (h & G' & EG & QB). assert (Hh : In h G) by (rewrite EG; left; reflexivity).
  destruct (ga_last _ _ GA) as (e & He & QE).
  destruct (XL h (GX h Hh)) as (_ & Ph & _ & Ah & _). destruct (XL e (GX e He)) as (_ & Pe & We & _ & Ae).
  assert (RUN := ga_run q G (q_begin q) (q_end q) GA GX ltac:(lia) ltac:(lia)).
  assert (STH : stq q = true <-> stack_line h).
  { unfold stq, stack_line. rewrite (ga_file _ _ GA), EG. cbn [head_name]. destruct (l_rest h) as [|f| | |]; cbn [name_of].
    2:{ unfold is_stack. split; [intro Y; exists f; split; [reflexivity|lia]|intros (f' & E' & Y); injection E' as ->; lia]. }
    all: split; [discriminate|intros (f & Y & _); discriminate]. }
  assert (OUR : stq q = true -> our = 0%nat).
  { intro Y. apply STH in Y. destruct JS as [(O & _)|(_ & l & k & Hl & Sl & _)]; [exact O|]. exfalso.
    assert (l = h) by (apply XU; auto; rewrite JA; apply in_app_iff; auto). subst l.
    assert (Z := in_order F (G ++ L) h h JA Hl ltac:(apply in_app_iff; auto)). lia. }
  assert (LG : (1 <= length G)%nat) by (rewrite EG; cbn; lia).
  assert (FI : fits_in nb biggest S q).
  { split; [rewrite QB; exact Ah|]. split; [rewrite QE; exact Ae|]. split; [apply XZ, RUN|]. split; [lia|].
    destruct (stq q) eqn:Y.
    - apply (frees_le nb (fo S) 3 (length (G ++ L) + if Nat.eqb our 0 then 2 else 0)); [|exact JF]. rewrite (OUR eq_refl), app_length. cbn. lia.
    - apply (frees_le nb (fo S) 1 (length (G ++ L) + if Nat.eqb our 0 then 2 else 0)); [|exact JF]. rewrite app_length. lia. }
  assert (ARG : stq q = true -> q_begin q < argcp <= l_second h).
  { intro Y. apply STH in Y. assert (Z := XA h (GX h Hh) Y). lia. }
  assert (HE := proj2 (proj2 (ga_in _ _ GA h Hh))).
  assert (FLS : exists S' our', if_absent nb biggest dbg argcp asc dseg S our q = Ok (S', our') /\ flushed nb biggest dbg al cur_ max_ argcp (l_second h) S our q S' our').
  { destruct (split_known G GX) as [AU|(G1 & k & G2 & n & EK & K & U1)].
    - apply (absent_new nb biggest dbg al cur_ max_ argcp asc dseg (l_second h) S our q G MI GA); [auto|exact FI|].
      intro Y. split; [apply OUR, Y|]. specialize (ARG Y). lia.
    - assert (Hk : In k G) by (rewrite EK; apply in_app_iff; right; left; reflexivity).
      destruct (XL k (GX k Hk)) as (_ & Pk & _ & Ak1 & Ak2).
      assert (IK := ga_in _ _ GA k Hk).
      assert (CH := ga_chain _ _ GA). rewrite EK, map_app in CH. apply chain_app in CH. destruct CH as (m & C1 & C2).
      cbn [map chain] in C2. destruct C2 as (C2 & C3 & C4). cbn [E e_begin e_end] in C2, C3, C4.
      assert (U2 : forall l, In l G2 -> unknown S0 (l_first l) (l_second l)).
      { intros l Hl. destruct (XS l) as [U|(n' & K')]; [apply GX; rewrite EK; apply in_app_iff; right; right; exact Hl|exact U|]. exfalso.
        assert (Hl' : In l G) by (rewrite EK; apply in_app_iff; right; right; exact Hl).
        assert (Z := chain_in _ _ _ (E l) C4 (in_map E _ _ Hl)). cbn [E e_begin e_end] in Z.
        apply (XT k l n n' (GX k Hk) (GX l Hl') K K'); [lia|]. apply (ga_run q G); auto; lia. }
      destruct G1 as [|g1 G1]; [|destruct G2 as [|g2 G2]].
      + cbn [app] in EK. destruct G2 as [|g2 G2].
        * rewrite EK in GA. exists S, our. exact (absent_same nb biggest dbg al cur_ max_ argcp asc dseg (l_second h) S our q k n MI GA (KG k n Hk K)).
        * rewrite EK in GA. apply (absent_first nb biggest dbg al cur_ max_ argcp asc dseg (l_second h) S our q (g2 :: G2) k n MI GA); [discriminate| |apply KG; auto|exact Ak2|exact FI].
          intros l Hl. apply UG; [rewrite EK; right; exact Hl|]. apply U2, Hl.
      + rewrite EK in GA. apply (absent_last nb biggest dbg al cur_ max_ argcp asc dseg (l_second h) S our q (g1 :: G1) k n MI GA); [discriminate| |apply KG; auto|exact Ak1|exact FI|].
        * intros l Hl. apply UG; [rewrite EK; apply in_app_iff; left; exact Hl|]. apply U1, Hl.
        * intro Y. split; [apply OUR, Y|]. specialize (ARG Y). rewrite EK in EG. injection EG as -> _.
          assert (Z := chain_in _ _ _ (E h) C1 ltac:(left; reflexivity)). cbn [E e_begin e_end] in Z. lia.
      + exfalso. apply (XK k n (GX k Hk) K). apply (ga_run q G); auto.
        * assert (Z := chain_in _ _ _ (E g1) C1 ltac:(left; reflexivity)). cbn [E e_begin e_end] in Z. lia.
        * assert (Z := chain_in _ _ _ (E g2) C4 ltac:(left; reflexivity)). cbn [E e_begin e_end] in Z. lia. }
  destruct FLS as (S' & our' & EQ & FL). exists S', our'. split; [exact EQ|].
  assert (AFT : forall l, In l L -> q_end q <= l_first l).
  { intros l Hl. rewrite QE. apply (in_order (F ++ G) L); [rewrite <- app_assoc; exact JA|apply in_app_iff; auto|exact Hl]. }
  constructor; cbn [sc_m sc_cur sc_our].
  - rewrite <- app_assoc. exact JA.
  - apply FL.
  - left. auto.
  - intros a t. rewrite (fl_rec _ _ _ _ _ _ _ _ _ _ _ _ _ FL), JR, (says_gathered _ _ GA). split.
    + intros [(l & Hl & H)|[H|(l & Hl & H)]]; [right; exists l; split; [apply in_app_iff; auto|exact H]|auto|right; exists l; split; [apply in_app_iff; auto|exact H]].
    + intros [H|(l & Hl & H)]; [auto|]. apply in_app_iff in Hl. destruct Hl as [Hl|Hl]; [right; right; exists l; auto|left; exists l; auto].
  - intros l Hl U. apply (unk_frame _ _ _ _ _ _ l FL (AFT l Hl)). apply JU; [apply in_app_iff; auto|exact U].
  - intros l n Hl K. apply (kn_frame _ _ _ _ _ _ l n FL (AFT l Hl)). apply JK; [apply in_app_iff; auto|exact K].
  - cbn [app]. destruct (fl_free _ _ _ _ _ _ _ _ _ _ _ _ _ FL) as (D & LD & HD). apply (frees_less nb (fo S) (fo S') D _ HD).
    apply (frees_le nb (fo S) _ (length (G ++ L) + if Nat.eqb our 0 then 2 else 0)); [|exact JF]. rewrite LD, app_length.
    assert (SK := fl_stk _ _ _ _ _ _ _ _ _ _ _ _ _ FL). destruct (stq q).
    + destruct SK as (k & NZ & _). rewrite (OUR eq_refl). destruct (Nat.eqb_spec our' 0); [congruence|]. cbn [Nat.eqb]. lia.
    + destruct SK as (-> & _). destruct (Nat.eqb our 0); lia.
  - intros m f H. apply (fl_oth _ _ _ _ _ _ _ _ _ _ _ _ _ FL). auto.
  - assert (SK := fl_stk _ _ _ _ _ _ _ _ _ _ _ _ _ FL). destruct (stq q) eqn:SQQ.
    + right. destruct SK as (k & NZ & SA & SO). split; [exact NZ|]. exists h, k. split; [apply in_app_iff; auto|]. split; [apply STH; reflexivity|].
      split; [rewrite <- QB; exact SA|]. intros m f H. destruct (SO m f H) as [H1|H1]; [|auto]. left.
      destruct JS as [(_ & _ & J3)|(NZ' & _)]; [apply J3, H1|exfalso; apply NZ', OUR; reflexivity].
    + destruct SK as (-> & SO). destruct JS as [(OZ & J2 & J3)|(NZ & l & k & Hl & Sl & (m & hi & TH & Lm & Am & Bm & Em & Va & Vk) & J3)].
      * left. split; [exact OZ|]. split; [|auto]. intros l Hl Sl. apply in_app_iff in Hl. destruct Hl as [Hl|Hl]; [exact (J2 l Hl Sl)|].
        assert (stq q = true); [|congruence]. destruct Sl as (f & Rf & Lf). destruct (ga_same _ _ GA l Hl) as [Y|Y]; rewrite Rf in Y; [discriminate|].
        unfold stq. rewrite (ga_file _ _ GA), <- Y. unfold is_stack. cbn. lia.
      * right. split; [exact NZ|]. exists l, k. split; [apply in_app_iff; auto|]. split; [exact Sl|]. split; [|auto].
        assert (Vm := live_as _ _ Lm). destruct (mi_seq _ _ _ _ _ _ _ MI m _ Vm Am) as (Pm & _).
        assert (BL : l_second l <= q_begin q). { rewrite QB. apply (in_order F (G ++ L)); [exact JA|exact Hl|apply in_app_iff; auto]. }
        destruct (XL l) as (_ & Pl & _); [rewrite JA; apply in_app_iff; auto|].
        assert (HQ : hi <= q_begin q).
        { destruct (Z.le_gt_cases hi (q_begin q)) as [|GT]; [assumption|]. exfalso.
          assert (CV : covers (fo S) m (q_begin q)) by (unfold covers; lia).
          destruct (XS h (GX h Hh)) as [U|(n & K)].
          - apply (UG h Hh U m Lm). exists (q_begin q). split; [lia|exact CV].
          - apply (KG h n Hh) in K. destruct (kn_facts _ _ _ _ _ _ S h n MI K) as (Vn & An & Pn & Bn & Cn & _). cbn in Bn, Cn.
            destruct (Nat.eq_dec m n) as [->|N]; [lia|].
            destruct (vf_top _ _ _ _ _ _ (fo S) (mi_R _ _ _ _ _ _ _ MI) m n _ _ Vm Vn Pm Pn N) as [Y|Y]; cbn in Y; unfold covers in CV; lia. }
        assert (KEEP := fl_keep _ _ _ _ _ _ _ _ _ _ _ _ _ FL).
        assert (Vm' := KEEP m _ Vm ltac:(left; cbn; lia)). assert (Va' := KEEP _ _ Va ltac:(left; cbn; lia)).
        assert (KR := vf_range _ _ _ _ _ _ (fo S) (mi_R _ _ _ _ _ _ _ MI) k _ Vk). cbn in KR.
        assert (Vk' := KEEP _ _ Vk). cbn [a_end a_begin] in Vk'.
        assert (AH : argcp <= hi).
        { destruct (vf_in _ _ _ _ _ _ (fo S) (mi_R _ _ _ _ _ _ _ MI) k _ Vk NZ) as (z & Hz & _ & I). cbn [a_parent a_end] in Hz, I. rewrite Va in Hz. injection Hz as <-. exact I. }
        specialize (Vk' ltac:(left; lia)).
        destruct (view_fields _ _ _ Vm') as (F1 & F2 & F3 & F4 & F5 & Lm'). cbn in F1, F2, F3.
        exists m, hi. split; [exact TH|]. split; [exact Lm'|]. split; [congruence|]. split; [congruence|]. split; [congruence|]. split; assumption.
Qed.

Lemma J_begin F L w l : J F [] (l :: L) w -> sc_cur w = seq0 /\ J F [l] L (mkSc (sc_m w) (mk (l_first l) (l_second l) [l]) (sc_our w)).
Proof.
  intros [JA MI JC JR JU JK JF JO JS]. assert (HX : In l X) by (rewrite JA; apply in_app_iff; right; left; reflexivity).
  split; [destruct JC as [[_ H]|GA]; [exact H|exfalso; exact (ga_ne _ _ GA eq_refl)]|].
  destruct (XL l HX) as (_ & P & _). constructor; cbn [sc_m sc_cur sc_our]; try assumption. right. apply ga_one, P.
Qed.

Lemma add1_ok F G L w l : J F G (l :: L) w -> exists w' F' G', add1 w l = Ok w' /\ J F' G' L w'.
Proof.
  intro HJ. pose proof HJ as [JA MI JC JR JU JK JF JO JS].
  assert (HX : In l X) by (rewrite JA; apply in_app_iff; right; apply in_app_iff; right; left; reflexivity).
  destruct (XL l HX) as (PL & P & _). unfold add1. destruct JC as [[-> EC]|GA].
  - destruct (J_begin _ _ _ _ HJ) as [_ HJ']. rewrite EC, (ext_new dbg obj_of l PL P). cbn [bind]. eauto.
  - destruct (ga_last _ _ GA) as (e & He & QE).
    assert (OR : l_second e <= l_first l). { apply (in_order (F ++ G) (l :: L)); [rewrite <- app_assoc; exact JA|apply in_app_iff; auto|left; reflexivity]. }
    destruct (ext_more dbg obj_of (sc_cur w) G l GA PL ltac:(lia)) as (q' & ok & EX & SP). rewrite EX. cbn [bind]. destruct ok.
    + destruct SP as (_ & GA' & _). eexists _, F, (G ++ [l]). split; [reflexivity|].
      constructor; cbn [sc_m sc_cur sc_our]; rewrite <- ?app_assoc; try assumption. right. exact GA'.
    + subst q'. destruct (flush F G (l :: L) w HJ (ga_ne _ _ GA)) as (S' & our' & EQ & HJ'). rewrite EQ. cbn [bind].
      destruct (J_begin _ _ _ _ HJ') as [_ HJ'']. rewrite (ext_new dbg obj_of l PL P). cbn [bind sc_m sc_our] in *. eauto.
Qed.

Lemma loop1_ok L : forall F G w, J F G L w -> exists w' F' G', loop1 w L = Ok w' /\ J F' G' [] w'.
Proof.
  induction L as [|l L IH]; intros F G w HJ; cbn [loop1]; [exists w, F, G; auto|].
  destruct (add1_ok F G L w l HJ) as (w1 & F1 & G1 & E1 & HJ1). rewrite E1. cbn [bind]. apply (IH F1 G1 w1 HJ1).
Qed.

(* the whole *)
Lemma scan1_ok : MInv S0 -> frees nb (fo S0) (2 + length X) ->
  exists S' our', (do w <- loop1 (mkSc S0 seq0 0) X ;
     if Nat.eqb (q_nused (sc_cur w)) 0 then Ok (sc_m w, sc_our w) else if_absent nb biggest dbg argcp asc dseg (sc_m w) (sc_our w) (sc_cur w)) = Ok (S', our') /\
     J X [] [] (mkSc S' seq0 our').
Proof.
  intros MI FR. destruct (loop1_ok X [] [] (mkSc S0 seq0 0)) as (w & F & G & EQ & HJ).
  - constructor; cbn [sc_m sc_cur sc_our app]; auto.
    + intros a t. split; [auto|]. intros [H|(l & [] & _)]. exact H.
    + cbn [Nat.eqb]. rewrite Nat.add_comm. exact FR.
  - rewrite EQ. cbn [bind]. pose proof HJ as [JA _ JC _ _ _ _ _ _]. rewrite app_nil_r in JA. destruct JC as [[-> EC]|GA].
    + rewrite EC. cbn [q_nused seq0 Nat.eqb]. exists (sc_m w), (sc_our w). split; [reflexivity|]. rewrite app_nil_r in JA. subst F.
      destruct w as [a b c]. cbn [sc_m sc_cur sc_our] in *. subst b. exact HJ.
    + destruct (Nat.eqb_spec (q_nused (sc_cur w)) 0) as [Z|_].
      { exfalso. rewrite (ga_nused _ _ GA) in Z. destruct G; [exact (ga_ne _ _ GA eq_refl)|discriminate]. }
      destruct (flush F G [] w HJ (ga_ne _ _ GA)) as (S' & our' & E' & HJ'). exists S', our'. split; [exact E'|]. rewrite JA. exact HJ'.
Qed.
End L.
