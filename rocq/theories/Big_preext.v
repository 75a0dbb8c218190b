(* Growing a big allocation downwards (stack growth). *)
From Verif Require Import Base Big_model Big_set Big_spec Big_inv Big_lookup Big_links Big_field Big_create Big_resize.

Section PreExt.
Variables (nb : nat) (biggest : Z) (dbg : bool).

Lemma sibs_spec s : forall l pv fuel, dllx (bigs s) pv l 0 -> (forall x, In x l -> x <> 0%nat) -> (length l < fuel)%nat ->
  sibs fuel s (hd 0%nat l) = Ok l.
Proof.
  induction l as [|x l IH]; intros pv fuel Hd Hz Hf; (destruct fuel as [|f]; [cbn [length] in Hf; lia|]).
  - reflexivity.
  - cbn [hd sibs]. destruct (Nat.eqb_spec x 0) as [E|E]; [exfalso; apply (Hz x); simpl; auto|].
    destruct Hd as (H1 & H2 & H3). rewrite H2. rewrite (IH x f H3); [reflexivity| |cbn [length] in Hf; lia].
    intros y Hy; apply Hz; simpl; auto.
Qed.

Lemma links_bounded s K rk (l : list nat) : Links nb s K rk -> NoDup l -> (forall x, In x l -> live s x) -> (length l < Nat.max 1 nb)%nat.
Proof.
  intros HL Hn Hl.
  assert (incl l (seq 1 (nb - 1))).
  { intros x Hx. apply in_seq. specialize (Hl x Hx). pose proof (live_nz _ _ Hl).
    pose proof (L_bnd _ _ _ _ HL _ Hl). lia. }
  pose proof (NoDup_incl_length Hn H) as HL'. rewrite seq_length in HL'. lia.
Qed.

Definition under_loop (f : nat) (s : st) (lower : nat) : list nat -> res bool :=
  fix go (l : list nat) : res bool :=
    match l with
    | [] => Ok false
    | c :: r => do t <- under nb f s lower c ; if t then Ok true else go r
    end.
Lemma under_S f s lower b : under nb (S f) s lower b =
  (if Nat.eqb lower b then Ok false else
   do ks <- sibs (S nb) s (b_first (bigs s b)) ;
   if existsb (Nat.eqb lower) ks then Ok true else under_loop f s lower ks).
Proof. reflexivity. Qed.

Lemma under_ok s K rk lower : Links nb s K rk -> forall fuel cur V,
  NoDup V -> (forall v, In v V -> live s v /\ (rk v < rk cur)%nat) -> live s cur -> (nb < length V + fuel)%nat ->
  exists r, under nb fuel s lower cur = Ok r /\ (r = true -> live s lower /\ anc s cur lower /\ lower <> cur).
Proof.
  intro HL. induction fuel as [|f IH]; intros cur V Hnd HV Hc Hf.
  - exfalso. assert (Hb : (length (cur :: V) < Nat.max 1 nb)%nat).
    { eapply links_bounded; eauto.
      - constructor; auto. intro Hin. specialize (HV _ Hin). lia.
      - intros x [<-|Hx]; auto. apply HV; auto. }
    cbn [length] in Hb. lia.
  - rewrite under_S. destruct (Nat.eqb_spec lower cur) as [E|E]; [exists false; split; [auto|discriminate]|].
    rewrite (L_first _ _ _ _ HL) by auto.
    rewrite (sibs_spec s (K cur) 0 (S nb)); [|apply (L_dll _ _ _ _ HL)| |eapply links_length; eauto].
    2:{ intros x Hx. apply (L_kid _ _ _ _ HL) in Hx. apply Hx. }
    cbn [bind]. destruct (existsb (Nat.eqb lower) (K cur)) eqn:Ee.
    + exists true. split; auto. intros _. apply existsb_exists in Ee. destruct Ee as (x & Hx & Ex). apply Nat.eqb_eq in Ex. subst x.
      apply (L_kid _ _ _ _ HL) in Hx. destruct Hx as [L1 L2]. split; auto. split; auto.
      apply anc_up; [rewrite L2; apply Hc|]. rewrite L2. constructor.
    + assert (Hk : forall l, incl l (K cur) -> exists r, under_loop f s lower l = Ok r /\ (r = true -> live s lower /\ anc s cur lower /\ lower <> cur)).
      { induction l as [|c l IHl]; intro Hi; [exists false; split; [reflexivity|discriminate]|].
        assert (Hck : In c (K cur)) by (apply Hi; simpl; auto).
        apply (L_kid _ _ _ _ HL) in Hck. destruct Hck as [Lc Pc].
        assert (Hr : (rk cur < rk c)%nat) by (rewrite <- Pc; apply (L_rk _ _ _ _ HL); auto; rewrite Pc; apply Hc).
        destruct (IH c (cur :: V)) as (r & Hr1 & Hr2); auto.
        - constructor; auto. intro Hin. specialize (HV _ Hin). lia.
        - intros v [<-|Hv]; [split; auto|]. destruct (HV v Hv). split; auto. lia.
        - cbn [length]. lia.
        - cbn [under_loop]. rewrite Hr1. cbn [bind]. destruct r.
          + exists true. split; auto. intros _. destruct (Hr2 eq_refl) as (A & B & C). split; auto. split; auto.
            clear -B Pc Hc. induction B as [|x Hx Hb IHb]; [|apply anc_up; auto].
            apply anc_up; rewrite Pc; [apply Hc|constructor].
          + fold (under_loop f s lower). apply IHl. intros y Hy; apply Hi; simpl; auto. }
      apply Hk. intros y Hy; auto.
Qed.

(* growth at the beginning: no condition on alignment needed *)
Lemma pre_extend_ok s K rk n new_begin :
  Inv nb s K rk -> live s n -> new_begin <= b_begin (bigs s n) ->
  good_range s n new_begin (b_end (bigs s n)) -> b_end (bigs s n) - new_begin <= biggest ->
  exists s', pre_extend nb biggest dbg s n new_begin = Ok s' /\ Inv nb s' K rk /\ resized s s' n new_begin (b_end (bigs s n)).
Proof.
  intros HI Hn Hle HG Hsz. unfold pre_extend. cbn zeta.
  rewrite asrt_true by (eapply sanity_ok; eauto). cbn [bind].
  pose proof (I_geo _ _ _ _ HI _ Hn) as Hgn. pose proof (gr_geo _ _ _ _ HG) as Hgg.
  destruct (Z.ltb_spec new_begin (b_begin (bigs s n))) as [Hlt|Hge].
  2:{ cbn [bind]. rewrite asrt_true by (eapply sanity_ok; eauto). cbn [bind]. exists s. split; [reflexivity|].
      split; [exact HI|]. assert (E : new_begin = b_begin (bigs s n)) by lia. split; [|auto].
      intro m. destruct (Nat.eqb_spec m n) as [->|Em]; auto. rewrite live_view by auto. rewrite E. reflexivity. }
  set (ob := b_begin (bigs s n)) in *. set (hi := b_end (bigs s n)) in *. set (p := b_parent (bigs s n)).
  set (s1 := s_begin s n new_begin).
  assert (Hu1 : forall m, in_use (bigs s1 m) = in_use (bigs s m)).
  { intro m. unfold s1, in_use. rewrite s_begin_begin, s_begin_end. destruct (Nat.eqb_spec m n) as [->|]; auto. fold ob hi. lia. }
  assert (HL1 : Links nb s1 K rk).
  { eapply links_same; [apply Inv_Links; eauto| | | | | |reflexivity]; auto; intro m; unfold s1; autorewrite with big; reflexivity. }
  assert (Hupper : exists up, (if PAGENUM ob <? PAGENUM hi
                    then do u <- under nb (S nb) s1 (pidx s1 (PAGENUM ob)) n ;
                         Ok (if u then RDOWN ob else RUP ob)
                    else Ok (RDOWN ob)) = Ok up /\
       (up = RDOWN ob \/ up = RUP ob) /\ (PAGENUM ob < PAGENUM hi -> up = RUP ob) /\ (PAGENUM hi <= PAGENUM ob -> up = RDOWN ob)).
  { destruct (Z.ltb_spec (PAGENUM ob) (PAGENUM hi)) as [H|H].
    - destruct (under_ok s1 K rk (pidx s1 (PAGENUM ob)) HL1 (S nb) n []) as (r & Hr1 & Hr2).
      + constructor.
      + intros v [].
      + split; [apply Hn|rewrite Hu1; apply Hn].
      + cbn [length]. lia.
      + rewrite Hr1. cbn [bind]. eexists. split; [reflexivity|]. destruct r; [|repeat split; auto; lia].
        destruct (Hr2 eq_refl) as (A & B & C). unfold s1 in A, B, C. rewrite s_begin_pidx in A, B, C. fold s1 in A, B, C.
        set (d := pidx s (PAGENUM ob)) in *.
        assert (Ld : live s d) by (split; [apply A|rewrite <- Hu1; apply A]).
        assert (Bs : anc s n d).
        { clear -B. induction B as [|x Hx Hb IHb]; [constructor|]. unfold s1 in *. rewrite s_begin_parent in *. apply anc_up; auto. }
        destruct (I_pix _ _ _ _ HI (PAGENUM ob)) as (_ & [Hz|Hs] & _); [exfalso; apply Ld; exact Hz|]. fold d in Hs.
        pose proof (anc_range _ _ _ _ HI _ _ Bs Ld) as Hr. unfold spans in Hs. fold ob in Hr.
        assert (E : RDOWN ob = RUP ob) by (unfold PAGENUM, RDOWN, RUP, PAGE in *; lia).
        rewrite E. repeat split; auto; lia.
    - eexists. split; [reflexivity|]. repeat split; auto; lia. }
  destruct Hupper as (up & Hup & Hu & Hup1 & Hup2).
  rewrite Hup. cbn [bind].
  assert (Hr : forall k, (PAGENUM (RUP new_begin) <=? k) && (k <? PAGENUM (RUP new_begin) + PAGE_DIST (RUP new_begin) up)
               = spansb new_begin hi k && negb (spansb ob hi k)).
  { intro k. rewrite pages_between, !PAGENUM_RUP.
    destruct (Z.ltb_spec (PAGENUM ob) (PAGENUM hi)) as [H|H].
    - rewrite (Hup1 H), PAGENUM_RUP. clear Hup1 Hup2 Hu Hup. unfold spansb. unfold PAGENUM, RUP, RDOWN, PAGE in *. lia.
    - rewrite (Hup2 H), PAGENUM_RDOWN. clear Hup1 Hup2 Hu Hup. unfold spansb. unfold PAGENUM, RUP, RDOWN, PAGE in *. lia. }
  rewrite memset_ok.
  2:{ split; [apply PAGE_DIST_nonneg|].
      destruct (Z.ltb_spec (PAGENUM ob) (PAGENUM hi)) as [H|H].
      - rewrite (Hup1 H). unfold PAGE_DIST. rewrite !PAGENUM_RUP. clear Hup1 Hup2 Hu Hup Hr. unfold PAGENUM, RUP, RDOWN, PAGE in *.
        destruct (Z.ltb_spec ((new_begin + (4096 - 1)) / 4096) ((ob + (4096 - 1)) / 4096)); lia.
      - rewrite (Hup2 H). unfold PAGE_DIST. rewrite PAGENUM_RUP, PAGENUM_RDOWN. clear Hup1 Hup2 Hu Hup Hr. unfold PAGENUM, RUP, RDOWN, PAGE in *.
        destruct (Z.ltb_spec ((new_begin + (4096 - 1)) / 4096) (ob / 4096)); lia. }
  2:{ intros k Hk. unfold s1. autorewrite with big. right.
      assert (Hb : spansb new_begin hi k && negb (spansb ob hi k) = true) by (rewrite <- Hr; lia).
      apply andb_true_iff in Hb. destruct Hb as [Hb1 Hb2]. apply negb_true_iff in Hb2.
      eapply grow_entry; eauto. }
  cbn [bind]. set (s2 := set_pidx _ _).
  destruct (resize_tail nb dbg s K rk n new_begin hi s2) as (A & B & C); auto.
  - intros m Hm. unfold s2, s1. rewrite set_pidx_bigs. Transparent s_begin. unfold s_begin. rewrite put_bigs. destruct (Nat.eqb_spec m n); [congruence|reflexivity].
  - unfold s2, s1. rewrite set_pidx_bigs. unfold s_begin. rewrite put_bigs, Nat.eqb_refl. reflexivity.
  - intro q. unfold s2, s1. rewrite set_pidx_pidx, Hr, s_begin_pidx. fold ob hi p.
    destruct (spansb new_begin hi q) eqn:E1; destruct (spansb ob hi q) eqn:E2; cbn [andb negb]; auto.
    exfalso. unfold spansb in *. lia.
  - rewrite C. cbn [bind]. exists s2. split; [reflexivity|]. split; auto.
Qed.

End PreExt.
