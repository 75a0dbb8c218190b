(* Recording of loaded files: loading as a whole. *)
From Verif Require Import Base Big_model Big_set Big_spec Big_inv Big_lookup Big_links Big_field Big_create Big_delete Big_hist Big_props
  Map_model File_model File_spec File_proof File_load.

Lemma combine_fst {A B} (l : list A) (r : list B) : length r = length l -> map fst (combine l r) = l.
Proof. revert r. induction l as [|x l IH]; intros [|y r] H; cbn in *; try discriminate; auto. f_equal. apply IH. lia. Qed.
Lemma combine_snd {A B} (l : list A) (r : list B) : length r = length l -> map snd (combine l r) = r.
Proof. revert r. induction l as [|x l IH]; intros [|y r] H; cbn in *; try discriminate; auto. f_equal. apply IH. lia. Qed.
Lemma forall2_combine {A B} (P : A -> B -> Prop) (l : list A) (r : list B) :
  length r = length l -> (forall x y, In (x, y) (combine l r) -> P x y) -> Forall2 P l r.
Proof.
  revert r. induction l as [|x l IH]; intros [|y r] H HP; cbn in *; try discriminate; constructor; auto.
Qed.
Lemma forall2_map {A B C} (P : B -> C -> Prop) (f : A -> B) (g : A -> C) l : (forall x, In x l -> P (f x) (g x)) -> Forall2 P (map f l) (map g l).
Proof. induction l as [|x l IH]; cbn; intro H; constructor; auto. Qed.

Lemma low_lim o low lim : file_ok o low lim -> low < lim.
Proof.
  intro FK. destruct (fk_low _ _ _ FK) as [Hl L]. destruct (fk_lim _ _ _ FK) as [_ M]. pose proof (fk_segs _ _ _ FK) as P.
  apply in_map_iff in Hl. destruct Hl as (g & <- & Hg). specialize (M g Hg). specialize (P g Hg). lia.
Qed.

(* what comes after the choice of mapping in notify_load, up to the break *)
Definition load_core (nb : nat) (biggest : Z) (dbg : bool) (s0 : st) (o : obj) (data : Z) (m : nat) (size : Z) : res st :=
  do '(s1, f) <- new_bigalloc nb biggest dbg s0 (b_begin (bigs s0 m)) size 0 m FILE ;
  do s3 <- each (fun s g => define_segment nb biggest dbg s (o_base o) data g) (set_sub s1 f SEGM (b_subpriv (bigs s1 f))) (o_segs o) ;
  do s4 <- each (fun s c => define_section nb biggest dbg s (o_base o) c) s3 (o_secs o) ;
  Ok (set_priv s4 f (o_meta o)).

Lemma load_unfold nb biggest dbg s o data brkmap brk kernel : load nb biggest dbg s o data brkmap brk kernel =
  let '(low, lim) := bounds (o_segs o) NOLOW 0 in
  do _ <- asrt dbg (negb (low =? NOLOW)) ;
  do lo <- mapping_of nb dbg s (o_base o + low) ;
  do hi <- mapping_of nb dbg s (o_base o + lim - 1) ;
  if Nat.eqb lo 0 then Abort else if Nat.eqb hi 0 then Abort else
  do s0 <- (if Nat.eqb hi lo then Ok s else plug nb biggest dbg s lo hi kernel) ;
  let size := (o_base o + lim - b_begin (bigs s0 lo)) mod W64 in
  do s5 <- load_core nb biggest dbg s0 o data lo size ;
  if Nat.eqb lo brkmap then
    let e := b_begin (bigs s5 brkmap) + size in
    do _ <- asrt dbg (e <? b_begin (bigs s5 brk)) ;
    pre_extend nb biggest dbg s5 brk e
  else Ok s5.
Proof.
  unfold load, load_core. destruct (bounds (o_segs o) NOLOW 0) as [low lim].
  destruct (asrt dbg (negb (low =? NOLOW))); cbn [bind]; auto.
  destruct (mapping_of nb dbg s (o_base o + low)) as [lo| | |]; cbn [bind]; auto.
  destruct (mapping_of nb dbg s (o_base o + lim - 1)) as [hi| | |]; cbn [bind]; auto.
  destruct (Nat.eqb lo 0); auto. destruct (Nat.eqb hi 0); auto.
  destruct (if Nat.eqb hi lo then Ok s else plug nb biggest dbg s lo hi kernel) as [s0| | |]; cbn [bind]; auto.
  destruct (new_bigalloc nb biggest dbg s0 _ _ 0 lo FILE) as [[s1 f]| | |]; cbn [bind]; auto.
  destruct (each _ _ (o_segs o)) as [s3| | |]; cbn [bind]; auto.
  destruct (each _ _ (o_secs o)) as [s4| | |]; cbn [bind]; auto.
Qed.

Section P.
Variables (nb : nat) (biggest : Z) (dbg : bool) (al : nat -> Z) (cur max : Z).
Notation R := (reach nb biggest dbg al cur max).
Notation added := (added nb biggest dbg al cur max).

Lemma core_ok s0 o low lim data m : R s0 -> file_ok o low lim -> clear_for s0 m (o_base o + lim) ->
  b_begin (bigs s0 m) <= o_base o + low -> o_base o + lim - b_begin (bigs s0 m) <= biggest ->
  (forall g, In g (o_segs o) -> o_base o + fst g = data -> fst g + snd g = lim) ->
  spare nb s0 (S (length (o_segs o) + length (nonempty (o_secs o)))) ->
  exists s' f ls lc, load_core nb biggest dbg s0 o data m (o_base o + lim - b_begin (bigs s0 m)) = Ok s' /\ R s' /\
    recorded s0 s' o data m (o_base o + lim) f ls lc /\
    (forall n, ~ In n (f :: ls ++ lc) -> view s' n = view s0 n) /\ start s' = start s0 /\ log s' = log s0.
Proof.
  intros R0 FK HC HB HS HD Hsp. set (e := o_base o + lim) in *.
  destruct (m0 nb biggest dbg al cur max s0 o lim m R0 HC) as (Lm & Nm & PB).
  pose proof HC as HC2. destruct HC as (Lm' & Pm & Am & Qm & He & Hk).
  pose proof (low_lim _ _ _ FK) as Hlow.
  assert (Hfit : fits s0 m (b_begin (bigs s0 m)) (b_begin (bigs s0 m) + (e - b_begin (bigs s0 m)))).
  { split; [unfold e in *; lia|]. split; [destruct (Nat.eqb_spec m 0); [congruence|]; split; [auto|lia]|].
    intros c Lc Pc. right. specialize (Hk c Lc Pc). lia. }
  destruct (added_create nb biggest dbg al cur max s0 s0 [] m _ _ FILE (added_nil _ _ _ _ _ _ s0 R0) (spare_free _ _ _ Hsp) HS Nm Hfit)
    as (s1 & f & E & A1 & V0 & HV).
  replace (b_begin (bigs s0 m) + (e - b_begin (bigs s0 m))) with e in A1 by lia. cbn [app] in A1.
  pose proof (spare_less _ _ s1 _ f Hsp HV) as Hsp1.
  pose proof (added_sub _ _ _ _ _ _ s0 s1 _ f _ SEGM A1 (or_introl eq_refl)) as A2.
  rewrite upd_head in A2 by (intros []). cbn [a_begin a_end a_parent a_alloc a_priv a_subpriv] in A2.
  set (s2 := set_sub s1 f SEGM (b_subpriv (bigs s1 f))) in *.
  assert (Hsp2 : spare nb s2 (length (o_segs o) + length (nonempty (o_secs o)))).
  { apply (spare_same _ s1); auto. intro x. destruct (Nat.eq_dec x f) as [->|Hx].
    - pose proof (proj2 (proj2 (ad_new _ _ _ _ _ _ _ _ _ A1 f _ (or_introl eq_refl)))).
      pose proof (proj2 (proj2 (ad_new _ _ _ _ _ _ _ _ _ A2 f _ (or_introl eq_refl)))). split; congruence.
    - rewrite (ad_old _ _ _ _ _ _ _ _ _ A1 x), (ad_old _ _ _ _ _ _ _ _ _ A2 x); [tauto| |]; cbn; intros [?|[]]; congruence. }
  destruct (segments_loop nb biggest dbg al cur max s0 o low lim data m f R0 FK HC2 HB HS HD (o_segs o) [] s2 eq_refl A2 _ Hsp2)
    as (s3 & ls & E3 & Hls & A3 & Hsp3).
  cbn [app] in A3. set (sg := combine (o_segs o) ls) in *.
  assert (Esg : map fst sg = o_segs o) by (apply combine_fst; auto).
  destruct (sections_loop nb biggest dbg al cur max s0 o low lim data m f R0 FK HC2 HB HS HD sg Esg (o_secs o) [] [] s3 eq_refl eq_refl A3)
    as (s4 & sc & E4 & Esc & HP & A4); [intros x []|exact Hsp3|].
  set (lc := map (fun x : Z * Z * (nat * nat) => snd (snd x)) sc).
  assert (Hids : map fst (recs s0 o lim data m f sg sc) = f :: ls ++ lc).
  { unfold recs. cbn [map fst]. rewrite map_app, !map_map. f_equal. f_equal. apply combine_snd; auto. }
  pose proof (added_priv _ _ _ _ _ _ s0 s4 _ f _ (o_meta o) A4 (or_introl eq_refl)) as A5. unfold recs in A5. cbv zeta in A5.
  pose proof (ad_nd _ _ _ _ _ _ _ _ _ A4) as ND. rewrite Hids in ND.
  rewrite upd_head in A5.
  2: { intro Hi. unfold recs in Hids. cbn [map fst] in Hids. injection Hids as Hids. rewrite Hids in Hi. inversion ND; auto. }
  exists (set_priv s4 f (o_meta o)), f, ls, lc.
  split. { unfold load_core. rewrite E. cbn [bind]. fold s2. rewrite E3. cbn [bind]. rewrite E4. reflexivity. }
  split; [apply (ad_R _ _ _ _ _ _ _ _ _ A5)|].
  assert (Hids5 : forall t, map fst ((f, t) :: map (segrec o data f) sg ++ map (secrec o) sc) = f :: ls ++ lc) by (intro t; exact Hids).
  assert (Hnew : forall n t, In (n, t) (map (segrec o data f) sg ++ map (secrec o) sc) -> view (set_priv s4 f (o_meta o)) n = Some t).
  { intros n t Hi. exact (proj2 (proj2 (ad_new _ _ _ _ _ _ _ _ _ A5 n t (or_intror Hi)))). }
  split; [split; [|constructor]|split; [|split]].
  - split; [exact ND|]. intros n Hi. rewrite <- Hids in Hi. apply in_map_iff in Hi. destruct Hi as ([n' t] & En & Hi). cbn [fst] in En. subst n'.
    destruct (ad_new _ _ _ _ _ _ _ _ _ A4 n t Hi) as (X & Y & _). auto.
  - exact (proj2 (proj2 (ad_new _ _ _ _ _ _ _ _ _ A5 f _ (or_introl eq_refl)))).
  - apply forall2_combine; auto. intros g n Hi. apply (Hnew n (segt o data f g)). apply in_or_app. left. apply in_map_iff. exists (g, n). auto.
  - rewrite <- Esc. apply forall2_map. intros [c [k n]] Hi. cbn [fst snd]. destruct (HP _ Hi) as (g & Hg & Hin). cbn [fst snd] in *.
    exists g, k. split; [exact Hg|]. split; [exact Hin|]. apply (Hnew n (sect o c k)). apply in_or_app. right. apply in_map_iff. exists (c, (k, n)). auto.
  - intros n Hn. apply (ad_old _ _ _ _ _ _ _ _ _ A5). rewrite Hids5. auto.
  - apply (ad_start _ _ _ _ _ _ _ _ _ A5).
  - apply (ad_log _ _ _ _ _ _ _ _ _ A5).
Qed.
End P.
