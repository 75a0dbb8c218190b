(* Loaded files (C50): the theorems, each with a concrete case. *)
From Verif Require Import Base Big_model Big_set Big_spec Big_inv Big_lookup Big_links Big_field Big_create Big_delete Big_range Big_hist Big_props
  Map_model File_model File_spec File_proof File_load File_main File_more File_unload File_hist.

(* The two mappings of a file with a hole between them: lo, without anything in it, and hi, with
   nothing between. *)
Definition holed (biggest : Z) (s : st) (lo hi : nat) : Prop :=
  toplevel s lo /\ toplevel s hi /\ b_alloc (bigs s lo) = MMAP /\ b_alloc (bigs s hi) = MMAP /\
  b_priv (bigs s lo) <> 0%nat /\ b_priv (bigs s hi) <> 0%nat /\ hi <> start s /\
  b_end (bigs s lo) < b_begin (bigs s hi) /\ (forall x a, live s x -> covers s x a -> ~ b_end (bigs s lo) <= a < b_begin (bigs s hi)) /\
  b_end (bigs s hi) - b_begin (bigs s lo) <= biggest /\ b_end (bigs s hi) <= W64 /\
  forall c, live s c -> b_parent (bigs s c) <> lo.

Section Props.
Variables (nb : nat) (biggest : Z) (dbg : bool) (al : nat -> Z) (cur max : Z) (name : nat -> Z) (handle : nat -> bool).
Notation R := (reach nb biggest dbg al cur max).

(* Loading a sane file into a mapping with room for it records the file from the mapping's beginning
   to the file's end, each segment directly in it and each non-empty section directly in its segment,
   with the extents the file says, and changes nothing else. *)
Theorem file_load_exact : forall s o low lim data brkmap brk kernel m, R s -> fits_file nb biggest s o low lim data m -> m <> brkmap ->
  exists s' f ls lc, load nb biggest dbg s o data brkmap brk kernel = Ok s' /\ R s' /\ recorded s s' o data m (o_base o + lim) f ls lc /\
    (forall n, ~ In n (f :: ls ++ lc) -> view s' n = view s n) /\ start s' = start s /\ log s' = log s.
Proof. intros. apply load_ok with (low := low); auto. Qed.

(* Into the mapping of the program break: also brings the break record's beginning down to the file's end. *)
Theorem file_load_break_exact : forall s o low lim data brk kernel m, R s -> fits_file nb biggest s o low lim data m ->
  brk_above biggest s m brk (o_base o + lim) ->
  exists s' f ls lc, load nb biggest dbg s o data m brk kernel = Ok s' /\ R s' /\ recorded s s' o data m (o_base o + lim) f ls lc /\
    (forall n, ~ In n (f :: ls ++ lc) -> view s' n = if Nat.eqb n brk then Some (lowered (attrs_of (bigs s n)) (o_base o + lim)) else view s n) /\
    ~ In brk (f :: ls ++ lc) /\ start s' = start s /\ log s' = log s.
Proof. intros. apply load_brk_ok with (low := low); auto. Qed.

(* Over two mappings with a free hole between them: the upper mapping's records are deleted, the
   lower one takes its range, and the file is recorded in that. *)
Theorem file_load_hole_exact : forall s o low lim data brkmap brk lo hi, R s -> file_ok o low lim -> holed biggest s lo hi ->
  covers s lo (o_base o + low) -> covers s hi (o_base o + lim - 1) -> lo <> brkmap ->
  (forall g, In g (o_segs o) -> o_base o + fst g = data -> fst g + snd g = lim) ->
  spare nb s (S (length (o_segs o) + length (nonempty (o_secs o)))) ->
  exists s1 s2 s' D f ls lc, load nb biggest dbg s o data brkmap brk true = Ok s' /\ R s' /\
    subtree s hi D /\ gone s s1 D /\ resized s1 s2 lo (b_begin (bigs s lo)) (b_end (bigs s hi)) /\
    recorded s2 s' o data lo (o_base o + lim) f ls lc /\ b_begin (bigs s2 lo) = b_begin (bigs s lo) /\
    (forall n, ~ In n (f :: ls ++ lc) -> view s' n = view s2 n) /\ start s' = start s /\ log s' = log s1.
Proof.
  intros s o low lim data brkmap brk lo hi HR FK (Tl & Th & Al & Ah & Ql & Qh & Hst & Hlt & Hgap & Hsz & HW & Hno) Cl Ch Hbrk HD Hsp.
  destruct (plug_ok nb biggest dbg al cur max s lo hi HR Tl Th Ah Hst Hlt Hgap Hsz HW) as (s1 & s2 & D & E & R2 & Hsub & G & (HV2 & Hst2 & Hlog2)).
  pose proof (low_lim _ _ _ FK) as Hl. pose proof (fk_pos _ _ _ FK) as Hp. pose proof Tl as [Ll Pl]. pose proof Th as [Lh Ph].
  assert (Hne : hi <> lo) by (intros ->; destruct (big_forest_always nb biggest dbg al cur max s HR) as [FO _]; pose proof (fo_range _ FO lo Ll); lia).
  assert (HlD : ~ In lo D). { intro Hi. apply Hsub in Hi. destruct Hi as [_ Hi]. apply anc_of_root in Hi; auto. }
  assert (Ll1 : live s1 lo) by (apply (gone_live _ _ _ _ G); auto).
  pose proof (gone_attrs _ _ _ _ G Ll1) as El. injection El; intros L7 L6 L5 L4 L3 L2 L1.
  pose proof (HV2 lo) as Vl. rewrite Nat.eqb_refl in Vl. destruct (view_fields _ _ _ Vl) as (Ll2 & B1 & B2 & B3 & B4 & B5 & B6 & B7). cbn in B1, B2, B3, B4, B5, B6, B7.
  assert (HF : fits_file nb biggest s2 o low lim data lo).
  { split; auto. split; [|split; [|split; [|split]]]; auto.
    - split; auto. split; [congruence|]. split; [congruence|]. split; [congruence|]. split; [unfold covers in Ch; lia|].
      intros c Lc Pc. exfalso. assert (Hc : c <> lo). { intros ->. rewrite B3, L3, Pl in Pc. apply (proj1 Ll). auto. }
      pose proof (HV2 c) as Vc. destruct (Nat.eqb_spec c lo) as [|_]; [congruence|].
      assert (Lc1 : live s1 c) by (apply view_live; rewrite <- Vc; apply view_live; auto).
      destruct (attrs_same s1 s2 c Lc1 Vc) as [E1 _]. pose proof (gone_attrs _ _ _ _ G Lc1) as E2. injection E1; intros. injection E2; intros.
      apply (gone_live _ _ _ _ G) in Lc1. apply (Hno c); [tauto|congruence].
    - unfold covers in Cl. lia.
    - unfold covers in Ch. lia.
    - destruct Hsp as (l & ND & Hlen & Hfree). exists l. split; auto. split; auto. intros n Hn. destruct (Hfree n Hn) as [A B]. split; auto.
      assert (n <> 0%nat) by lia. rewrite in_use_view in * by auto. rewrite HV2.
      destruct (Nat.eqb_spec n lo) as [->|_]; [apply view_live in Ll; destruct (view s lo); congruence|].
      rewrite (go_view _ _ _ G). destruct (existsb (Nat.eqb n) D); auto. }
  assert (HF0 := HF). destruct HF as (_ & HC & HB & HS & _ & Hsp2).
  destruct (core_ok nb biggest dbg al cur max s2 o low lim data lo R2 FK HC HB HS HD Hsp2) as (s' & f & ls & lc & E3 & R3 & HRec & HV3 & Hst3 & Hlog3).
  exists s1, s2, s', D, f, ls, lc.
  split.
  { rewrite load_unfold, (bounds_eq o low lim FK).
    rewrite asrt_true by (unfold NOLOW; destruct (Z.eqb_spec low (W64 - 1)); [lia|reflexivity]). cbn [bind].
    rewrite (mapping_of_root nb biggest dbg al cur max s lo); auto. cbn [bind]. rewrite (mapping_of_root nb biggest dbg al cur max s hi); auto. cbn [bind].
    destruct (Nat.eqb_spec lo 0) as [X|_]; [exfalso; apply (proj1 Ll); auto|]. destruct (Nat.eqb_spec hi 0) as [X|_]; [exfalso; apply (proj1 Lh); auto|].
    destruct (Nat.eqb_spec hi lo) as [X|_]; [congruence|]. rewrite E. cbn [bind]. cbv zeta.
    rewrite Z.mod_small. 2: { destruct (big_forest_always nb biggest dbg al cur max s2 R2) as [FO _]. pose proof (fo_range _ FO lo Ll2). lia. }
    rewrite E3. cbn [bind]. destruct (Nat.eqb_spec lo brkmap); [congruence|]. reflexivity. }
  repeat (split; [solve [auto]|]). split; [split; auto|]. split; [auto|]. split; [congruence|]. split; auto. split; [|congruence].
  rewrite Hst3, Hst2. apply (go_start _ _ _ G).
Qed.

(* For every history of loads, unloads and other operations: the file records are those of the files
   loaded and not unloaded since; each file's records are as recorded, apart from the others', and
   exactly what lies under its file record. *)
Theorem file_history_exact : forall s L, fhist nb biggest dbg al cur max name handle s L ->
  (forall n, (live s n /\ b_alloc (bigs s n) = FILE) <-> exists x, In x L /\ n = en_f x) /\
  (forall x, In x L -> held_e s x /\ (forall n, live s n -> (anc s (en_f x) n <-> In n (ids x)))) /\
  ForallOrdPairs (fun x y => forall n, In n (ids x) -> ~ In n (ids y)) L.
Proof.
  intros s L H. apply hist_tracks in H. split; [|split].
  - intro n. split; [intros [A B]; apply (tk_all _ _ _ _ _ _ _ _ H n A B)|]. intros (x & Hx & ->).
    destruct (view_fields _ _ _ (hd_file _ _ _ _ _ _ _ _ _ (tk_held _ _ _ _ _ _ _ _ H x Hx))) as (A & _ & _ & _ & B & _). auto.
  - intros x Hx. split; [apply (tk_held _ _ _ _ _ _ _ _ H x Hx)|]. intros n Ln. eapply under_file; eauto.
  - apply (tk_nd _ _ _ _ _ _ _ _ H).
Qed.

(* Whatever the history, an address of a loaded file is found in the section that has it, failing
   that in the segment, failing that in the file. *)
Theorem file_lookup_exact : forall s L x a, fhist nb biggest dbg al cur max name handle s L -> In x L -> en_b x <= a < en_end x ->
  let base := o_base (en_o x) in
  (forall i c n, nth_error (nonempty (o_secs (en_o x))) i = Some c -> nth_error (en_lc x) i = Some n ->
     lo_of base c <= a < hi_of base c -> find_deepest nb s a = Ok n) /\
  (forall g k, In (g, k) (combine (o_segs (en_o x)) (en_ls x)) -> lo_of base g <= a < hi_of base g ->
     (forall c, In c (nonempty (o_secs (en_o x))) -> ~ lo_of base c <= a < hi_of base c) -> find_deepest nb s a = Ok k) /\
  ((forall g, In g (o_segs (en_o x)) -> ~ lo_of base g <= a < hi_of base g) -> find_deepest nb s a = Ok (en_f x)) /\
  (forall g k, In (g, k) (combine (o_segs (en_o x)) (en_ls x)) -> lo_of base g <= a < hi_of base g -> find_from_root nb s a SEGM false = Ok k) /\
  find_from_root nb s a FILE false = Ok (en_f x).
Proof.
  intros s L x a H Hx Ha base. apply hist_tracks in H. pose proof (tracks_still _ _ _ _ _ _ s L x H Hx) as HS.
  destruct (tk_file _ _ _ _ _ _ _ _ H x Hx) as (FK & HB & _). destruct (tk_map _ _ _ _ _ _ _ _ H x Hx) as [[[Nm _] _] Am]. pose proof (tk_R _ _ _ _ _ _ _ _ H) as HR.
  split; [|split; [|split; [|split]]].
  - intros i c n Hc Hn Hac. eapply lookup_section; eauto.
  - intros g k Hk Hag Hno. eapply lookup_segment; eauto.
  - intro Hno. eapply lookup_file; eauto.
  - intros g k Hk Hag. eapply find_segment; eauto.
  - eapply find_file; eauto.
Qed.

(* Unloading a name deletes exactly the records of the loaded files of that name. *)
Theorem file_unload_exact : forall s L nm, fhist nb biggest dbg al cur max name handle s L ->
  (forall x, In x L -> name (o_meta (en_o x)) = nm -> handle (o_meta (en_o x)) = true) ->
  exists s', unload nb biggest dbg name handle s nm = Ok s' /\
    fhist nb biggest dbg al cur max name handle s' (filter (fun x => negb (name (o_meta (en_o x)) =? nm)) L) /\
    (forall n, view s' n = view s n \/ view s' n = None) /\
    (forall n, view s n <> None -> (view s' n = None <-> exists x, In x L /\ name (o_meta (en_o x)) = nm /\ In n (ids x))).
Proof.
  intros s L nm H HH. pose proof (hist_tracks _ _ _ _ _ _ _ _ _ _ H) as T.
  assert (HH2 : forall f, named name s nm f -> handle (b_priv (bigs s f)) = true).
  { intros f Nf. apply (named_entry _ _ _ _ _ _ name s L nm f T) in Nf. destruct Nf as (x & Hx & -> & Hn).
    destruct (view_fields _ _ _ (hd_file _ _ _ _ _ _ _ _ _ (tk_held _ _ _ _ _ _ _ _ T x Hx))) as (_ & _ & _ & _ & _ & _ & Q & _). cbn in Q. rewrite Q. auto. }
  destruct (unload_tracks _ _ _ _ _ _ name handle s L nm T HH2) as (s' & E & T' & A & B). exists s'. split; auto. split; auto.
  exact (fh_unload _ _ _ _ _ _ _ _ s L nm s' H HH2 E).
Qed.

(* Loading a file and unloading it, no other loaded file having its name, leaves every record as it was. *)
Theorem file_load_unload_restores : forall s L o low lim data brkmap brk kernel m, fhist nb biggest dbg al cur max name handle s L ->
  fits_file nb biggest s o low lim data m -> m <> brkmap -> o_meta o <> 0%nat -> handle (o_meta o) = true ->
  (forall x, In x L -> name (o_meta (en_o x)) <> name (o_meta o)) ->
  exists s1 s2, load nb biggest dbg s o data brkmap brk kernel = Ok s1 /\ unload nb biggest dbg name handle s1 (name (o_meta o)) = Ok s2 /\
    (forall n, view s2 n = view s n) /\ fhist nb biggest dbg al cur max name handle s2 L.
Proof.
  intros s L o low lim data brkmap brk kernel m H HF Hm Hmeta Hh Hnames. pose proof (hist_tracks _ _ _ _ _ _ _ _ _ _ H) as T.
  destruct (load_ok nb biggest dbg al cur max s o low lim data brkmap brk kernel m (tk_R _ _ _ _ _ _ _ _ T) HF Hm) as (s1 & f & ls & lc & E & R1 & HRec & HV & _).
  pose proof (fh_load _ _ _ _ _ _ name handle s L o low lim data brkmap brk kernel m s1 f ls lc H HF Hm Hmeta E HRec HV) as H1.
  set (x0 := mkEnt o low lim data (b_begin (bigs s m)) m f ls lc) in *.
  destruct (file_unload_exact s1 (x0 :: L) (name (o_meta o)) H1) as (s2 & E2 & H2 & A & B).
  { intros x [<-|Hx] Hn; auto. exfalso. apply (Hnames x Hx Hn). }
  exists s1, s2. split; auto. split; auto.
  assert (EL : filter (fun x => negb (name (o_meta (en_o x)) =? name (o_meta o))) (x0 :: L) = L).
  { cbn [filter x0 en_o]. rewrite Z.eqb_refl. cbn [negb]. clear - Hnames. induction L as [|x L IH]; auto. cbn [filter].
    rewrite (proj2 (Z.eqb_neq _ _) (Hnames x (or_introl eq_refl))). cbn [negb]. f_equal. apply IH. intros y Hy. apply Hnames. right. auto. }
  rewrite EL in H2. split; auto. intro n. destruct HRec as [[ND Hnew] _].
  destruct (in_dec Nat.eq_dec n (ids x0)) as [Hi|Hi].
  - rewrite (proj2 (Hnew n Hi)). destruct (A n) as [X|X]; auto.
    destruct (view s1 n) eqn:V; [|congruence]. apply B; [congruence|]. exists x0. split; [left; auto|]. auto.
  - rewrite <- (HV n Hi). destruct (A n) as [X|X]; auto.
    destruct (view s1 n) eqn:V; [|congruence]. exfalso. assert (V1 : view s1 n <> None) by congruence. apply (B n V1) in X.
    destruct X as (x & [<-|Hx] & Hn & Hx2); [auto|]. apply (Hnames x Hx Hn).
Qed.
End Props.

Print Assumptions file_load_exact.
Print Assumptions file_load_break_exact.
Print Assumptions file_load_hole_exact.
Print Assumptions file_history_exact.
Print Assumptions file_lookup_exact.
Print Assumptions file_unload_exact.
Print Assumptions file_load_unload_restores.

(* ------------------------------------------------------------ concrete cases *)
Module FlEx.
  Import Ex.
  (* START, and mappings 2 (0x200000-0x220000) and 3 (0x400000-0x410000) *)
  Definition t1 : st := stp s1 (New 4194304 65536 94 0 1).
  Lemma rt1 : R t1.
  Proof.
    apply (reach_step _ _ _ _ _ _ s1 (New 4194304 65536 94 0 1)); [exact r1| |runs].
    cbn [legal]. split; [free 3%nat|]. split; [unfold BIG; lia|]. exists 0%nat. split.
    - split; [lia|]. split; [cbn; split; reflexivity|]. kids r1.
    - split; apply look; try apply r1; vm_compute; reflexivity.
  Qed.
  (* two segments, three sections with something in them *)
  Definition oa : obj := mkObj 2097152 [(0, 5000); (8192, 4000)] [(64, 100); (4096, 800); (4096, 0); (8208, 64)] 70.
  Lemma ok_a : file_ok oa 0 12192.
  Proof.
    constructor; cbn.
    - split; [auto|]. intros g [<-|[<-|[]]]; cbn; lia.
    - split; [auto|]. intros g [<-|[<-|[]]]; cbn; lia.
    - unfold W64. lia.
    - intros g [<-|[<-|[]]]; cbn; lia.
    - repeat constructor; unfold apart; cbn; lia.
    - intros c [<-|[<-|[<-|[]]]]; [exists (0, 5000)|exists (0, 5000)|exists (8192, 4000)]; unfold inside; cbn; (split; [auto|lia]).
    - repeat constructor; unfold apart; cbn; lia.
  Qed.
  Ltac nokids HR := let c := fresh "c" in let Hc := fresh "Hc" in let Hp := fresh "Hp" in let Hb := fresh "Hb" in
    intros c Hc Hp; pose proof (bound _ c HR Hc) as Hb;
    let n := eval compute in 10%nat in
    en n c ltac:(first [ exfalso; exact (proj1 Hc eq_refl)
                       | exfalso; apply proj2 in Hc; vm_compute in Hc; discriminate Hc
                       | exfalso; vm_compute in Hp; discriminate Hp
                       | dec ]).
  Ltac clr HR := split; [isl|]; split; [vm_compute; reflexivity|]; split; [vm_compute; reflexivity|]; split; [vm_compute; discriminate|]; split; [dec|nokids HR].
  Definition sp (l : list nat) (s : st) : bool := forallb (fun n => (1 <=? n)%nat && (n <? NB)%nat && negb (in_use (bigs s n))) l.
  Lemma sp_ok l s : sp l s = true -> NoDup l -> spare NB s (length l).
  Proof.
    intros H ND. exists l. split; auto. split; auto. intros n Hn. unfold sp in H. rewrite forallb_forall in H. specialize (H n Hn).
    apply andb_true_iff in H. destruct H as [H H3]. apply andb_true_iff in H. destruct H as [H1 H2]. apply Nat.leb_le in H1. apply Nat.ltb_lt in H2. apply negb_true_iff in H3. auto.
  Qed.
  Ltac nd := repeat constructor; cbn; intuition discriminate.
  Lemma fit_a : fits_file NB BIG t1 oa 0 12192 2105344 2.
  Proof.
    split; [exact ok_a|]. split; [clr rt1|]. split; [dec|]. split; [dec|]. split.
    - intros g [<-|[<-|[]]]; cbn [oa o_base fst snd]; lia.
    - apply (sp_ok [4; 5; 6; 7; 8; 9]%nat t1); [vm_compute; reflexivity|nd].
  Qed.
  Definition ta : st := get t1 (load NB BIG true t1 oa 2105344 0 0 true).
  Definition sees (s : st) : list (option attrs) := map (view s) (seq 1 9).

  (* file_load_exact: loading oa *)
  Example ex_load : R t1 /\ fits_file NB BIG t1 oa 0 12192 2105344 2 /\ load NB BIG true t1 oa 2105344 0 0 true = Ok ta /\
    skipn 3 (sees ta) = [Some (mkAttrs 2097152 2109344 2 FILE SEGM 70 0);
      Some (mkAttrs 2097152 2102152 4 SEGM 0 0 0); Some (mkAttrs 2105344 2109344 4 SEGM SYMB 0 0);
      Some (mkAttrs 2097216 2097316 5 SECT SYMB 0 0); Some (mkAttrs 2101248 2102048 5 SECT SYMB 0 0); Some (mkAttrs 2105360 2105424 6 SECT SYMB 0 0)].
  Proof. split; [exact rt1|]. split; [exact fit_a|]. split; [apply is_ok; vm_compute; reflexivity|vm_compute; reflexivity]. Qed.

  (* histories: nothing loaded, then oa *)
  Definition nm (p : nat) : Z := match p with 70%nat => 1000 | 71%nat => 1001 | _ => 1000 end.
  Definition hd1 (p : nat) : bool := true.
  Notation H := (fhist NB BIG true al (-1) (-1) nm hd1).
  Lemma h0 : H t1 [].
  Proof.
    apply fh_start; [exact rt1|]. intros c Hc Hp. revert Hp. pose proof (bound _ c rt1 Hc) as Hb.
    do 10 (destruct c as [|c]; [first [exfalso; exact (proj1 Hc eq_refl)|exfalso; apply proj2 in Hc; vm_compute in Hc; discriminate Hc|vm_compute; discriminate]|]).
    exfalso. clear - Hb. lia.
  Qed.
  Definition ea : entry := mkEnt oa 0 12192 2105344 2097152 2 4 [5; 6]%nat [7; 8; 9]%nat.
  Lemma ha : H ta [ea].
  Proof.
    apply (fh_load NB BIG true al (-1) (-1) nm hd1 t1 [] oa 0 12192 2105344 0 0 true 2 ta 4 [5; 6]%nat [7; 8; 9]%nat); [exact h0|exact fit_a|discriminate|discriminate| | |].
    - apply is_ok. vm_compute. reflexivity.
    - split; [split|constructor].
      + repeat constructor; cbn; intuition discriminate.
      + intros n Hn. cbn in Hn. repeat (destruct Hn as [<-|Hn]; [split; [discriminate|vm_compute; reflexivity]|]). destruct Hn.
      + vm_compute. reflexivity.
      + change (o_segs oa) with [(0, 5000); (8192, 4000)]. constructor; [vm_compute; reflexivity|]. constructor; [vm_compute; reflexivity|]. constructor.
      + change (nonempty (o_secs oa)) with [(64, 100); (4096, 800); (8208, 64)]. constructor; [|constructor; [|constructor; [|constructor]]].
        * exists (0, 5000), 5%nat. split; [left; reflexivity|]. split; [unfold inside; cbn [fst snd]; lia|vm_compute; reflexivity].
        * exists (0, 5000), 5%nat. split; [left; reflexivity|]. split; [unfold inside; cbn [fst snd]; lia|vm_compute; reflexivity].
        * exists (8192, 4000), 6%nat. split; [right; left; reflexivity|]. split; [unfold inside; cbn [fst snd]; lia|vm_compute; reflexivity].
    - intros n Hn. cbn in Hn. do 10 (destruct n as [|n]; [first [exfalso; apply Hn; tauto|vm_compute; reflexivity]|]).
      assert (N1 : forall s, R s -> view s (S (S (S (S (S (S (S (S (S (S n)))))))))) = None).
      { intros s HR. destruct (view s _) eqn:E; auto. exfalso. assert (L : live s (S (S (S (S (S (S (S (S (S (S n))))))))))) by (apply view_live; congruence).
        pose proof (bound s _ HR L). lia. }
      rewrite !N1; auto; [exact rt1|].
      destruct (file_load_exact NB BIG true al (-1) (-1) t1 oa 0 12192 2105344 0 0 true 2 rt1 fit_a) as (s' & f & ls & lc & E & HR & _); [discriminate|].
      unfold ta. rewrite E. exact HR.
  Qed.
  (* file_history_exact, file_lookup_exact: in a section, in a segment only, in the file only *)
  Example ex_lookup_file : H ta [ea] /\ map (find_deepest NB ta) [2101300; 2097152; 2104000; 2109343; 2109344] =
      [Ok 8%nat; Ok 5%nat; Ok 4%nat; Ok 6%nat; Ok 2%nat] /\ find_from_root NB ta 2101300 SEGM false = Ok 5%nat.
  Proof. split; [exact ha|]. split; vm_compute; reflexivity. Qed.
  (* file_unload_exact, file_load_unload_restores *)
  Example ex_unload : H ta [ea] /\ match unload NB BIG true nm hd1 ta 1000 with Ok s => sees s = sees t1 /\ log s = [70%nat] | _ => False end /\
    match unload NB BIG true nm hd1 ta 1001 with Ok s => sees s = sees ta | _ => False end.
  Proof. split; [exact ha|]. split; [|vm_compute; reflexivity]. vm_compute. split; reflexivity. Qed.

  (* file_load_break_exact: record 3 stands for the program break, 0x218000-0x21c000 *)
  Definition b1 : st := stp s1 (New 2195456 16384 0 2 2).
  Lemma rb1 : R b1.
  Proof.
    apply (reach_step _ _ _ _ _ _ s1 (New 2195456 16384 0 2 2)); [exact r1| |runs].
    cbn [legal]. split; [free 3%nat|]. split; [unfold BIG; lia|]. exists 2%nat. split.
    - split; [lia|]. split; [cbn [Nat.eqb]; split; [isl|split; dec]|]. kids r1.
    - reflexivity.
  Qed.
  Lemma fit_b : fits_file NB BIG b1 oa 0 12192 2105344 2.
  Proof.
    split; [exact ok_a|]. split; [clr rb1|]. split; [dec|]. split; [dec|]. split.
    - intros g [<-|[<-|[]]]; cbn [oa o_base fst snd]; lia.
    - apply (sp_ok [4; 5; 6; 7; 8; 9]%nat b1); [vm_compute; reflexivity|nd].
  Qed.
  Example ex_load_break : R b1 /\ fits_file NB BIG b1 oa 0 12192 2105344 2 /\ brk_above BIG b1 2 3 2109344 /\
    match load NB BIG true b1 oa 2105344 2 3 true with Ok s => view s 3 = Some (mkAttrs 2109344 2211840 2 2 0 0 0) | _ => False end.
  Proof.
    split; [exact rb1|]. split; [exact fit_b|]. split; [|vm_compute; reflexivity].
    split; [isl|]. split; [vm_compute; reflexivity|]. split; [dec|]. split; [dec|].
    intros c Hc Hne Hp. pose proof (bound _ c rb1 Hc) as Hb.
    do 10 (destruct c as [|c]; [first [exfalso; exact (proj1 Hc eq_refl)|exfalso; apply proj2 in Hc; vm_compute in Hc; discriminate Hc
      |exfalso; vm_compute in Hp; discriminate Hp|exfalso; apply Hne; reflexivity]|]).
    exfalso. clear - Hb. lia.
  Qed.

  (* file_load_hole_exact: over mappings 2 (0x200000-0x220000) and 3 (0x230000-0x240000) *)
  Definition hh : st := stp s1 (New 2293760 65536 95 0 1).
  Lemma rhh : R hh.
  Proof.
    apply (reach_step _ _ _ _ _ _ s1 (New 2293760 65536 95 0 1)); [exact r1| |runs].
    cbn [legal]. split; [free 3%nat|]. split; [unfold BIG; lia|]. exists 0%nat. split.
    - split; [lia|]. split; [cbn; split; reflexivity|]. kids r1.
    - split; apply look; try apply r1; vm_compute; reflexivity.
  Qed.
  Definition oh : obj := mkObj 2097152 [(0, 131072); (196608, 8192)] [(196624, 64)] 71.
  Lemma ok_h : file_ok oh 0 204800.
  Proof.
    constructor; cbn.
    - split; [auto|]. intros g [<-|[<-|[]]]; cbn; lia.
    - split; [auto|]. intros g [<-|[<-|[]]]; cbn; lia.
    - unfold W64. lia.
    - intros g [<-|[<-|[]]]; cbn; lia.
    - repeat constructor; unfold apart; cbn; lia.
    - intros c [<-|[]]. exists (196608, 8192). unfold inside. cbn. split; [auto|lia].
    - repeat constructor; unfold apart; cbn; lia.
  Qed.
  Example ex_load_hole : R hh /\ file_ok oh 0 204800 /\ holed BIG hh 2 3 /\ covers hh 2 2097152 /\ covers hh 3 (2097152 + 204800 - 1) /\
    spare NB hh 4 /\ match load NB BIG true hh oh 2293760 0 0 true with
    | Ok s => (log s, map (view s) [2; 3; 4; 5; 6]%nat) =
        ([95%nat], [Some (mkAttrs 2097152 2359296 0 1 0 91 0); Some (mkAttrs 2097152 2301952 2 FILE SEGM 71 0); Some (mkAttrs 2097152 2228224 3 SEGM 0 0 0);
         Some (mkAttrs 2293760 2301952 3 SEGM SYMB 0 0); Some (mkAttrs 2293776 2293840 5 SECT SYMB 0 0)])
    | _ => False end.
  Proof.
    split; [exact rhh|]. split; [exact ok_h|]. split.
    { split; [split; [isl|vm_compute; reflexivity]|]. split; [split; [isl|vm_compute; reflexivity]|]. split; [vm_compute; reflexivity|]. split; [vm_compute; reflexivity|].
      split; [vm_compute; discriminate|]. split; [vm_compute; discriminate|]. split; [vm_compute; discriminate|]. split; [dec|]. split; [|split; [dec|split; [dec|]]].
      - intros c a Hc Hcov Ha. pose proof (bound _ c rhh Hc) as Hb. destruct Hcov as [H1 H2].
        change (b_end (bigs hh 2)) with 2228224 in Ha. change (b_begin (bigs hh 3)) with 2293760 in Ha.
        en 10%nat c ltac:(first [ exact (proj1 Hc eq_refl) | apply proj2 in Hc; vm_compute in Hc; discriminate Hc | idtac ]).
        + assert (E : b_end (bigs hh 1) <=? 2228224 = true) by (vm_compute; reflexivity). apply Z.leb_le in E. clear - E H2 Ha. lia.
        + assert (E : b_end (bigs hh 2) <=? 2228224 = true) by (vm_compute; reflexivity). apply Z.leb_le in E. clear - E H2 Ha. lia.
        + assert (E : 2293760 <=? b_begin (bigs hh 3) = true) by (vm_compute; reflexivity). apply Z.leb_le in E. clear - E H1 Ha. lia.
      - intros c Hc. pose proof (bound _ c rhh Hc) as Hb.
        en 10%nat c ltac:(first [ exfalso; exact (proj1 Hc eq_refl) | exfalso; apply proj2 in Hc; vm_compute in Hc; discriminate Hc | vm_compute; discriminate ]). }
    split; [split; dec|]. split; [split; dec|]. split; [apply (sp_ok [4; 5; 6; 7]%nat hh); [vm_compute; reflexivity|nd]|vm_compute; reflexivity].
  Qed.
End FlEx.
