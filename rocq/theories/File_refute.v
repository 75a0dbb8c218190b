(* Recording of loaded files: what does not hold.  Each case starts from a reachable forest. *)
From Verif Require Import Base Big_model Big_spec Big_hist Big_props Map_model File_model File_spec File_proof File_more File_props.
Import Ex FlEx.

(* Small files for mappings 2 and 3 of t1, of the same name. *)
Definition o2 : obj := mkObj 2097152 [(0, 5000)] [] 70.
Definition o3 : obj := mkObj 4194304 [(0, 6000)] [] 72.
Ltac fok := constructor; cbn; [split; [auto|intros g [<-|[]]; cbn; lia]|split; [auto|intros g [<-|[]]; cbn; lia]|unfold W64; lia|intros g [<-|[]]; cbn; lia|repeat constructor|intros c []|constructor].
Lemma ok_2 : file_ok o2 0 5000. Proof. fok. Qed.
Lemma ok_3 : file_ok o3 0 6000. Proof. fok. Qed.
Lemma fit_2 : fits_file NB BIG t1 o2 0 5000 0 2.
Proof.
  split; [exact ok_2|]. split; [clr rt1|]. split; [dec|]. split; [dec|]. split.
  - intros g [<-|[]]; cbn [o2 o_base fst snd]; lia.
  - apply (sp_ok [4; 5]%nat t1); [vm_compute; reflexivity|nd].
Qed.
Definition u2 : st := get t1 (load NB BIG true t1 o2 0 0 0 true).
Lemma ru2 : R u2.
Proof.
  destruct (file_load_exact NB BIG true al (-1) (-1) t1 o2 0 5000 0 0 0 true 2 rt1 fit_2) as (s' & f & ls & lc & E & HR & _); [discriminate|].
  unfold u2. rewrite E. exact HR.
Qed.
Lemma fit_3 : fits_file NB BIG u2 o3 0 6000 0 3.
Proof.
  split; [exact ok_3|]. split; [clr ru2|]. split; [dec|]. split; [dec|]. split.
  - intros g [<-|[]]; cbn [o3 o_base fst snd]; lia.
  - apply (sp_ok [6; 7]%nat u2); [vm_compute; reflexivity|nd].
Qed.
Definition u3 : st := get u2 (load NB BIG true u2 o3 0 0 0 true).

(* Unloading a file that came without a metadata object (for which the handle is null,
   static-file.c:236-239) passes the null handle to dlclose: static-file.c:566. *)
Theorem file_unload_without_metadata_refuted : exists s o low lim m s', R s /\ fits_file NB BIG s o low lim 0 m /\
  load NB BIG true s o 0 0 0 true = Ok s' /\ unload NB BIG true (fun _ => 1000) (fun _ => false) s' 1000 = UB.
Proof.
  exists t1, o2, 0, 5000, 2%nat, u2. split; [exact rt1|]. split; [exact fit_2|]. split; [apply is_ok; vm_compute; reflexivity|vm_compute; reflexivity].
Qed.

(* Two files of one name (in different namespaces, or a file and its replacement) are both taken for
   unloaded when one is: static-file.c:558-570. *)
Theorem file_unload_same_name_refuted : exists s1 s2 s' o o' low lim low' lim' m m', R s1 /\
  fits_file NB BIG s1 o low lim 0 m /\ load NB BIG true s1 o 0 0 0 true = Ok s2 /\
  fits_file NB BIG s2 o' low' lim' 0 m' /\ load NB BIG true s2 o' 0 0 0 true = Ok s' /\ m <> m' /\ o_base o <> o_base o' /\
  find_from_root NB s' (o_base o) FILE false <> Ok 0%nat /\ find_from_root NB s' (o_base o') FILE false <> Ok 0%nat /\
  match unload NB BIG true nm hd1 s' (nm (o_meta o)) with
  | Ok s => find_from_root NB s (o_base o) FILE false = Ok 0%nat /\ find_from_root NB s (o_base o') FILE false = Ok 0%nat
  | _ => False end.
Proof.
  exists t1, u2, u3, o2, o3, 0, 5000, 0, 6000, 2%nat, 3%nat. split; [exact rt1|]. split; [exact fit_2|]. split; [apply is_ok; vm_compute; reflexivity|].
  split; [exact fit_3|]. split; [apply is_ok; vm_compute; reflexivity|]. split; [discriminate|]. split; [discriminate|].
  split; [vm_compute; discriminate|]. split; [vm_compute; discriminate|]. vm_compute. split; reflexivity.
Qed.

(* The site given for a segment and for a section of a file is not the site given for the file,
   wherever in the structure the latter lies: static-segment.c:179-181, static-section.c:88-90. *)
Theorem file_parts_site_refuted : forall ls, exists s o low lim data m s' f g c words, R s /\ fits_file NB BIG s o low lim data m /\
  load NB BIG true s o data 0 0 true = Ok s' /\
  b_alloc (bigs s' f) = FILE /\ b_alloc (bigs s' g) = SEGM /\ b_alloc (bigs s' c) = SECT /\ b_parent (bigs s' c) = g /\ b_parent (bigs s' g) = f /\
  snd (segment_info words ls s' g) <> snd (file_info words ls s' f) /\
  snd (section_info words ls s' c) <> snd (file_info words ls s' f).
Proof.
  intro ls. exists t1, oa, 0, 12192, 2105344, 2%nat, ta, 4%nat, 5%nat, 7%nat, (fun _ => map Z.of_nat (seq 0 (7 + ls))).
  assert (N : forall k, (k < 7 + ls)%nat -> nth k (map Z.of_nat (seq 0 (7 + ls))) 0 = Z.of_nat k).
  { intros k Hk. change 0 with (Z.of_nat 0). rewrite map_nth, seq_nth; auto. }
  split; [exact rt1|]. split; [exact fit_a|]. split; [apply is_ok; vm_compute; reflexivity|].
  do 5 (split; [vm_compute; reflexivity|]). unfold segment_info, section_info, file_info. cbn [snd]. rewrite !N by lia. split; lia.
Qed.

(* A file's record begins where its mapping does, so that an address before its first byte is
   taken to be in it: static-file.c:463-470. *)
Definition o4 : obj := mkObj 2097152 [(65536, 5000)] [] 70.
Lemma ok_4 : file_ok o4 65536 70536. Proof. fok. Qed.
Lemma fit_4 : fits_file NB BIG t1 o4 65536 70536 0 2.
Proof.
  split; [exact ok_4|]. split; [clr rt1|]. split; [dec|]. split; [dec|]. split.
  - intros g [<-|[]]; cbn [o4 o_base fst snd]; lia.
  - apply (sp_ok [4; 5]%nat t1); [vm_compute; reflexivity|nd].
Qed.
Theorem file_start_exact_refuted : exists s o low lim m s' a f, R s /\ fits_file NB BIG s o low lim 0 m /\
  load NB BIG true s o 0 0 0 true = Ok s' /\ (forall g, In g (o_segs o) -> a < lo_of (o_base o) g) /\
  find_deepest NB s' a = Ok f /\ f <> 0%nat /\ b_alloc (bigs s' f) = FILE.
Proof.
  exists t1, o4, 65536, 70536, 2%nat, (get t1 (load NB BIG true t1 o4 0 0 0 true)), 2097152, 4%nat.
  split; [exact rt1|]. split; [exact fit_4|]. split; [apply is_ok; vm_compute; reflexivity|].
  split; [intros g [<-|[]]; unfold lo_of; cbn [o4 o_base fst snd]; lia|].
  split; [vm_compute; reflexivity|]. split; [discriminate|vm_compute; reflexivity].
Qed.

(* Sections that overlap: the thread-local .tbss takes no room in memory but has an address and a
   size, so the sections after it start within its range, and are never recorded; their addresses
   are attributed to it.  static-section.c:38-42. *)
Definition o5 : obj := mkObj 2097152 [(0, 5000)] [(1024, 256); (1024, 16); (1040, 16)] 70.
Theorem file_overlapping_sections_refuted : exists s o s' n, R s /\ load NB BIG true s o 0 0 0 true = Ok s' /\
  nonempty (o_secs o) = o_secs o /\ (forall c, In c (o_secs o) -> exists g, In g (o_segs o) /\ inside c g) /\
  view s' n = Some (mkAttrs (o_base o + 1024) (o_base o + 1280) 5 SECT SYMB 0 0) /\
  (forall c, In c (tl (o_secs o)) -> find_deepest NB s' (lo_of (o_base o) c) = Ok n /\
     forallb (fun k => negb (Nat.eqb (b_alloc (bigs s' k)) SECT && (b_begin (bigs s' k) =? lo_of (o_base o) c) && (b_end (bigs s' k) =? hi_of (o_base o) c))) (seq 1 9) = true).
Proof.
  exists t1, o5, (get t1 (load NB BIG true t1 o5 0 0 0 true)), 6%nat. split; [exact rt1|]. split; [apply is_ok; vm_compute; reflexivity|].
  split; [reflexivity|]. split.
  { intros c Hc. exists (0, 5000). split; [left; reflexivity|]. destruct Hc as [<-|[<-|[<-|[]]]]; unfold inside; cbn [fst snd]; lia. }
  split; [vm_compute; reflexivity|]. intros c Hc. change (tl (o_secs o5)) with [(1024, 16); (1040, 16)] in Hc.
  destruct Hc as [<-|[<-|[]]]; vm_compute; split; reflexivity.
Qed.

(* Filling the hole between a file's two mappings forgets what was recorded in the upper one: here
   the 4096 bytes at 0x238000.  static-file.c:369-386. *)
Definition hc : st := stp hh (New 2326528 4096 0 3 2).
Lemma rhc : R hc.
Proof.
  apply (reach_step _ _ _ _ _ _ hh (New 2326528 4096 0 3 2)); [exact rhh| |runs].
  cbn [legal]. split; [free 4%nat|]. split; [unfold BIG; lia|]. exists 3%nat. split.
  - split; [lia|]. split; [split; [isl|split; dec]|]. kids rhh.
  - reflexivity.
Qed.
Theorem file_hole_keeps_upper_refuted : exists s o s' a n, R s /\ load NB BIG true s o 2293760 0 0 true = Ok s' /\
  (forall g, In g (o_segs o) -> ~ lo_of (o_base o) g <= a < hi_of (o_base o) g) /\
  find_deepest NB s a = Ok n /\ b_parent (bigs s n) <> 0%nat /\
  find_deepest NB s' a <> Ok n /\ view s n <> view s' n.
Proof.
  exists hc, oh, (get hc (load NB BIG true hc oh 2293760 0 0 true)), 2326530, 4%nat. split; [exact rhc|]. split; [apply is_ok; vm_compute; reflexivity|].
  split; [intros g [<-|[<-|[]]]; unfold lo_of, hi_of; cbn [oh o_base fst snd]; lia|].
  split; [vm_compute; reflexivity|]. split; [vm_compute; discriminate|]. split; vm_compute; discriminate.
Qed.

(* A file over two mappings that abut: with the assertion left out, the hole has no length, and a
   kernel refuses to make a mapping of no length, which ends the program.  static-file.c:290-318. *)
Definition ab : st := stp s1 (New 2228224 65536 95 0 1).
Lemma rab : R ab.
Proof.
  apply (reach_step _ _ _ _ _ _ s1 (New 2228224 65536 95 0 1)); [exact r1| |runs].
  cbn [legal]. split; [free 3%nat|]. split; [unfold BIG; lia|]. exists 0%nat. split.
  - split; [lia|]. split; [cbn; split; reflexivity|]. kids r1.
  - split; apply look; try apply r1; vm_compute; reflexivity.
Qed.
Definition o6 : obj := mkObj 2097152 [(0, 131072); (131072, 8192)] [] 70.
Theorem file_load_abutting_refuted : exists s o lo hi, R s /\ toplevel s lo /\ toplevel s hi /\ b_end (bigs s lo) = b_begin (bigs s hi) /\
  covers s lo (o_base o) /\ covers s hi (o_base o + 139263) /\ map (fun g => fst g + snd g) (o_segs o) = [131072; 139264] /\
  load NB BIG false s o 2228224 0 0 false = Abort /\ load NB BIG true s o 2228224 0 0 true = Abort.
Proof.
  exists ab, o6, 2%nat, 3%nat. split; [exact rab|]. split; [split; [isl|vm_compute; reflexivity]|]. split; [split; [isl|vm_compute; reflexivity]|].
  split; [vm_compute; reflexivity|]. split; [split; dec|]. split; [split; dec|]. split; [reflexivity|]. split; vm_compute; reflexivity.
Qed.
Print Assumptions file_unload_without_metadata_refuted.
Print Assumptions file_unload_same_name_refuted.
Print Assumptions file_parts_site_refuted.
Print Assumptions file_start_exact_refuted.
Print Assumptions file_overlapping_sections_refuted.
Print Assumptions file_hole_keeps_upper_refuted.
Print Assumptions file_load_abutting_refuted.
