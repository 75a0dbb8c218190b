(* C51: what is false of the start-up scan. *)
From Verif Require Import Base Big_model Big_spec Big_inv Big_create Big_hist Big_props Big_field Map_model Map_spec Map_seq Map_state
  Scan_model Scan_spec Scan_done Map_hist Map_props Map_ex Scan_props.
Import Ex ScEx.

Definition an f s p := mkL f s p false 0 REmpty.
Notation scn dbg := (scan_proc NB BIG dbg obj ARGC 2162600 0 XEND).
(* each line is unknown, or is exactly a recorded mapping *)
Definition each_known_or_not (T : mst) (L : list line) : Prop :=
  forall l lo hi, In l L -> span BIG XEND l lo hi -> unknown T lo hi \/ known T l lo hi.

Lemma stt_ok d r k : match r with Ok (_, n) => Nat.eqb n k | _ => false end = true -> r = Ok (stt d r, k).
Proof. destruct r as [[T n]| | |]; intro H; try discriminate. apply Nat.eqb_eq in H. subst n. reflexivity. Qed.
Lemma start_known dbg : known (e0 dbg) (an 1048576 1114112 3) 1048576 1114112.
Proof.
  split; [reflexivity|]. exists 1%nat. split; [split; [discriminate|destruct dbg; vm_compute; reflexivity]|].
  split; [reflexivity|]. split; [reflexivity|]. split; [reflexivity|]. destruct dbg; vm_compute; reflexivity.
Qed.

(* Anonymous pages mapped before start-up on both sides of START: only the two ends of the
   run are looked up, nothing is found there, and a second mapping is recorded over START. *)
Definition La := [an 1044480 1048576 3; an 1048576 1114112 3; an 1114112 1118208 3].
Theorem scan_between_refuted : forall dbg, exists T M L T' our, mreach dbg T M /\ each_known_or_not T L /\ scn dbg T 0 L = Ok (T', our) /\
  exists m n a, m <> n /\ live (fo T') m /\ live (fo T') n /\ b_parent (bigs (fo T') m) = 0%nat /\ b_parent (bigs (fo T') n) = 0%nat /\
    covers (fo T') m a /\ covers (fo T') n a.
Proof.
  intro dbg. exists (e0 dbg), M0, La, (stt (e0 dbg) (scn dbg (e0 dbg) 0 La)), 0%nat. split; [apply h0|]. split.
  { intros l lo hi [<-|[<-|[<-|[]]]] (_ & _ & -> & ->); [left; apply unk; cbn; lia|right; apply start_known|left; apply unk; cbn; lia]. }
  split; [apply stt_ok; destruct dbg; vm_compute; reflexivity|]. exists 1%nat, 2%nat, 1048576. split; [discriminate|].
  split; [split; [discriminate|destruct dbg; vm_compute; reflexivity]|]. split; [split; [discriminate|destruct dbg; vm_compute; reflexivity]|].
  split; [destruct dbg; vm_compute; reflexivity|]. split; [destruct dbg; vm_compute; reflexivity|].
  split; (split; [apply Z.leb_le|apply Z.ltb_lt]; destruct dbg; vm_compute; reflexivity).
Qed.

(* Pages filling the gap between two recorded mappings: the process is aborted. *)
Definition e0d dbg := mm dbg (e0 dbg) 1118208 4096 3 34 None.
Definition Lk := [an 1048576 1114112 3; an 1114112 1118208 3; an 1118208 1122304 3].
Lemma hd dbg : mreach dbg (e0d dbg) (map_over M0 1118208 (1118208 + RUP 4096) t0).
Proof.
  apply (m_map _ _ _ _ _ _ _ (e0 dbg) M0 1118208 4096 3 34 None 0 0); [apply h0| |].
  - apply (chk_free_ok _ _ dbg al (-1) (-1)); [exact (proj1 (mreach_inv _ _ _ _ _ _ _ _ _ (h0 dbg)))|destruct dbg; vm_compute; reflexivity].
  - apply get_ok. destruct dbg; vm_compute; reflexivity.
Qed.
Lemma all_off dbg T M lo hi : mreach dbg T M -> all_live NB (fo T) (off_ (fo T) lo hi) = true -> unknown T lo hi.
Proof. intros H A n L. apply (off_ok al). exact (all_live_ok NB BIG dbg al (-1) (-1) T _ (proj1 (mreach_inv _ _ _ _ _ _ _ _ _ H)) A n L). Qed.
Theorem scan_gap_refuted : forall dbg, exists T M L, mreach dbg T M /\ each_known_or_not T L /\ scn dbg T 0 L = Abort.
Proof.
  intro dbg. exists (e0d dbg), (map_over M0 1118208 (1118208 + RUP 4096) t0), Lk. split; [apply hd|]. split; [|destruct dbg; vm_compute; reflexivity].
  intros l lo hi [<-|[<-|[<-|[]]]] (_ & _ & -> & ->).
  - right. split; [reflexivity|]. exists 1%nat. split; [split; [discriminate|destruct dbg; vm_compute; reflexivity]|].
    split; [destruct dbg; vm_compute; reflexivity|]. split; [destruct dbg; vm_compute; reflexivity|]. split; destruct dbg; vm_compute; reflexivity.
  - left. apply (all_off dbg _ _ _ _ (hd dbg)). destruct dbg; vm_compute; reflexivity.
  - right. split; [reflexivity|]. exists 2%nat. split; [split; [discriminate|destruct dbg; vm_compute; reflexivity]|].
    split; [destruct dbg; vm_compute; reflexivity|]. split; [destruct dbg; vm_compute; reflexivity|]. split; destruct dbg; vm_compute; reflexivity.
Qed.

(* The scan is meant to be repeatable (mmap.c:1090-1093), but is not: pages right below START
   become a mapping of their own the first time, and the second time the process is aborted. *)
Definition Lb := [an 1044480 1048576 5; an 1048576 1114112 3].
Theorem scan_twice_refuted : forall dbg, exists T M L T' our, mreach dbg T M /\ each_known_or_not T L /\
  scn dbg T 0 L = Ok (T', our) /\ mirrors T' (list_over BIG XEND L M) /\ scn dbg T' our L = Abort.
Proof.
  intro dbg. exists (e0 dbg), M0, Lb, (stt (e0 dbg) (scn dbg (e0 dbg) 0 Lb)), 0%nat. split; [apply h0|].
  assert (KN : each_known_or_not (e0 dbg) Lb).
  { intros l lo hi [<-|[<-|[]]] (_ & _ & -> & ->); [left; apply unk; cbn; lia|right; apply start_known]. }
  assert (OKE : scn dbg (e0 dbg) 0 Lb = Ok (stt (e0 dbg) (scn dbg (e0 dbg) 0 Lb), 0%nat)) by (apply stt_ok; destruct dbg; vm_compute; reflexivity).
  split; [exact KN|]. split; [exact OKE|]. split; [|destruct dbg; vm_compute; reflexivity].
  assert (RB : forall lo hi, run BIG XEND Lb lo hi -> forall a, lo <= a < hi -> 1044480 <= a < 1114112).
  { intros lo hi [_ R] a Ha. destruct (R a Ha) as (t & l & x & y & [<-|[<-|[]]] & (_ & _ & -> & ->) & C & _); cbn in C; lia. }
  assert (SC : scannable NB BIG XEND ARGC (e0 dbg) Lb).
  { constructor.
    - intros l [<-|[<-|[]]]; cbn [l_first l_second l_rest an]; (split; [lia|]); (split; [unfold W64; lia|]); (split; [reflexivity|]); (split; [reflexivity|discriminate]).
    - repeat (apply FOP_cons; [repeat (apply Forall_cons; [cbn [an l_first l_second]; lia|]); apply Forall_nil|]). apply FOP_nil.
    - intros l [<-|[<-|[]]] R; discriminate.
    - exact KN.
    - intros l lo hi Hl SP K R. apply known1 in K. destruct K as [-> ->]. assert (X := RB _ _ R 1114112 ltac:(lia)). lia.
    - intros l lo hi l' lo' hi' _ _ _ _ K K' O. apply known1 in K, K'. lia.
    - intros lo hi R. assert (X := RB _ _ R). destruct R as [LH _]. assert (X0 := X lo ltac:(lia)). assert (X1 := X (hi - 1) ltac:(lia)). unfold BIG. lia.
    - exists (seq 2 4). split; [apply seq_NoDup|]. split; [reflexivity|]. intros n Hn. apply in_seq in Hn. split; [unfold NB; lia|].
      cbn. destruct (Nat.eqb_spec n 1); [lia|reflexivity].
    - intros l l' [<-|[<-|[]]] _ (f & R & N); discriminate.
    - intros l lo hi [<-|[<-|[]]] (f & R & N); discriminate. }
  exact (proj2 (mreach_inv _ _ _ _ _ _ _ _ _ (m_scan _ _ _ _ _ _ _ (e0 dbg) M0 Lb ARGC 2162600 0 XEND _ 0 (h0 dbg) SC OKE))).
Qed.

(* A line whose last column is neither empty, a path nor a bracketed word, as for a mapping of
   an anonymous inode, aborts the process; if no sequence has been begun, the page index is
   read out of bounds. *)
Theorem scan_anon_inode_refuted : forall dbg, exists T M L L', mreach dbg T M /\
  (forall l, In l (L ++ L') -> unknown T (l_first l) (l_second l)) /\ scn dbg T 0 L = Abort /\ scn dbg T 0 L' = UB.
Proof.
  intro dbg. exists (e0 dbg), M0, [an 1044480 1048576 5; mkL 1118208 1122304 3 true 0 ROther], [mkL 1118208 1122304 3 true 0 ROther].
  split; [apply h0|]. split; [intros l [<-|[<-|[<-|[]]]]; apply unk; cbn; lia|]. split; destruct dbg; vm_compute; reflexivity.
Qed.

(* If START's protection has been changed in part, its lines no longer agree with the record:
   START is deleted, and with it all that other allocators had recorded in it. *)
Definition o1 := New 1056768 4096 0 0 2.
Definition e0c dbg := match step NB BIG dbg al (-1) (-1) (fo (e0 dbg)) o1 with Ok s => set_fo (e0 dbg) s | _ => e0 dbg end.
Definition Le := [an 1048576 1052672 1; an 1052672 1114112 3].
Lemma l1' dbg : legal NB BIG al (fo (e0 dbg)) o1.
Proof.
  cbn [legal o1]. assert (MI := proj1 (mreach_inv _ _ _ _ _ _ _ _ _ (h0 dbg))).
  split; [apply (some_free_ok NB al); destruct dbg; vm_compute; reflexivity|]. split; [unfold BIG; lia|]. exists 1%nat. split.
  - split; [lia|]. split.
    + cbn [Nat.eqb]. split; [split; [discriminate|destruct dbg; vm_compute; reflexivity]|]. split; apply Z.leb_le; destruct dbg; vm_compute; reflexivity.
    + intros c Lc Pc. exfalso. rewrite (only1 dbg c Lc) in Pc. vm_compute in Pc. discriminate.
  - assert (R := mi_R _ _ _ _ _ _ _ MI). destruct (reach_good _ _ _ _ _ _ _ R) as [(K & rk & HI) _].
    split; (match goal with |- lookup_answer ?s ?a ?r => destruct (Big_lookup.find_deepest_correct _ _ _ _ HI a) as (r' & E & A); replace r with r'; [exact A|] end);
    revert E; destruct dbg; vm_compute; intro E; injection E as <-; reflexivity.
Qed.
Lemma hc dbg : mreach dbg (e0c dbg) M0.
Proof.
  assert (MI := proj1 (mreach_inv _ _ _ _ _ _ _ _ _ (h0 dbg))). assert (R := mi_R _ _ _ _ _ _ _ MI).
  destruct (big_calls_succeed NB BIG dbg al (-1) (-1) (fo (e0 dbg)) o1 R (l1' dbg)) as (s' & E & R').
  unfold e0c. rewrite E. apply (m_other _ _ _ _ _ _ _ (e0 dbg) M0 o1 s' (h0 dbg) (l1' dbg) E).
  destruct (l1' dbg) as (Hf & Hs & p & Fi & Pc).
  destruct (big_create_exact NB BIG dbg al (-1) (-1) (fo (e0 dbg)) 1056768 4096 0 0 2 p R Hf Hs Fi Pc) as (s2 & n & E2 & _ & _ & Vn & VW & _).
  cbn [step o1] in E. rewrite E2 in E. cbn [bind] in E. injection E as ->.
  intros m v A. rewrite VW. destruct (Nat.eqb_spec m n) as [->|]; [|tauto]. rewrite Vn. split; [|discriminate]. intro X. injection X as <-. discriminate.
Qed.
Theorem scan_protected_refuted : forall dbg, exists T M L T' our m f, mreach dbg T M /\
  (forall l lo hi, In l L -> span BIG XEND l lo hi -> exists n, live (fo T) n /\ b_alloc (bigs (fo T) n) = MMAP /\ b_begin (bigs (fo T) n) <= lo /\ hi <= b_end (bigs (fo T) n)) /\
  scn dbg T 0 L = Ok (T', our) /\ other T m f /\ ~ other T' m f.
Proof.
  intro dbg. exists (e0c dbg), M0, Le, (stt (e0 dbg) (scn dbg (e0c dbg) 0 Le)), 0%nat, 2%nat, (mkFacts 1056768 1060864 2 0 0 0). split; [apply hc|]. split.
  { intros l lo hi Hl SP. exists 1%nat. split; [split; [discriminate|destruct dbg; vm_compute; reflexivity]|]. split; [destruct dbg; vm_compute; reflexivity|].
    replace (b_begin (bigs (fo (e0c dbg)) 1)) with 1048576 by (destruct dbg; vm_compute; reflexivity).
    replace (b_end (bigs (fo (e0c dbg)) 1)) with 1114112 by (destruct dbg; vm_compute; reflexivity).
    destruct Hl as [<-|[<-|[]]]; destruct SP as (_ & _ & -> & ->); cbn [an l_first l_second]; lia. }
  split; [apply stt_ok; destruct dbg; vm_compute; reflexivity|]. split.
  - exists (mkAttrs 1056768 1060864 1 2 0 0 0). split; [destruct dbg; vm_compute; reflexivity|]. split; [vm_compute; discriminate|reflexivity].
  - intros (v & V & _). revert V. destruct dbg; vm_compute; discriminate.
Qed.

(* A second line for a stack, as older kernels have for the stacks of other threads, if it is
   below the initial stack, aborts the process. *)
Definition Lh := [mkL 1638400 1703936 3 false 0 (RName (-2)); mkL 2097152 2162688 3 false 0 (RName (-1))].
Theorem scan_thread_stack_refuted : forall dbg, exists T M L, mreach dbg T M /\
  (forall l, In l L -> unknown T (l_first l) (l_second l)) /\ scn dbg T 0 L = Abort.
Proof.
  intro dbg. exists (e0 dbg), M0, Lh. split; [apply h0|]. split; [intros l [<-|[<-|[]]]; apply unk; cbn; lia|]. destruct dbg; vm_compute; reflexivity.
Qed.

Print Assumptions scan_between_refuted.
Print Assumptions scan_gap_refuted.
Print Assumptions scan_twice_refuted.
Print Assumptions scan_anon_inode_refuted.
Print Assumptions scan_protected_refuted.
Print Assumptions scan_thread_stack_refuted.
