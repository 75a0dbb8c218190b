(* C51, C52: the start-up scan of the process's mappings, and the initial stack. *)
From Verif Require Import Base Big_model Big_spec Big_inv Big_create Big_hist Big_props Big_field Map_model Map_spec Map_seq Map_state
  Scan_model Scan_spec Scan_done Map_hist Map_props Map_ex.

Section P.
Variables (nb : nat) (biggest : Z) (dbg : bool) (al : nat -> Z) (cur_ max_ : Z) (obj_of : Z -> Z) (argcp asc dseg xend : Z).
Notation mreach := (mreach nb biggest dbg al cur_ max_ obj_of).
Notation scan_proc := (scan_proc nb biggest dbg obj_of argcp asc dseg xend).

(* ---------------------------------------------------------------- C51 *)
(* The scan succeeds; afterwards the mappings recorded are those recorded before and those
   listed, nothing else has been touched, and the history goes on from there. *)
Theorem scan_exact_partial : forall S M L, mreach S M -> scannable nb biggest xend argcp S L ->
  exists S' our, scan_proc S 0 L = Ok (S', our) /\ mreach S' (list_over biggest xend L M) /\ scanned biggest xend argcp L S S' our.
Proof.
  intros S M L H SC. destruct (mreach_inv _ _ _ _ _ _ _ _ _ H) as [MI _].
  destruct (scan_ok nb biggest dbg al cur_ max_ obj_of argcp asc dseg xend S L MI SC) as (S' & our & E & X & Y).
  exists S', our. split; [exact E|]. split; [exact (m_scan _ _ _ _ _ _ _ S M L argcp asc dseg xend S' our H SC E)|exact Y].
Qed.

(* ---------------------------------------------------------------- C52 *)
(* After the scan, every address of the stack's pages below the argument count is attributed
   to the stack, and its frames are the stack-frame allocator's business; every one above is
   attributed to the auxiliary vector. *)
Theorem scan_stack_lookup_partial : forall S M L S' our l lo hi a, mreach S M -> scannable nb biggest xend argcp S L ->
  scan_proc S 0 L = Ok (S', our) -> In l L -> stack_line l -> span biggest xend l lo hi -> lo <= a < hi ->
  exists r, find_deepest nb (fo S') a = Ok r /\ b_begin (bigs (fo S') r) = lo /\
    (a < argcp -> b_alloc (bigs (fo S') r) = STACK /\ b_end (bigs (fo S') r) = argcp /\ leaf_allocator nb (fo S') a = Ok FRAME) /\
    (argcp <= a -> r = our /\ b_alloc (bigs (fo S') r) = AUXV /\ hi <= b_end (bigs (fo S') r) /\ leaf_allocator nb (fo S') a = Ok AUXV).
Proof.
  intros S M L S' our l lo hi a H SC EQ Hl Sl SP Ha. destruct (mreach_inv _ _ _ _ _ _ _ _ _ H) as [MI _].
  destruct (scan_ok nb biggest dbg al cur_ max_ obj_of argcp asc dseg xend S L MI SC) as (S2 & our2 & E & X & [SR SO _ SS]).
  assert (EE : Ok (S2, our2) = Ok (S', our)) by congruence. injection EE as -> ->. clear E.
  destruct (SS l lo hi Hl Sl SP) as (k & (m & hm & HH & Lm & Am & Bm & Em & Va & Vk) & SN).
  assert (HR := mi_R _ _ _ _ _ _ _ X).
  destruct (view_inv _ _ _ Va) as [La Ea]. destruct (view_inv _ _ _ Vk) as [Lk Ek].
  assert (AR := sn_argc _ _ _ _ _ _ SC l lo hi Hl Sl SP).
  assert (UN : unknown S lo hi).
  { destruct (sn_state _ _ _ _ _ _ SC l lo hi Hl SP) as [U|(N & _)]; [exact U|]. destruct Sl as (f & Rf & _). rewrite Rf in N. discriminate. }
  assert (F1 := f_equal a_begin Ea). assert (F2 := f_equal a_end Ea). assert (F3 := f_equal a_parent Ea). assert (F4 := f_equal a_alloc Ea). assert (F5 := f_equal a_sub Ea).
  assert (G1 := f_equal a_begin Ek). assert (G2 := f_equal a_end Ek). assert (G3 := f_equal a_parent Ek). assert (G4 := f_equal a_alloc Ek). assert (G5 := f_equal a_sub Ek).
  cbn [attrs_of a_begin a_end a_parent a_alloc a_sub] in F1, F2, F3, F4, F5, G1, G2, G3, G4, G5.
  assert (Vm := live_as _ _ Lm). destruct (mi_seq _ _ _ _ _ _ _ X m _ Vm Am) as (Pm & _). cbn [attrs_of a_parent] in Pm.
  (* what covers the address *)
  assert (ONLY : forall c, live (fo S') c -> covers (fo S') c a -> c = m \/ c = our \/ c = k).
  { intros c Lc Cc. assert (Vc := live_as _ _ Lc). destruct (Nat.eq_dec (b_alloc (bigs (fo S') c)) MMAP) as [Ac|Ac].
    - destruct (mi_seq _ _ _ _ _ _ _ X c _ Vc Ac) as (Pc & _). destruct (Nat.eq_dec c m) as [|N]; [auto|]. exfalso.
      destruct (vf_top _ _ _ _ _ _ (fo S') HR c m _ _ Vc Vm Pc Pm N) as [Y|Y]; cbn in Y; unfold covers in Cc; lia.
    - destruct (SN c (strip (attrs_of (bigs (fo S') c)))) as [O|O]; [exists (attrs_of (bigs (fo S') c)); auto| |auto].
      exfalso. destruct O as (w & Vw & _ & Ew). destruct (view_inv _ _ _ Vw) as [Lw Ew'].
      apply (UN c Lw). exists a. split; [exact Ha|]. rewrite Ew' in Ew. assert (Y1 := f_equal f_begin Ew). assert (Y2 := f_equal f_end Ew).
      cbn in Y1, Y2. unfold covers in *. lia. }
  assert (NM : m <> 0%nat) by apply Lm. assert (NO : our <> 0%nat) by apply La.
  assert (Am' : anc (fo S') m our) by (apply anc_up; rewrite <- F3; [exact NM|apply anc_refl]).
  assert (Ao' : anc (fo S') our k) by (apply anc_up; rewrite <- G3; [exact NO|apply anc_refl]).
  assert (Amk : anc (fo S') m k) by (apply anc_up; rewrite <- G3; [exact NO|exact Am']).
  assert (ANS : lookup_answer (fo S') a (if a <? argcp then k else our)).
  { unfold lookup_answer. destruct (Z.ltb_spec a argcp).
    - destruct (Nat.eqb_spec k 0) as [Z|_]; [exfalso; apply (proj1 Lk), Z|]. split; [exact Lk|]. split; [unfold covers; lia|].
      intros c Lc Cc. destruct (ONLY c Lc Cc) as [->|[->| ->]]; [exact Amk|exact Ao'|apply anc_refl].
    - destruct (Nat.eqb_spec our 0) as [Z|_]; [congruence|]. split; [exact La|]. split; [unfold covers; lia|].
      intros c Lc Cc. destruct (ONLY c Lc Cc) as [->|[->| ->]]; [exact Am'|apply anc_refl|exfalso; unfold covers in Cc; lia]. }
  destruct (big_lookup_innermost nb biggest dbg al cur_ max_ (fo S') a HR) as (r & Er & Ar).
  assert (r = if a <? argcp then k else our) by (exact (big_lookup_unique nb biggest dbg al cur_ max_ (fo S') a _ _ HR Ar ANS)). subst r.
  destruct (big_leaf_allocator nb biggest dbg al cur_ max_ (fo S') a HR) as (n & x & An & Ex & Xn).
  assert (EN := big_lookup_unique nb biggest dbg al cur_ max_ (fo S') a _ _ HR An ANS). subst n.
  exists (if a <? argcp then k else our). split; [exact Er|]. destruct (Z.ltb_spec a argcp).
  - split; [congruence|]. split; [|lia]. intros _. split; [congruence|]. split; [congruence|]. rewrite Ex. f_equal.
    rewrite Xn, <- G5. destruct (Nat.eqb_spec k 0) as [Z|_]; [exfalso; apply (proj1 Lk), Z|reflexivity].
  - split; [congruence|]. split; [lia|]. intros _. split; [reflexivity|]. split; [congruence|]. split; [lia|]. rewrite Ex. f_equal.
    rewrite Xn, <- F5, <- F4. destruct (Nat.eqb_spec our 0) as [Z|_]; [congruence|reflexivity].
Qed.
End P.

(* A case: the library's own heap, START, is the only mapping known.  The lines are: a file's
   text; the memory above it, of which one page is the executable's bss; START; two pages
   right behind START; the stack; and the kernel's page. *)
Module ScEx.
  Import Ex.
  Definition ARGC : Z := 2162432.
  Definition XEND : Z := 540672.
  Definition L0 := [mkL 524288 532480 5 false 0 (RName 7); mkL 532480 589824 3 false 0 RHeap; mkL 1048576 1114112 3 false 0 REmpty; mkL 1114112 1122304 3 false 0 REmpty;
    mkL 2097152 2162688 3 false 0 (RName (-1)); mkL (2^64 - 16777216) (2^64 - 16773120) 5 false 0 RBracket].

  Lemma only1 dbg n : live (fo (e0 dbg)) n -> n = 1%nat.
  Proof. intros [N U]. cbn in U. destruct (Nat.eqb_spec n 1); [assumption|discriminate]. Qed.
  Definition blk (a : Z) : Prop := 524288 <= a < 540672 \/ 1048576 <= a < 1122304 \/ 2097152 <= a < 2162688.
  Lemma sp l lo hi : In l L0 -> span BIG XEND l lo hi ->
    (l = nth 0 L0 (mkL 0 0 0 false 0 REmpty) /\ lo = 524288 /\ hi = 532480) \/ (l = nth 1 L0 (mkL 0 0 0 false 0 REmpty) /\ lo = 532480 /\ hi = 540672) \/
    (l = nth 2 L0 (mkL 0 0 0 false 0 REmpty) /\ lo = 1048576 /\ hi = 1114112) \/ (l = nth 3 L0 (mkL 0 0 0 false 0 REmpty) /\ lo = 1114112 /\ hi = 1122304) \/
    (l = nth 4 L0 (mkL 0 0 0 false 0 REmpty) /\ lo = 2097152 /\ hi = 2162688).
  Proof.
    unfold span, XEND. intros [<-|[<-|[<-|[<-|[<-|[<-|[]]]]]]]; cbn [l_first l_second l_rest nth L0]; intros (A & B & -> & C); try tauto. lia.
  Qed.
  Lemma run_blk lo hi : run BIG XEND L0 lo hi -> forall a, lo <= a < hi -> blk a.
  Proof.
    intros [_ R] a Ha. destruct (R a Ha) as (t & l & x & y & Hl & SP & C & _). unfold blk.
    destruct (sp l x y Hl SP) as [(_ & -> & ->)|[(_ & -> & ->)|[(_ & -> & ->)|[(_ & -> & ->)|(_ & -> & ->)]]]]; lia.
  Qed.
  Lemma known1 dbg l lo hi : known (e0 dbg) l lo hi -> lo = 1048576 /\ hi = 1114112.
  Proof. intros (_ & n & Ln & _ & B & C & _). rewrite (only1 dbg n Ln) in B, C. cbn in B, C. auto. Qed.
  Lemma unk dbg lo hi : hi <= 1048576 \/ 1114112 <= lo -> unknown (e0 dbg) lo hi.
  Proof. intros H n Ln (a & Ha & C). rewrite (only1 dbg n Ln) in C. unfold covers in C. cbn in C. lia. Qed.

  Lemma ok dbg : scannable NB BIG XEND ARGC (e0 dbg) L0.
  Proof.
    constructor.
    - intros l [<-|[<-|[<-|[<-|[<-|[<-|[]]]]]]]; cbn [l_first l_second l_rest]; (split; [lia|]); (split; [unfold W64; lia|]); (split; [reflexivity|]); (split; [reflexivity|discriminate]).
    - repeat (apply FOP_cons; [repeat (apply Forall_cons; [cbn [l_first l_second]; lia|]); apply Forall_nil|]). apply FOP_nil.
    - intros l [<-|[<-|[<-|[<-|[<-|[<-|[]]]]]]] R; cbn [l_first l_second l_rest] in *; try discriminate. intros _. split; [unfold XEND; lia|reflexivity].
    - intros l lo hi Hl SP. destruct (sp l lo hi Hl SP) as [(-> & -> & ->)|[(-> & -> & ->)|[(-> & -> & ->)|[(-> & -> & ->)|(-> & -> & ->)]]]].
      3:{ right. split; [reflexivity|]. exists 1%nat. split; [split; [discriminate|destruct dbg; vm_compute; reflexivity]|].
          split; [reflexivity|]. split; [reflexivity|]. split; [reflexivity|]. destruct dbg; vm_compute; reflexivity. }
      all: left; apply unk; lia.
    - intros l lo hi Hl SP K R. apply known1 in K. destruct K as [-> ->]. assert (X := run_blk _ _ R 1048575 ltac:(lia)). unfold blk in X. lia.
    - intros l lo hi l' lo' hi' _ _ _ _ K K' O. apply known1 in K, K'. lia.
    - intros lo hi R. assert (X := run_blk _ _ R). destruct R as [LH _]. assert (X0 := X lo ltac:(lia)). unfold blk in X0, X. unfold BIG.
      destruct X0 as [X0|[X0|X0]].
      + destruct (Z.le_gt_cases hi 540672); [lia|]. assert (Y := X 540672 ltac:(lia)). lia.
      + destruct (Z.le_gt_cases hi 1122304); [lia|]. assert (Y := X 1122304 ltac:(lia)). lia.
      + destruct (Z.le_gt_cases hi 2162688); [lia|]. assert (Y := X 2162688 ltac:(lia)). lia.
    - exists (seq 2 8). split; [apply seq_NoDup|]. split; [reflexivity|]. intros n Hn. apply in_seq in Hn. split; [unfold NB; lia|].
      cbn. destruct (Nat.eqb_spec n 1); [lia|reflexivity].
    - intros l l' Hl Hl' (f & R & N) (f' & R' & N').
      destruct Hl as [<-|[<-|[<-|[<-|[<-|[<-|[]]]]]]]; cbn in R; try discriminate; [injection R as <-; lia|];
      destruct Hl' as [<-|[<-|[<-|[<-|[<-|[<-|[]]]]]]]; cbn in R'; try discriminate; [injection R' as <-; lia|reflexivity].
    - intros l lo hi Hl (f & R & N) SP. destruct (sp l lo hi Hl SP) as [(-> & -> & ->)|[(-> & -> & ->)|[(-> & -> & ->)|[(-> & -> & ->)|(-> & -> & ->)]]]]; cbn in R; try discriminate.
      + injection R as <-. lia.
      + unfold ARGC. lia.
  Qed.

  Definition out dbg := scan_proc NB BIG dbg obj ARGC 2162600 0 XEND (e0 dbg) 0 L0.
  Definition stt (d : mst) (r : res (mst * nat)) : mst := match r with Ok (T, _) => T | _ => d end.
  Definition e dbg := stt (e0 dbg) (out dbg).
  Lemma out_eq dbg : out dbg = Ok (e dbg, 4%nat).
  Proof.
    assert (F : match out dbg with Ok (_, n) => Nat.eqb n 4 | _ => false end = true) by (destruct dbg; vm_compute; reflexivity).
    unfold e. destruct (out dbg) as [[T n]| | |]; try discriminate. apply Nat.eqb_eq in F. subst n. reflexivity.
  Qed.
  Lemma he dbg : mreach dbg (e dbg) (list_over BIG XEND L0 M0).
  Proof. apply (m_scan _ _ _ _ _ _ _ (e0 dbg) M0 L0 ARGC 2162600 0 XEND (e dbg) 4); [apply h0|apply ok|apply out_eq]. Qed.
End ScEx.

Import Ex ScEx.
Example scan_exact_ex : mreach true (e0 true) M0 /\ scannable NB BIG XEND ARGC (e0 true) L0 /\ mreach true (e true) (list_over BIG XEND L0 M0) /\
  let M := list_over BIG XEND L0 M0 in
  M 524288 = Some (mkAttr 5 2 (Some 7) 0) /\ M 536576 = Some (mkAttr 3 34 None 0) /\ M 540672 = None /\ M 1048576 = Some (mkAttr 3 34 None 0) /\
  M 1118208 = Some (mkAttr 3 34 None 0) /\ M 2097152 = Some (mkAttr 3 2 (Some (-1)) 0) /\ M (2^64 - 16777216) = None /\
  b_end (bigs (fo (e true)) 1) = 1122304.
Proof. split; [apply h0|]. split; [apply ok|]. split; [apply he|]. vm_compute. repeat split; reflexivity. Qed.
Example scan_stack_ex : out true = Ok (e true, 4%nat) /\
  (exists l, In l L0 /\ stack_line l /\ span BIG XEND l 2097152 2162688) /\
  find_deepest NB (fo (e true)) 2162431 = Ok 5%nat /\ find_deepest NB (fo (e true)) 2162432 = Ok 4%nat /\
  b_alloc (bigs (fo (e true)) 5) = STACK /\ b_alloc (bigs (fo (e true)) 4) = AUXV.
Proof.
  split; [apply out_eq|]. split.
  { exists (nth 4 L0 (mkL 0 0 0 false 0 REmpty)). split; [cbn; tauto|]. split; [exists (-1); split; [reflexivity|lia]|]. unfold span, BIG. cbn. lia. }
  split; [vm_compute; reflexivity|]. split; [vm_compute; reflexivity|]. split; vm_compute; reflexivity.
Qed.

Print Assumptions scan_exact_partial.
Print Assumptions scan_stack_lookup_partial.
