(* Stack allocation (C31): the theorems. *)
From Verif Require Import Base Big_model Big_field Insert_model Insert_proof Heap_model Heap_proof Heap_calls
  Alloca_model Alloca_spec Alloca_proof Alloca_cover Alloca_calls Alloca_steps Alloca_leave.

Lemma small_or c : small c \/ largeb c = true.
Proof. unfold small, largeb. destruct (Z.ltb_spec 131072 (k_hi c - k_ptr c)); [right; reflexivity|left; assumption]. Qed.

Section P.
Variables bot top : Z.
Hypothesis Har : area bot top.
Variable dbg : bool.
Notation areach := (areach bot top dbg).
Notation AInv := (AInv bot top dbg).

Lemma alloca_step s g G lo req site : AInv s (g :: G) -> can_alloca bot g lo req ->
  (dbg = true -> small (block lo req site)) ->
  exists s', do_alloca dbg s lo req site (g_ctr g) (g_bp g) = Ok (s', user_of lo) /\ AInv s' (grown g lo req site :: G).
Proof.
  intros [V D] A Sm. destruct (alloca_core bot top Har dbg s g G lo req site V A) as (s' & V' & ->). exists s'.
  set (c := block lo req site) in *. change (user_of lo) with (k_ptr c).
  assert (Ic : In c (g_chunks (grown g lo req site))) by (left; reflexivity).
  destruct (block_ok bot top Har g G lo req site (v_chain _ _ _ _ V) A) as ((C1&C2&C3&C4&C5&C6) & B2 & _). fold c in C1, C2, C3, C4, C5, C6.
  rewrite asrt_true_or by (intro B; specialize (Sm B); unfold small, LIMIT in *; apply Z.leb_le; lia). cbn [bind].
  split.
  - destruct dbg eqn:Ed; [|reflexivity].
    rewrite (query_chunk bot top Har true s' (grown g lo req site :: G) (grown g lo req site) c).
    + cbn [bind]. rewrite asrt_true by apply Z.eqb_refl. reflexivity.
    + exact V'.
    + left; reflexivity.
    + exact Ic.
    + exact (Sm eq_refl).
    + lia.
    + intros _ _. destruct (v_words _ _ _ _ V' _ (or_introl eq_refl)) as [_ Wd]. destruct (Wd c Ic) as [-> _]. specialize (Sm eq_refl). unfold small, LIMIT in *. lia.
  - split; [exact V'|]. intros B d e [<-|I] J; [destruct J as [<-|J]; [exact (Sm B)|]|]; [apply (D B g e); [left; reflexivity|exact J]|apply (D B d e); [right; exact I|exact J]].
Qed.
Lemma alloca_big_aborts s g G lo req site : AInv s (g :: G) -> can_alloca bot g lo req -> dbg = true -> largeb (block lo req site) = true ->
  do_alloca dbg s lo req site (g_ctr g) (g_bp g) = Abort.
Proof.
  intros [V D] A B L. destruct (alloca_core bot top Har dbg s g G lo req site V A) as (s' & V' & ->). set (c := block lo req site) in *. change (user_of lo) with (k_ptr c).
  assert (Ic : In c (g_chunks (grown g lo req site))) by (left; reflexivity).
  destruct (block_ok bot top Har g G lo req site (v_chain _ _ _ _ V) A) as ((C1&C2&C3&C4&C5&C6) & _). fold c in C1, C2, C3, C4, C5, C6.
  unfold asrt at 1. destruct (dbg && _); [reflexivity|]. cbn [bind]. rewrite (query_large bot top dbg s' _ (grown g lo req site) c _ V' (or_introl eq_refl) Ic L) by lia.
  rewrite B. reflexivity.
Qed.

Lemma reach_inv s G : areach s G -> AInv s G.
Proof.
  induction 1 as [m|s G ctr bp _ [V D] (E1 & E2 & E3 & E4 & E5)|s g G lo req site s' p _ IH A E|s G x v _ [V D] [P1 P2]|s g G sp s' r _ IH L E].
  - split; [|intros _ g c []]. constructor; cbn; [exact Logic.I|intros g []|constructor].
  - assert (Vc := v_chain _ _ _ _ V). split.
    + constructor.
      * cbn. repeat split; try assumption; lia.
      * cbn [enter s_mem]. intros g [<-|I].
        -- split; cbn [g_ctr g_chunks sum]; [unfold wr; rewrite Z.eqb_refl; reflexivity|intros c []].
        -- apply (words_same bot top (s_mem s) _ G g Vc I); [|exact (v_words _ _ _ _ V g I)]. intros x Hx. unfold wr. destruct (Z.eqb_spec x ctr); [lia|reflexivity].
      * apply mt_none; [reflexivity|apply V].
    + intros B g c [<-|I] J; [destruct J|exact (D B g c I J)].
  - destruct (small_or (block lo req site)) as [Sm|Lg].
    + destruct (alloca_step s g G lo req site IH A (fun _ => Sm)) as (s2 & E2 & R). rewrite E2 in E. injection E as <- <-. exact R.
    + destruct (bool_dec dbg true) as [B|B].
      * rewrite (alloca_big_aborts s g G lo req site IH A B Lg) in E. discriminate.
      * destruct (alloca_step s g G lo req site IH A) as (s2 & E2 & R); [congruence|]. rewrite E2 in E. injection E as <- <-. exact R.
  - split; [|exact D]. constructor; [apply V| |apply V]. intros g I. destruct (v_words _ _ _ _ V g I) as [W1 W2]. destruct (P2 g I) as [P3 P4].
    cbn [poke s_mem]. split.
    + unfold wr. destruct (Z.eqb_spec (g_ctr g) x); [congruence|exact W1].
    + intros c J. destruct (P4 c J) as [P5 P6]. unfold wr. destruct (Z.eqb_spec (k_ptr c - 8) x); [congruence|]. destruct (Z.eqb_spec (k_hi c - 8) x); [congruence|exact (W2 c J)].
  - destruct (leave_ok bot top Har dbg s g G sp IH L) as (s2 & E2 & R & _). rewrite E2 in E. injection E as <- _. exact R.
Qed.
End P.

(* Every chunk: its pointer is 16-byte aligned; the size word before it, the bytes asked for, and
   the metadata word after them lie in the block, in that order. *)
Theorem alloca_fits : forall bot top dbg s G g c, area bot top -> areach bot top dbg s G -> In g G -> In c (g_chunks g) ->
  k_ptr c mod 16 = 0 /\ k_lo c <= k_ptr c - 8 /\ k_ptr c + k_req c <= k_hi c - 8 /\ (k_hi c - 8) mod 8 = 0.
Proof.
  intros bot top dbg s G g c Har R I J. destruct (reach_inv bot top Har dbg s G R) as [V _].
  destruct (chain_in _ _ _ g (v_chain _ _ _ _ V) I) as (K1 & K2 & K3 & K4 & K5 & K6 & K7).
  destruct (stacked_in _ _ _ _ K7 J) as (J1 & J2 & (C1&C2&C3&C4&C5&C6)). repeat split; try assumption; lia.
Qed.

(* ... and the size and metadata words still hold what was put there, whatever the program has
   done since with the rest of its memory. *)
Theorem alloca_metadata_kept : forall bot top dbg s G g c, area bot top -> areach bot top dbg s G -> In g G -> In c (g_chunks g) ->
  s_mem s (k_ptr c - 8) = k_hi c - k_ptr c /\
  (0 <= k_site c < 2 ^ 47 -> i_site (s_mem s (k_hi c - 8)) = k_site c /\ is_with_type (s_mem s (k_hi c - 8)) = false).
Proof.
  intros bot top dbg s G g c Har R I J. destruct (reach_inv bot top Har dbg s G R) as [V _]. destruct (v_words _ _ _ _ V g I) as [_ W].
  destruct (W c J) as [W1 W2]. split; [exact W1|]. intro H. rewrite W2. split; [apply store_site_site, H|apply store_site_kind].
Qed.

(* Calls made by legal programs succeed.  With assertions on, only for blocks of up to 128KiB:
   see alloca_large_refuted.  alloca(0) is excluded: see alloca_zero_refuted. *)
Theorem alloca_calls_succeed_partial : forall bot top dbg s g G, area bot top -> areach bot top dbg s (g :: G) ->
  (forall lo req site, can_alloca bot g lo req -> (dbg = true -> alloca_size req <= 131072) ->
     exists s' p, do_alloca dbg s lo req site (g_ctr g) (g_bp g) = Ok (s', p) /\ lo < p < lo + alloca_size req) /\
  (forall sp, can_leave bot g sp -> exists s' r, leave dbg s (g_ctr g) sp = Ok (s', r)).
Proof.
  intros bot top dbg s g G Har R. assert (V := reach_inv bot top Har dbg s _ R). split.
  - intros lo req site A Sz. assert (B := block_ok bot top Har g G lo req site (v_chain _ _ _ _ (proj1 V)) A).
    destruct B as (_ & _ & B3 & B4 & B5 & B6 & B7 & B8 & B9 & _).
    destruct (alloca_step bot top Har dbg s g G lo req site V A) as (s' & E & _).
    { intro D. specialize (Sz D). unfold small. cbn [block k_hi k_ptr]. lia. }
    exists s', (user_of lo). split; [exact E|]. lia.
  - intros sp L. destruct (leave_ok bot top Har dbg s g G sp V L) as (s' & E & _). eauto.
Qed.

(* Any address in a chunk of up to 128KiB in any live frame is found: the query answers its start
   and its metadata.  The size is the block's usable size less 16: see alloca_size_short_refuted.
   With assertions on, the word before the queried address matters: see alloca_interior_refuted. *)
Theorem alloca_found_partial : forall bot top dbg s G g c x, area bot top -> areach bot top dbg s G -> In g G -> In c (g_chunks g) -> small c ->
  k_ptr c <= x < k_hi c -> (dbg = true -> x mod 8 = 0 -> s_mem s (x - 8) <= 33554431) ->
  query dbg s x = Ok (Chunk (k_ptr c) (k_hi c - k_ptr c - 16) (k_hi c - 8)).
Proof.
  intros bot top dbg s G g c x Har R I J Sm Hx Hd. destruct (reach_inv bot top Har dbg s G R) as [V _].
  exact (query_chunk bot top Har dbg s G g c x V I J Sm Hx Hd).
Qed.

(* No query ever answers a chunk that is not in a live frame. *)
Theorem alloca_only_live : forall bot top dbg s G x o sz meta, area bot top -> areach bot top dbg s G ->
  query dbg s x = Ok (Chunk o sz meta) -> exists g c, In g G /\ In c (g_chunks g) /\ o = k_ptr c.
Proof.
  intros bot top dbg s G x o sz meta Har R E. destruct (reach_inv bot top Har dbg s G R) as [V _]. exact (query_sound bot top Har dbg s G x o sz meta V E).
Qed.

(* Leaving a frame visits exactly its chunks, lowest first, without the warning; it changes no
   memory; afterwards its addresses belong to no frame, and queries above it are unchanged. *)
Theorem alloca_leave_exact : forall bot top dbg s g G sp s' r, area bot top -> areach bot top dbg s (g :: G) -> can_leave bot g sp ->
  leave dbg s (g_ctr g) sp = Ok (s', r) ->
  r = (map k_ptr (g_chunks g), false) /\ s_mem s' = s_mem s /\
  (forall x, x < g_bp g -> query dbg s' x = Ok NoFrame) /\
  (forall x, g_bp g <= x -> query dbg s' x = query dbg s x).
Proof.
  intros bot top dbg s g G sp s' r Har R L E. assert (V := reach_inv bot top Har dbg s _ R).
  destruct (leave_ok bot top Har dbg s g G sp V L) as (s2 & E2 & [V2 _] & M & Q). rewrite E2 in E. injection E as <- <-.
  split; [reflexivity|]. split; [exact M|]. split; [|exact Q]. intros x Hx. unfold query. rewrite pick_none; [reflexivity|]. intros q I.
  assert (Z1 := mt_above _ _ _ _ (v_mt _ _ _ _ V2) (v_chain _ _ _ _ V2) q I). destruct (v_chain _ _ _ _ (proj1 V)) as (C1 & _). lia.
Qed.

(* ---- a concrete program: two frames; the inner one leaves ---- *)
Module Ex.
Definition bot := 140000000. Definition top := 150000000.
Definition F1 := mkF 149999000 149999008 149999000 [].
Definition s1 := enter (mkS [] (fun _ => 77)) 149999000.
Definition get {A} (d : A) (r : res A) : A := match r with Ok a => a | _ => d end.
Definition ok {A} (r : res A) : bool := match r with Ok _ => true | _ => false end.
Definition r2 := do_alloca false s1 149998000 100 4242 149999000 149999008.
Definition s2 := fst (get (s1, 0) r2). Definition p2 := snd (get (s1, 0) r2).
Definition r3 := do_alloca false s2 149996888 1000 4343 149999000 149999008.
Definition s3 := fst (get (s1, 0) r3). Definition p3 := snd (get (s1, 0) r3).
Definition s4 := poke s3 (p3 + 8) 99.
Definition s5 := enter s4 149990000.
Definition r6 := do_alloca false s5 149980008 24 4444 149990000 149990024.
Definition s6 := fst (get (s1, 0) r6). Definition p6 := snd (get (s1, 0) r6).
Definition K2 := mkK 149998000 (149998000 + alloca_size 100) p2 100 4242.
Definition K3 := mkK 149996888 (149996888 + alloca_size 1000) p3 1000 4343.
Definition K6 := mkK 149980008 (149980008 + alloca_size 24) p6 24 4444.
Definition G6 := [mkF 149990000 149990024 149980008 [K6]; mkF 149999000 149999008 149996888 [K3; K2]].
End Ex.
Import Ex.

Lemma ex_area : area bot top. Proof. unfold area, bot, top. lia. Qed.
Lemma ok_get {A} (d : A * Z) (r : res (A * Z)) : ok r = true -> r = Ok (fst (get d r), snd (get d r)).
Proof. destruct r as [[a z]| | |]; try discriminate. reflexivity. Qed.
Lemma ex_reach : areach bot top false s6 G6.
Proof.
  assert (S1 : alloca_size 100 = 128 /\ alloca_size 1000 = 1024 /\ alloca_size 24 = 48) by (vm_compute; auto). destruct S1 as (S1 & S2 & S3).
  assert (R1 : areach bot top false s1 [F1]).
  { apply A_enter; [apply A_init|]. unfold can_enter, bot, top; cbn. lia. }
  assert (R2 := A_alloca bot top false s1 F1 [] 149998000 100 4242 s2 p2 R1).
  assert (R2' := R2 ltac:(unfold can_alloca, bot; rewrite S1; cbn [F1 g_sp]; lia) (ok_get (s1, 0) r2 ltac:(vm_compute; reflexivity))). clear R2.
  cbn [F1 g_ctr g_bp g_chunks] in R2'. fold K2 in R2'.
  assert (R3 := A_alloca bot top false s2 _ [] 149996888 1000 4343 s3 p3 R2').
  cbn [g_ctr g_bp g_chunks] in R3. fold K3 in R3.
  assert (R3' := R3 ltac:(unfold can_alloca, bot; rewrite S2; cbn [g_sp]; lia) (ok_get (s1, 0) r3 ltac:(vm_compute; reflexivity))). clear R3.
  assert (P3 : p3 = 149996896) by (vm_compute; reflexivity). assert (P2 : p2 = 149998016) by (vm_compute; reflexivity).
  assert (R4 : areach bot top false s4 [mkF 149999000 149999008 149996888 [K3; K2]]).
  { apply A_poke; [exact R3'|]. unfold can_poke. rewrite P3. split; [reflexivity|]. intros g [<-|[]]. cbn [g_ctr g_chunks].
    split; [lia|]. intros c [<-|[<-|[]]]; unfold K3, K2; cbn [k_ptr k_hi]; rewrite ?P3, ?P2, ?S1, ?S2; lia. }
  assert (R5 : areach bot top false s5 (mkF 149990000 149990024 149990000 [] :: [mkF 149999000 149999008 149996888 [K3; K2]])).
  { apply A_enter; [exact R4|]. unfold can_enter, bot; cbn [sp_of g_sp]. lia. }
  assert (R6 := A_alloca bot top false s5 _ _ 149980008 24 4444 s6 p6 R5). cbn [g_ctr g_bp g_chunks] in R6. fold K6 in R6.
  apply R6; [unfold can_alloca, bot; rewrite S3; cbn [g_sp]; lia|]. exact (ok_get (s1, 0) r6 ltac:(vm_compute; reflexivity)).
Qed.
(* an address in the middle of the second chunk; and the result of leaving the inner frame *)
Example alloca_ex : query false s6 (p3 + 500) = Ok (Chunk p3 1000 (p3 + 1008)) /\
  exists s', leave false s6 149990000 149970000 = Ok (s', ([p6], false)) /\ query false s' p6 = Ok NoFrame /\
    query false s' (p2 + 99) = Ok (Chunk p2 96 (p2 + 104)).
Proof.
  split; [vm_compute; reflexivity|]. destruct (leave false s6 149990000 149970000) as [[s' r]| | |] eqn:E;
    [|exfalso; assert (B : ok (leave false s6 149990000 149970000) = true) by (vm_compute; reflexivity); rewrite E in B; discriminate..].
  exists s'. pose proof (alloca_leave_exact bot top false s6 _ _ 149970000 s' r ex_area ex_reach ltac:(unfold can_leave, bot; cbn; lia) E) as (-> & M & Q1 & Q2).
  split; [reflexivity|]. split; [apply Q1; vm_compute; reflexivity|]. rewrite Q2 by (vm_compute; discriminate). vm_compute. reflexivity.
Qed.

(* ---- what does not hold ---- *)
(* The reported size can be smaller than what the program asked for: eight bytes, reported as
   none.  (The trailer is subtracted twice: generic_malloc_index.h:626 and alloca.c:71.) *)
Theorem alloca_size_short_refuted : exists bot top s g c sz meta, area bot top /\ areach bot top false s [g] /\ In c (g_chunks g) /\
  query false s (k_ptr c) = Ok (Chunk (k_ptr c) sz meta) /\ k_req c = 8 /\ sz = 0.
Proof.
  set (r := do_alloca false s1 149998000 8 4242 149999000 149999008).
  exists bot, top, (fst (get (s1, 0) r)), (mkF 149999000 149999008 149998000 [mkK 149998000 (149998000 + alloca_size 8) (snd (get (s1, 0) r)) 8 4242]).
  exists (mkK 149998000 (149998000 + alloca_size 8) (snd (get (s1, 0) r)) 8 4242), 0, 149998024. split; [apply ex_area|]. split.
  { apply (A_alloca bot top false s1 F1 []); [apply A_enter; [apply A_init|]; unfold can_enter, bot, top; cbn; lia| |].
    - unfold can_alloca, bot. replace (alloca_size 8) with 32 by (vm_compute; reflexivity). cbn [F1 g_sp]. lia.
    - exact (ok_get (s1, 0) r ltac:(vm_compute; reflexivity)). }
  split; [left; reflexivity|]. split; [vm_compute; reflexivity|]. split; reflexivity.
Qed.

(* A chunk of more than 128KiB cannot be queried; with assertions on, allocating it aborts. *)
Theorem alloca_large_refuted : exists bot top s g lo req, area bot top /\ (forall dbg, areach bot top dbg s [g]) /\ can_alloca bot g lo req /\
  (exists s' p, do_alloca false s lo req 4242 (g_ctr g) (g_bp g) = Ok (s', p) /\ query false s' p = Ok Unindexed) /\
  do_alloca true s lo req 4242 (g_ctr g) (g_bp g) = Abort.
Proof.
  set (r := do_alloca false s1 149000000 200000 4242 149999000 149999008).
  exists bot, top, s1, F1, 149000000, 200000. split; [apply ex_area|]. split.
  { intro dbg. apply A_enter; [apply A_init|]; unfold can_enter, bot, top; cbn; lia. }
  split. { unfold can_alloca, bot. replace (alloca_size 200000) with 200032 by (vm_compute; reflexivity). cbn [F1 g_sp]. lia. }
  split; [|vm_compute; reflexivity]. exists (fst (get (s1, 0) r)), (snd (get (s1, 0) r)). split; [exact (ok_get (s1, 0) r ltac:(vm_compute; reflexivity))|].
  vm_compute. reflexivity.
Qed.

(* alloca(0), which C programs may call, fails an assertion or dereferences a null pointer: the
   index looks up the byte before the chunk, which is outside the frame's record. *)
Theorem alloca_zero_refuted : exists bot top s g lo, area bot top /\ (forall dbg, areach bot top dbg s [g]) /\
  bot <= lo /\ lo mod 8 = 0 /\ lo + alloca_size 0 <= g_sp g /\
  do_alloca false s lo 0 4242 (g_ctr g) (g_bp g) = UB /\ do_alloca true s lo 0 4242 (g_ctr g) (g_bp g) = Abort.
Proof.
  exists bot, top, s1, F1, 149998000. split; [apply ex_area|]. split.
  { intro dbg. apply A_enter; [apply A_init|]; unfold can_enter, bot, top; cbn; lia. }
  split; [unfold bot; lia|]. split; [reflexivity|]. split; [vm_compute; discriminate|]. split; vm_compute; reflexivity.
Qed.

(* With assertions on, a query of an interior address aborts if the program's own preceding word
   is large: the assertion takes it for a size. *)
Theorem alloca_interior_refuted : exists bot top s g c x, area bot top /\ areach bot top true s [g] /\ In c (g_chunks g) /\
  k_ptr c <= x < k_ptr c + k_req c /\ query true s x = Abort.
Proof.
  set (r := do_alloca true s1 149998000 100 4242 149999000 149999008). set (s := fst (get (s1, 0) r)). set (p := snd (get (s1, 0) r)).
  set (c := mkK 149998000 (149998000 + alloca_size 100) p 100 4242).
  assert (Ep : p = 149998016) by (vm_compute; reflexivity). assert (S1 : alloca_size 100 = 128) by (vm_compute; reflexivity).
  exists bot, top, (poke s (p + 8) (2 ^ 40)), (mkF 149999000 149999008 149998000 [c]), c, (p + 16). split; [apply ex_area|]. split.
  { apply A_poke.
    - apply (A_alloca bot top true s1 F1 []); [apply A_enter; [apply A_init|]; unfold can_enter, bot, top; cbn; lia| |].
      + unfold can_alloca, bot. rewrite S1. cbn [F1 g_sp]. lia.
      + exact (ok_get (s1, 0) r ltac:(vm_compute; reflexivity)).
    - unfold can_poke. rewrite Ep. split; [reflexivity|]. intros g [<-|[]]. cbn [g_ctr g_chunks]. split; [lia|]. intros d [<-|[]]. unfold c; cbn [k_ptr k_hi]. rewrite Ep, S1. lia. }
  split; [left; reflexivity|]. split; [unfold c; cbn [k_ptr k_req]; lia|]. vm_compute. reflexivity.
Qed.

(* Near 2^64 the padded size wraps round: the block is smaller than the request. *)
Theorem alloca_wrap_refuted : exists req, 0 <= req < 2 ^ 64 /\ alloca_size req < req.
Proof. exists (2 ^ 64 - 20). vm_compute. split; [split; [discriminate|reflexivity]|reflexivity]. Qed.

Print Assumptions alloca_fits.
Print Assumptions alloca_metadata_kept.
Print Assumptions alloca_calls_succeed_partial.
Print Assumptions alloca_found_partial.
Print Assumptions alloca_only_live.
Print Assumptions alloca_leave_exact.
Print Assumptions alloca_large_refuted.
Print Assumptions alloca_interior_refuted.
