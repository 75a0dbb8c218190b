(* C53: the extent of the executable and the holes in it. *)
From Verif Require Import Base Exe_model Exe_spec.

Definition lo_ (p : phdr) : Z := RDOWN (p_vaddr p).
Definition hi_ (p : phdr) : Z := RUP (p_vaddr p + p_memsz p).

Lemma rdown_le x : RDOWN x <= x < RDOWN x + 4096 /\ RDOWN x mod 4096 = 0.
Proof. unfold RDOWN, PAGE. lia. Qed.
Lemma rup_le x : x <= RUP x < x + 4096 /\ RUP x mod 4096 = 0.
Proof. unfold RUP, PAGE. lia. Qed.

Lemma in_seg_iff la p a : la mod 4096 = 0 -> 0 < p_memsz p -> in_seg la p a <-> la + lo_ p <= a < la + hi_ p.
Proof.
  intros LA M. unfold in_seg, lo_, hi_. destruct (rdown_le (p_vaddr p)) as [D1 D2]. destruct (rup_le (p_vaddr p + p_memsz p)) as [U1 U2].
  assert (L1 : la = 4096 * (la / 4096)) by lia. assert (L2 : RDOWN (p_vaddr p) = 4096 * (RDOWN (p_vaddr p) / 4096)) by lia.
  assert (L3 : RUP (p_vaddr p + p_memsz p) = 4096 * (RUP (p_vaddr p + p_memsz p) / 4096)) by lia.
  set (x := la / 4096) in *. set (y := RDOWN (p_vaddr p) / 4096) in *. set (z := RUP (p_vaddr p + p_memsz p) / 4096) in *. clearbody x y z.
  rewrite L2, L3, L1 in *. clear L1 L2 L3 LA D2 U2. split.
  - intros (k & K & b & B & C). split.
    + assert (x + y <= k) by lia. lia.
    + assert (k < x + z) by lia. lia.
  - intro H. exists (a / 4096). assert (A : a / 4096 * 4096 <= a < (a / 4096 + 1) * 4096) by lia. set (k := a / 4096) in *. clearbody k.
    split; [exact A|]. assert (x + y <= k < x + z) by lia.
    exists (Z.max (k * 4096) (4096 * x + p_vaddr p)). lia.
Qed.

Lemma load_addr_ok la at_ l : exe la at_ l -> load_addr at_ l = la.
Proof.
  intros [EP ES EG _ H]. assert (LA : 0 <= la < W64).
  { destruct (loads l) as [|p r] eqn:E; [congruence|]. destruct (EG p) as (A & B & C & D); [left; reflexivity|]. unfold W64. lia. }
  destruct H as [(p & r & -> & T & ->)|[NP ->]].
  - cbn [load_addr]. rewrite T. unfold u64. replace (la + p_vaddr p - p_vaddr p) with la by lia. apply Z.mod_small, LA.
  - clear - NP. revert at_. induction l as [|q l IH]; intro at_; cbn [load_addr]; [reflexivity|].
    assert (Q := NP q (or_introl eq_refl)). destruct (p_type q); try congruence; (apply IH; intros p H; apply NP; right; exact H).
Qed.

(* the walk is over the segments to be loaded *)
Lemma walk_loads la l w : fold_left (seg_step la) l w = fold_left (seg_step la) (loads l) w.
Proof.
  revert w. induction l as [|p l IH]; intro w; [reflexivity|]. cbn [loads filter fold_left]. fold (loads l).
  destruct (p_type p) eqn:T; cbn [fold_left]; rewrite IH; [reflexivity|..]; unfold seg_step at 2; rewrite T; reflexivity.
Qed.

(* the state after the segments F, the last being p *)
Record WI (la : Z) (F : list phdr) (p : phdr) (w : walk) : Prop := {
  wi_in : In p F;
  wi_start : w_start w = la + p_vaddr p;
  wi_end : w_end w = la + hi_ p;
  wi_last : w_last w = hi_ p;
  wi_max : forall q, In q F -> hi_ q <= hi_ p;
  wi_ask : forall a, asked (w_holes w) a <-> (forall q, In q F -> ~ la + lo_ q <= a < la + hi_ q) /\ (exists q, In q F /\ la + lo_ q < a) /\ a < la + hi_ p;
  wi_page : forall b n, In (b, n) (w_holes w) -> 0 < n /\ b mod 4096 = 0 /\ n mod 4096 = 0 /\ b + n <= la + lo_ p;
  wi_once : ForallOrdPairs (fun x y => fst x + snd x <= fst y) (w_holes w) }.

Definition fine (la : Z) (p : phdr) : Prop := p_type p = PT_LOAD /\ 0 <= p_vaddr p /\ 0 < p_memsz p /\ 0 <= la /\ la + p_vaddr p + p_memsz p < 2 ^ 63.

Lemma fop_snoc {A} (P : A -> A -> Prop) l x : ForallOrdPairs P l -> (forall y, In y l -> P y x) -> ForallOrdPairs P (l ++ [x]).
Proof.
  induction 1 as [|y l HF H IH]; intro Q; cbn [app]; [apply FOP_cons; [apply Forall_nil|apply FOP_nil]|].
  apply FOP_cons; [|apply IH; intros z Hz; apply Q; right; exact Hz]. apply Forall_app. split; [exact HF|]. apply Forall_cons; [apply Q; left; reflexivity|apply Forall_nil].
Qed.

Lemma fine_vals la p : la mod 4096 = 0 -> fine la p ->
  up64 (u64 (la + p_vaddr p + p_memsz p)) = la + hi_ p /\ u64 (la + p_vaddr p) = la + p_vaddr p /\ up64 (u64 (p_vaddr p + p_memsz p)) = hi_ p /\
  0 <= lo_ p < hi_ p /\ lo_ p <= p_vaddr p /\ la + hi_ p < 2 ^ 63 + 4096 /\ lo_ p mod 4096 = 0 /\ hi_ p mod 4096 = 0.
Proof.
  intros LA (T & A & B & C & D). destruct (rdown_le (p_vaddr p)) as [D1 D2]. destruct (rup_le (p_vaddr p + p_memsz p)) as [U1 U2].
  unfold lo_, hi_. assert (R : RUP (la + p_vaddr p + p_memsz p) = la + RUP (p_vaddr p + p_memsz p)).
  { clear D1 D2 U1 U2 D. unfold RUP, PAGE. replace (la + p_vaddr p + p_memsz p + (4096 - 1)) with ((p_vaddr p + p_memsz p + (4096 - 1)) + (la / 4096) * 4096) by lia.
    rewrite Z.div_add by lia. lia. }
  set (x := RUP (p_vaddr p + p_memsz p)) in *. set (y := RDOWN (p_vaddr p)) in *. unfold up64, u64.
  rewrite (Z.mod_small (la + p_vaddr p + p_memsz p) W64) by (unfold W64; clear - A B C D; lia).
  rewrite (Z.mod_small (p_vaddr p + p_memsz p) W64) by (unfold W64; clear - A B C D; lia). rewrite R. fold x.
  assert (0 <= y). { unfold y, RDOWN, PAGE. clear - A. lia. }
  clearbody x y. unfold W64. rewrite !Z.mod_small by (clear - A B C D U1; lia). clear R.
  repeat split; try assumption; clear - A B C D U1 D1 H; lia.
Qed.

Lemma step_first la p : la mod 4096 = 0 -> fine la p -> WI la [p] p (seg_step la (mkW 0 0 NONE []) p).
Proof.
  intros LA FN. destruct (fine_vals la p LA FN) as (V1 & V2 & V3 & V4 & V5 & V6 & V7 & V8). destruct FN as (T & A & B & C & D).
  unfold seg_step. rewrite T, V1, V2, V3. cbn [w_end w_start w_last w_holes]. replace (0 <? la + hi_ p) with true by lia.
  rewrite Z.eqb_refl. cbn [negb andb]. constructor; cbn [w_end w_start w_last w_holes]; try reflexivity.
  - left; reflexivity.
  - intros q [<-|[]]. lia.
  - intro a. split; [intros (b & n & [] & _)|]. intros (H1 & (q & [<-|[]] & H2) & H3). exfalso. apply (H1 p (or_introl eq_refl)). lia.
  - intros b n [].
  - apply FOP_nil.
Qed.

Lemma step_next la F q p w : la mod 4096 = 0 -> fine la q -> fine la p -> WI la F q w -> (forall z, In z F -> 0 <= lo_ z < hi_ z) -> hi_ q <= lo_ p ->
  WI la (F ++ [p]) p (seg_step la w p).
Proof.
  intros LA FQ FN [W1 W2 W3 W4 W5 W6 W7 W8] FZ O. destruct (fine_vals la p LA FN) as (V1 & V2 & V3 & V4 & V5 & V6 & V7 & V8).
  destruct (fine_vals la q LA FQ) as (_ & _ & _ & Q4 & Q5 & Q6 & Q7 & Q8). destruct FN as (T & A & B & C & D).
  unfold seg_step. rewrite T, V1, V2, V3, W3, W4. unfold down64. fold (lo_ p). replace (la + hi_ q <? la + hi_ p) with true by (clear - O V4; lia).
  assert (NN : (hi_ q =? NONE) = false) by (unfold NONE, W64; clear - Q6 C; lia). rewrite NN. cbn [negb andb].
  assert (HS : forall hs, (forall a, asked hs a <-> asked (w_holes w) a \/ la + hi_ q <= a < la + lo_ p) ->
     (forall b n, In (b, n) hs -> 0 < n /\ b mod 4096 = 0 /\ n mod 4096 = 0 /\ b + n <= la + lo_ p) ->
     ForallOrdPairs (fun x y => fst x + snd x <= fst y) hs -> WI la (F ++ [p]) p (mkW (la + p_vaddr p) (la + hi_ p) (hi_ p) hs)).
  { intros hs H1 H2 H3. constructor; cbn [w_end w_start w_last w_holes]; try reflexivity; try assumption.
    - apply in_app_iff; right; left; reflexivity.
    - intros z Hz. apply in_app_iff in Hz. destruct Hz as [Hz|[<-|[]]]; [specialize (W5 z Hz); clear - W5 O V4; lia|clear; lia].
    - intro a. rewrite H1, W6. split.
      + intros [(X1 & (z & Hz & X2) & X3)|X].
        * split; [|split].
          -- intros y Hy. apply in_app_iff in Hy. destruct Hy as [Hy|[<-|[]]]; [apply X1, Hy|clear - X3 O; lia].
          -- exists z. split; [apply in_app_iff; auto|exact X2].
          -- clear - X3 O V4. lia.
        * split; [|split].
          -- intros y Hy. apply in_app_iff in Hy. destruct Hy as [Hy|[<-|[]]]; [specialize (W5 y Hy); clear - W5 X; lia|clear - X; lia].
          -- exists q. split; [apply in_app_iff; auto|clear - X Q4; lia].
          -- clear - X V4. lia.
      + intros (X1 & (z & Hz & X2) & X3). assert (NP := X1 p ltac:(apply in_app_iff; right; left; reflexivity)).
        destruct (Z.le_gt_cases (la + hi_ q) a) as [G|G]; [right; clear - G NP X3; lia|left]. split; [|split; [|exact G]].
        * intros y Hy. apply X1, in_app_iff. auto.
        * apply in_app_iff in Hz. destruct Hz as [Hz|[<-|[]]]; [exists z; auto|]. exfalso. clear - X2 G O. lia. }
  destruct (Z.eqb_spec (lo_ p) (hi_ q)) as [E|E]; cbn [negb].
  - apply HS; [| |exact W8].
    + intro a. split; [auto|]. intros [X|X]; [exact X|]. exfalso. clear - X E. lia.
    + intros b n H. destruct (W7 b n H) as (X1 & X2 & X3 & X4). repeat (split; [assumption|]). clear - X4 Q4 O. lia.
  - assert (U1 : u64 (la + hi_ q) = la + hi_ q) by (unfold u64; apply Z.mod_small; unfold W64; clear - C Q4 Q6; lia).
    assert (U2 : u64 (lo_ p - hi_ q) = lo_ p - hi_ q) by (unfold u64; apply Z.mod_small; unfold W64; clear - C O V4 V6 Q4; lia). rewrite U1, U2.
    apply HS.
    + intro a. unfold asked. split.
      * intros (b & n & H & R). apply in_app_iff in H. destruct H as [H|[H|[]]]; [left; exists b, n; auto|]. injection H as <- <-. right. clear - R. lia.
      * intros [(b & n & H & R)|R]; [exists b, n; split; [apply in_app_iff; auto|exact R]|]. exists (la + hi_ q), (lo_ p - hi_ q). split; [apply in_app_iff; right; left; reflexivity|clear - R; lia].
    + intros b n H. apply in_app_iff in H. destruct H as [H|[H|[]]].
      * destruct (W7 b n H) as (X1 & X2 & X3 & X4). repeat (split; [assumption|]). clear - X4 Q4 O. lia.
      * injection H as <- <-. split; [clear - O E; lia|]. split; [clear - LA Q8; lia|]. split; [clear - V7 Q8; lia|clear; lia].
    + apply fop_snoc; [exact W8|]. intros [b n] H. destruct (W7 b n H) as (X1 & X2 & X3 & X4). cbn [fst snd]. clear - X4 Q4. lia.
Qed.

Lemma walk_rest la L : forall F q w, la mod 4096 = 0 -> fine la q -> WI la F q w -> (forall z, In z F -> fine la z) -> (forall p, In p L -> fine la p) ->
  ForallOrdPairs (fun x y => hi_ x <= lo_ y) (q :: L) -> exists p, WI la (F ++ L) p (fold_left (seg_step la) L w) .
Proof.
  induction L as [|p L IH]; intros F q w LA FQ W FF FL OR; cbn [fold_left]; [rewrite app_nil_r; eauto|].
  inversion OR as [|? ? O1 O2]; subst. assert (O1' := O1). rewrite Forall_forall in O1'.
  replace (F ++ p :: L) with ((F ++ [p]) ++ L) by (rewrite <- app_assoc; reflexivity).
  assert (FP : fine la p) by (apply FL; left; reflexivity).
  apply (IH (F ++ [p]) p); [exact LA|exact FP| | |intros z Hz; apply FL; right; exact Hz|exact O2].
  - apply (step_next la F q p w LA FQ FP W); [|apply O1'; left; reflexivity]. intros z Hz. apply (fine_vals la z LA (FF z Hz)).
  - intros z Hz. apply in_app_iff in Hz. destruct Hz as [Hz|[<-|[]]]; [apply FF, Hz|exact FP].
Qed.

(* ---------------------------------------------------------------- C53 *)
(* An executable with nothing to load is refused. *)
Theorem exe_none_refused : forall at_ l, loads l = [] -> exe_walk at_ l = Abort.
Proof. intros at_ l H. unfold exe_walk, seg_walk. rewrite walk_loads, H. reflexivity. Qed.
Print Assumptions exe_none_refused.

Theorem exe_extent_exact : forall la at_ l, exe la at_ l ->
  exists e d hs, exe_walk at_ l = Ok (e, d, hs) /\ walked la l e d hs.
Proof.
  intros la at_ l EX. assert (LA := ex_page _ _ _ EX). unfold exe_walk, seg_walk. rewrite (load_addr_ok la at_ l EX), walk_loads.
  assert (FN : forall p, In p (loads l) -> fine la p).
  { intros p H. destruct (ex_seg _ _ _ EX p H) as (A & B & C & D). split; [|auto]. apply filter_In in H. destruct H as [_ H]. destruct (p_type p); congruence. }
  assert (OR : ForallOrdPairs (fun x y => hi_ x <= lo_ y) (loads l)).
  { assert (O := ex_order _ _ _ EX). induction O as [|x r HF O IH]; [apply FOP_nil|]. apply FOP_cons; [|apply IH; intros p H; apply FN; right; exact H].
    rewrite Forall_forall in *. intros y Hy. destruct (HF y Hy 0) as [_ LT]. assert (NS := fun k => proj1 (HF y Hy k)). clear HF IH O.
    destruct (fine_vals la x LA (FN x (or_introl eq_refl))) as (_ & _ & _ & X4 & X5 & _ & X7 & X8).
    destruct (fine_vals la y LA (FN y (or_intror Hy))) as (_ & _ & _ & Y4 & Y5 & _ & Y7 & Y8).
    destruct (FN x (or_introl eq_refl)) as (_ & PX & MX & _). destruct (FN y (or_intror Hy)) as (_ & PY & MY & _).
    destruct (Z.le_gt_cases (hi_ x) (lo_ y)) as [|G]; [assumption|]. exfalso.
    assert (UX := proj1 (rup_le (p_vaddr x + p_memsz x))). fold (hi_ x) in UX. assert (DY := proj1 (rdown_le (p_vaddr y))). fold (lo_ y) in DY.
    apply (NS (lo_ y / 4096)). exists (Z.max (p_vaddr x) (lo_ y)), (p_vaddr y).
    assert (EY : lo_ y = lo_ y / 4096 * 4096) by (clear - Y7; lia). assert (EX' : hi_ x = hi_ x / 4096 * 4096) by (clear - X8; lia).
    assert (p_vaddr x + p_memsz x > lo_ y). { set (k := lo_ y / 4096) in *. set (j := hi_ x / 4096) in *. clearbody k j. clear - EY EX' G UX. lia. }
    set (k := lo_ y / 4096) in *. clearbody k. clear - EY H LT DY MX MY. lia. }
  destruct (loads l) as [|p L] eqn:EL; [exfalso; exact (ex_some _ _ _ EX EL)|]. cbn [fold_left].
  assert (FP : fine la p) by (apply FN; left; reflexivity).
  destruct (walk_rest la L [p] p _ LA FP (step_first la p LA FP)) as (q & [W1 W2 W3 W4 W5 W6 W7 W8]).
  { intros z [<-|[]]. exact FP. }
  { intros z Hz. apply FN. right. exact Hz. }
  { exact OR. }
  cbn [app] in *. set (w := fold_left (seg_step la) L (seg_step la (mkW 0 0 NONE []) p)) in *.
  destruct (fine_vals la q LA (FN q W1)) as (_ & _ & _ & Q4 & Q5 & _). assert (LP : 0 <= la) by apply FP.
  destruct (Z.eqb_spec (w_end w) 0) as [Z0|_]; [exfalso; lia|]. exists (w_end w), (w_start w), (w_holes w). split; [reflexivity|].
  assert (SG : forall z a, In z (p :: L) -> in_seg la z a <-> la + lo_ z <= a < la + hi_ z).
  { intros z a Hz. apply in_seg_iff; [exact LA|]. apply (FN z Hz). }
  constructor; rewrite ?EL.
  - intros z a Hz H. apply (SG z a Hz) in H. specialize (W5 z Hz). lia.
  - exists q. split; [exact W1|]. split; [apply (SG q _ W1); lia|exact W2].
  - intro a. rewrite W6, W3. split; [intros (X1 & (z & X2 & X3) & X4)|intros (X1 & (z & b & X2 & X3 & X5) & X4)]; (split; [|split; [|exact X4]]).
    + intros y Hy H. apply (SG y a Hy) in H. exact (X1 y Hy H).
    + exists z, (la + lo_ z). split; [exact X2|]. split; [|exact X3]. apply (SG z _ X2). destruct (fine_vals la z LA (FN z X2)) as (_ & _ & _ & Z4 & _). lia.
    + intros y Hy H. apply (X1 y Hy). apply (SG y a Hy), H.
    + exists z. split; [exact X2|]. apply (SG z _ X2) in X3. lia.
  - intros b n H. destruct (W7 b n H) as (A & B & C & _). auto.
  - exact W8.
Qed.

(* A case: three segments, the first holding the headers; the page at 0x2000 is in none, nor
   are those from 0x5000 to 0x7fff. *)
Module XeEx.
  Definition LA : Z := 93824992231424.
  Definition l := [mkP PT_PHDR 64 392; mkP PT_OTHER 456 28; mkP PT_LOAD 0 5000; mkP PT_LOAD 12288 8000; mkP PT_LOAD 36000 9000; mkP PT_OTHER 0 0].
End XeEx.
Import XeEx.
Example exe_none_ex : loads [mkP PT_PHDR 64 100; mkP PT_OTHER 0 5000] = [].
Proof. reflexivity. Qed.
Example exe_ex : exe LA (LA + 64) l /\ exe_walk (LA + 64) l = Ok (LA + 45056, LA + 36000, [(LA + 8192, 4096); (LA + 20480, 12288)]).
Proof.
  split; [|vm_compute; reflexivity]. constructor.
  - reflexivity.
  - discriminate.
  - intros p [<-|[<-|[<-|[]]]]; cbn; unfold LA; lia.
  - cbn [loads filter p_type l]. repeat (apply FOP_cons; [repeat (apply Forall_cons; [cbn [p_vaddr p_memsz]; intro k; split; [intros (a & b & X); lia|lia]|]); apply Forall_nil|]). apply FOP_nil.
  - left. eexists _, _. split; [reflexivity|]. split; reflexivity.
Qed.

(* ---- what is false ---- *)
(* Segments in order that share a page: a "hole" of almost the whole address space is asked
   for, over every mapping there is. *)
Theorem exe_shared_page_refuted : exists la at_ l e d hs b n p a, ForallOrdPairs (fun p q => p_vaddr p + p_memsz p <= p_vaddr q) (loads l) /\
  load_addr at_ l = la /\ exe_walk at_ l = Ok (e, d, hs) /\ In (b, n) hs /\ 2 ^ 63 < n /\ In p (loads l) /\ in_seg la p a /\ b <= a < b + n.
Proof.
  exists LA, (LA + 64), [mkP PT_PHDR 64 392; mkP PT_LOAD 0 5000; mkP PT_LOAD 5120 100; mkP PT_LOAD 12288 8000], (LA + 20480), (LA + 12288), [(LA + 8192, W64 - 4096); (LA + 8192, 4096)].
  exists (LA + 8192), (W64 - 4096), (mkP PT_LOAD 12288 8000), (LA + 12288). split.
  { cbn [loads filter p_type]. repeat (apply FOP_cons; [repeat (apply Forall_cons; [cbn [p_vaddr p_memsz]; lia|]); apply Forall_nil|]). apply FOP_nil. }
  split; [vm_compute; reflexivity|]. split; [vm_compute; reflexivity|]. split; [left; reflexivity|]. split; [unfold W64; lia|]. split; [cbn; auto|].
  split; [|unfold W64, LA; lia]. exists ((LA + 12288) / 4096). change ((LA + 12288) / 4096) with 22906492247. split; [unfold LA; lia|]. exists (LA + 12288). cbn [p_vaddr p_memsz]. unfold LA. lia.
Qed.
(* An executable without a PT_PHDR header, loaded other than at 0: its end is taken for its
   size. *)
Theorem exe_no_phdr_refuted : exists la at_ l e d hs p a, (forall q, In q l -> p_type q <> PT_PHDR) /\ at_ = la + 64 /\ la mod 4096 = 0 /\
  exe_walk at_ l = Ok (e, d, hs) /\ In p (loads l) /\ in_seg la p a /\ e < a.
Proof.
  exists LA, (LA + 64), [mkP PT_LOAD 0 5000; mkP PT_LOAD 12288 8000], 20480, 12288, [(8192, 4096)], (mkP PT_LOAD 0 5000), LA.
  split; [intros q [<-|[<-|[]]]; discriminate|]. split; [reflexivity|]. split; [reflexivity|]. split; [vm_compute; reflexivity|]. split; [cbn; auto|].
  split; [|unfold LA; lia]. exists (LA / 4096). change (LA / 4096) with 22906492244. split; [unfold LA; lia|]. exists LA. cbn [p_vaddr p_memsz]. unfold LA. lia.
Qed.

(* The header that says where the headers are is not the first: it is the address of that
   header, and not of the first, from which the load address is reckoned, and the holes are
   asked for at addresses that are not of pages, which the kernel refuses. *)
Theorem exe_phdr_second_refuted : exists la at_ l e d hs p b n, In p l /\ p_type p = PT_PHDR /\ at_ = la + p_vaddr p /\ la mod 4096 = 0 /\
  ForallOrdPairs (fun p q => p_vaddr p + p_memsz p <= p_vaddr q) (loads l) /\
  exe_walk at_ l = Ok (e, d, hs) /\ In (b, n) hs /\ b mod 4096 <> 0.
Proof.
  exists LA, (LA + 64), [mkP PT_OTHER 456 28; mkP PT_PHDR 64 392; mkP PT_LOAD 0 5000; mkP PT_LOAD 12288 8000], (LA + 20480), (LA + 56 + 12288), [(LA + 56 + 8192, 4096)].
  exists (mkP PT_PHDR 64 392), (LA + 56 + 8192), 4096. split; [cbn; auto|]. split; [reflexivity|]. split; [reflexivity|]. split; [reflexivity|]. split.
  { cbn [loads filter p_type]. repeat (apply FOP_cons; [repeat (apply Forall_cons; [cbn [p_vaddr p_memsz]; lia|]); apply Forall_nil|]). apply FOP_nil. }
  split; [vm_compute; reflexivity|]. split; [left; reflexivity|]. vm_compute. discriminate.
Qed.

Print Assumptions exe_extent_exact.
Print Assumptions exe_phdr_second_refuted.
Print Assumptions exe_shared_page_refuted.
Print Assumptions exe_no_phdr_refuted.
