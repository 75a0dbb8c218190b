(* Theorems about walking the stack. *)
From Verif Require Import Base Frame_model Frame_spec Frame_props Unw_model Unw_spec Unw_proof.
From Coq Require Import Sorted.

(* How unw_getcontext finds the innermost frame: it was called from it. *)
Definition called_from (m : mem) (fp : Z) (f : frame) : Prop :=
  0 < fp /\ m fp = Some (r_bp f) /\ m (fp + 8) = Some (r_ip f) /\ r_sp f = fp + 16 /\ r_sp f < TOP.

(* C62: on any stack of frames with frame pointers, however deep, every callback is called for every
   frame, innermost first, with its address, stack pointer and base pointer, until it returns other
   than zero, which the walk returns.  The outermost frame has no base pointer; what is passed for it
   is the same for every callback. *)
Theorem walk_exact : forall dbg m fp f rest, stack_in m (f :: rest) -> rest <> [] -> called_from m fp f ->
  exists b, forall A (cb : A -> Z -> Z -> Z -> A * Z) a fuel, (length (f :: rest) <= fuel)%nat ->
    walk_stack dbg A cb fuel m fp a = Ok (each cb (map (report b) (f :: rest)) a).
Proof.
  intros dbg m fp f rest H Ne (P & M1 & M2 & Sf & Hi). exists (stale (f :: rest) 0). intros A cb a fuel L.
  unfold walk_stack. rewrite (getcontext_exact dbg m fp f rest H Ne P M1 M2 Sf Hi). cbn [bind].
  exact (walk_loop_exact dbg A cb m (f :: rest) fuel 0 a H L).
Qed.

(* C62: whatever is in memory, the frames for which the callback is called are one above the other, the
   first just above unw_getcontext's, and none is more than 64 KB and two words above the one
   before. *)
Theorem walk_ascends : forall dbg m fp k fuel l r, in_user m ->
  walk_stack dbg _ (recording k) fuel m fp [] = Ok (l, r) ->
  (exists ip bp t, l = (ip, fp + 16, bp) :: t) /\
  LocallySorted (fun x y => sp_of x + 16 <= sp_of y < sp_of x + 65552) l.
Proof.
  intros dbg m fp k fuel l r U E. unfold walk_stack in E.
  destruct (getcontext dbg m fp) as [c| | |] eqn:Ec; try discriminate. cbn [bind] in E.
  destruct (getcontext_ok dbg m fp c U Ec) as (P0 & Hb & Es).
  destruct (walk_loop_ascends dbg k m U fuel c 0 [] l r P0 Hb E) as (t & -> & X & So). rewrite Es in X.
  split; [exact X|exact So].
Qed.

(* C62: whatever is in memory and whatever the callback does, the walk ends; so does unwinding. *)
Theorem walk_ends : forall dbg m fp, in_user m ->
  exists n, forall A (cb : A -> Z -> Z -> Z -> A * Z) a fuel, (n <= fuel)%nat -> walk_stack dbg A cb fuel m fp a <> Fuel.
Proof.
  intros dbg m fp U. exists (S (Z.to_nat TOP)). intros A cb a fuel L.
  destruct fuel as [|fuel]; [lia|]. unfold walk_stack.
  destruct (getcontext dbg m fp) as [c| | |] eqn:Ec; cbn [bind]; try discriminate.
  - destruct (getcontext_ok dbg m fp c U Ec) as (P0 & Hb & Es).
    apply (walk_loop_ends dbg A cb m U (Z.to_nat TOP)); [exact P0|exact Hb| |lia].
    rewrite Z2Nat.id by (unfold TOP; lia). unfold TOP in *. lia.
  - unfold getcontext, load in Ec. destruct (dbg && _); [discriminate|]. destruct (m _); [|discriminate].
    cbn [bind] in Ec. destruct (m _); [|discriminate]. cbn [bind] in Ec. destruct (dbg && _); discriminate.
Qed.

(* C62: what the unwinder tells the stack-frame allocator is the stack's frames. *)
Theorem unwind_exact : forall dbg m fp f rest fuel, stack_in m (f :: rest) -> rest <> [] -> called_from m fp f ->
  (length (f :: rest) <= fuel)%nat ->
  exists c, getcontext dbg m fp = Ok c /\
    unwound fuel dbg m c =
      Ok (map (fun f => mkU (r_ip f) (r_sp f) (if r_bp f =? 0 then None else Some (r_bp f))) (f :: rest), StepEnd).
Proof.
  intros dbg m fp f rest fuel H Ne (P & M1 & M2 & Sf & Hi) L. exists (cu f).
  split; [exact (getcontext_exact dbg m fp f rest H Ne P M1 M2 Sf Hi)|].
  exact (unwound_exact dbg m (f :: rest) fuel H L).
Qed.

Lemma stack_up m f g rest : stack_in m (f :: g :: rest) -> r_sp f + 16 <= r_sp g /\ r_sp g < TOP /\ stack_in m (g :: rest).
Proof. cbn [stack_in]. intros (A & _ & _ & _ & E & _ & T & S). repeat split; [lia|exact T|exact S]. Qed.

Section Local.
Variable desc : Z -> option (ftype * Z).
(* every description is of a place inside its frame; the outermost frame, of start-up code, has none *)
Fixpoint within (fs : list frame) : Prop :=
  match fs with
  | [] => True
  | f :: rest =>
      match rest with
      | [] => desc (r_ip f) = None
      | g :: _ => (forall t o, desc (r_ip f) = Some (t, o) ->
                     r_sp f <= r_sp g - o /\ 0 <= t_maxoff t /\ r_sp g - o + t_maxoff t <= r_sp g) /\ within rest
      end
  end.

Definition to_u (f : frame) : uframe := mkU (r_ip f) (r_sp f) (if r_bp f =? 0 then None else Some (r_bp f)).

Lemma extents_above m : forall fs, stack_in m fs -> within fs ->
  match fs with f :: _ => forall e x, In e (extents desc (map to_u fs)) -> inside x e -> r_sp f <= x | [] => True end.
Proof.
  induction fs as [|f rest IH]; intros H W; [exact I|]. intros e x He Hx.
  destruct rest as [|g rest].
  - cbn [within] in W. cbn [map extents to_u u_ip] in He. rewrite W in He. destruct He.
  - destruct W as [W1 W2]. destruct (stack_up _ _ _ _ H) as (U1 & _ & Hg). specialize (IH Hg W2). cbv beta iota in IH.
    change (In e (match desc (r_ip f) with
      | Some (t, o) => [(r_sp g - o, t_maxoff t, r_ip f, t)] | None => [] end ++ extents desc (map to_u (g :: rest)))) in He.
    apply in_app_or in He. destruct He as [He|He].
    + destruct (desc (r_ip f)) as [[t o]|]; [|destruct He]. destruct He as [<-|[]].
      specialize (W1 _ _ eq_refl). cbn [inside] in Hx. lia.
    + specialize (IH _ _ He Hx). lia.
Qed.

Lemma within_ok m : forall fs, stack_in m fs -> within fs ->
  pointers desc (map to_u fs) /\ ascending (extents desc (map to_u fs)).
Proof.
  induction fs as [|f rest IH]; intros H W; [split; exact I|].
  destruct rest as [|g rest].
  - cbn [within] in W. cbn [map pointers extents to_u u_ip]. rewrite W. repeat split.
  - destruct W as [W1 W2]. destruct (stack_up _ _ _ _ H) as (U1 & U2 & Hg). destruct (IH Hg W2) as [P A].
    split.
    + cbn [map]. cbn [map] in P. cbn [pointers]. split; [|exact P]. cbn [to_u u_sp u_bp u_ip].
      split; [lia|]. intros b' t o Eb Ed. specialize (W1 _ _ Ed).
      destruct (Z.eqb_spec (r_bp g) 0) as [E|E]; [discriminate|]. inversion Eb; subst b'.
      destruct rest as [|h rest]; [cbn [stack_in] in Hg; lia|]. cbn [stack_in] in Hg. lia.
    + change (ascending (match desc (r_ip f) with
        | Some (t, o) => [(r_sp g - o, t_maxoff t, r_ip f, t)] | None => [] end ++ extents desc (map to_u (g :: rest)))).
      destruct (desc (r_ip f)) as [[t o]|]; [|exact A]. cbn [app ascending]. specialize (W1 _ _ eq_refl).
      split; [|split; [lia|exact A]]. intros e x He Hx.
      assert (Y := extents_above m (g :: rest) Hg W2 e x He Hx). lia.
Qed.

(* C37 and C62: any address in the described part of any frame of the stack in memory is given that
   frame. *)
Theorem stack_local_found : forall dbg m fp f0 fs pre f g post t o obj main_bp fuel,
  fs = pre ++ f :: g :: post -> stack_in m fs -> called_from m fp f0 -> hd_error fs = Some f0 -> within fs ->
  (length fs <= fuel)%nat ->
  desc (r_ip f) = Some (t, o) -> r_sp g - o <= obj < r_sp g - o + t_maxoff t ->
  exists c l e, getcontext dbg m fp = Ok c /\ unwound fuel dbg m c = Ok (l, e) /\
    stack_info desc main_bp e obj l = Found (r_sp g - o) (t_maxoff t) (r_ip f) t.
Proof.
  intros dbg m fp f0 fs pre f g post t o obj main_bp fuel Efs H C Hd W L Ed Ho.
  assert (X : exists rest, fs = f0 :: rest /\ rest <> []).
  { destruct fs as [|x rest]; [discriminate|]. inversion Hd; subst x. exists rest. split; [reflexivity|].
    intros ->. destruct pre as [|? [|? ?]]; discriminate. }
  destruct X as (rest & E0 & Ne).
  destruct (within_ok m fs H W) as [P A].
  assert (Hg : r_sp g < TOP).
  { clear - Efs H. subst fs. induction pre as [|x pre IH]; cbn [app] in H.
    - exact (proj1 (proj2 (stack_up _ _ _ _ H))).
    - apply IH. destruct pre as [|y pre]; cbn [app] in *; exact (proj2 (proj2 (stack_up _ _ _ _ H))). }
  assert (Wf : t_maxoff t <= o).
  { clear - Efs W Ed. subst fs. induction pre as [|x pre IH]; cbn [app] in W.
    - destruct W as [W _]. specialize (W _ _ Ed). lia.
    - apply IH. destruct pre as [|y pre]; cbn [app] in *; exact (proj2 W). }
  subst fs. rewrite E0 in *. destruct (unwind_exact dbg m fp f0 rest fuel H Ne C L) as (c & Ec & Eu).
  exists c, (map to_u (f0 :: rest)), StepEnd. split; [exact Ec|]. split; [exact Eu|].
  apply frame_complete_partial; [left; reflexivity|exact P|exact A| |exact Ho|lia].
  rewrite <- E0, map_app. cbn [map].
  exact (extents_in desc (map to_u pre) (to_u f) (to_u g) (map to_u post) t o Ed).
Qed.
End Local.

(* ---- a case meeting the hypotheses ---- *)
Module UnEx.
Definition B : Z := 140737000000000.
Definition f1 := mkFr 4198400 (B + 16) (B + 64).
Definition f2 := mkFr 4198900 (B + 80) (B + 40000).
Definition f3 := mkFr 4199000 (B + 40016) (B + 40048).
Definition f4 := mkFr 4195000 (B + 40064) 0.
Definition words : list (Z * Z) :=
  [(B, B + 64); (B + 8, 4198400); (B + 64, B + 40000); (B + 72, 4198900);
   (B + 40000, B + 40048); (B + 40008, 4199000); (B + 40048, 0); (B + 40056, 4195000)].
Definition m : mem := fun a => match find (fun x => fst x =? a) words with Some (_, v) => Some v | None => None end.
Lemma m_ok : stack_in m [f1; f2; f3; f4] /\ called_from m B f1.
Proof. vm_compute. repeat split; congruence. Qed.
Lemma m_user : in_user m.
Proof.
  intros a H. unfold m in H. destruct (find _ words) as [[b v]|] eqn:E; [|congruence].
  destruct (find_some _ _ E) as [I J]. cbn [fst] in J. apply Z.eqb_eq in J. subst b.
  clear - I. unfold words in I. cbn [In] in I. unfold B, TOP in *.
  repeat (destruct I as [I|I]; [inversion I; lia|]). destruct I.
Qed.
(* stopping at the third frame *)
Definition third : list (Z * Z * Z) -> Z := fun l => if (length l =? 3)%nat then 7 else 0.
Definition dsc (ip : Z) : option (ftype * Z) := if ip =? 4198900 then Some (mkFT 32 [mkElem 0 32], 64) else None.
Lemma dsc_ok : within dsc [f1; f2; f3; f4].
Proof.
  cbn [within]. repeat split; try (intros t o H; vm_compute in H; discriminate);
    inversion H; subst; vm_compute; congruence.
Qed.
End UnEx.
Import UnEx.
Example ex_walk_exact : exists b, walk_stack true _ (recording third) 10 m B [] =
  Ok (each (recording third) (map (report b) [f1; f2; f3; f4]) []).
Proof.
  destruct (walk_exact true m B f1 [f2; f3; f4] (proj1 m_ok) ltac:(discriminate) (proj2 m_ok)) as (b & H).
  exists b. apply H. cbn; lia.
Qed.
Example ex_walk_third : walk_stack true _ (recording third) 10 m B [] =
  Ok ([(4198400, B + 16, B + 64); (4198900, B + 80, B + 40000); (4199000, B + 40016, B + 40048)], 7).
Proof. vm_compute. reflexivity. Qed.
Example ex_walk_ascends : (exists ip bp t, [(4198400, B + 16, B + 64); (4198900, B + 80, B + 40000); (4199000, B + 40016, B + 40048)] = (ip, B + 16, bp) :: t) /\
  LocallySorted (fun x y => sp_of x + 16 <= sp_of y < sp_of x + 65552)
    [(4198400, B + 16, B + 64); (4198900, B + 80, B + 40000); (4199000, B + 40016, B + 40048)].
Proof. exact (walk_ascends true m B third 10 _ _ m_user ex_walk_third). Qed.
Example ex_walk_ends : exists n, forall A (cb : A -> Z -> Z -> Z -> A * Z) a fuel, (n <= fuel)%nat -> walk_stack true A cb fuel m B a <> Fuel.
Proof. exact (walk_ends true m B m_user). Qed.
Example ex_unwind : exists c, getcontext true m B = Ok c /\
  unwound 4 true m c = Ok (map to_u [f1; f2; f3; f4], StepEnd).
Proof. exact (unwind_exact true m B f1 [f2; f3; f4] 4 (proj1 m_ok) ltac:(discriminate) (proj2 m_ok) (le_n _)). Qed.
Example ex_stack_local : exists c l e, getcontext true m B = Ok c /\ unwound 4 true m c = Ok (l, e) /\
  stack_info dsc 0 e (B + 39960) l = Found (B + 39952) 32 4198900 (mkFT 32 [mkElem 0 32]).
Proof.
  apply (stack_local_found dsc true m B f1 [f1; f2; f3; f4] [f1] f2 f3 [f4] (mkFT 32 [mkElem 0 32]) 64);
    [reflexivity|exact (proj1 m_ok)|exact (proj2 m_ok)|reflexivity|exact dsc_ok|apply le_n|reflexivity|].
  vm_compute. split; congruence.
Qed.

(* ---- wrong answers ---- *)
(* The outermost frame is passed the base pointer of the frame below it. *)
Theorem walk_outermost_refuted : exists m fp fs f g ip bp l,
  stack_in m fs /\ called_from m fp (hd f fs) /\ (exists pre, fs = pre ++ [g; f]) /\
  walk_stack true _ (recording (fun _ => 0)) 10 m fp [] = Ok (l ++ [(ip, r_sp f, bp)], 0) /\
  ip = r_ip f /\ bp = r_bp g /\ bp < r_sp f.
Proof.
  exists m, B, [f1; f2; f3; f4], f4, f3, 4195000, (B + 40048).
  exists [(4198400, B + 16, B + 64); (4198900, B + 80, B + 40000); (4199000, B + 40016, B + 40048)].
  split; [exact (proj1 m_ok)|]. split; [exact (proj2 m_ok)|]. split; [exists [f1; f2]; reflexivity|].
  vm_compute. repeat split; congruence.
Qed.

(* Above a frame with 64 KB of locals, nothing is walked: its own base pointer is not believed. *)
Module UnBig.
Definition g2 := mkFr 4198900 (B + 80) (B + 80 + 65536).
Definition words : list (Z * Z) :=
  [(B, B + 64); (B + 8, 4198400); (B + 64, B + 80 + 65536); (B + 72, 4198900);
   (B + 80 + 65536, B + 80 + 65536 + 64); (B + 80 + 65536 + 8, 4199000);
   (B + 80 + 65536 + 64, 0); (B + 80 + 65536 + 72, 4195000)].
Definition m : mem := fun a => match find (fun x => fst x =? a) words with Some (_, v) => Some v | None => None end.
End UnBig.
Theorem walk_large_frame_refuted : exists m fp f g h l,
  (* f is called by g, and g, whose base pointer is kept as it should be, by h *)
  called_from m fp f /\ m (r_bp f) = Some (r_bp g) /\ m (r_bp f + 8) = Some (r_ip g) /\ r_sp g = r_bp f + 16 /\
  m (r_bp g) = Some (r_bp h) /\ m (r_bp g + 8) = Some (r_ip h) /\ r_sp h = r_bp g + 16 /\
  walk_stack true _ (recording (fun _ => 0)) 10 m fp [] = Ok (l, 0) /\ (forall x, In x l -> fst (fst x) <> r_ip h).
Proof.
  exists UnBig.m, B, f1, UnBig.g2, (mkFr 4199000 (B + 80 + 65536 + 16) (B + 80 + 65536 + 64)).
  exists [(4198400, B + 16, B + 64); (4198900, B + 80, B + 64)].
  repeat split; try (vm_compute; reflexivity).
  intros x [<-|[<-|[]]]; vm_compute; discriminate.
Qed.

(* Code that uses the base-pointer register for something else: an odd number that happens to be near
   the stack pointer stops a debugging build; *)
Module UnOdd.
Definition words (v : Z) : list (Z * Z) := [(B, v); (B + 8, 4198400)].
Definition m (v : Z) : mem := fun a => match find (fun x => fst x =? a) (words v) with Some (_, v) => Some v | None => None end.
End UnOdd.
Theorem walk_odd_refuted : exists m fp f, m fp = Some (r_bp f) /\ m (fp + 8) = Some (r_ip f) /\ r_sp f = fp + 16 /\
  walk_stack true _ (recording (fun _ => 0)) 10 m fp [] = Abort.
Proof. exists (UnOdd.m (B + 101)), B, (mkFr 4198400 (B + 16) (B + 101)). vm_compute. repeat split. Qed.
(* ... and one that is beyond the end of the stack is read from all the same. *)
Theorem walk_beyond_refuted : exists m fp f hi, m fp = Some (r_bp f) /\ m (fp + 8) = Some (r_ip f) /\ r_sp f = fp + 16 /\
  (forall a, m a <> None -> a < hi) /\ hi <= r_bp f /\
  forall dbg, walk_stack dbg _ (recording (fun _ => 0)) 10 m fp [] = UB.
Proof.
  exists (UnOdd.m (B + 4096)), B, (mkFr 4198400 (B + 16) (B + 4096)), (B + 16).
  split; [vm_compute; reflexivity|]. split; [vm_compute; reflexivity|]. split; [vm_compute; reflexivity|].
  split; [|split; [vm_compute; congruence|intros []; vm_compute; reflexivity]].
  intros a H. unfold UnOdd.m in H. destruct (find _ _) as [[b v]|] eqn:E; [|congruence].
  destruct (find_some _ _ E) as [I J]. cbn [fst] in J. apply Z.eqb_eq in J. subst b.
  clear - I. unfold UnOdd.words in I. cbn [In] in I. destruct I as [I|[I|[]]]; apply (f_equal fst) in I; cbn [fst] in I; lia.
Qed.

Print Assumptions walk_exact.
Print Assumptions walk_ascends.
Print Assumptions walk_ends.
Print Assumptions unwind_exact.
Print Assumptions stack_local_found.
Print Assumptions walk_outermost_refuted.
Print Assumptions walk_large_frame_refuted.
Print Assumptions walk_odd_refuted.
Print Assumptions walk_beyond_refuted.
