(* Proofs about the unwinder and the walk. *)
From Verif Require Import Base Frame_model Unw_model Unw_spec.
From Coq Require Import Sorted.

Definition cu (f : frame) : cursor := mkCu (r_sp f) (r_bp f) (r_ip f).

Lemma to_int_small x : 0 <= x < 2 ^ 31 -> to_int x = x.
Proof. intro H. unfold to_int, W32. rewrite Z.mod_small by lia. destruct (Z.ltb_spec x (2 ^ 31)); lia. Qed.

Lemma sane_in bp sp : sp <= bp < sp + 65536 -> sane bp sp = bp.
Proof.
  intro H. unfold sane. rewrite (proj2 (Z.leb_le _ _)) by lia. rewrite (proj2 (Z.ltb_lt _ _)) by lia. reflexivity.
Qed.
Lemma sane_cases bp sp : sane bp sp = 0 \/ (sane bp sp = bp /\ sp <= bp < sp + 65536).
Proof.
  unfold sane. destruct (Z.leb_spec sp bp) as [L|L]; cbn [andb]; [|left; reflexivity].
  destruct (Z.ltb_spec (bp - sp) 65536) as [K|K]; [right; lia|left; reflexivity].
Qed.
Lemma sane_stack m g rest : stack_in m (g :: rest) -> sane (r_bp g) (r_sp g) = r_bp g.
Proof.
  cbn [stack_in]. destruct rest as [|h rest].
  - intros ->. unfold sane. destruct (_ && _); reflexivity.
  - intros (H & _). apply sane_in. exact H.
Qed.

Lemma step_stack dbg m f g rest : stack_in m (f :: g :: rest) ->
  step dbg m (cu f) = Ok (r_bp f + 16 - r_sp f, cu g) /\ 0 < r_bp f + 16 - r_sp f /\ r_sp g <> TOP /\ r_bp f <> 0.
Proof.
  intro H. assert (Hg : stack_in m (g :: rest)) by (cbn [stack_in] in H; tauto).
  change (stack_in m (f :: g :: rest)) with
    (r_sp f <= r_bp f < r_sp f + 65536 /\ r_bp f mod 8 = 0 /\
     m (r_bp f) = Some (r_bp g) /\ m (r_bp f + 8) = Some (r_ip g) /\ r_sp g = r_bp f + 16 /\
     268435456 <= r_sp f /\ r_sp g < TOP /\ stack_in m (g :: rest)) in H.
  destruct H as (R & Al & M1 & M2 & Sg & Lo & Hi & _).
  assert (T : TOP < W64) by (unfold TOP, W64; lia).
  split; [|repeat split; lia].
  unfold step, cu. cbn [c_bp c_sp c_ip].
  destruct (Z.eqb_spec (r_bp f) 0) as [E|_]; [lia|].
  rewrite Al. cbn [negb Z.eqb]. rewrite Bool.andb_false_r.
  rewrite (Z.mod_small (r_bp f + 8)) by lia. unfold load. rewrite M2. cbn [bind].
  rewrite (Z.mod_small (r_bp f + 16)) by lia. rewrite M1. cbn [bind c_sp].
  rewrite Z.ltb_irrefl. cbn [orb].
  rewrite (Z.mod_small (r_bp f + 16 - 268435456)) by lia.
  rewrite (proj2 (Z.leb_gt _ _)) by lia.
  rewrite to_int_small by lia. rewrite <- Sg. rewrite (sane_stack _ _ _ Hg). reflexivity.
Qed.
Lemma step_last dbg m f : r_bp f = 0 -> step dbg m (cu f) = Ok (0, cu f).
Proof. intro E. unfold step, cu. cbn [c_bp]. rewrite E. reflexivity. Qed.

(* the base pointer of the last frame that has one *)
Fixpoint stale (fs : list frame) (b : Z) : Z :=
  match fs with [] => b | f :: rest => stale rest (if r_bp f =? 0 then b else r_bp f) end.

Lemma walk_loop_exact dbg A cb m : forall fs fuel b a, stack_in m fs -> (length fs <= fuel)%nat ->
  match fs with f :: _ => walk_loop dbg A cb fuel m (cu f) b a = Ok (each cb (map (report (stale fs b)) fs) a) | [] => True end.
Proof.
  induction fs as [|f rest IH]; intros fuel b a H L; [exact I|].
  destruct fuel as [|fuel]; [cbn in L; lia|].
  cbn [walk_loop map each]. unfold report at 1. cbv zeta.
  change (get_bp (cu f) b) with (if r_bp f =? 0 then b else r_bp f).
  change (c_ip (cu f)) with (r_ip f). change (c_sp (cu f)) with (r_sp f).
  destruct rest as [|g rest].
  - cbn [stack_in] in H. cbn [stale]. rewrite H. cbn [Z.eqb].
    destruct (cb a (r_ip f) (r_sp f) b) as [a' r].
    destruct (Z.eqb_spec r 0) as [->|Hr]; cbn [negb]; [|reflexivity].
    rewrite (step_last dbg m f H). cbn [bind]. reflexivity.
  - destruct (step_stack dbg m _ _ _ H) as (Es & Ps & Nt & Nz).
    assert (Hg : stack_in m (g :: rest)) by (cbn [stack_in] in H; tauto).
    rewrite (proj2 (Z.eqb_neq _ _) Nz).
    destruct (cb a (r_ip f) (r_sp f) (r_bp f)) as [a' r].
    destruct (Z.eqb_spec r 0) as [->|Hr]; cbn [negb]; [|reflexivity].
    rewrite Es. cbn [bind].
    rewrite (proj2 (Z.ltb_lt _ _) Ps). change (c_sp (cu g)) with (r_sp g). rewrite (proj2 (Z.eqb_neq _ _) Nt).
    cbn [length] in L.
    specialize (IH fuel (r_bp f) a' Hg ltac:(cbn [length]; lia)). cbv beta iota in IH. rewrite IH.
    change (stale (f :: g :: rest) b) with (stale (g :: rest) (if r_bp f =? 0 then b else r_bp f)).
    rewrite (proj2 (Z.eqb_neq _ _) Nz). reflexivity.
Qed.

Lemma getcontext_exact dbg m fp f rest : stack_in m (f :: rest) -> rest <> [] -> 0 < fp ->
  m fp = Some (r_bp f) -> m (fp + 8) = Some (r_ip f) -> r_sp f = fp + 16 -> r_sp f < TOP ->
  getcontext dbg m fp = Ok (cu f).
Proof.
  intros H Ne Hp M1 M2 Sf Hi. assert (T : TOP < W64) by (unfold TOP, W64; lia).
  unfold getcontext. rewrite (proj2 (Z.eqb_neq fp 0)) by lia. rewrite Bool.andb_false_r.
  rewrite (Z.mod_small (fp + 8)) by lia. unfold load. rewrite M2. cbn [bind]. rewrite M1. cbn [bind].
  assert (r_bp f <> 0).
  { destruct rest as [|g rest]; [congruence|]. exact (proj2 (proj2 (proj2 (step_stack dbg m _ _ _ H)))). }
  rewrite (proj2 (Z.eqb_neq (r_bp f) 0)) by assumption. rewrite Bool.andb_false_r.
  rewrite (Z.mod_small (fp + 16)) by lia. rewrite <- Sf, (sane_stack _ _ _ H). reflexivity.
Qed.

Lemma unwound_exact dbg m : forall fs fuel, stack_in m fs -> (length fs <= fuel)%nat ->
  match fs with
  | f :: _ => unwound fuel dbg m (cu f) =
      Ok (map (fun f => mkU (r_ip f) (r_sp f) (if r_bp f =? 0 then None else Some (r_bp f))) fs, StepEnd)
  | [] => True end.
Proof.
  induction fs as [|f rest IH]; intros fuel H L; [exact I|].
  destruct fuel as [|fuel]; [cbn in L; lia|]. cbn [unwound].
  destruct rest as [|g rest].
  - cbn [stack_in] in H. rewrite (step_last dbg m f H). reflexivity.
  - destruct (step_stack dbg m _ _ _ H) as (Es & Ps & Nt & Nz).
    assert (Hg : stack_in m (g :: rest)) by (cbn [stack_in] in H; tauto).
    rewrite Es. cbn [bind]. rewrite (proj2 (Z.ltb_lt _ _) Ps).
    cbn [length] in L.
    specialize (IH fuel Hg ltac:(cbn [length]; lia)). cbv beta iota in IH. rewrite IH. reflexivity.
Qed.

(* ---- any memory at all ---- *)
Definition in_user (m : mem) : Prop := forall a, m a <> None -> 0 <= a < TOP.

Lemma step_up dbg m c s c' : in_user m -> 0 <= c_sp c ->
  (c_bp c = 0 \/ c_sp c <= c_bp c < c_sp c + 65536) -> step dbg m c = Ok (s, c') -> 0 < s ->
  c_sp c + 16 <= c_sp c' < c_sp c + 65552 /\ c_sp c' < TOP + 16 /\
  (c_bp c' = 0 \/ c_sp c' <= c_bp c' < c_sp c' + 65536).
Proof.
  intros U P0 Hb E Ps. unfold step in E.
  destruct (Z.eqb_spec (c_bp c) 0) as [E0|E0]; [inversion E; lia|].
  destruct Hb as [Hb|Hb]; [contradiction|].
  destruct (dbg && _); [discriminate|]. unfold load in E.
  destruct (m ((c_bp c + 8) mod W64)) as [ra|]; [|discriminate]. cbn [bind] in E.
  destruct (m (c_bp c)) as [cand|] eqn:Em; [|discriminate]. cbn [bind c_sp] in E.
  assert (Hm := U (c_bp c) ltac:(congruence)).
  assert (T : TOP + 16 < W64) by (unfold TOP, W64; lia).
  rewrite (Z.mod_small (c_bp c + 16)) in E by lia.
  destruct (_ || _); inversion E; subst; [lia|]. cbn [c_sp c_bp].
  split; [lia|]. split; [lia|]. destruct (sane_cases cand (c_bp c + 16)) as [->|[-> X]]; [left; reflexivity|right; exact X].
Qed.

(* a callback that keeps all that it was told *)
Definition recording (k : list (Z * Z * Z) -> Z) : list (Z * Z * Z) -> Z -> Z -> Z -> list (Z * Z * Z) * Z :=
  fun l ip sp bp => let l' := l ++ [(ip, sp, bp)] in (l', k l').
Definition sp_of (x : Z * Z * Z) : Z := snd (fst x).

Lemma walk_loop_ascends dbg k m : in_user m -> forall fuel c b l l' r,
  0 <= c_sp c -> (c_bp c = 0 \/ c_sp c <= c_bp c < c_sp c + 65536) ->
  walk_loop dbg _ (recording k) fuel m c b l = Ok (l', r) ->
  exists t, l' = l ++ t /\ (exists ip bp t', t = (ip, c_sp c, bp) :: t') /\
    LocallySorted (fun x y => sp_of x + 16 <= sp_of y < sp_of x + 65552) t.
Proof.
  intro U. induction fuel as [|fuel IH]; intros c b l l' r P0 Hb E; [discriminate|].
  cbn [walk_loop] in E. unfold recording at 1 in E.
  destruct (negb _).
  - inversion E; subst. eexists. split; [reflexivity|]. split; [eexists _, _, _; reflexivity|constructor].
  - destruct (step dbg m c) as [[s c']| | |] eqn:Es; try discriminate. cbn [bind] in E.
    destruct (Z.ltb_spec 0 s) as [Ps|Ps].
    + destruct (step_up dbg m c s c' U P0 Hb Es Ps) as (R & Hi & Hb').
      destruct (Z.eqb_spec (c_sp c') TOP).
      * inversion E; subst. eexists. split; [reflexivity|]. split; [eexists _, _, _; reflexivity|constructor].
      * assert (P0' : 0 <= c_sp c') by lia.
        destruct (IH _ _ _ _ _ P0' Hb' E) as (t & -> & (ip & bp & t' & ->) & So).
        rewrite <- app_assoc. eexists. split; [reflexivity|].
        split; [eexists _, _, _; reflexivity|]. cbn [app]. constructor; [exact So|]. unfold sp_of; cbn. lia.
    + destruct (s =? 0); inversion E; subst; (eexists; split; [reflexivity|]; split; [eexists _, _, _; reflexivity|constructor]).
Qed.

Lemma walk_loop_ends dbg A cb m : in_user m -> forall n c b a,
  0 <= c_sp c -> (c_bp c = 0 \/ c_sp c <= c_bp c < c_sp c + 65536) -> TOP + 16 - c_sp c < 16 * Z.of_nat n ->
  forall fuel, (n <= fuel)%nat -> walk_loop dbg A cb (S fuel) m c b a <> Fuel.
Proof.
  intro U. induction n as [|n IH]; intros c b a P0 Hb Hn fuel Lf E.
  - cbn [walk_loop] in E. destruct (cb a _ _ _) as [a' r]. destruct (negb _); [discriminate|].
    destruct (step dbg m c) as [[s c']| | |] eqn:Es; try discriminate; cbn [bind] in E.
    + destruct (Z.ltb_spec 0 s) as [Ps|Ps].
      * destruct (step_up dbg m c s c' U P0 Hb Es Ps) as (R & Hi & Hb'). lia.
      * destruct (s =? 0); discriminate.
    + clear - Es. unfold step in Es. destruct (_ =? 0); [discriminate|]. destruct (_ && _); [discriminate|].
      unfold load in Es. destruct (m _); [|discriminate]. cbn [bind] in Es. destruct (m _); [|discriminate].
      cbn [bind] in Es. destruct (_ || _); discriminate.
  - destruct fuel as [|fuel]; [lia|].
    change (walk_loop dbg A cb (S (S fuel)) m c b a) with
      (let bp' := get_bp c b in
      let '(a', r) := cb a (c_ip c) (c_sp c) bp' in
      if negb (r =? 0) then Ok (a', r)
      else
        do '(s, c') <- step dbg m c ;
        if 0 <? s then
          if c_sp c' =? TOP then Ok (a', r) else walk_loop dbg A cb (S fuel) m c' bp' a'
        else if s =? 0 then Ok (a', r)
        else Ok (a', -1)) in E.
    cbv zeta in E. destruct (cb a _ _ _) as [a' r]. destruct (negb _); [discriminate|].
    destruct (step dbg m c) as [[s c']| | |] eqn:Es; try discriminate; cbn [bind] in E.
    + destruct (Z.ltb_spec 0 s) as [Ps|Ps].
      * destruct (step_up dbg m c s c' U P0 Hb Es Ps) as (R & Hi & Hb').
        destruct (_ =? TOP); [discriminate|].
        revert E. apply (IH c'); [lia|exact Hb'|lia|lia].
      * destruct (s =? 0); discriminate.
    + clear - Es. unfold step in Es. destruct (_ =? 0); [discriminate|]. destruct (_ && _); [discriminate|].
      unfold load in Es. destruct (m _); [|discriminate]. cbn [bind] in Es. destruct (m _); [|discriminate].
      cbn [bind] in Es. destruct (_ || _); discriminate.
Qed.

Lemma getcontext_ok dbg m fp c : in_user m -> getcontext dbg m fp = Ok c ->
  0 <= c_sp c /\ (c_bp c = 0 \/ c_sp c <= c_bp c < c_sp c + 65536) /\ c_sp c = fp + 16.
Proof.
  intros U E. unfold getcontext in E. destruct (dbg && _); [discriminate|]. unfold load in E.
  destruct (m ((fp + 8) mod W64)); [|discriminate]. cbn [bind] in E.
  destruct (m fp) as [cbp|] eqn:Em; [|discriminate]. cbn [bind] in E.
  destruct (dbg && _); [discriminate|]. inversion E; subst. cbn [c_sp c_bp].
  assert (Hm := U fp ltac:(congruence)). assert (T : TOP + 16 < W64) by (unfold TOP, W64; lia).
  rewrite (Z.mod_small (fp + 16)) by lia.
  split; [lia|]. split; [|reflexivity].
  destruct (sane_cases cbp (fp + 16)) as [->|[-> X]]; [left; reflexivity|right; exact X].
Qed.
