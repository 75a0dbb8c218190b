(* Initial-stack lookup (C36). *)
From Verif Require Import Base Auxv_model Auxv_spec.

Lemma trip_eq (A B C : Type) (a a' : A) (b b' : B) (c c' : C) : (a, b, c) = (a', b', c') -> a = a' /\ b = b' /\ c = c'.
Proof. intro H. inversion H. auto. Qed.
Lemma some_eq (A : Type) (a b : A) : Some a = Some b -> a = b.
Proof. congruence. Qed.

Definition sizes_ok (n m k gap len : Z) : Prop := 0 <= n /\ 0 <= m /\ 0 <= k /\ 0 <= gap /\ 0 <= len.

(* C36, in part: an address in an object is answered with its start and size.  Missing: the bytes
   of terminating elements after the first, for which it is false (auxv_terminator_refuted). *)
Theorem auxv_found_partial : forall p n m k gap len o x,
  sizes_ok n m k gap len -> In o (objects p n m k gap len) -> in_obj x o -> ~ in_terminator p n m k x ->
  exists t b s t', o = (t, b, s) /\ get_info (stack_of p n m k gap len) x = Some (t', b, s).
Proof.
  intros p n m k gap len o x (Hn & Hm & Hk & Hg & Hl) Ho Hx Ht.
  unfold in_terminator in Ht. unfold get_info, stack_of, PTR, AUXENT.
  cbn [aux aux_term argv argv_term env env_term strs strs_end argcp].
  unfold objects in Ho. cbn [In] in Ho.
  set (v := p + 8) in *. set (e := v + 8 * (n + 1)) in *. set (a := e + 8 * (m + 1)) in *.
  set (s := a + 16 * (k + 1) + gap) in *.
  replace (a + 16 * k - a) with (k * 16) by lia. rewrite Z.div_mul by lia.
  replace (v + 8 * n - v) with (n * 8) by lia. rewrite Z.div_mul by lia.
  replace (e + 8 * m - e) with (m * 8) by lia. rewrite Z.div_mul by lia.
  destruct Ho as [<-|[<-|[<-|[<-|[<-|[]]]]]]; cbn [in_obj] in Hx; eexists _, _, _, _; (split; [reflexivity|]).
  - replace ((a <=? x) && (x <=? a + 16 * k)) with false by lia.
    replace ((v <=? x) && (x <=? v + 8 * n)) with false by lia.
    replace ((e <=? x) && (x <=? e + 8 * m)) with false by lia.
    replace ((s <=? x) && (x <=? s + len)) with false by lia.
    replace ((p <=? x) && (x <=? v)) with true by lia. reflexivity.
  - replace ((a <=? x) && (x <=? a + 16 * k)) with false by lia.
    replace ((v <=? x) && (x <=? v + 8 * n)) with true by lia. rewrite (Z.mul_comm (n + 1) 8). reflexivity.
  - replace ((a <=? x) && (x <=? a + 16 * k)) with false by lia.
    replace ((v <=? x) && (x <=? v + 8 * n)) with false by lia.
    replace ((e <=? x) && (x <=? e + 8 * m)) with true by lia. rewrite (Z.mul_comm (m + 1) 8). reflexivity.
  - replace ((a <=? x) && (x <=? a + 16 * k)) with true by lia. rewrite (Z.mul_comm (k + 1) 16). reflexivity.
  - replace ((a <=? x) && (x <=? a + 16 * k)) with false by lia.
    replace ((v <=? x) && (x <=? v + 8 * n)) with false by lia.
    replace ((e <=? x) && (x <=? e + 8 * m)) with false by lia.
    replace ((s <=? x) && (x <=? s + len)) with true by lia. replace (s + len - s) with len by lia. reflexivity.
Qed.

(* C36, in part: the type is the object's too, unless it is the environment's.  Missing: the
   environment vector, always typed as having one element (auxv_env_type_refuted). *)
Theorem auxv_type_partial : forall p n m k gap len t b s x,
  sizes_ok n m k gap len -> In (t, b, s) (objects p n m k gap len) -> b <= x < b + s -> ~ in_terminator p n m k x ->
  b <> p + 8 + 8 * (n + 1) ->
  get_info (stack_of p n m k gap len) x = Some (t, b, s).
Proof.
  intros p n m k gap len t b s x Hs Ho Hx Ht Hb.
  destruct (auxv_found_partial p n m k gap len _ x Hs Ho Hx Ht) as (t0 & b0 & s0 & t' & E & G).
  inversion E; subst t0 b0 s0. clear E. rewrite G. enough (t' = t) by congruence.
  revert G. destruct Hs as (Hn & Hm & Hk & Hg & Hl).
  unfold get_info, stack_of, PTR, AUXENT, aux_type, argv_type, env_type, strs_type, AUXENT, PTR.
  cbn [aux aux_term argv argv_term env env_term strs strs_end argcp argc].
  unfold objects in Ho. cbn [In] in Ho.
  set (v := p + 8) in *. set (e := v + 8 * (n + 1)) in *. set (a := e + 8 * (m + 1)) in *.
  set (st := a + 16 * (k + 1) + gap) in *.
  replace (a + 16 * k - a) with (k * 16) by lia. rewrite Z.div_mul by lia.
  replace (v + 8 * n - v) with (n * 8) by lia. rewrite Z.div_mul by lia.
  replace (e + 8 * m - e) with (m * 8) by lia. rewrite Z.div_mul by lia.
  replace (st + len - st) with len by lia.
  assert (Ev : v = p + 8) by reflexivity. assert (Ee : e = v + 8 * (n + 1)) by reflexivity.
  assert (Ea : a = e + 8 * (m + 1)) by reflexivity. assert (Es : st = a + 16 * (k + 1) + gap) by reflexivity.
  clearbody v e a st. intro G.
  destruct Ho as [Ho|[Ho|[Ho|[Ho|[Ho|[]]]]]]; (apply trip_eq in Ho; destruct Ho as (<- & <- & <-));
  repeat match type of G with (if ?c then _ else _) = _ => let E := fresh in destruct c eqn:E end;
  try discriminate G; (apply some_eq in G; apply trip_eq in G; destruct G as (<- & ? & ?)); try reflexivity; exfalso; lia.
Qed.

(* C36: outside every object nothing is answered, except one past the strings' end. *)
Theorem auxv_outside : forall p n m k gap len x t b s,
  sizes_ok n m k gap len -> get_info (stack_of p n m k gap len) x = Some (t, b, s) ->
  (exists t', In (t', b, s) (objects p n m k gap len)) /\ (b <= x < b + s \/ x = strs_end (stack_of p n m k gap len)).
Proof.
  intros p n m k gap len x t b s (Hn & Hm & Hk & Hg & Hl).
  unfold get_info, stack_of, PTR, AUXENT.
  cbn [aux aux_term argv argv_term env env_term strs strs_end argcp argc]. unfold objects.
  set (v := p + 8) in *. set (e := v + 8 * (n + 1)) in *. set (a := e + 8 * (m + 1)) in *.
  set (st := a + 16 * (k + 1) + gap) in *.
  replace (a + 16 * k - a) with (k * 16) by lia. rewrite Z.div_mul by lia.
  replace (v + 8 * n - v) with (n * 8) by lia. rewrite Z.div_mul by lia.
  replace (e + 8 * m - e) with (m * 8) by lia. rewrite Z.div_mul by lia.
  replace (st + len - st) with len by lia.
  assert (Ev : v = p + 8) by reflexivity. assert (Ee : e = v + 8 * (n + 1)) by reflexivity.
  assert (Ea : a = e + 8 * (m + 1)) by reflexivity. assert (Es : st = a + 16 * (k + 1) + gap) by reflexivity.
  clearbody v e a st. intro G.
  repeat match type of G with (if ?c then _ else _) = _ => let E := fresh in destruct c eqn:E end;
  try discriminate G; (apply some_eq in G; apply trip_eq in G; destruct G as (<- & <- & <-)); rewrite ?(Z.mul_comm _ 8), ?(Z.mul_comm _ 16); (split; [eexists; cbn [In]; eauto 8|lia]).
Qed.

(* A byte of a terminating element other than its first is not found. *)
Theorem auxv_terminator_refuted : exists p n m k gap len o x,
  sizes_ok n m k gap len /\ In o (objects p n m k gap len) /\ in_obj x o /\
  get_info (stack_of p n m k gap len) x = None.
Proof.
  exists 1000, 2, 3, 4, 5, 60, (TArray TCharPtr 3, 1008, 24), 1025.
  split; [unfold sizes_ok; lia|]. split; [vm_compute; auto|]. split; [cbn; lia|vm_compute; reflexivity].
Qed.
(* The environment vector is given a type of one element, whatever its size. *)
Theorem auxv_env_type_refuted : exists p n m k gap len x t b s,
  sizes_ok n m k gap len /\ get_info (stack_of p n m k gap len) x = Some (t, b, s) /\
  In (TArray TCharPtr (m + 1), b, s) (objects p n m k gap len) /\ aty_size t = 8 /\ s = 32.
Proof.
  exists 1000, 2, 3, 4, 5, 60, 1040, (TArray TCharPtr 1), 1032, 32.
  split; [unfold sizes_ok; lia|]. vm_compute. auto 8.
Qed.
(* One past the end of the strings is answered as inside them. *)
Theorem auxv_end_refuted : exists p n m k gap len x t b s,
  sizes_ok n m k gap len /\ get_info (stack_of p n m k gap len) x = Some (t, b, s) /\ ~ b <= x < b + s.
Proof.
  exists 1000, 2, 3, 4, 5, 60, 1209, (TArray TChar 60), 1149, 60.
  split; [unfold sizes_ok; lia|]. split; [vm_compute; reflexivity|lia].
Qed.

(* the second argument pointer; the strings; the padding *)
Example auxv_ex : get_info (stack_of 1000 2 3 4 5 60) 1019 = Some (TArray TCharPtr 3, 1008, 24) /\
  get_info (stack_of 1000 2 3 4 5 60) 1150 = Some (TArray TChar 60, 1149, 60).
Proof.
  split; apply auxv_type_partial; try (unfold sizes_ok, in_terminator; lia); cbn; auto 8.
Qed.
Example auxv_outside_ex : get_info (stack_of 1000 2 3 4 5 60) 1146 = None.
Proof.
  destruct (get_info _ _) as [[[t b] s]|] eqn:E; [|reflexivity].
  apply auxv_outside in E; [|unfold sizes_ok; lia]. cbn in E. destruct E as [(t' & H) B].
  intuition (match goal with H : (_, _, _) = _ |- _ => inversion H; subst end; lia).
Qed.

Print Assumptions auxv_found_partial.
Print Assumptions auxv_type_partial.
Print Assumptions auxv_outside.
Print Assumptions auxv_terminator_refuted.
Print Assumptions auxv_env_type_refuted.
Print Assumptions auxv_end_refuted.
