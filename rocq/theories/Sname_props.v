(* C80: different types have different names. *)
From Coq Require Import String Ascii Decimal DecimalN.
From Verif Require Import Base Sname_model.

(* ---- what it says of escaping *)
Lemma hex_ne_dollar d : 0 <= d < 16 -> hex d <> DOLLAR.
Proof. unfold hex, DOLLAR. destruct (Z.ltb_spec d 10); lia. Qed.
Lemma hex_inj a b : 0 <= a < 16 -> 0 <= b < 16 -> hex a = hex b -> a = b.
Proof. unfold hex. destruct (Z.ltb_spec a 10), (Z.ltb_spec b 10); lia. Qed.
Definition byte (c : Z) : Prop := 0 <= c < 256.
Definition esc (c : Z) : bytes := if c =? DOLLAR then [DOLLAR; DOLLAR] else escape1 c.
Lemma ident_esc s : ident s = flat_map esc s.
Proof.
  unfold ident, double_dollar. induction s as [|c s IH]; cbn [flat_map]; [reflexivity|].
  rewrite flat_map_app, IH. f_equal. unfold esc. destruct (Z.eqb_spec c DOLLAR) as [->|]; [reflexivity|].
  cbn. apply app_nil_r.
Qed.
Lemma esc_inj c d r s : byte c -> byte d -> esc c ++ r = esc d ++ s -> c = d /\ r = s.
Proof.
  unfold byte. intros Hc Hd. unfold esc, escape1.
  pose proof (Z.div_mod c 16 ltac:(lia)) as Qc. pose proof (Z.mod_pos_bound c 16 ltac:(lia)) as Mc.
  pose proof (Z.div_mod d 16 ltac:(lia)) as Qd. pose proof (Z.mod_pos_bound d 16 ltac:(lia)) as Md.
  assert (Bc : 0 <= c / 16 < 16) by (clear - Hc Qc Mc; lia).
  assert (Bd : 0 <= d / 16 < 16) by (clear - Hd Qd Md; lia).
  pose proof (hex_ne_dollar _ Bc) as Nc. pose proof (hex_ne_dollar _ Bd) as Nd.
  destruct (Z.eqb_spec c DOLLAR) as [Ec|Ec], (Z.eqb_spec d DOLLAR) as [Ed|Ed].
  - cbn. intros H. injection H as H. split; [congruence|exact H].
  - rewrite orb_false_r. destruct (is_ident d || (d =? BSL)); cbn; intros H.
    + injection H as H1 H2. congruence.
    + injection H as H1 H2. congruence.
  - rewrite orb_false_r. destruct (is_ident c || (c =? BSL)); cbn; intros H.
    + injection H as H1 H2. congruence.
    + injection H as H1 H2. congruence.
  - rewrite !orb_false_r. destruct (is_ident c || (c =? BSL)), (is_ident d || (d =? BSL)); cbn; intros H.
    + injection H as H1 H2. auto.
    + injection H as H1 H2. congruence.
    + injection H as H1 H2. congruence.
    + injection H as H1 H2 H3. apply hex_inj in H1; [|exact Bc|exact Bd]. apply hex_inj in H2; [|exact Mc|exact Md].
      split; [|exact H3]. rewrite Qc, Qd, H1, H2. reflexivity.
Qed.
(* Escaping loses nothing: different strings become different identifiers. *)
Theorem sname_ident_inj : forall s t, Forall byte s -> Forall byte t -> ident s = ident t -> s = t.
Proof.
  intros s t. rewrite !ident_esc. revert t.
  assert (Ne : forall c, exists x y, esc c = x :: y).
  { intros c. unfold esc, escape1. destruct (c =? DOLLAR); [eauto|]. destruct (_ || _); eauto. }
  induction s as [|c s IH]; intros [|d t] Hs Ht; cbn [flat_map]; intros H; [reflexivity| | |].
  - destruct (Ne d) as (x & y & E). rewrite E in H. discriminate H.
  - destruct (Ne c) as (x & y & E). rewrite E in H. discriminate H.
  - inversion Hs; inversion Ht; subst. apply esc_inj in H; auto. destruct H as [-> H]. f_equal. now apply IH.
Qed.
(* and without backslashes it makes identifiers, dollars apart *)
Theorem sname_ident_chars : forall s, Forall byte s -> ~ In BSL s ->
  Forall (fun c => is_ident c = true \/ c = DOLLAR) (ident s).
Proof.
  intros s B N. rewrite ident_esc. apply Forall_flat_map. apply Forall_forall. intros c Hc.
  assert (Hb : byte c) by (rewrite Forall_forall in B; auto). unfold byte in Hb. clear B.
  unfold esc, escape1. destruct (Z.eqb_spec c DOLLAR); [repeat (apply Forall_cons || apply Forall_nil); auto|].
  destruct (Z.eqb_spec c BSL) as [->|]; [tauto|]. rewrite ?orb_false_r.
  destruct (is_ident c) eqn:Ei; [repeat (apply Forall_cons || apply Forall_nil); auto|].
  assert (Hx : forall d, 0 <= d < 16 -> is_ident (hex d) = true).
  { intros d Hd. unfold hex, is_ident, is_digit, is_alpha. destruct (Z.ltb_spec d 10); lia. }
  pose proof (Z.div_mod c 16 ltac:(lia)) as Qc. pose proof (Z.mod_pos_bound c 16 ltac:(lia)) as Mc.
  assert (Bc : 0 <= c / 16 < 16) by (clear - Hb Qc Mc; lia).
  repeat (apply Forall_cons || apply Forall_nil); auto.
Qed.
Theorem sname_backslash_refuted : exists s, Forall byte s /\ ~ Forall (fun c => is_ident c = true \/ c = DOLLAR) (ident s).
Proof.
  exists [97; BSL]. split.
  { apply Forall_cons; [|apply Forall_cons; [|apply Forall_nil]]; unfold byte, BSL; lia. }
  intros H.
  apply Forall_inv_tail, Forall_inv in H. destruct H as [H|H]; vm_compute in H; discriminate H.
Qed.

(* ---- what it says of types *)
(* Two types that need not be told apart.  Arithmetic types of one form and width: *)
Inductive form := Signed | Unsigned | SignedChar | UnsignedChar | Boolean | Floating.
Definition form_of (k : kind) : form * Z :=
  match k with
  | KChar | KSChar => (SignedChar, 1) | KUChar => (UnsignedChar, 1) | KBool => (Boolean, 1)
  | KShort => (Signed, 2) | KUShort => (Unsigned, 2)
  | KInt => (Signed, 4) | KUInt => (Unsigned, 4)
  | KLong | KLongLong => (Signed, 8) | KULong | KULongLong => (Unsigned, 8)
  | KFloat => (Floating, 4) | KDouble => (Floating, 8) | KLongDouble => (Floating, 16)
  end.
(* the same but for that, for unknown bounds against bounds of zero, for unknown arguments
   against none, and for whether a tag is that of a struct, a union or an enumeration *)
Definition bound_of (b : option N) : N := match b with Some n => n | None => 0%N end.
Definition args_of (l : option (list ty)) : list ty := match l with Some l => l | None => [] end.
Inductive alike : ty -> ty -> Prop :=
| al_void : alike Void Void
| al_va : alike VaList VaList
| al_base k l : form_of k = form_of l -> alike (Base k) (Base l)
| al_ptr t u : alike t u -> alike (Ptr t) (Ptr u)
| al_arr t u b c : alike t u -> bound_of b = bound_of c -> alike (Arr t b) (Arr u c)
| al_tag k l n : alike (Tag k n) (Tag l n)
| al_fun r s a b v : alike r s -> alikes (args_of a) (args_of b) -> alike (Fun r a v) (Fun s b v)
with alikes : list ty -> list ty -> Prop :=
| al_nil : alikes [] []
| al_cons t u l m : alike t u -> alikes l m -> alikes (t :: l) (u :: m).

(* Ordinary tags: identifiers in which two underscores come together, if at all, only at the
   start, and are then not followed by another, nor by A, F or P; and neither of the two names used
   for other types.  Those CIL makes up for anonymous structs are of this form. *)
Fixpoint no_uu (s : bytes) : bool :=
  match s with
  | a :: ((b :: _) as t) => negb ((a =? USC) && (b =? USC)) && no_uu t
  | _ => true
  end.
Definition ordinary (n : bytes) : Prop :=
  n <> [] /\ Forall (fun c => is_ident c = true) n /\ n <> lit "void" /\ n <> lit "__builtin_va_list" /\
  (no_uu n = true \/ exists c a, n = USC :: USC :: c :: a /\ no_uu (c :: a) = true /\
     c <> USC /\ c <> 65 /\ c <> 70 /\ c <> 80).
Fixpoint good (t : ty) : Prop :=
  let goods := fix go (l : list ty) : Prop := match l with [] => True | t :: l => good t /\ go l end in
  match t with
  | Ptr t | Arr t _ => good t
  | Tag _ n => ordinary n
  | Fun r (Some l) _ => good r /\ goods l
  | Fun r None _ => good r
  | _ => True
  end.

(* ---- proofs *)
Lemma digits_inj d e r s : digits d ++ USC :: r = digits e ++ USC :: s -> d = e /\ r = s.
Proof.
  revert e. induction d; intros e H; destruct e; cbn in H; try discriminate H;
    try (injection H as H; apply IHd in H; destruct H as [-> ->]; auto).
  injection H as H. auto.
Qed.
Lemma dec_inj m n r s : dec m ++ USC :: r = dec n ++ USC :: s -> m = n /\ r = s.
Proof. intros H. apply digits_inj in H. destruct H as [H ->]. apply Unsigned.to_uint_inj in H. auto. Qed.
Lemma app_inj1 {A} (a r s : list A) : a ++ r = a ++ s -> r = s.
Proof. apply app_inv_head. Qed.

(* what may follow a type's name in another's *)
Definition tail_ok (r : bytes) : Prop := r = [] \/ exists c s, r = USC :: USC :: c :: s /\ c <> USC.
Definition atom (a : bytes) : Prop := a <> [] /\ no_uu a = true.
Lemma no_uu_cons c a : no_uu (c :: a) = true -> no_uu a = true.
Proof. destruct a; cbn; [auto|]. intros H. apply andb_true_iff in H. tauto. Qed.
Lemma atom_inj a b r s : no_uu a = true -> no_uu b = true -> tail_ok r -> tail_ok s -> a ++ r = b ++ s -> a = b /\ r = s.
Proof.
  assert (Q : forall b r s, no_uu b = true -> tail_ok r -> tail_ok s -> r = b ++ s -> b = []).
  { intros b' r' s' Hb [-> | (c & r2 & -> & Nc)] Hs H.
    - destruct b'; [reflexivity|discriminate H].
    - destruct b' as [|x [|y b']]; [reflexivity| |]; exfalso.
      + injection H as <- H. destruct Hs as [-> | (d & s2 & -> & Nd)]; [discriminate H|].
        injection H as H1 H2. congruence.
      + injection H as <- <- H. cbn in Hb. discriminate Hb. }
  revert b. induction a as [|c a IH]; intros b Ha Hb Hr Hs H.
  - cbn in H. pose proof (Q b r s Hb Hr Hs H) as ->. auto.
  - destruct b as [|d b].
    + cbn in H. symmetry in H. pose proof (Q (c :: a) s r Ha Hs Hr H). discriminate.
    + injection H as <- H. apply IH in H; eauto using no_uu_cons. destruct H as [-> ->]. auto.
Qed.
Lemma atom_not a r c s : atom a -> tail_ok r -> c <> USC -> a ++ r <> USC :: USC :: c :: s.
Proof.
  intros [Na Ha] Hr Nc H. destruct a as [|x [|y a]]; [congruence| |].
  - injection H as -> H. destruct Hr as [-> | (d & s2 & -> & Nd)]; [discriminate H|]. injection H as H1 H2. congruence.
  - injection H as -> -> H. cbn in Ha. discriminate Ha.
Qed.

Lemma base_atom k : atom (base_name k).
Proof. destruct k; split; vm_compute; (discriminate || reflexivity). Qed.
Lemma base_inj k l : base_name k = base_name l -> form_of k = form_of l.
Proof. destruct k, l; intros H; try reflexivity; vm_compute in H; discriminate H. Qed.
Lemma base_dollar k : In DOLLAR (base_name k).
Proof. destruct k; vm_compute; tauto. Qed.
Lemma ordinary_no_dollar n : ordinary n -> ~ In DOLLAR n.
Proof. intros (_ & F & _ & _) I. rewrite Forall_forall in F. apply F in I. vm_compute in I. discriminate I. Qed.

Fixpoint labelled (l : list ty) (i : N) : bytes :=
  match l with [] => [] | t :: l => lit "__ARG" ++ dec i ++ USC :: barename t ++ labelled l (N.succ i) end.
Definition mid (va : bool) : bytes := if va then lit "__VA___FUN_TO_" else lit "__FUN_TO_".
Lemma barename_fun r a v : barename (Fun r a v) = lit "__FUN_FROM_" ++ labelled (args_of a) 0 ++ mid v ++ barename r.
Proof.
  destruct a as [l|], v; reflexivity.
Qed.
Lemma tail_args l i v s : tail_ok (labelled l i ++ mid v ++ s).
Proof.
  right. destruct l as [|t l]; cbn [labelled].
  - destruct v; cbn; eauto; eexists _, _; split; try reflexivity; discriminate.
  - cbn. eexists _, _. split; [reflexivity|discriminate].
Qed.
Lemma mid_inj v w r s : mid v ++ r = mid w ++ s -> v = w /\ r = s.
Proof.
  destruct v, w; cbn; intros H; try discriminate H; split; auto; now apply (app_inj1 (lit "__VA___FUN_TO_")) in H || now apply (app_inj1 (lit "__FUN_TO_")) in H.
Qed.
Lemma goods_Forall l : (fix go (l : list ty) : Prop := match l with [] => True | t :: l => good t /\ go l end) l -> Forall good l.
Proof. induction l; intros H; constructor; [apply H|apply IHl, H]. Qed.

Fixpoint tysize (t : ty) : nat :=
  let sizes := fix go (l : list ty) : nat := match l with [] => O | t :: l => S (tysize t + go l) end in
  match t with
  | Ptr t | Arr t _ => S (tysize t)
  | Fun r (Some l) _ => S (tysize r + sizes l)
  | Fun r None _ => S (tysize r)
  | _ => 1
  end%nat.
Fixpoint sizes (l : list ty) : nat := match l with [] => O | t :: l => S (tysize t + sizes l) end.
Lemma tysize_fun r a v : tysize (Fun r a v) = S (tysize r + sizes (args_of a)).
Proof. destruct a; cbn; [reflexivity|lia]. Qed.
Lemma good_fun r a v : good (Fun r a v) -> good r /\ Forall good (args_of a).
Proof. destruct a as [l|]; cbn; [intros [H1 H2]; split; [exact H1|now apply goods_Forall]|auto]. Qed.

(* types whose names are of one piece, perhaps after two underscores *)
Definition leaf (t : ty) : bool := match t with Void | VaList | Base _ | Tag _ _ => true | _ => false end.
Lemma leaf_shape t : good t -> leaf t = true -> atom (barename t) \/
  exists c a, barename t = USC :: USC :: c :: a /\ no_uu (c :: a) = true /\ c <> USC /\ c <> 65 /\ c <> 70 /\ c <> 80.
Proof.
  destruct t; intros G H; try discriminate H.
  - left. split; [discriminate|reflexivity].
  - right. cbn. eexists _, _. split; [reflexivity|]. split; [reflexivity|]. repeat split; discriminate.
  - left. apply base_atom.
  - cbn in G. destruct G as (Ne & _ & _ & _ & [U | U]); [left; split; auto|right; exact U].
Qed.
Lemma leaf_inj t u r s : good t -> good u -> leaf t = true -> leaf u = true -> tail_ok r -> tail_ok s ->
  barename t ++ r = barename u ++ s -> barename t = barename u /\ r = s.
Proof.
  intros Gt Gu Lt Lu Hr Hs H.
  destruct (leaf_shape t Gt Lt) as [A | (c & a & Ea & Ua & Nc & _)], (leaf_shape u Gu Lu) as [B | (d & b & Eb & Ub & Nd & _)].
  - apply atom_inj; auto; [apply A|apply B].
  - exfalso. rewrite Eb in H. apply (atom_not (barename t) r d (b ++ s)); auto.
  - exfalso. rewrite Ea in H. symmetry in H. apply (atom_not (barename u) s c (a ++ r)); auto.
  - rewrite Ea, Eb in *. cbn [app] in H. apply (app_inj1 [USC; USC]) in H.
    destruct (atom_inj (c :: a) (d :: b) r s) as [E ->]; auto. rewrite E. auto.
Qed.
Lemma leaf_alike t u : good t -> good u -> leaf t = true -> leaf u = true -> barename t = barename u -> alike t u.
Proof.
  intros Gt Gu Lt Lu H.
  assert (W : forall k n, ordinary n -> base_name k <> n).
  { intros k n O E. apply (ordinary_no_dollar n O). rewrite <- E. apply base_dollar. }
  assert (V1 : forall n, ordinary n -> lit "void" <> n) by (intros n (_ & _ & O & _); auto).
  assert (V2 : forall n, ordinary n -> lit "__builtin_va_list" <> n) by (intros n (_ & _ & _ & O & _); auto).
  destruct t; try discriminate Lt; destruct u; try discriminate Lu; cbn [barename] in H; cbn [good] in *;
    try (now constructor);
    try (exfalso; match goal with K : ordinary ?n |- _ => first
      [ apply (W _ n K H) | apply (V1 n K H) | apply (V2 n K H) | symmetry in H; apply (W _ n K H)
      | symmetry in H; apply (V1 n K H) | symmetry in H; apply (V2 n K H) ] end).
  all: try (vm_compute in H; discriminate H).
  all: try (exfalso; pose proof (base_dollar k) as D; rewrite <- H in D || rewrite H in D; vm_compute in D; lia).
  all: try (constructor; now apply base_inj).
  all: subst; constructor.
Qed.
Lemma comp_head t : leaf t = false -> exists c s, barename t = USC :: USC :: c :: s /\ c <> USC /\ (c = 65 \/ c = 70 \/ c = 80).
Proof.
  destruct t; intros H; try discriminate H; try rewrite barename_fun; cbn; eexists _, _; (split; [reflexivity|]); split; (discriminate || auto).
Qed.
Lemma leaf_comp t u r s : good t -> leaf t = true -> leaf u = false -> tail_ok r -> barename t ++ r <> barename u ++ s.
Proof.
  intros G Lt Lu Hr H. destruct (comp_head u Lu) as (d & b & Eb & Nd & D). rewrite Eb in H. cbn [app] in H.
  destruct (leaf_shape t G Lt) as [A | (c & a & Ea & Ua & Nc & N1 & N2 & N3)].
  - apply (atom_not _ _ _ _ A Hr Nd H).
  - rewrite Ea in H. cbn [app] in H. injection H as H _. subst. destruct D as [D | [D | D]]; auto.
Qed.
Lemma dec0 : dec 0 = lit "0".
Proof. reflexivity. Qed.

Lemma names_inj n :
  (forall t u r s, (tysize t <= n)%nat -> good t -> good u -> tail_ok r -> tail_ok s ->
     barename t ++ r = barename u ++ s -> alike t u /\ r = s) /\
  (forall l m i v w r s, (sizes l <= n)%nat -> Forall good l -> Forall good m ->
     labelled l i ++ mid v ++ r = labelled m i ++ mid w ++ s -> alikes l m /\ v = w /\ r = s).
Proof.
  induction n as [|n [IHt IHl]].
  - split.
    + intros t. destruct t; cbn; try lia. destruct args; cbn; lia.
    + intros [|t l] [|u m] i v w r s L Gl Gm H; cbn in L; try lia.
      * cbn in H. apply mid_inj in H. destruct H as [-> ->]. repeat split; constructor.
      * exfalso. cbn in H. destruct v; discriminate H.
  - split.
    + intros t u r s L Gt Gu Hr Hs H. destruct (leaf t) eqn:Lt, (leaf u) eqn:Lu.
      { destruct (leaf_inj t u r s) as [E ->]; auto. split; [now apply leaf_alike|reflexivity]. }
      { exfalso. now apply (leaf_comp t u r s). }
      { exfalso. symmetry in H. now apply (leaf_comp u t s r). }
      destruct t; try discriminate Lt; destruct u; try discriminate Lu;
        try (rewrite ?barename_fun in H; cbn in H; discriminate H).
      * cbn [barename] in H. rewrite <- !app_assoc in H. apply app_inj1 in H.
        cbn in L. destruct (IHt t u r s) as [A ->]; auto; [lia|]. split; [now constructor|reflexivity].
      * cbn [barename] in H. rewrite <- !app_assoc in H. apply app_inj1 in H.
        assert (B : forall b : option N, match b with Some n => dec n | None => lit "0" end = dec (bound_of b)) by (intros [b|]; reflexivity).
        rewrite !B in H. cbn [app] in H. apply dec_inj in H. destruct H as [Eb H].
        cbn in L. destruct (IHt t u r s) as [A ->]; auto; [lia|]. split; [now constructor|reflexivity].
      * rewrite !barename_fun in H. rewrite <- !app_assoc in H. apply app_inj1 in H.
        rewrite tysize_fun in L. apply good_fun in Gt, Gu. destruct Gt as [Gt1 Gt2], Gu as [Gu1 Gu2].
        apply IHl in H; auto; [|lia]. destruct H as (A & -> & H).
        apply IHt in H; auto; [|lia]. destruct H as [B ->]. split; [now constructor|reflexivity].
    + intros [|t l] [|u m] i v w r s L Gl Gm H.
      * cbn in H. apply mid_inj in H. destruct H as [-> ->]. repeat split; constructor.
      * exfalso. cbn in H. destruct v; discriminate H.
      * exfalso. cbn in H. destruct w; discriminate H.
      * cbn [labelled] in H. rewrite <- !app_assoc in H. apply app_inj1 in H. apply app_inj1 in H.
        cbn [app] in H. injection H as H. rewrite <- !app_assoc in H.
        inversion Gl; inversion Gm; subst. cbn in L.
        apply IHt in H; auto using tail_args; [|lia]. destruct H as [A H].
        apply IHl in H; auto; [|lia]. destruct H as (B & -> & ->). repeat split; auto. now constructor.
Qed.

(* Types with the same symbol are alike. *)
Theorem sname_inj_partial : forall t u, good t -> good u -> symname t = symname u -> alike t u.
Proof.
  intros t u Gt Gu H. unfold symname in H. apply app_inj1 in H.
  destruct (proj1 (names_inj (tysize t)) t u [] []) as [A _]; auto; try now left.
  now rewrite !app_nil_r.
Qed.
(* and alike types have the same symbol *)
Scheme alike_mut := Minimality for alike Sort Prop
  with alikes_mut := Minimality for alikes Sort Prop.
Combined Scheme alike_both from alike_mut, alikes_mut.
Theorem sname_alike : forall t u, alike t u -> symname t = symname u.
Proof.
  assert (A : (forall t u, alike t u -> barename t = barename u) /\
              (forall l m, alikes l m -> forall i, labelled l i = labelled m i)).
  { apply alike_both; auto.
    - intros k l H. destruct k, l; try discriminate H; reflexivity.
    - intros t u _ H. cbn [barename]. now rewrite H.
    - intros t u b c _ H E. cbn [barename]. rewrite H. destruct b, c; cbn in E; subst; reflexivity.
    - intros r s a b v _ H _ L. rewrite !barename_fun. now rewrite H, L.
    - intros t u l m _ H _ L i. cbn [labelled]. now rewrite H, L. }
  intros t u H. unfold symname. now rewrite (proj1 A t u H).
Qed.

(* A symbol found at run time for an array of n is that of the compiler's array of n. *)
Theorem sname_runtime_array : forall t n, rt_array (barename t) (Some n) = symname (Arr t (Some n)).
Proof. intros. reflexivity. Qed.
(* Not so if the length is unknown: the same type has two names. *)
Theorem sname_runtime_unbounded_refuted : exists t, rt_array (barename t) None <> symname (Arr t None) /\
  forall u, good u -> rt_array (barename t) None <> symname u.
Proof.
  exists (Base KInt). split; [vm_compute; discriminate|].
  intros u G H. unfold symname, rt_array in H.
  change (lit "__uniqtype____ARR_" ++ barename (Base KInt)) with (lit "__uniqtype__" ++ (lit "__ARR_" ++ barename (Base KInt))) in H.
  apply app_inj1 in H.
  destruct (leaf u) eqn:Lu.
  { apply (leaf_comp u (Arr Void None) [] (skipn 7 (lit "__ARR_" ++ barename (Base KInt)))); auto; [now left|].
    exfalso. destruct (leaf_shape u G Lu) as [A | (c & a & Ea & _ & _ & N & _)].
    - apply (atom_not (barename u) [] 65 (lit "RR_" ++ barename (Base KInt)) A); [now left|discriminate|].
      rewrite app_nil_r, <- H. reflexivity.
    - rewrite Ea in H. cbn in H. injection H as H _. congruence. }
  destruct u; try discriminate Lu; try (rewrite ?barename_fun in H; cbn in H; discriminate H).
  assert (B : barename (Arr u bound) = lit "__ARR" ++ dec (bound_of bound) ++ USC :: barename u) by (destruct bound; reflexivity).
  rewrite B in H. change (lit "__ARR_") with (lit "__ARR" ++ [USC]) in H. rewrite <- app_assoc in H. apply app_inj1 in H.
  unfold dec in H. apply (digits_inj Nil) in H. destruct H as [H _].
  assert (Z : N.to_uint (bound_of bound) <> Nil).
  { intros C. assert (D : N.of_uint (N.to_uint (bound_of bound)) = N.of_uint Nil) by now rewrite C.
    rewrite Unsigned.of_to in D. rewrite D in C. discriminate C. }
  congruence.
Qed.

(* Tags with two underscores may clash with other types: struct __PTR_void with a pointer to void. *)
Theorem sname_reserved_refuted : exists t u, symname t = symname u /\ ~ alike t u /\
  exists n, t = Tag TStruct n /\ Forall (fun c => is_ident c = true) n.
Proof.
  exists (Tag TStruct (lit "__PTR_void")), (Ptr Void). split; [reflexivity|]. split; [intros H; inversion H|].
  eexists. split; [reflexivity|]. repeat constructor.
Qed.
(* so may a tag with two inside, which C does not reserve:
   struct a__ARG1_b as the argument of a function, against arguments struct a, struct b *)
Theorem sname_inside_refuted : exists t u, symname t = symname u /\ ~ alike t u /\
  exists n, t = Fun Void (Some [Tag TStruct n]) false /\ hd 0 n = 97 /\ Forall (fun c => is_ident c = true) n.
Proof.
  exists (Fun Void (Some [Tag TStruct (lit "a__ARG1_b")]) false),
         (Fun Void (Some [Tag TStruct (lit "a"); Tag TStruct (lit "b")]) false).
  split; [vm_compute; reflexivity|]. split.
  - intros H. inversion H; subst. cbn in *. match goal with K : alikes _ _ |- _ => inversion K; subst end.
    match goal with K : alikes [] _ |- _ => inversion K end.
  - eexists. split; [reflexivity|]. split; [reflexivity|]. repeat constructor.
Qed.
Ltac ord := split; [discriminate|]; split; [repeat constructor|]; split; [discriminate|]; split; [discriminate|]; left; reflexivity.
(* a struct, a union and an enumeration of one tag, in different files, have one symbol *)
Theorem sname_tags_refuted : exists t u n, t = Tag TStruct n /\ u = Tag TEnum n /\ ordinary n /\ symname t = symname u.
Proof.
  exists (Tag TStruct (lit "node")), (Tag TEnum (lit "node")), (lit "node").
  split; [reflexivity|]. split; [reflexivity|]. split; [ord|reflexivity].
Qed.

Module SnEx.
(* int ( *[3])(const struct list *, char, ...) *)
Definition t1 : ty := Arr (Ptr (Fun (Base KInt) (Some [Ptr (Tag TStruct (lit "list")); Base KChar]) true)) (Some 3%N).
Definition t2 : ty := Arr (Ptr (Fun (Base KInt) (Some [Ptr (Tag TStruct (lit "list"))]) true)) (Some 3%N).
End SnEx.
Import SnEx.
Example t1_good : good t1 /\ good t2.
Proof.
  assert (O : ordinary (lit "list")) by ord.
  unfold t1, t2. cbn [good]. tauto.
Qed.
(* the name CIL gives an anonymous struct *)
Example anon_ordinary : ordinary (lit "__anonstruct_point_1").
Proof.
  split; [discriminate|]. split; [repeat constructor|]. split; [discriminate|]. split; [discriminate|].
  right. cbn. eexists _, _. split; [reflexivity|]. split; [reflexivity|]. repeat split; discriminate.
Qed.
Example t1_name : symname t1 = lit "__uniqtype____ARR3___PTR___FUN_FROM___ARG0___PTR_list__ARG1_signed_char$$8__VA___FUN_TO_int$$32".
Proof. vm_compute. reflexivity. Qed.
Example t1_t2 : symname t1 <> symname t2.
Proof.
  intros H. apply sname_inj_partial in H; try apply t1_good.
  unfold t1, t2 in H. repeat (cbn [args_of] in *; match goal with
    | K : alike (Arr _ _) _ |- _ => inversion K; clear K; subst
    | K : alike (Ptr _) _ |- _ => inversion K; clear K; subst
    | K : alike (Fun _ _ _) _ |- _ => inversion K; clear K; subst
    | K : alikes _ _ |- _ => inversion K; clear K; subst
    end).
Qed.
Example alike_ex : alike (Ptr (Base KLong)) (Ptr (Base KLongLong)) /\ symname (Ptr (Base KLong)) = symname (Ptr (Base KLongLong)).
Proof. split; [constructor; constructor; reflexivity|]. apply sname_alike. constructor; constructor; reflexivity. Qed.
Example ident_ex : ident (lit "a b$c") = lit "a$20b$$c".
Proof. vm_compute. reflexivity. Qed.
Example rt_ex : rt_array (lit "int$$32") (Some 12%N) = lit "__uniqtype____ARR12_int$$32".
Proof. vm_compute. reflexivity. Qed.

Print Assumptions sname_ident_inj.
Print Assumptions sname_ident_chars.
Print Assumptions sname_backslash_refuted.
Print Assumptions sname_inj_partial.
Print Assumptions sname_alike.
Print Assumptions sname_runtime_array.
Print Assumptions sname_runtime_unbounded_refuted.
Print Assumptions sname_reserved_refuted.
Print Assumptions sname_inside_refuted.
Print Assumptions sname_tags_refuted.
