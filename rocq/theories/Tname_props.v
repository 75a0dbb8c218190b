(* C57: types and their names; C58: the types of a library. *)
From Coq Require Import String Ascii.
From Verif Require Import Base Big_model Big_field Meta_model Meta_spec Meta_proof Tname_model Tname_spec Tname_proof.

(* Looking up a symbol's name asks for just that symbol, unless it has a code that begins with a
   decimal digit. *)
Theorem typename_lookup_exact_partial dbg dl name code s :
  symbol_of name code s ->
  (forall c, code = Some c -> forall d r, c = d :: r -> ~ 48 <= d <= 57) ->
  typestr dbg dl (Some s) = Ok (dl s).
Proof.
  intros H L. assert (L' : forall c, code = Some c -> letter_code c).
  { intros c E. destruct (symbol_cases _ _ _ H) as [[Ec _]|(c' & Ec & C & _)]; [congruence|].
    assert (c' = c) by congruence. subst c'. destruct C as [Hl _]. destruct c as [|d r]; [discriminate Hl|].
    exists d, r. split; [reflexivity|]. apply (L _ E d r eq_refl). }
  destruct (symbol_scan name code s H L') as (rest & E1 & E2).
  unfold typestr. rewrite E1, asrt_true by reflexivity. cbn [bind]. rewrite E2. reflexivity.
Qed.

(* The name given for a type is the name in its symbol; a symbol can be read in one way only. *)
Theorem typename_exact dladdr u name code s :
  u <> 0 -> dladdr (u + 1) = Some (u, s) -> symbol_of name code s ->
  type_name dladdr u = Ok name /\
  forall name' code', symbol_of name' code' s -> name' = name /\ code' = code.
Proof.
  intros U D H. split.
  - unfold type_name, symbol_name. replace (u =? 0) with false by lia. rewrite D, Z.eqb_refl.
    exact (symbol_named name code s H).
  - intros n' c' H'. destruct (symbol_unique _ _ _ H _ _ H') as [-> ->]. auto.
Qed.

(* An address that is not the start of a symbol has no name, whatever lies there. *)
Theorem typename_unnamed dladdr u :
  u <> 0 -> (forall s, dladdr (u + 1) <> Some (u, s)) -> type_name dladdr u = Ok (text "(unnamed type)").
Proof.
  intros U D. unfold type_name, symbol_name. replace (u =? 0) with false by lia.
  destruct (dladdr (u + 1)) as [[a s]|] eqn:E; [|reflexivity].
  destruct (a =? u) eqn:Ea; [|reflexivity]. exfalso. apply (D s). do 2 f_equal. lia.
Qed.

(* The iteration calls back for each type defined, in the order of the symbols, until told to stop. *)
Theorem iterate_types_exact_partial {A} dbg (cb : A -> Z -> A * Z) sane dynstr load symtab hash l a :
  0 < load < 2 ^ 63 -> 2 ^ 22 <= symtab < 2 ^ 63 -> (hash = 0 \/ 2 ^ 22 <= hash < 2 ^ 63) ->
  Forall (named dynstr) l ->
  exists a' v us,
    iterate dbg cb sane dynstr load symtab hash true l a = Ok (a', v) /\
    types_of sane dynstr load l us /\ calls cb a us a' v.
Proof.
  intros Hl Hs Hh F. unfold iterate. rewrite !asrt_true by lia.
  replace ((load =? 0) || (2 ^ 63 <=? load)) with false by lia.
  cbn [bind].
  replace ((symtab =? 0) || (2 ^ 63 <=? symtab)) with false by lia.
  replace (2 ^ 63 <=? hash) with false by lia.
  replace ((symtab <? MINUSER) || (negb (hash =? 0) && (hash <? MINUSER))) with false by (unfold MINUSER; lia).
  apply each_sym_ok. exact F.
Qed.

(* the list of types is determined, and so is what is called *)
Theorem types_of_unique sane dynstr load l us vs :
  types_of sane dynstr load l us -> types_of sane dynstr load l vs -> us = vs.
Proof.
  intros H. revert vs. induction H as [|p l us N H IH|p l us W H IH]; intros vs G; inversion G; subst.
  - reflexivity.
  - apply IH. assumption.
  - contradiction.
  - contradiction.
  - f_equal. apply IH. assumption.
Qed.

Print Assumptions typename_lookup_exact_partial.
Print Assumptions typename_exact.
Print Assumptions typename_unnamed.
Print Assumptions iterate_types_exact_partial.
Print Assumptions types_of_unique.

Module TnEx.
Definition plain_foo := text "__uniqtype__foo".
Definition code_a := text "a1b2c3d4".
Definition code_8 := text "8abcdef0".
Definition code_0 := text "0abcdef1".
Definition foo_a := text "__uniqtype_a1b2c3d4_foo".
Definition foo_8 := text "__uniqtype_8abcdef0_foo".
Definition foo_0 := text "__uniqtype_0abcdef1_foo".
Definition dl (s : str) : Z :=
  if str_eqb s plain_foo then 4096 else if str_eqb s foo_a then 8192 else
  if str_eqb s foo_8 then 12288 else if str_eqb s foo_0 then 16384 else 0.

Lemma code_ok c : length c = 8%nat -> forallb (fun d => existsb (fun e => e =? d) (text "0123456789abcdef")) c = true -> is_code c.
Proof.
  intros L H. split; [exact L|]. rewrite forallb_forall in H. intros d Hd. specialize (H d Hd).
  apply existsb_exists in H. destruct H as (e & He & Ee). unfold hexdig. replace d with e by lia. exact He.
Qed.
Lemma foo_a_ok : symbol_of (text "foo") (Some code_a) foo_a.
Proof. apply (sym_code (text "foo") code_a). apply code_ok; reflexivity. Qed.
Lemma foo_8_ok : symbol_of (text "foo") (Some code_8) foo_8.
Proof. apply (sym_code (text "foo") code_8). apply code_ok; reflexivity. Qed.
Lemma foo_0_ok : symbol_of (text "foo") (Some code_0) foo_0.
Proof. apply (sym_code (text "foo") code_0). apply code_ok; reflexivity. Qed.

Example ex_lookup : typestr true dl (Some foo_a) = Ok 8192 /\ typestr true dl (Some plain_foo) = Ok 4096.
Proof.
  split.
  - rewrite (typename_lookup_exact_partial true dl _ _ _ foo_a_ok); [reflexivity|].
    intros c E. injection E as <-. intros d r E. injection E as <- _. lia.
  - vm_compute. reflexivity.
Qed.
Definition dladdr (a : Z) : option (Z * str) := if (8192 <=? a) && (a <? 8256) then Some (8192, foo_a) else None.
Example ex_name : type_name dladdr 8192 = Ok (text "foo").
Proof. apply (typename_exact dladdr 8192 _ _ _ ltac:(lia) eq_refl foo_a_ok). Qed.

(* a library: null, a type, its names, an undefined type, a function, another type *)
Definition tab : list Z :=
  [0] ++ text "__uniqtype__int" ++ [0] ++ text "__uniqtype__foo_subobj_names" ++ [0] ++ text "__uniqtype__foo" ++ [0] ++ text "main" ++ [0].
Definition syms : list sym :=
  [mkSym 0 false true 0; mkSym 1 true false 256; mkSym 17 true false 512; mkSym 46 true true 0;
   mkSym 62 false false 1024; mkSym 46 true false 768].
Definition cb (a : list Z) (u : Z) : list Z * Z := (a ++ [u], 0).
Lemma at_ok off s : match skipn (Z.to_nat off) tab with x => str_eqb (firstn (length s + 1) x) (s ++ [0]) end = true ->
  forallb (fun c => negb (c =? 0)) s = true -> 0 <= off <= 66 -> string_at tab off s.
Proof.
  intros H Z O. apply str_eqb_eq in H.
  exists (firstn (Z.to_nat off) tab), (skipn (length s + 1) (skipn (Z.to_nat off) tab)).
  split; [|split].
  - rewrite <- (firstn_skipn (Z.to_nat off) tab) at 1. f_equal.
    rewrite <- (firstn_skipn (length s + 1) (skipn (Z.to_nat off) tab)) at 1. rewrite H. rewrite <- app_assoc. reflexivity.
  - rewrite firstn_length. change (length tab) with 67%nat. lia.
  - rewrite forallb_forall in Z. intros c Hc. specialize (Z c Hc). lia.
Qed.
Lemma syms_named : Forall (named tab) syms.
Proof.
  repeat apply Forall_cons; try apply Forall_nil; intros O U; try discriminate O; try discriminate U; cbn [st_name].
  - exists (text "__uniqtype__int"). split; [apply at_ok; try reflexivity; lia|]. split; [lia|]. cbn. lia.
  - exists (text "__uniqtype__foo_subobj_names"). split; [apply at_ok; try reflexivity; lia|]. split; [lia|]. cbn. lia.
  - exists (text "__uniqtype__foo"). split; [apply at_ok; try reflexivity; lia|]. split; [lia|]. cbn. lia.
Qed.
Example ex_iterate : iterate true cb (fun _ => true) tab 1048576 (2 ^ 30) 0 true syms [] = Ok ([1048832; 1049344], 0).
Proof. vm_compute. reflexivity. Qed.
Example ex_iterate_meets : exists a' v us,
  iterate true cb (fun _ => true) tab 1048576 (2 ^ 30) 0 true syms [] = Ok (a', v) /\
  types_of (fun _ => true) tab 1048576 syms us /\ calls cb [] us a' v.
Proof. apply iterate_types_exact_partial; try lia. exact syms_named. Qed.
End TnEx.

(* The restrictions are needed. *)

(* A code beginning with 8 is taken for the length of a header name: another type is found. *)
Theorem typename_code_refuted : exists dl name code s s',
  symbol_of name (Some code) s /\ symbol_of name None s' /\ dl s <> 0 /\ dl s <> dl s' /\
  forall dbg, typestr dbg dl (Some s) = Ok (dl s').
Proof.
  exists TnEx.dl, (text "foo"), TnEx.code_8, TnEx.foo_8, TnEx.plain_foo.
  split; [exact TnEx.foo_8_ok|]. split; [apply sym_plain|].
  split; [vm_compute; discriminate|]. split; [vm_compute; discriminate|].
  intros []; vm_compute; reflexivity.
Qed.

(* One beginning with 0 fails an assertion, or (in a release build) finds nothing right. *)
Theorem typename_zero_refuted : exists dl name code s,
  symbol_of name (Some code) s /\ dl s <> 0 /\
  typestr true dl (Some s) = Abort /\
  (exists s2 code2, symbol_of name (Some code2) s2 /\ dl s2 <> 0 /\ typestr false dl (Some s2) = UB).
Proof.
  exists (fun _ => 1), (text "foo"), TnEx.code_0, TnEx.foo_0.
  split; [exact TnEx.foo_0_ok|]. split; [discriminate|]. split; [vm_compute; reflexivity|].
  exists (text "__uniqtype_12345678_foo"), (text "12345678").
  split; [apply (sym_code (text "foo") (text "12345678")), TnEx.code_ok; reflexivity|].
  split; [discriminate|]. vm_compute. reflexivity.
Qed.

(* A long name with a header length overruns the buffer by its terminator. *)
Theorem typename_long_refuted : exists dl rest,
  typestr true dl (Some (text "__uniqtype_1" ++ rest)) = UB.
Proof. exists (fun _ => 1), (repeat 97 4085). vm_compute. reflexivity. Qed.

(* A symbol of fewer than nine bytes after the prefix is read past its end. *)
Theorem typename_short_refuted : exists dladdr u,
  dladdr (u + 1) = Some (u, text "__uniqtype_foo") /\ type_name dladdr u = UB.
Proof. exists (fun _ => Some (8192, text "__uniqtype_foo")), 8192. split; vm_compute; reflexivity. Qed.

(* An object without a name makes the iteration undefined. *)
Theorem iterate_unnamed_refuted : exists l,
  iterate true TnEx.cb (fun _ => true) TnEx.tab 1048576 (2 ^ 30) 0 true l [] = UB /\
  In (mkSym 0 true false 64) l.
Proof.
  exists (TnEx.syms ++ [mkSym 0 true false 64]). split; [vm_compute; reflexivity|].
  apply in_app_iff. right. left. reflexivity.
Qed.

(* A library loaded at address 0 has no types, as far as the iteration goes. *)
Theorem iterate_zero_refuted : exists l us,
  Forall (named TnEx.tab) l /\ types_of (fun _ => true) TnEx.tab 0 l us /\ us <> [] /\
  iterate true TnEx.cb (fun _ => true) TnEx.tab 0 (2 ^ 30) 0 true l [] = Ok ([], 0).
Proof.
  exists TnEx.syms.
  destruct (each_sym_ok (fun _ => true) TnEx.tab 0 TnEx.cb TnEx.syms TnEx.syms_named []) as (a' & v & us & H1 & H2 & H3).
  exists us. split; [exact TnEx.syms_named|]. split; [exact H2|]. split; [|reflexivity].
  intros ->. inversion H3; subst. vm_compute in H1. discriminate H1.
Qed.

Print Assumptions typename_code_refuted.
Print Assumptions typename_zero_refuted.
Print Assumptions typename_long_refuted.
Print Assumptions typename_short_refuted.
Print Assumptions iterate_unnamed_refuted.
Print Assumptions iterate_zero_refuted.
