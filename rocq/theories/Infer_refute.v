(* C77-C79: what does not hold of the types given to allocation sites, and examples. *)
From Verif Require Import Base Infer_model Infer_spec Infer_proof Infer_props.

Module IfEx.
Definition int := TSInt IInt.
Definition char := TSInt IChar.
Definition double := TSFloat 8.
(* struct 1 { struct 2 a; double x; };  struct 2 { char c; int b; };  struct 3 { int n; char s[1]; } *)
Definition fields (s : bool) (n : Z) : list field :=
  if n =? 1 then [mkF (TSComp true 2) false; mkF double false]
  else if n =? 2 then [mkF char false; mkF int false]
  else if n =? 3 then [mkF int false; mkF (TSArray char (Some 1)) false] else [].
Fixpoint sizeof (t : tsig) : Z :=
  match t with
  | TSInt IChar => 1 | TSInt IInt => 4 | TSFloat k => k | TSPtr _ => 8
  | TSArray t (Some n) => n * sizeof t | TSArray t None => 0
  | TSComp _ n => if n =? 1 then 16 else 8
  | _ => 1
  end.
(* everything else in a run counts for nothing *)
Definition value (e : exp) (path : list instr) : Z :=
  eval sizeof (fun _ _ => 0) (fun _ _ => 0) (fun _ => 0) (fun _ => 0) (fun _ _ => 0) e
    (exec sizeof (fun _ _ => 0) (fun _ _ => 0) (fun _ => 0) (fun _ => 0) (fun _ _ => 0) (fun _ _ => 0) path).
Definition set v e := Set_ false v 0 e.
Definition var v := LVar false v 0.
Definition times a b := BinOp Mult a b.
Definition plus a b := BinOp PlusA a b.
(* "malloc(Z)p", "calloc(zZ)p", "realloc(pZ)p", "posix_memalign(pzZ)p", "alloca(Z)p",
   "__builtin_alloca(Z)p" *)
Definition MALLOC : bytes := [109;97;108;108;111;99].
Definition CALLOC : bytes := [99;97;108;108;111;99].
Definition builtin : list sigd :=
  [mkSig MALLOC [90] [112]; mkSig CALLOC [122;90] [112];
   mkSig [114;101;97;108;108;111;99] [112;90] [112];
   mkSig [112;111;115;105;120;95;109;101;109;97;108;105;103;110] [112;122;90] [112];
   mkSig [97;108;108;111;99;97] [90] [112];
   mkSig [95;95;98;117;105;108;116;105;110;95;97;108;108;111;99;97] [90] [112]].

(* one = sizeof(int[2]); if (...) many = n * one; else many = one + sizeof(int); malloc(many + one) *)
Definition f1 : list stmt :=
  [Instr [set 1 (SizeOf (TSArray int (Some 2)))];
   If [Instr [set 2 (times (OtherE 0) (var 1))]] [Instr [set 2 (plus (var 1) (SizeOf int))]]; OtherS].
Definition T1 (v : Z) : option tsig := if (v =? 1) || (v =? 2) then Some int else None.
Definition arg1 : exp := plus (var 2) (var 1).
End IfEx.
Import IfEx.

Ltac cases H := repeat (destruct H as [H|H]; [try discriminate H; try (injection H; intros; subst)|]); try destruct H.

Ltac wh := solve
  [ apply wh_sizeof; reflexivity | apply wh_var; reflexivity | apply wh_plus; wh
  | apply wh_of; [solve [repeat constructor]|wh] | apply wh_times; [wh|solve [repeat constructor]] ].

Example f1_keeps : keeps T1 (flats f1).
Proof.
  intros v p e H. vm_compute in H. cases H; cbn -[flats]; wh.
Qed.
Definition rank1 (v : Z) : nat := if v =? 2 then 1 else 0.
Example f1_acyclic : acyclic rank1 (flats f1).
Proof. intros v p e H u Hu. vm_compute in H. cases H; cbn in Hu; cases Hu; cbn; lia. Qed.
Example f1_grounded : forall e, incl (reads e) [1; 2] -> grounded T1 (flats f1) e.
Proof.
  intros e I v Hv _. apply I in Hv. cbn in Hv. cases Hv.
  - exists 0, (SizeOf (TSArray int (Some 2))). vm_compute. tauto.
  - exists 0, (plus (var 1) (SizeOf int)). vm_compute. tauto.
Qed.
Example f1_typed : exists E, (forall fuel, (4 <= fuel)%nat -> analyse fields fuel f1 = Ok E) /\
  exists ts st, decay ts = int /\ written ts st /\
    alloc_call fields (Some MALLOC) [arg1] E (TSPtr TSVoid) (map render builtin) = Ok (Some (st, true)).
Proof.
  destruct (infer_site_partial fields f1 T1 rank1 2) as (E & H & Q).
  - exact f1_keeps.
  - exact f1_acyclic.
  - intros v. unfold rank1. destruct (v =? 2); lia.
  - intros v p e I. apply f1_grounded. vm_compute in I. cases I; cbn; intros x Hx; cases Hx; cbn; auto.
  - exists E. split; [exact H|].
    apply (Q [arg1] (TSPtr TSVoid) [] (mkSig MALLOC [90] [112]) (tl builtin) 0%nat int arg1).
    + repeat constructor; try discriminate; cbn; intros C; cases C; discriminate.
    + reflexivity.
    + constructor.
    + constructor. lia.
    + reflexivity.
    + wh.
    + apply f1_grounded. cbn. intros x Hx; cases Hx; cbn; auto.
Qed.
Example f1_out : analyse fields 4 f1 = Ok [(2, Existing (TSArray int (Some 2)) true); (1, Existing (TSArray int (Some 2)) true)]
  /\ alloc_call fields (Some MALLOC) [arg1] [(2, Existing (TSArray int (Some 2)) true); (1, Existing (TSArray int (Some 2)) true)] (TSPtr TSVoid) (map render builtin)
     = Ok (Some (Named int, true)).
Proof. split; vm_compute; reflexivity. Qed.
Example f1_value : (4 | value arg1 [set 1 (SizeOf (TSArray int (Some 2))); set 2 (plus (var 1) (SizeOf int))])
  /\ value arg1 [set 1 (SizeOf (TSArray int (Some 2))); set 2 (plus (var 1) (SizeOf int))] = 20.
Proof.
  split; [|vm_compute; reflexivity].
  apply (infer_whole_number sizeof _ _ _ _ _ T1 (flats f1)) with (t := int).
  - intros t [b|]; cbn; [apply Z.divide_factor_r|apply Z.divide_0_r].
  - exact f1_keeps.
  - intros i H. cbn in H. vm_compute. tauto.
  - intros v p t _. apply Z.divide_0_r.
  - wh.
Qed.
(* sz = sz + n * sizeof(struct 2) in a loop *)
Definition f2 : list stmt := [Loop [Instr [set 1 (plus (var 1) (times (OtherE 0) (SizeOf (TSComp true 2))))]]].
Example f2_ends : exists E, (forall fuel, (4 <= fuel)%nat -> analyse fields fuel f2 = Ok E).
Proof.
  apply (infer_ends_steady_partial fields f2 (fun v => if v =? 1 then Some (TSComp true 2) else None)).
  - intros v p e H. vm_compute in H. cases H. cbn. wh.
  - intros v t H. destruct (v =? 1); [injection H as <-; reflexivity|discriminate].
  - intros v p e t H I. vm_compute in H. cases H. cbn in I. cases I. reflexivity.
Qed.
Example f1_plain : get_size fields (times (OtherE 0) (Const 7)) [(1, Existing int true)] = Undet.
Proof. reflexivity. Qed.
Example f1_taken : fromw (taken arg1 ++ taken_in (flats f1)) (Existing int true) /\
  In (TSArray int (Some 2)) (taken_in (flats f1)).
Proof.
  split; [|vm_compute; tauto]. exists int. split; [vm_compute; tauto|now left].
Qed.
Example offset_found : get_size fields (AddrNull (TSComp true 3) (Fld true 3 1 NoOff)) [] = Existing (TSComp true 3) false
  /\ get_size fields (AddrNull (TSComp true 3) (Fld true 3 0 NoOff)) [] = Undet.
Proof. split; reflexivity. Qed.
Example direct_calls :
  alloc_expr fields (Some CALLOC) [OtherE 0; SizeOf int] [] (TSPtr TSVoid) (map render builtin) = Ok (Some (Existing int true)) /\
  alloc_expr fields (Some CALLOC) [SizeOf int] [] (TSPtr TSVoid) (map render builtin) = Ok None /\
  alloc_expr fields (Some [102]) [] [] (TSPtr double) (map render (builtin ++ [mkSig [102] [] [112]])) = Ok (Some (Existing double true)).
Proof. repeat split; vm_compute; reflexivity. Qed.

(* char a[6]; n = sizeof(a) / sizeof(char); malloc(n * sizeof(int)) *)
Example count_plain : plain (fun _ => None) (BinOp Div (SizeOf (TSArray char (Some 6))) (SizeOf char)).
Proof. apply (pl_count _ char); [wh|wh|reflexivity]. Qed.
(* a function whose signature marks no argument, returning a pointer to an array of two ints, is
   written as allocating that array *)
Example returned_ex : exists st, written (TSArray int (Some 2)) st /\
  alloc_call fields (Some [110]) [OtherE 0] [] (TSPtr (TSArray int (Some 2))) (map render [mkSig [110] [112] [112]]) = Ok (Some (st, true)).
Proof.
  apply (infer_returned fields [110] [OtherE 0] [] (TSArray int (Some 2)) [mkSig [110] [112] [112]] [] (mkSig [110] [112] [112]) []).
  - repeat constructor; try discriminate; cbn; intros C; cases C; discriminate.
  - reflexivity.
  - constructor.
  - split; reflexivity.
  - intros i C. inversion C; subst; [lia|]. match goal with K : capital_at [] _ |- _ => inversion K end.
Qed.
Example composite_ex : recorded (get_size fields (plus (SizeOf (TSComp true 3)) (times (OtherE 0) (SizeOf int))) []) =
  (Composite [TSComp true 3; TSArray int None], false).
Proof. reflexivity. Qed.
Example less_last_ex : get_size fields (BinOp MinusA (SizeOf (TSComp true 3)) (SizeOf char)) [] = Existing (TSComp true 3) false.
Proof. apply (infer_less_last fields [] 3 [mkF int false] (mkF (TSArray char (Some 1)) false)); auto. Qed.

(* ---- C78: the analysis need not end:
   while (...) { t = x; x = y * sizeof(int); y = t * sizeof(double); } *)
Definition f3 : list stmt :=
  [Loop [Instr [set 1 (var 2); set 2 (times (var 3) (SizeOf int)); set 3 (times (var 1) (SizeOf double))]]].
Theorem infer_endless_refuted : exists fields sts, forall fuel, analyse fields fuel sts = Fuel.
Proof.
  exists fields, f3.
  set (E2 := acc_stmts fields (acc_stmts fields [] f3) f3). set (E3 := acc_stmts fields E2 f3).
  assert (A : forall n, until fields n f3 E2 = Fuel /\ until fields n f3 E3 = Fuel).
  { induction n as [|n [H2 H3]]; [split; reflexivity|]. split; cbn [until].
    - fold E3. destruct (env_eq E3 E2) as [e|_]; [vm_compute in e; discriminate e|exact H3].
    - assert (e : acc_stmts fields E3 f3 = E2) by (vm_compute; reflexivity). rewrite e.
      destruct (env_eq E2 E3) as [e'|_]; [vm_compute in e'; discriminate e'|exact H2]. }
  intros fuel. unfold analyse. destruct fuel as [|n]; [reflexivity|]. cbn [until].
  destruct (env_eq (acc_stmts fields [] f3) []) as [e|_]; [vm_compute in e; discriminate e|].
  destruct n as [|n]; [reflexivity|]. cbn [until]. fold E2.
  destruct (env_eq E2 (acc_stmts fields [] f3)) as [e|_]; [vm_compute in e; discriminate e|]. apply A.
Qed.

(* ---- C77: a type may be given, as that of whole elements, to a call asking for something else *)
Definition wrong (sts : list stmt) (path : list instr) (e : exp) (t : tsig) : Prop :=
  (forall i, In i path -> In i (flats sts)) /\
  (exists E, analyse fields 9 sts = Ok E /\ recorded (get_size fields e E) = (Named t, true)) /\
  ~ (sizeof (decay t) | value e path).
(* n = sizeof(int); malloc(n); n = sizeof(double) *)
Theorem infer_reassigned_refuted : exists sts path e t, wrong sts path e t.
Proof.
  exists [Instr [set 1 (SizeOf int); set 1 (SizeOf double)]], [set 1 (SizeOf int)], (var 1), double.
  split; [intros i H; vm_compute in H |- *; tauto|]. split; [eexists; split; vm_compute; reflexivity|].
  intros [z D]. change (sizeof (decay double)) with 8 in D.
  match type of D with ?a = _ => let b := eval vm_compute in a in change a with b in D end. lia.
Qed.
(* n = sizeof(double); n = 3; malloc(n) *)
Theorem infer_number_refuted : exists sts path e t, wrong sts path e t.
Proof.
  exists [Instr [set 1 (SizeOf double); set 1 (Const 3)]], [set 1 (SizeOf double); set 1 (Const 3)], (var 1), double.
  split; [intros i H; vm_compute in H |- *; tauto|]. split; [eexists; split; vm_compute; reflexivity|].
  intros [z D]. change (sizeof (decay double)) with 8 in D.
  match type of D with ?a = _ => let b := eval vm_compute in a in change a with b in D end. lia.
Qed.
(* s.a = sizeof(double); s.b = 3; malloc(s.b) *)
Theorem infer_part_refuted : exists sts path v, 
  wrong sts path (LVar false v 2) double /\
  (forall e, In (Set_ false v 2 e) (flats sts) -> taken e = [] /\ reads e = []).
Proof.
  exists [Instr [Set_ false 1 1 (SizeOf double); Set_ false 1 2 (Const 3)]],
         [Set_ false 1 1 (SizeOf double); Set_ false 1 2 (Const 3)], 1. split.
  - split; [intros i H; vm_compute in H |- *; tauto|]. split; [eexists; split; vm_compute; reflexivity|].
    intros [z D]. change (sizeof (decay double)) with 8 in D.
  match type of D with ?a = _ => let b := eval vm_compute in a in change a with b in D end. lia.
  - intros e H. vm_compute in H. cases H. split; reflexivity.
Qed.
(* malloc(sizeof(double) / 2) *)
Theorem infer_half_refuted : wrong [] [] (BinOp Div (SizeOf double) (Const 2)) double.
Proof.
  split; [intros i []|]. split; [eexists; split; vm_compute; reflexivity|].
  intros [z D]. change (sizeof (decay double)) with 8 in D.
  match type of D with ?a = _ => let b := eval vm_compute in a in change a with b in D end. lia.
Qed.
(* and malloc(3 * sizeof(double) - sizeof(double)) is given no type *)
Theorem infer_minus_refuted : exists e, (sizeof double | value e []) /\ taken e = [double; double] /\
  recorded (get_size fields e []) = (RawBytes, true).
Proof.
  exists (BinOp MinusA (times (Const 3) (SizeOf double)) (SizeOf double)).
  split; [exists 2; vm_compute; reflexivity|]. split; reflexivity.
Qed.
(* offsetof(struct 1, a.b) is taken for the size of a struct 1 less its last field: its last is x *)
Theorem infer_nested_refuted : exists fields t o, get_size fields (AddrNull t o) [] = Existing t false /\ ~ at_end fields o.
Proof.
  exists fields, (TSComp true 1), (Fld true 1 0 (Fld true 2 1 NoOff)). split; [reflexivity|].
  intros [H _]. vm_compute in H. discriminate H.
Qed.

(* ---- C79: a call through a pointer, to anything, is listed if an argument mentions a size *)
Theorem infer_indirect_refuted : exists fields args ret, ret = TSVoid /\
  alloc_call fields None args [] ret (map render builtin) = Ok (Some (Named int, true)).
Proof. exists fields, [SizeOf int], TSVoid. split; [reflexivity|vm_compute; reflexivity]. Qed.
(* a signature without brackets stops the compiler at every call that is matched against it *)
Theorem infer_bare_stops : forall fields fn args E ret name more,
  name <> [] -> ~ In LP name -> ~ In BS name -> alloc_expr fields fn args E ret (name :: more) = Abort.
Proof.
  intros fields fn args E ret name more Hn H1 H2. cbn [alloc_expr]. unfold parse_sig.
  assert (S1 : span (fun c => negb ((c =? LP) || (c =? BS))) name = name).
  { clear Hn. induction name as [|c n IH]; cbn; [reflexivity|].
    destruct (Z.eqb_spec c LP); [exfalso; apply H1; now left|]. destruct (Z.eqb_spec c BS); [exfalso; apply H2; now left|].
    cbn. f_equal. apply IH; intros C; [apply H1|apply H2]; now right. }
  rewrite S1. destruct name as [|c n]; [tauto|].
  assert (L : (length (c :: n) <? S (length (c :: n)))%nat = true) by (apply Nat.ltb_lt; lia). now rewrite L.
Qed.
Theorem infer_bare_refuted : exists fields fn args sg,
  alloc_expr fields fn args [] (TSPtr TSVoid) (map render builtin ++ [sg]) = Abort.
Proof.
  exists fields, (Some [102]), [Const 1], [120;109;97;108;108;111;99]. vm_compute. reflexivity.
Qed.

Print Assumptions infer_ends_partial.
Print Assumptions infer_ends_steady_partial.
Print Assumptions infer_type_partial.
Print Assumptions infer_plain.
Print Assumptions infer_whole_number.
Print Assumptions infer_taken.
Print Assumptions infer_composite_partial.
Print Assumptions infer_less_last.
Print Assumptions infer_offset_partial.
Print Assumptions infer_offset_found.
Print Assumptions infer_direct.
Print Assumptions infer_returned.
Print Assumptions infer_site_partial.
Print Assumptions infer_endless_refuted.
Print Assumptions infer_reassigned_refuted.
Print Assumptions infer_number_refuted.
Print Assumptions infer_part_refuted.
Print Assumptions infer_half_refuted.
Print Assumptions infer_minus_refuted.
Print Assumptions infer_nested_refuted.
Print Assumptions infer_indirect_refuted.
Print Assumptions infer_bare_stops.
Print Assumptions infer_bare_refuted.
