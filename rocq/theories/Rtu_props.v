(* C65: the built-in types. *)
From Verif Require Import Base Intern_model Type_model Rtu_model Rtu_spec Rtu_proof.

Definition S0 := mkEs Vvoid (L "__uniqtype__void") (L "__uniqtype__void") 0 KVoid 1 [].
Definition S1 := mkEs Vbyte (L "__uniqtype____uninterpreted_byte") (L "__uniqtype____uninterpreted_byte") 1 (KBase 0) 1 [].
Definition S2 := mkEs Vsc (L "__uniqtype__signed_char$$8") (L "__uniqtype__signed_char$$8") 1 (KBase 6) 1 [].
Definition S3 := mkEs Vuc (L "__uniqtype__unsigned_char$$8") (L "__uniqtype__unsigned_char$$8") 1 (KBase 8) 1 [].
Definition S4 := mkEs Vul (L "__uniqtype__uint$$64") (L "__uniqtype__uint$$64") 8 (KBase 7) 1 [].
Definition S5 := mkEs Vl (L "__uniqtype__int$$64") (L "__uniqtype__int$$64") 8 (KBase 5) 1 [].
Definition S6 := mkEs Vpsc (L "__uniqtype____PTR_signed_char$$8") (L "__uniqtype____PTR_signed_char$$8") 8 (KAddr 1) 1 [Vsc].
Definition S7 := mkEs Vppsc (L "__uniqtype____PTR___PTR_signed_char$$8") (L "__uniqtype____PTR___PTR_signed_char$$8") 8 (KAddr 2) 1 [Vpsc].
Definition S8 := mkEs Vauxv (L "__uniqtype__Elf64_auxv_t") (L "__uniqtype__Elf64_auxv_t") 16 (KComp 2) 2 [Vul; Vul].
Definition S9 := mkEs Varr (L "__uniqtype____ARR0_signed_char$$8") (L "__uniqtype____ARR0_signed_char") UNBMAX (KArr UNBLEN) 2 [Vsc].

Lemma steps_eq : steps = [ensure S0; ensure S1; ensure S2; ensure S3; ensure S1; Fill (s_v S3) (s_v S2); Fill (s_v S2) (s_v S3);
  ensure S4; ensure S5; Fill (s_v S4) (s_v S5); Fill (s_v S5) (s_v S4); ensure S6; ensure S7; ensure S8; ensure S9; Look Vintptr (L "__uniqtype__intptr_t")].
Proof. reflexivity. Qed.

Ltac allof tac := repeat (apply Forall_cons; [tac|]); try apply Forall_nil.
Ltac oke := split; [allof ltac:(first [left; vm_compute; discriminate | right; reflexivity])|];
  split; [allof ltac:(first [left; vm_compute; discriminate | right; split; reflexivity])|];
  split; [cbn [s_rel]; allof ltac:(first [exists S2; split; [cbn [In]; tauto|reflexivity] | exists S6; split; [cbn [In]; tauto|reflexivity] | exists S4; split; [cbn [In]; tauto|reflexivity]])|vm_compute; lia].

Definition ready (w : rworld) (e : env) (v : var) : Prop :=
  exists i t o x, e v = Some i /\ nth_error w i = Some t /\ nth_error (r_rel t) 0 = Some (o, Some x).
(* after any program's own types, the first part of the work is done *)
Lemma start_inv w : Inv w [] w no_env.
Proof.
  constructor; [apply kept_refl|intros s u []| |intros s []].
  intros i t Hi Ht. assert (nth_error w i <> None) by congruence. apply nth_error_Some in H. lia.
Qed.

Lemma init_inv w : roomy w -> exists w' e', rt_init w = Ok (w', e') /\
  exists e, Inv w [S9; S8; S7; S6; S5; S4; S1; S3; S2; S1; S0] w' e /\ (forall v, v <> Vintptr -> e' v = e v).
Proof.
  intro HR. unfold rt_init. rewrite steps_eq. cbn [rrun].
  destruct (ensure_inv w _ _ _ S0 (start_inv w)) as (w1 & e1 & E1 & I1); [oke|]. rewrite E1. cbn [bind]. clear E1.
  destruct (ensure_inv w _ _ _ S1 I1) as (w2 & e2 & E2 & I2); [oke|]. rewrite E2. cbn [bind]. clear E2.
  destruct (ensure_inv w _ _ _ S2 I2) as (w3 & e3 & E3 & I3); [oke|]. rewrite E3. cbn [bind]. clear E3.
  destruct (ensure_inv w _ _ _ S3 I3) as (w4 & e4 & E4 & I4); [oke|]. rewrite E4. cbn [bind]. clear E4.
  destruct (ensure_inv w _ _ _ S1 I4) as (w5 & e5 & E5 & I5); [oke|]. rewrite E5. cbn [bind]. clear E5.
  destruct (fill_inv w _ _ _ S3 S2 I5) as (w6 & E6 & I6 & _); [cbn [In]; auto 10|cbn [In]; auto 10|cbn; lia|intros t Ht Hs; apply HR; [exact Ht|rewrite Hs; cbn [s_look S3]; auto]|].
  rewrite E6. cbn [bind]. clear E6.
  destruct (fill_inv w _ _ _ S2 S3 I6) as (w7 & E7 & I7 & _); [cbn [In]; auto 10|cbn [In]; auto 10|cbn; lia|intros t Ht Hs; apply HR; [exact Ht|rewrite Hs; cbn [s_look S2]; auto]|].
  rewrite E7. cbn [bind]. clear E7.
  destruct (ensure_inv w _ _ _ S4 I7) as (w8 & e8 & E8 & I8); [oke|]. rewrite E8. cbn [bind]. clear E8.
  destruct (ensure_inv w _ _ _ S5 I8) as (w9 & e9 & E9 & I9); [oke|]. rewrite E9. cbn [bind]. clear E9.
  destruct (fill_inv w _ _ _ S4 S5 I9) as (w10 & E10 & I10 & _); [cbn [In]; auto 10|cbn [In]; auto 10|cbn; lia|intros t Ht Hs; apply HR; [exact Ht|rewrite Hs; cbn [s_look S4]; auto]|].
  rewrite E10. cbn [bind]. clear E10.
  destruct (fill_inv w _ _ _ S5 S4 I10) as (w11 & E11 & I11 & _); [cbn [In]; auto 10|cbn [In]; auto 10|cbn; lia|intros t Ht Hs; apply HR; [exact Ht|rewrite Hs; cbn [s_look S5]; auto]|].
  rewrite E11. cbn [bind]. clear E11.
  destruct (ensure_inv w _ _ _ S6 I11) as (w12 & e12 & E12 & I12); [oke|]. rewrite E12. cbn [bind]. clear E12.
  destruct (ensure_inv w _ _ _ S7 I12) as (w13 & e13 & E13 & I13); [oke|]. rewrite E13. cbn [bind]. clear E13.
  destruct (ensure_inv w _ _ _ S8 I13) as (w14 & e14 & E14 & I14); [oke|]. rewrite E14. cbn [bind]. clear E14.
  destruct (ensure_inv w _ _ _ S9 I14) as (w15 & e15 & E15 & I15); [oke|]. rewrite E15. cbn [bind]. clear E15.
  cbn [rstep1 bind]. eexists. eexists. split; [reflexivity|]. exists e15. split; [exact I15|].
  intros v Hv. apply set_other. exact Hv.
Qed.

(* For every program: set-up succeeds; the program's own types stay, empty counterparts aside; and
   each built-in type is the one the program defines by that name or, if it defines none, a new one
   of the size and kind, referring to the types, that its name says.  Looking the name up later
   finds that type.  Full statement: also of the unbounded array of characters, which is entered
   under another name than it is looked up by (rtu_array_refuted); that the members of
   Elf64_auxv_t are at their offsets (rtu_auxv_refuted); and that there is a type intptr_t
   (rtu_intptr_refuted). *)
Theorem rtu_builtin_partial : forall w, roomy w -> exists w' e, rt_init w = Ok (w', e) /\ kept w w' /\
  forall v name size k rel, In (v, name, size, k, rel) table ->
    exists i t, e v = Some i /\ nth_error w' i = Some t /\
      (first_named w name i \/ (unnamed w name /\ as_said e size k rel t)) /\
      (v <> Varr -> first_named w' name i).
Proof.
  intros w HR. destruct (init_inv w HR) as (w' & e' & E & e & I & He). exists w', e'. split; [exact E|].
  split; [exact (i_kept _ _ _ _ I)|]. intros v name size k rel Ht.
  assert (G : forall s, In s [S9; S8; S7; S6; S5; S4; S1; S3; S2; S1; S0] -> (s_look s = s_bind s \/ s_v s = Varr) -> s_v s <> Vintptr ->
     ~ In Vintptr (s_rel s) ->
     exists i t, e' (s_v s) = Some i /\ nth_error w' i = Some t /\
      (first_named w (s_look s) i \/ (unnamed w (s_look s) /\ as_said e' (s_size s) (s_kind s) (s_rel s) t)) /\
      (s_v s <> Varr -> first_named w' (s_look s) i)).
  { intros s Hs Hb Nv Nr. destruct (i_done _ _ _ _ I s Hs) as (i & t & A & B & C & D). exists i, t.
    split; [rewrite He by exact Nv; exact A|]. split; [exact B|]. split.
    - destruct D as [D|(D1 & _ & (_ & D2 & _))]; [left; exact D|right]. split; [exact D1|].
      eapply as_said_filled; [|apply filled_refl|exact D2]. intros u Hu. apply He. intros ->. exact (Nr Hu).
    - intro Nv'. destruct Hb as [Hb|Hb]; [exact (C Hb)|contradiction]. }
  cbn [table In] in Ht.
  destruct Ht as [H|[H|[H|[H|[H|[H|[H|[H|[H|[H|[]]]]]]]]]]]; injection H as <- <- <- <- <-.
  - apply (G S0); [cbn [In]; auto 20|left; reflexivity|discriminate|intros []].
  - apply (G S1); [cbn [In]; auto 20|left; reflexivity|discriminate|intros []].
  - apply (G S2); [cbn [In]; auto 20|left; reflexivity|discriminate|intros []].
  - apply (G S3); [cbn [In]; auto 20|left; reflexivity|discriminate|intros []].
  - apply (G S4); [cbn [In]; auto 20|left; reflexivity|discriminate|intros []].
  - apply (G S5); [cbn [In]; auto 20|left; reflexivity|discriminate|intros []].
  - apply (G S6); [cbn [In]; auto 20|left; reflexivity|discriminate|cbn; intuition discriminate].
  - apply (G S7); [cbn [In]; auto 20|left; reflexivity|discriminate|cbn; intuition discriminate].
  - apply (G S8); [cbn [In]; auto 20|left; reflexivity|discriminate|cbn; intuition discriminate].
  - apply (G S9); [cbn [In]; auto 20|right; reflexivity|discriminate|cbn; intuition discriminate].
Qed.

(* ------------------------------------------------------------ concrete cases *)
Module RtEx.
  (* a program that has its own signed char, and int *)
  Definition w : rworld := [mkRt (L "__uniqtype__int$$32") 4 (KBase 5) [(0, None)];
                            mkRt (L "__uniqtype__signed_char$$8") 1 (KBase 6) [(0, None)]].
  Lemma w_roomy : roomy w.
  Proof. intros t [<-|[<-|[]]] _; discriminate. Qed.
  Example ex_init : roomy w /\ exists w' e, rt_init w = Ok (w', e) /\ e Vsc = Some 1%nat /\ e Vuc = Some 4%nat /\ length w' = 11%nat /\
    nth_error w' 1 = Some (mkRt (L "__uniqtype__signed_char$$8") 1 (KBase 6) [(0, Some 4%nat)]) /\
    nth_error w' 4 = Some (mkRt (L "__uniqtype__unsigned_char$$8") 1 (KBase 8) [(0, Some 1%nat)]) /\
    nth_error w' 7 = Some (mkRt (L "__uniqtype____PTR_signed_char$$8") 8 (KAddr 1) [(0, Some 1%nat)]).
  Proof. split; [exact w_roomy|]. eexists. eexists. split; [vm_compute; reflexivity|]. repeat split; vm_compute; reflexivity. Qed.

  (* ---------------------------------------------------------- what fails *)
  (* The array of characters is not found by the name it is looked up by, so a library loaded and
     set up after this one makes a second. *)
  Theorem rtu_array_refuted : exists w w' e w'' e'', roomy w /\ rt_init w = Ok (w', e) /\
    unnamed w' (L "__uniqtype____ARR0_signed_char$$8") /\
    rt_init w' = Ok (w'', e'') /\ e'' Varr <> e Varr /\ forall v, v <> Varr -> v <> Vintptr -> e'' v = e v.
  Proof.
    exists w. eexists. eexists. eexists. eexists. split; [exact w_roomy|]. split; [vm_compute; reflexivity|]. split.
    - intros t Ht. vm_compute in Ht. repeat (destruct Ht as [<-|Ht]; [vm_compute; discriminate|]). destruct Ht.
    - split; [vm_compute; reflexivity|]. split; [vm_compute; discriminate|]. intros v N1 N2. destruct v; try contradiction; vm_compute; reflexivity.
  Qed.
  (* The two words of Elf64_auxv_t are both at offset 0, so a search for its second
     word answers with the first, at an offset beyond its end. *)
  Definition tree (t : rt) : ty := TComp 1 (r_size t) (map (fun p => (fst p, TLeaf 2 8)) (r_rel t)).
  Theorem rtu_auxv_refuted : exists w w' e i t, roomy w /\ rt_init w = Ok (w', e) /\ e Vauxv = Some i /\ nth_error w' i = Some t /\
    map fst (r_rel t) = [0; 0] /\ first_spanning (tree t) 8 = Ok (Some (0%nat, TLeaf 2 8, 8)) /\
    first_spanning (TComp 1 16 [(0, TLeaf 2 8); (8, TLeaf 2 8)]) 8 = Ok (Some (1%nat, TLeaf 2 8, 0)).
  Proof. exists w. eexists. eexists. eexists. eexists. split; [exact w_roomy|]. split; [vm_compute; reflexivity|]. repeat split; vm_compute; reflexivity. Qed.
  (* Nothing is made for intptr_t. *)
  Theorem rtu_intptr_refuted : exists w w' e, roomy w /\ rt_init w = Ok (w', e) /\ e Vintptr = None.
  Proof. exists w. eexists. eexists. split; [exact w_roomy|]. split; vm_compute; reflexivity. Qed.
  (* A new pointer type has no room for what it ultimately points to, which asking for the pointer
     type to it reads. *)
  Theorem rtu_ultimate_refuted : exists w w' e i, roomy w /\ rt_init w = Ok (w', e) /\ e Vppsc = Some i /\ ultimate w' i = UB.
  Proof. exists w. eexists. eexists. eexists. split; [exact w_roomy|]. split; [vm_compute; reflexivity|]. split; vm_compute; reflexivity. Qed.
End RtEx.

Print Assumptions rtu_builtin_partial.
Print Assumptions RtEx.rtu_array_refuted.
Print Assumptions RtEx.rtu_auxv_refuted.
Print Assumptions RtEx.rtu_intptr_refuted.
Print Assumptions RtEx.rtu_ultimate_refuted.
