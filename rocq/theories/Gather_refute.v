(* Sites that get another's type, or none. *)
From Coq Require Import String Permutation.
From Verif Require Import Base Meta_model Meta_proof Allocsites_model Allocsites_props Gather_model Gather_spec Gather_awk Gather_merge Gather_props.
Import GaEx.
Local Open Scope string_scope. Local Open Scope Z_scope.

(* A call whose lines have no source-level site gets no entry, and then the type of the call before it. *)
Theorem gather_untyped_refuted : exists l srcs h f o t,
  wf_listing l /\ followed (all_ins l) /\ In o (calls l) /\ (forall s, In s srcs -> ~ on_lines o s) /\
  f_sites f = Some (map fst (tables_for res1 str_cmp (show l) srcs)) /\ In f (live_after [] h) /\
  match arun init h with Ok st => type_at (fun _ => map snd (tables_for res1 str_cmp (show l) srcs)) st (f_base f + o_addr o) = Some t | _ => False end.
Proof.
  set (l1 := mkL 0 [mkSec false [mkB false true (Some (ac, 5)) [CText] [i 16 5 true]; mkB false false (Some (ac, 9)) [CText] [i 21 5 true; i 26 1 false]]]).
  set (s1 := [mkS ac 5 (of_string "A")]).
  set (ff := mkFile 0 4096 0 (Some (map fst (tables_for res1 str_cmp (show l1) s1)))).
  exists l1, s1, [Load ff], ff, (mkO 26 ac 9 10), 1.
  split.
  { unfold wf_listing, l1, l_secs, sec_blocks.
    repeat (first [apply Forall_cons | apply Forall_nil | split | discriminate | reflexivity | exact I | (intros; discriminate) | (intros; reflexivity)]). }
  split.
  { cbn. repeat split; try discriminate; intros _; eexists; eexists; (split; [reflexivity|]); reflexivity. }
  split; [vm_compute; auto|]. split; [intros s [<-|[]] (_ & H); cbn in H; lia|].
  split; [reflexivity|]. split; [left; reflexivity|]. vm_compute. reflexivity.
Qed.
Print Assumptions gather_untyped_refuted.

(* Two allocations of different types on a line: both calls get the first type. *)
Theorem gather_same_line_refuted : exists o1 o2 s1 s2,
  o_addr o1 <> o_addr o2 /\ s_type s1 <> s_type s2 /\ on_lines o1 s1 /\ on_lines o2 s2 /\
  in_order [s1; s2] /\ merge [o1; o2] [s1; s2] = [(o1, Some s1); (o2, Some s1)].
Proof.
  exists (mkO 16 ac 5 6), (mkO 32 ac 5 6), (mkS ac 5 (of_string "A")), (mkS ac 5 (of_string "B")).
  split; [discriminate|]. split; [discriminate|]. split; [split; [reflexivity|cbn; lia]|]. split; [split; [reflexivity|cbn; lia]|].
  split; [|vm_compute; reflexivity].
  apply FOP_cons; [|apply FOP_cons; [apply Forall_nil|apply FOP_nil]]. apply Forall_cons; [|apply Forall_nil]. right. split; [reflexivity|cbn; lia].
Qed.
Print Assumptions gather_same_line_refuted.

(* Line 999999: the next line's number is longer, and compares less. *)
Theorem gather_long_file_refuted : exists o s, on_lines o s /\ merge [o] [s] = [(o, None)].
Proof.
  exists (mkO 16 ac 999999 1000000), (mkS ac 999999 (of_string "A")). split; [split; [reflexivity|cbn; lia]|]. vm_compute. reflexivity.
Qed.
Print Assumptions gather_long_file_refuted.

(* Sources sorted in the user's locale, here one that does not distinguish cases first, while the calls and
   the comparisons are in the order of bytes. *)
Definition lower (c : Z) : Z := if (65 <=? c) && (c <=? 90) then c + 32 else c.
Definition locale (a b : str) : comparison :=
  match str_cmp (map lower a) (map lower b) with Eq => str_cmp a b | c => c end.
Theorem gather_locale_refuted : exists os srcs o s,
  Forall oshort os /\ ForallOrdPairs obefore os /\ Forall sshort srcs /\ In o os /\ In s srcs /\ on_lines o s /\
  In (o, None) (merge os (sources locale srcs)).
Proof.
  exists [mkO 16 (of_string "B.c") 5 6; mkO 32 (of_string "a.c") 7 8], [mkS (of_string "B.c") 5 (of_string "A"); mkS (of_string "a.c") 7 (of_string "B")],
    (mkO 16 (of_string "B.c") 5 6), (mkS (of_string "B.c") 5 (of_string "A")).
  split; [repeat (first [apply Forall_cons; [vm_compute; intuition discriminate|] | apply Forall_nil])|].
  split; [apply FOP_cons; [apply Forall_cons; [left; reflexivity | apply Forall_nil] | apply FOP_cons; [apply Forall_nil | apply FOP_nil]]|].
  split; [repeat (first [apply Forall_cons; [vm_compute; intuition discriminate|] | apply Forall_nil])|].
  split; [left; reflexivity|]. split; [left; reflexivity|]. split; [split; [reflexivity | cbn; lia]|].
  vm_compute. auto.
Qed.
Print Assumptions gather_locale_refuted.

(* A first source line that ends in "():", as where a constructor's initialisers follow, is taken
   for a function's name, and the file and line just read are forgotten. *)
Theorem gather_constructor_refuted : exists l,
  followed (all_ins l) /\ Forall (fun s => Forall (fun b => Forall source_text (b_src b) /\ b_ins b <> []) (sec_blocks s)) (l_secs l) /\
  calls l = [mkO 21 ac 5 7] /\ awk (show l) = [(21, question, 0, 1)].
Proof.
  exists (mkL 0 [mkSec false [mkB false false (Some (ac, 5)) [CFun; CText] [i 16 5 true; i 21 1 false]]]).
  split; [cbn; repeat split; try discriminate; intros _; eexists; eexists; (split; [reflexivity|]); reflexivity|].
  split; [repeat (first [apply Forall_cons | apply Forall_nil | split | discriminate | exact I])|].
  split; vm_compute; reflexivity.
Qed.
Print Assumptions gather_constructor_refuted.

(* The return address is taken to be the next instruction's: a call at the end of a section returns
   to the next section's beginning, and the last call is not found. *)
Theorem gather_last_call_refuted : exists l,
  wf_listing l /\ map o_addr (calls l) = [21; 0x105] /\ map (fun '(a, _, _, _) => a) (awk (show l)) = [0x100].
Proof.
  exists (mkL 0 [mkSec false [mkB false true (Some (ac, 5)) [CText] [i 16 5 true]]; mkSec false [mkB false true (Some (ac, 8)) [CText] [i 0x100 5 true]]]).
  split; [|split; vm_compute; reflexivity].
  unfold wf_listing, l_secs, sec_blocks.
  repeat (first [apply Forall_cons | apply Forall_nil | split | discriminate | reflexivity | exact I | (intros; discriminate) | (intros; reflexivity)]).
Qed.
Print Assumptions gather_last_call_refuted.
