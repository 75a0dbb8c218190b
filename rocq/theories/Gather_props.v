(* Allocation sites, from disassembly and sources to the answer at run time. *)
From Coq Require Import String Permutation.
From Verif Require Import Base Meta_model Meta_proof Allocsites_model Allocsites_props Gather_model Gather_spec Gather_awk Gather_merge.

(* Exactly the calls in a disassembly are found, in order, with their return addresses and the
   source lines shown for them. *)
Theorem gather_calls_exact l : wf_listing l -> followed (all_ins l) ->
  map (fun '(a, f, lo, hi) => mkO a f lo hi) (awk (show l)) = calls l.
Proof. apply awk_calls. Qed.
Print Assumptions gather_calls_exact.

(* Merging lists that are in order gives each call, in order, the first source-level site on its
   lines, or none if there is none. *)
Theorem gather_merge_exact os ss :
  Forall oshort os -> ForallOrdPairs obefore os -> Forall sshort ss -> in_order ss ->
  map fst (merge os ss) = os /\ (forall o m, In (o, m) (merge os ss) -> first_on ss o m).
Proof. intros A B C D. apply (merge_ok os ss A B C D [] ss eq_refl). intros o s _ []. Qed.
Print Assumptions gather_merge_exact.

(* The table generated is sorted and has exactly the calls with a source-level site of known type. *)
Theorem gather_table_exact resolve l srcs :
  wf_listing l -> followed (all_ins l) -> NoDup (map o_addr (calls l)) ->
  Forall oshort (calls l) -> Forall sshort srcs ->
  let T := tables_for resolve str_cmp (show l) srcs in
  increasing (map fst T) /\
  exists ss, Permutation ss srcs /\ in_order ss /\
    forall a t, In (a, t) T <->
      exists o s, In o (calls l) /\ o_addr o = a /\ first_on ss o (Some s) /\ resolve (s_type s) = Some t.
Proof.
  intros Hl Hf Hn Ho Hs T.
  set (os := objects (show l)).
  assert (Eo : os = isort obj_le (calls l)) by (unfold os, objects; f_equal; apply awk_calls; assumption).
  assert (Po : Permutation os (calls l)) by (rewrite Eo; apply isort_perm).
  set (ss := sources str_cmp srcs). assert (Ps : Permutation ss srcs) by apply isort_perm.
  assert (Hos : Forall oshort os) by (rewrite Forall_forall in *; intros o H; apply Ho; apply (Permutation_in _ Po); exact H).
  assert (Hss : Forall sshort ss) by (rewrite Forall_forall in *; intros s H; apply Hs; apply (Permutation_in _ Ps); exact H).
  assert (Hi : in_order ss) by (apply srcs_sorted; exact Hs).
  destruct (gather_merge_exact os ss Hos ltac:(rewrite Eo; apply objs_sorted; exact Ho) Hss Hi) as (M1 & M2).
  assert (ET : T = table resolve (merge os ss)) by reflexivity.
  split.
  - rewrite ET. apply increasing_of, table_increasing. rewrite <- (map_map fst o_addr), M1.
    apply (Permutation_NoDup (l := map o_addr (calls l))); [|exact Hn]. apply Permutation_map, Permutation_sym, Po.
  - exists ss. split; [exact Ps|]. split; [exact Hi|]. intros a t. rewrite ET, table_in. split.
    + intros (o & s & H1 & H2 & H3). exists o, s. split; [|split; [exact H2|split; [exact (M2 _ _ H1) | exact H3]]].
      apply (Permutation_in _ Po). rewrite <- M1. apply (in_map fst _ (o, Some s)) in H1. exact H1.
    + intros (o & s & H1 & H2 & H3 & H4). apply (Permutation_in _ (Permutation_sym Po)) in H1.
      rewrite <- M1 in H1. apply in_map_iff in H1. destruct H1 as ((o', m) & E & H1). cbn in E. subst o'.
      pose proof (M2 _ _ H1) as Q. exists o, s. split; [|auto].
      destruct m as [s'|].
      * cbn in Q, H3. destruct Q as (x & y & E1 & O1 & N1). destruct H3 as (x' & y' & E2 & O2 & N2).
        assert (Hxx : s' = s).
        { rewrite E1 in E2. clear - E2 O1 N1 O2 N2. revert x' E2 N2. induction x as [|z x IH]; intros [|z' x'] E2 N2; cbn in E2.
          - injection E2 as -> _. reflexivity.
          - injection E2 as <- _. exfalso. apply (N2 s'); [left; reflexivity | exact O1].
          - injection E2 as -> _. exfalso. apply (N1 s); [left; reflexivity | exact O2].
          - injection E2 as <- E2. apply (IH (fun u H => N1 u (or_intror H)) x' E2 (fun u H => N2 u (or_intror H))). }
        rewrite Hxx in H1. exact H1.
      * exfalso. cbn in Q, H3. destruct H3 as (x & y & E & O & _). apply (Q s); [rewrite E; apply in_or_app; right; left; reflexivity | exact O].
Qed.
Print Assumptions gather_table_exact.

(* Whatever else is loaded and unloaded, while the file is loaded its calls are found to allocate
   the type of the source-level site. *)
Theorem gather_runtime_exact resolve l srcs h types f o t :
  wf_listing l -> followed (all_ins l) -> NoDup (map o_addr (calls l)) ->
  Forall oshort (calls l) -> Forall sshort srcs ->
  legal [] h -> tables h <= 256 -> sites_loaded h <= 65535 ->
  In f (live_after [] h) ->
  f_sites f = Some (map fst (tables_for resolve str_cmp (show l) srcs)) -> types f = map snd (tables_for resolve str_cmp (show l) srcs) ->
  In o (calls l) -> (exists s, In s srcs /\ on_lines o s) ->
  (forall s, In s srcs -> on_lines o s -> resolve (s_type s) = Some t) ->
  exists st, arun init h = Ok st /\ type_at types st (f_base f + o_addr o) = Some t.
Proof.
  intros Hl Hf Hn Ho Hs L T S Hin Esites Etypes Hino (s0 & Hs0 & Hon) Hall.
  destruct (gather_table_exact resolve l srcs Hl Hf Hn Ho Hs) as (Inc & ss & Ps & Hord & Hiff). cbv zeta in *.
  set (TT := tables_for resolve str_cmp (show l) srcs) in *.
  assert (HT : In (o_addr o, t) TT).
  { apply Hiff.
    assert (F : exists s, first_on ss o (Some s)).
    { assert (Hs1 : In s0 ss) by (apply (Permutation_in _ (Permutation_sym Ps)); exact Hs0).
      assert (DEC : forall x, on_lines o x \/ ~ on_lines o x).
      { intros x. unfold on_lines. destruct (str_eqb (s_file x) (o_file o)) eqn:E.
        - apply str_eqb_eq in E. destruct (Z_le_dec (o_lo o) (s_line x)); destruct (Z_lt_dec (s_line x) (o_hi o)); tauto.
        - right. intros (Q & _). rewrite Q, str_eqb_refl in E. discriminate. }
      clear - Hs1 Hon DEC. induction ss as [|x r IH]; [contradiction|]. destruct (DEC x) as [X|X].
      - exists x, [], r. split; [reflexivity|]. split; [exact X | contradiction].
      - destruct Hs1 as [->|Hs1]; [contradiction|]. destruct (IH Hs1) as (s & a & b & -> & H1 & H2).
        exists s, (x :: a), b. split; [reflexivity|]. split; [exact H1|]. intros y [<-|Hy]; auto. }
    destruct F as (s & F). exists o, s. split; [exact Hino|]. split; [reflexivity|]. split; [exact F|].
    destruct F as (a & b & E & O & _). apply Hall; [|exact O]. apply (Permutation_in _ Ps). rewrite E. apply in_or_app; right; left; reflexivity. }
  destruct (arun_inv h init [] 0) as (st & E & I); auto; try (cbn; lia).
  { split; [|split; [reflexivity|split; [intros p []|constructor]]].
    split; [intros [|k] e; discriminate|]. split; [intros [|j] k e e' _; discriminate|].
    split; [discriminate|reflexivity]. }
  exists st. split; [exact E|].
  assert (I0 := I). destruct I as (Sp & Fm & Fo & P). rewrite <- Fm in Hin.
  apply in_map_iff in Hin. destruct Hin as ((f' & ok) & Ef & Hp). cbn in Ef. subst f'.
  destruct (Fo _ Hp) as (W & Hlo & X). cbn [fst snd] in *.
  unfold wf_file in W. rewrite Esites in W. destruct W as [_ Rng].
  destruct ok as [k|]; [|congruence]. destruct X as (e & Ek & Eb & Ep).
  assert (Q : e_ptr e = map fst TT) by congruence.
  pose proof (get_file_ok st _ _ (f, Some k) (f_base f + o_addr o) I0 Hp (Rng _ (in_map fst _ _ HT))) as G.
  destruct (In_nth_error _ _ HT) as (i & Hi).
  unfold type_at, find_entry. rewrite G, Ek.
  destruct Sp as (A & _). destruct (A k e Ek) as (A1 & A2 & A3).
  rewrite A1, Nat2Z.id, firstn_all, Q. replace (f_base f + o_addr o - f_base f) with (o_addr o) by lia.
  assert (Li : (i < List.length TT)%nat) by (apply nth_error_Some; congruence).
  assert (Ni : nth i (map fst TT) 0 = o_addr o) by (apply nth_error_nth; rewrite (map_nth_error fst _ _ Hi); reflexivity).
  rewrite (bsearch_at (map fst TT) (o_addr o) i).
  - rewrite Etypes, (map_nth_error snd _ _ Hi). reflexivity.
  - rewrite map_length. exact Li.
  - lia.
  - intros j Hj. rewrite <- Ni. apply increasing_nth; [exact Inc | lia].
Qed.
Print Assumptions gather_runtime_exact.

Module GaEx.
  Local Open Scope string_scope. Local Open Scope Z_scope.
  Definition ac : str := of_string "/src/a.c".
  Definition bc : str := of_string "/src/b.c".
  Definition i (a n : Z) (c : bool) := mkIn a n c.
  (* two files; source lines that look like other things; a function of unknown file *)
  Definition ls : listing := mkL 2 [
    mkSec true [mkB false true None [] [i 0x1000 4 false; i 0x1004 5 true; i 0x1009 1 false]];
    mkSec true [
      mkB false true (Some (bc, 10)) [CText; CFun; CFile ac 3; CBlank] [i 0x1020 5 true; i 0x1025 3 false];
      mkB false false (Some (bc, 20)) [CText] [i 0x1028 5 true; i 0x102d 5 true];
      mkB true true (Some (ac, 7)) [] [i 0x1032 5 true; i 0x1037 2 false]]].
  Definition sl : list src := [mkS bc 11 (of_string "A"); mkS bc 20 (of_string "B"); mkS ac 7 (of_string "C"); mkS ac 9 (of_string "D")].
  Definition res1 (s : str) : option Z := match s with [65] => Some 1 | [66] => Some 2 | [67] => Some 3 | _ => None end.
  Example hyps : wf_listing ls /\ followed (all_ins ls) /\ NoDup (map o_addr (calls ls)) /\ Forall oshort (calls ls) /\ Forall sshort sl.
  Proof.
    split.
    { unfold wf_listing, ls, l_secs, sec_blocks.
      repeat (first [apply Forall_cons | apply Forall_nil | split | discriminate | reflexivity | exact I | (intros; discriminate) | (intros; reflexivity)]). }
    split.
    { cbn. repeat split; try discriminate; intros _; eexists; eexists; (split; [reflexivity|]); reflexivity. }
    split.
    { vm_compute. repeat (apply NoDup_cons; [cbn; intuition discriminate|]). apply NoDup_nil. }
    split; repeat (first [apply Forall_cons; [vm_compute; intuition discriminate|] | apply Forall_nil]).
  Qed.
  Example found : tables_for res1 str_cmp (show ls) sl = [(0x1025, 1); (0x102d, 2); (0x1032, 2); (0x1037, 3)].
  Proof. vm_compute. reflexivity. Qed.
  Definition f1 : file := mkFile 0x400000 0x500000 0x400000 (Some (map fst (tables_for res1 str_cmp (show ls) sl))).
  Definition f2 : file := mkFile 0x600000 0x700000 0x600000 (Some [0x10; 0x20]).
  Definition h := [Load f2; Load f1; Unload 0x600000].
  Definition types (f : file) : list Z := if f_lo f =? 0x400000 then map snd (tables_for res1 str_cmp (show ls) sl) else [8; 9].
  Example history : legal [] h /\ tables h <= 256 /\ sites_loaded h <= 65535 /\ In f1 (live_after [] h).
  Proof.
    split; [|vm_compute; intuition discriminate]. unfold h. cbn [legal]. unfold wf_file, apart, f1, f2. cbn [f_sites f_lo f_hi f_base].
    rewrite found. cbn [map fst]. split; [split; [cbn [increasing]; lia | intros v Hv; cbn [In] in Hv; lia]|]. split; [lia|]. split; [intros g []|].
    split; [split; [cbn [increasing]; lia | intros v Hv; cbn [In] in Hv; lia]|]. split; [lia|]. split; [|exact I].
    intros g [<-|[]]. cbn [f_lo f_hi]. lia.
  Qed.
  Example answers : match arun init h with
    | Ok st => map (type_at types st) [0x401025; 0x40102d; 0x401032; 0x401037] = [Some 1; Some 2; Some 2; Some 3]
    | _ => False end.
  Proof. vm_compute. reflexivity. Qed.
End GaEx.
