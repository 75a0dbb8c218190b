(* C09-C12: the concrete cases behind the theorems of Map_props, and what is false of the code. *)
From Verif Require Import Base Big_model Big_spec Big_inv Big_create Big_hist Big_props Map_model Map_spec Big_field Map_seq Map_state Map_hist Map_props Map_ex.
Import Ex.

(* ---- the theorems' hypotheses are met ---- *)
Example map_mirrors_ex : mreach true (e5 true) M5 /\ mirrors (e5 true) M5 /\
  M5 2097152 = Some (mkAttr 5 2 (Some 7) 0) /\ M5 2101248 = None /\ M5 2121728 = Some t0 /\ M5 1069056 = Some (mkAttr 0 50 None 0).
Proof. split; [apply h5|]. split; [apply (map_mirrors_partial _ _ _ _ _ _ _ _ _ (h5 true))|]. vm_compute. auto. Qed.
Example map_mmap_ex : may_map NB BIG (e2 true) 1064960 (1064960 + RUP 8192) 50 None /\
  may_map NB BIG (e0 true) 2097152 (2097152 + RUP 20000) 2 (Some 7).
Proof.
  split; [apply (chk_over_ok NB BIG al (e2 true) 1); vm_compute; reflexivity|].
  apply (chk_free_ok _ _ true al (-1) (-1)); [exact (proj1 (mreach_inv _ _ _ _ _ _ _ _ _ (h0 true)))|vm_compute; reflexivity].
Qed.
(* cutting a hole next to another allocator's block, and then removing all the rest of the
   mapping, block included *)
Example map_munmap_ex : may_unmap NB (e4 true) 2101248 (2101248 + RUP 4096) /\
  may_unmap NB (e5 true) 2105344 (2105344 + RUP 20480) /\
  other (e5 true) 3 (mkFacts 2109440 2113536 2 0 0 0) /\ in_part (mkFacts 2109440 2113536 2 0 0 0) 2105344 (2105344 + RUP 20480) /\
  recorded (e5 true) 2109440 (mkAttr 5 2 (Some 7) 0).
Proof.
  split; [apply (chk_unmap_ok _ BIG true al (-1) (-1)); [exact (proj1 (mreach_inv _ _ _ _ _ _ _ _ _ (h4 true)))|vm_compute; reflexivity]|].
  split; [apply (chk_unmap_ok _ BIG true al (-1) (-1)); [exact (proj1 (mreach_inv _ _ _ _ _ _ _ _ _ (h5 true)))|vm_compute; reflexivity]|].
  split; [|split].
  - exists (mkAttrs 2109440 2113536 4 2 0 0 0). split; [vm_compute; reflexivity|]. split; [vm_compute; discriminate|reflexivity].
  - exists 2109440. cbn [f_begin f_end]. unfold RUP, rup, PAGE. lia.
  - apply (map_mirrors_partial _ _ _ _ _ _ _ _ _ (h5 true)). vm_compute. reflexivity.
Qed.
Example map_tidy_ex : tidy (e5 true) /\ live (fo (e5 true)) 1 /\ length (used (seqs (e5 true) (priv_of (e5 true) 1))) = 3%nat.
Proof.
  split; [exact (map_sequences_tidy_partial _ _ _ _ _ _ _ _ _ (h5 true))|]. split; [split; [discriminate|vm_compute; reflexivity]|vm_compute; reflexivity].
Qed.
Example map_query_ex :
  (match query NB (e5 true) 2119680 with Ok (Some (q, e)) => (q_begin q, e_begin e, e_end e) | _ => (0, 0, 0) end) = (2105344, 2117632, 2125824) /\
  query NB (e5 true) 2101248 = Ok None.
Proof. split; vm_compute; reflexivity. Qed.

(* ---- what is false ---- *)
Lemma not_mirror S M a t t' n : live (fo S) n -> b_alloc (bigs (fo S) n) = MMAP -> covers (fo S) n a ->
  says (seqs S (priv_of S n)) a t -> M a = Some t' -> t <> t' -> ~ mirrors S M.
Proof. intros L A C Sy Ma N H. apply N. assert (X := proj2 (H a t) (ex_intro _ n (conj L (conj A (conj C Sy))))). congruence. Qed.

(* A file mapped over the middle of an anonymous mapping is not seen: the old mapping goes on
   being reported. *)
Theorem map_fixed_file_refuted : forall dbg, exists S M addr len prot flags file S', mreach dbg S M /\
  Z.land flags MAP_FIXED <> 0 /\ do_mmap NB BIG dbg obj S addr len prot flags file 0 0 = Ok S' /\
  ~ mirrors S' (map_over M addr (addr + RUP len) (mkAttr prot flags file 0)).
Proof.
  intro dbg. exists (e0 dbg), M0, 1056768, 4096, 5, 18, (Some 7), (mm dbg (e0 dbg) 1056768 4096 5 18 (Some 7)).
  split; [apply h0|]. split; [vm_compute; discriminate|]. split; [apply get_ok; destruct dbg; vm_compute; reflexivity|].
  apply (not_mirror _ _ 1056768 t0 (mkAttr 5 18 (Some 7) 0) 1).
  - split; [discriminate|destruct dbg; vm_compute; reflexivity].
  - destruct dbg; vm_compute; reflexivity.
  - unfold covers. split; [apply Z.leb_le|apply Z.ltb_lt]; destruct dbg; vm_compute; reflexivity.
  - exists (mkE 1048576 1114112 3 34 0 true 0). split; [destruct dbg; vm_compute; auto|]. split; [cbn; lia|]. destruct dbg; vm_compute; reflexivity.
  - vm_compute. reflexivity.
  - discriminate.
Qed.

(* A file mapped over the start of an anonymous mapping is recorded as not anonymous, but
   without its name. *)
Theorem map_fixed_file_front_refuted : forall dbg, exists S M addr len prot flags file S', mreach dbg S M /\
  Z.land flags MAP_FIXED <> 0 /\ do_mmap NB BIG dbg obj S addr len prot flags file 0 0 = Ok S' /\
  ~ mirrors S' (map_over M addr (addr + RUP len) (mkAttr prot flags file 0)) /\
  (exists n e, live (fo S') n /\ In e (used (seqs S' (priv_of S' n))) /\ e_anon e = false /\ q_file (seqs S' (priv_of S' n)) = None).
Proof.
  intro dbg. exists (e0 dbg), M0, 1048576, 4096, 5, 18, (Some 7), (mm dbg (e0 dbg) 1048576 4096 5 18 (Some 7)).
  split; [apply h0|]. split; [vm_compute; discriminate|]. split; [apply get_ok; destruct dbg; vm_compute; reflexivity|]. split.
  - apply (not_mirror _ _ 1048576 (mkAttr 5 18 None 0) (mkAttr 5 18 (Some 7) 0) 1).
    + split; [discriminate|destruct dbg; vm_compute; reflexivity].
    + destruct dbg; vm_compute; reflexivity.
    + unfold covers. split; [apply Z.leb_le|apply Z.ltb_lt]; destruct dbg; vm_compute; reflexivity.
    + exists (mkE 1048576 1052672 5 18 0 false 0). split; [destruct dbg; vm_compute; auto|]. split; [cbn; lia|]. destruct dbg; vm_compute; reflexivity.
    + vm_compute. reflexivity.
    + discriminate.
  - exists 1%nat, (mkE 1048576 1052672 5 18 0 false 0). split; [split; [discriminate|destruct dbg; vm_compute; reflexivity]|].
    split; [destruct dbg; vm_compute; auto|]. split; [reflexivity|destruct dbg; vm_compute; reflexivity].
Qed.

(* A mapping placed over the end of another and beyond: with assertions the call aborts;
   without, the sequence is left with an entry that ends before it begins and an end that is
   not the mapping's. *)
Theorem map_past_end_refuted : exists addr len prot flags,
  mreach true (e0 true) M0 /\ mreach false (e0 false) M0 /\ Z.land flags MAP_FIXED <> 0 /\
  do_mmap NB BIG true obj (e0 true) addr len prot flags None 0 0 = Abort /\
  exists S', do_mmap NB BIG false obj (e0 false) addr len prot flags None 0 0 = Ok S' /\ ~ tidy S' /\
    exists n e, live (fo S') n /\ In e (used (seqs S' (priv_of S' n))) /\ e_end e < e_begin e.
Proof.
  exists 1110016, 8192, 3, 50. split; [apply h0|]. split; [apply h0|]. split; [vm_compute; discriminate|]. split; [vm_compute; reflexivity|].
  exists (mm false (e0 false) 1110016 8192 3 50 None). split; [apply get_ok; vm_compute; reflexivity|].
  assert (L : live (fo (mm false (e0 false) 1110016 8192 3 50 None)) 1) by (split; [discriminate|vm_compute; reflexivity]). split.
  - intro T. destruct (ti_seq _ T 1%nat L ltac:(vm_compute; reflexivity)) as (_ & _ & _ & E). vm_compute in E. discriminate.
  - exists 1%nat, (mkE 1118208 1114112 3 34 0 true 0). split; [exact L|]. split; [vm_compute; auto|cbn; lia].
Qed.

(* A mapping placed over the start of a mapping that abuts another goes to the sequence of
   the one before: with assertions the call aborts; without, two top-level records overlap. *)
Definition g1 dbg := mm dbg (e0 dbg) 1114112 8192 5 2 (Some 7).
Lemma hg1 dbg : mreach dbg (g1 dbg) (map_over M0 1114112 (1114112 + RUP 8192) (mkAttr 5 2 (Some 7) 0)).
Proof.
  apply (m_map _ _ _ _ _ _ _ (e0 dbg) M0 1114112 8192 5 2 (Some 7) 0 0); [apply h0| |].
  - apply (chk_free_ok _ _ dbg al (-1) (-1)); [exact (proj1 (mreach_inv _ _ _ _ _ _ _ _ _ (h0 dbg)))|destruct dbg; vm_compute; reflexivity].
  - apply get_ok. destruct dbg; vm_compute; reflexivity.
Qed.
Theorem map_fixed_abut_refuted : exists addr len prot flags,
  (forall dbg, exists M, mreach dbg (g1 dbg) M) /\ Z.land flags MAP_FIXED <> 0 /\
  do_mmap NB BIG true obj (g1 true) addr len prot flags None 0 0 = Abort /\
  exists S', do_mmap NB BIG false obj (g1 false) addr len prot flags None 0 0 = Ok S' /\ ~ forest (fo S').
Proof.
  exists 1114112, 4096, 3, 50. split; [intro dbg; eexists; apply hg1|]. split; [vm_compute; discriminate|]. split; [vm_compute; reflexivity|].
  exists (mm false (g1 false) 1114112 4096 3 50 None). split; [apply get_ok; vm_compute; reflexivity|].
  intro F. apply (fo_sib _ F 1%nat 2%nat); try discriminate.
  - split; [discriminate|vm_compute; reflexivity].
  - split; [discriminate|vm_compute; reflexivity].
  - vm_compute. reflexivity.
  - exists 1114112. unfold covers. split; split; first [apply Z.leb_le; vm_compute; reflexivity|apply Z.ltb_lt; vm_compute; reflexivity].
Qed.

(* Unmapping the front of a file mapping moves the beginning of its entry but not the file
   offset recorded for it. *)
Theorem munmap_offset_refuted : forall dbg, exists S M addr len S' a q e q' e',
  mreach dbg S M /\ may_unmap NB S addr (addr + RUP len) /\ do_munmap NB BIG dbg S addr len = Ok S' /\ ~ (addr <= a < addr + RUP len) /\
  query NB S a = Ok (Some (q, e)) /\ query NB S' a = Ok (Some (q', e')) /\
  e_off e + (a - e_begin e) <> e_off e' + (a - e_begin e').
Proof.
  intro dbg. exists (e1 dbg), M1, 2097152, 4096, (mu dbg (e1 dbg) 2097152 4096), 2101248.
  exists (seqs (e1 dbg) 2), (mkE 2097152 2117632 5 2 0 false 0), (seqs (mu dbg (e1 dbg) 2097152 4096) 2), (mkE 2101248 2117632 5 2 0 false 0).
  split; [apply h1|]. split; [apply (chk_unmap_ok _ BIG dbg al (-1) (-1)); [exact (proj1 (mreach_inv _ _ _ _ _ _ _ _ _ (h1 dbg)))|destruct dbg; vm_compute; reflexivity]|].
  split; [apply get_ok; destruct dbg; vm_compute; reflexivity|]. split; [unfold RUP, rup, PAGE; lia|].
  split; [destruct dbg; vm_compute; reflexivity|]. split; [destruct dbg; vm_compute; reflexivity|]. cbn. lia.
Qed.

(* Unmapping part of a mapping that another allocator's block lies in: with assertions the
   call aborts; without, the block stays live but no lookup finds it. *)
Theorem munmap_inner_refuted : exists addr len m,
  (forall dbg, mreach dbg (e4 dbg) M3 /\ live (fo (e4 dbg)) m) /\
  do_munmap NB BIG true (e4 true) addr len = Abort /\
  exists S', do_munmap NB BIG false (e4 false) addr len = Ok S' /\ live (fo S') m /\ covers (fo S') m addr /\
    find_deepest NB (fo S') addr = Ok 0%nat /\ ~ unmapped (e4 false) S' addr (addr + RUP len).
Proof.
  exists 2109440, 8192, 3%nat. split; [intro dbg; split; [apply h4|split; [discriminate|destruct dbg; vm_compute; reflexivity]]|]. split; [vm_compute; reflexivity|].
  exists (mu false (e4 false) 2109440 8192). split; [apply get_ok; vm_compute; reflexivity|].
  split; [split; [discriminate|vm_compute; reflexivity]|].
  split; [unfold covers; split; first [apply Z.leb_le; vm_compute; reflexivity|apply Z.ltb_lt; vm_compute; reflexivity]|].
  split; [vm_compute; reflexivity|]. intro U.
  assert (O1 : other (mu false (e4 false) 2109440 8192) 3 (mkFacts 2109440 2113536 2 0 0 0)).
  { exists (mkAttrs 2109440 2113536 2 2 0 0 0). split; [vm_compute; reflexivity|]. split; [vm_compute; discriminate|reflexivity]. }
  apply (un_oth _ _ _ _ U) in O1. destruct O1 as [_ N]. apply N. split.
  - exists 2109440. cbn [f_begin f_end]. unfold RUP, rup, PAGE. lia.
  - exists (mkAttr 5 2 (Some 7) 0). apply (map_mirrors_partial _ _ _ _ _ _ _ _ _ (h4 false)). vm_compute. reflexivity.
Qed.

(* Changing a mapping's protection leaves the old protection on record. *)
Theorem mprotect_stale_refuted : forall dbg, exists S M addr len prot S', mreach dbg S M /\
  notify_mprotect S addr len prot = Ok S' /\
  ~ mirrors S' (fun a => if (addr <=? a) && (a <? addr + len) then
                   match M a with Some t => Some (mkAttr prot (at_flags t) (at_file t) (at_caller t)) | None => None end else M a).
Proof.
  intro dbg. exists (e0 dbg), M0, 1048576, 4096, 1, (e0 dbg). split; [apply h0|]. split; [reflexivity|].
  apply (not_mirror _ _ 1048576 t0 (mkAttr 1 34 None 0) 1).
  - split; [discriminate|destruct dbg; vm_compute; reflexivity].
  - destruct dbg; vm_compute; reflexivity.
  - unfold covers. split; [apply Z.leb_le|apply Z.ltb_lt]; destruct dbg; vm_compute; reflexivity.
  - exists (mkE 1048576 1114112 3 34 0 true 0). split; [destruct dbg; vm_compute; auto|]. split; [cbn; lia|]. destruct dbg; vm_compute; reflexivity.
  - vm_compute. reflexivity.
  - discriminate.
Qed.

Print Assumptions map_mirrors_partial.
Print Assumptions map_mmap_exact_partial.
Print Assumptions map_munmap_exact_partial.
Print Assumptions map_sequences_tidy_partial.
Print Assumptions seq_ok_contiguous.
Print Assumptions map_query_exact_partial.
Print Assumptions map_fixed_file_refuted.
Print Assumptions map_fixed_file_front_refuted.
Print Assumptions map_past_end_refuted.
Print Assumptions map_fixed_abut_refuted.
Print Assumptions munmap_offset_refuted.
Print Assumptions munmap_inner_refuted.
Print Assumptions mprotect_stale_refuted.
