(* C44: concrete cases of mremap notification, and what is false of it. *)
From Verif Require Import Base Big_model Big_spec Big_inv Big_create Big_hist Big_props Map_model Map_spec Big_field Map_seq Map_state Map_hist Map_props Map_ex Remap_model Remap_props.
Import Ex.

(* observing a page's attributes through the public query *)
Definition seen (S : mst) (a : Z) : option (option attr) :=
  match query NB S a with Ok (Some (q, e)) => Some (Some (attr_of q e)) | Ok None => Some None | _ => None end.
Definition nm (d : bool) (T : mst) (mapped old osz new : Z) := notify_mremap NB BIG d obj T mapped old osz new false 0.
Definition f7 := mkAttr 5 2 (Some 7) 0.
Definition seen_after (d : bool) (T : mst) (mapped old osz new a : Z) : option (option attr) :=
  match nm d T mapped old osz new with Ok T' => seen T' a | _ => None end.

(* ---- the theorems' hypotheses are met: the file mapping of e1 ---- *)
Example remap_ex : mreach true (e1 true) M1 /\ may_remap (e1 true) M1 2 2097152 (2097152 + RUP 20480) f7 /\
  may_unmap NB (e1 true) (2097152 + 8192) (2097152 + RUP 20480) /\
  may_map NB BIG (e1 true) (2097152 + RUP 20480) (2097152 + RUP 20480 + RUP (30000 - RUP 20480)) (at_flags f7) (at_file f7) /\
  may_remap (e1 true) M1 2 2097152 2097152 f7 /\
  may_map_free NB BIG (e1 true) 4194304 (4194304 + RUP 20480) /\ M1 (4194304 - 1) = None /\
  may_unmap NB (e1 true) 2097152 (2097152 + RUP 20480).
Proof.
  assert (MI := proj1 (mreach_inv _ _ _ _ _ _ _ _ _ (h1 true))).
  split; [apply h1|]. split; [|split; [|split; [|split; [|split; [|split]]]]].
  - constructor; [split; [split; [discriminate|]|]; vm_compute; reflexivity|vm_compute; repeat split; discriminate|vm_compute; reflexivity|vm_compute; reflexivity].
  - apply (chk_unmap_ok _ BIG true al (-1) (-1)); [exact MI|vm_compute; reflexivity].
  - apply (chk_free_ok _ _ true al (-1) (-1)); [exact MI|vm_compute; reflexivity].
  - constructor; [split; [split; [discriminate|]|]; vm_compute; reflexivity|vm_compute; repeat split; discriminate|vm_compute; reflexivity|vm_compute; reflexivity].
  - destruct (chk_free_ok NB BIG true al (-1) (-1) (e1 true) 4194304 (4194304 + RUP 20480) 0 None MI ltac:(vm_compute; reflexivity)) as (_ & _ & _ & [X|(X & _)]);
      [exact X|exfalso; apply X; reflexivity].
  - vm_compute. reflexivity.
  - apply (chk_unmap_ok _ BIG true al (-1) (-1)); [exact MI|vm_compute; reflexivity].
Qed.
Example remap_shrink_ex : seen_after true (e1 true) 2097152 2097152 20480 8192 2105343 = Some (Some f7) /\
  seen_after true (e1 true) 2097152 2097152 20480 8192 2105344 = Some None.
Proof. vm_compute. auto. Qed.
Example remap_grow_ex : seen_after true (e1 true) 2097152 2097152 20480 30000 2129919 = Some (Some f7) /\
  seen_after true (e1 true) 2097152 2097152 20480 30000 2129920 = Some None.
Proof. vm_compute. auto. Qed.
Example remap_move_ex : seen_after true (e1 true) 4194304 2097152 20480 20480 4194304 = Some (Some f7) /\
  seen_after true (e1 true) 4194304 2097152 20480 20480 2097152 = Some None.
Proof. vm_compute. auto. Qed.

(* ---- what is false ---- *)
(* mremap rounds the new size up to whole pages; the notification does not.  Shrinking five
   pages to 17000 bytes (still five pages) makes the end of the fifth page unrecorded. *)
Theorem remap_unaligned_refuted : forall dbg, exists S M old osz new a, mreach dbg S M /\
  RUP new = RUP osz /\ old <= a < old + RUP new /\ (exists t, M a = Some t) /\
  seen_after dbg S old old osz new a = Some None.
Proof.
  intro dbg. exists (e1 dbg), M1, 2097152, 20480, 17000, 2115000. split; [apply h1|]. split; [reflexivity|]. split; [vm_compute; repeat split; discriminate|].
  split; [exists f7; vm_compute; reflexivity|destruct dbg; vm_compute; reflexivity].
Qed.

(* Moving onto a place that is already mapped (MREMAP_FIXED) aborts the program: the mapping
   flags taken over from the old mapping do not say MAP_FIXED. *)
Theorem remap_onto_refuted : forall dbg, exists S M mapped old osz, mreach dbg S M /\ mapped <> old /\
  (exists t u, M old = Some t /\ M mapped = Some u) /\ nm dbg S mapped old osz (RUP osz) = Abort.
Proof.
  intro dbg. exists (e1 dbg), M1, 1056768, 2097152, 20480. split; [apply h1|]. split; [discriminate|].
  split; [exists f7, t0; vm_compute; auto|destruct dbg; vm_compute; reflexivity].
Qed.

(* Moving and growing at once: the excess is recorded with the protection and flags of the
   unused entry past the last. *)
Theorem remap_move_grow_refuted : forall dbg, exists S M mapped old osz new t a, mreach dbg S M /\
  M old = Some t /\ at_prot t <> 0 /\ mapped + RUP osz <= a < mapped + new /\
  exists u, seen_after dbg S mapped old osz new a = Some (Some u) /\ at_prot u = 0.
Proof.
  intro dbg. exists (e1 dbg), M1, 4194304, 2097152, 20480, 40960, f7, 4214784. split; [apply h1|]. split; [vm_compute; reflexivity|]. split; [discriminate|].
  split; [vm_compute; repeat split; discriminate|]. exists (mkAttr 0 0 (Some 7) 0). destruct dbg; vm_compute; auto.
Qed.

(* Anonymous memory that follows a file's pages in one sequence is recorded, once moved, as
   mapped from the file. *)
Theorem remap_anonymous_refuted : forall dbg, exists S M mapped old osz t, mreach dbg S M /\
  M old = Some t /\ at_file t = None /\
  exists u f, seen_after dbg S mapped old osz (RUP osz) mapped = Some (Some u) /\ at_file u = Some f.
Proof.
  intro dbg. exists (e2 dbg), M2, 4194304, 2117632, 8192, t0. split; [apply h2|]. split; [vm_compute; reflexivity|]. split; [reflexivity|].
  exists (mkAttr 3 34 (Some 7) 0), 7. destruct dbg; vm_compute; auto.
Qed.

Print Assumptions remap_same_partial.
Print Assumptions remap_shrink_partial.
Print Assumptions remap_grow_partial.
Print Assumptions remap_second_view_partial.
Print Assumptions remap_move_partial.
Print Assumptions remap_unaligned_refuted.
Print Assumptions remap_onto_refuted.
Print Assumptions remap_move_grow_refuted.
Print Assumptions remap_anonymous_refuted.
