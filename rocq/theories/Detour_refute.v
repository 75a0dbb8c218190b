(* Cases in which redirection fails. *)
From Verif Require Import Base Meta_model Meta_proof Detour_model Detour_spec Detour_proof Detour_list Detour_props.
Import DtEx.

(* As the code is built, no instruction is ever decoded, so that the first function found is
   redirected by way of uninitialised fields and a length that is no length, whatever memory,
   function and replacement. *)
Theorem as_built_refuted : forall m func limit dfunc slot tramp, detour as_built m func limit dfunc slot tramp = UB.
Proof. reflexivity. Qed.
Print Assumptions as_built_refuted.
Theorem as_built_table_refuted : forall l m next, (exists y, In y l /\ l_kind y <> None) -> instrument as_built l m next = UB.
Proof.
  induction l as [|y r IH]; intros m next (z & Hz & Hk); [contradiction|]. cbn [instrument].
  destruct (l_kind y) as [(d, s)|] eqn:E; [reflexivity|]. apply IH. destruct Hz as [<-|Hz]; [congruence|]. eauto.
Qed.
Print Assumptions as_built_table_refuted.
(* It is harmless only where there is nothing to redirect. *)
Theorem as_built_nothing : forall l m next, (forall y, In y l -> l_kind y = None) -> instrument as_built l m next = Ok (m, next).
Proof. induction l as [|y r IH]; intros m next H; [reflexivity|]. cbn [instrument]. rewrite (H y (or_introl eq_refl)). apply IH. intros; apply H; right; auto. Qed.
Print Assumptions as_built_nothing.

Definition entry (r : res (mem * Z)) (func : Z) : option Z :=
  match r with Ok (m, _) => if m func =? 0xe9 then Some ((func + 5 + sext (get4 m (func + 1))) mod W64) else None | _ => None end.

(* The replacement, being in another file, may be further than two gigabytes away: the call goes elsewhere, and
   nothing is said. *)
Theorem far_detour_refuted : exists m func limit dfunc slot tramp,
  bytes_ok m /\ displaced toy m limit func ms1 9 /\ 0 <= dfunc < W64 /\
  exists to, entry (detour toy m func limit dfunc slot tramp) func = Some to /\ to <> dfunc.
Proof.
  exists m0, 0x400000, 0x400040, 0x7f0000700000, 0x500000, 0x600000.
  split; [exact bytes0|]. split; [exact disp1|]. split; [unfold W64; lia|]. eexists. split; [vm_compute; reflexivity|]. lia.
Qed.
Print Assumptions far_detour_refuted.

(* A trampoline too far from what an instruction refers to: the copy refers to something else. *)
Theorem far_trampoline_refuted : exists m func limit dfunc slot tramp,
  bytes_ok m /\ displaced toy m limit func ms1 9 /\ near (func + 5) dfunc /\
  match detour toy m func limit dfunc slot tramp with
  | Ok (m', _) => refers m (func + 5) R_PC32 <> refers m' (tramp + 5) R_PC32
  | _ => False
  end.
Proof.
  exists m0, 0x400000, 0x400040, 0x700000, 0x500000, 0x7f0000600000.
  split; [exact bytes0|]. split; [exact disp1|]. split; [apply near_by; lia|]. vm_compute. discriminate.
Qed.
Print Assumptions far_trampoline_refuted.

(* A function in the table twice: as an alias, or in the symbol table and in the extra symbols, both
   of which are gone through.  The second time the displaced instruction is the jump to the
   replacement, so that the replacement, calling through the slot, calls itself. *)
Definition twice : list lsym := [mkLs 0x400000 64 (Some (0x700000, 0x500000)); mkLs 0x400000 64 (Some (0x700000, 0x500000))].
Theorem twice_listed_refuted : exists l m next,
  bytes_ok m /\ can toy m next (next + PAGE) t1 /\ picks l [t1; t1] /\
  match instrument toy l m next with
  | Ok (m', _) => jumps m' (t_func t1) (t_d t1) /\ jumps m' (get8 m' (t_slot t1)) (t_d t1)
  | _ => False
  end.
Proof.
  exists twice, m0, 0x600000. split; [exact bytes0|]. split; [exact can1|].
  split; [apply p_take; try reflexivity; apply p_take; try reflexivity; apply p_nil|].
  unfold jumps. vm_compute. repeat split.
Qed.
Print Assumptions twice_listed_refuted.

(* A function of four bytes: the decoder stops at its end, and the null pointer is used. *)
Theorem short_function_refuted : exists m func limit dfunc slot tramp,
  bytes_ok m /\ limit - func = 4 /\ detour toy m func limit dfunc slot tramp = UB.
Proof. exists m0, 0x400000, 0x400004, 0x700000, 0x500000, 0x600000. split; [exact bytes0|]. split; reflexivity. Qed.
Print Assumptions short_function_refuted.

(* The debugger's hook near the end of a page: the second page is not made writable. *)
Theorem dl_state_page_refuted : exists m f to, bytes_ok m /\ 0 <= to < W64 /\ dl_state m (fun _ => false) f to = UB.
Proof. exists m0, 0x400ff5, 0x700000. split; [exact bytes0|]. split; [unfold W64; lia|]. reflexivity. Qed.
Print Assumptions dl_state_page_refuted.
