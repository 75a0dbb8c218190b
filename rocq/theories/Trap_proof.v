(* Lemmas for Trap_props. *)
From Verif Require Import Base Big_model Big_spec Big_inv Big_create Big_hist Big_props Big_field Map_model Map_spec Map_seq Map_state Map_hist Map_props Remap_model Brk_model Brk_spec Brk_props File_model Trap_model Trap_spec.

Lemma through_int_ok r : r = 0 \/ failed r \/ 0 <= r < 2 ^ 31 -> through_int r = r.
Proof.
  unfold through_int, failed, W64, PAGE. intros H. cbv zeta.
  destruct H as [->|[H|H]]; [reflexivity| |].
  - assert (E : r mod 2 ^ 32 = r - (2 ^ 64 - 2 ^ 32)) by (symmetry; apply (Z.mod_unique_pos _ _ (2 ^ 32 - 1)); lia).
    rewrite E. destruct (Z.ltb_spec (r - (2 ^ 64 - 2 ^ 32)) (2 ^ 31)); [lia|].
    symmetry. apply (Z.mod_unique_pos _ _ (-1)); lia.
  - rewrite (Z.mod_small r) by lia. destruct (Z.ltb_spec r (2 ^ 31)); [reflexivity|lia].
Qed.
Lemma failed_error r : failed r -> is_error r = true.
Proof. unfold failed, is_error. lia. Qed.
Lemma failed_nz r : failed r -> through_int r =? 0 = false.
Proof. intro H. rewrite through_int_ok by auto. unfold failed, W64, PAGE in H. lia. Qed.

Section P.
Variables (nb : nat) (biggest : Z) (dbg : bool) (al : nat -> Z) (cur_ max_ : Z) (obj_of : Z -> Z).
Variables (base : bool) (own : Z) (links : Z -> option Z).
Notation mreach := (mreach nb biggest dbg al cur_ max_ obj_of).

Lemma outside_ok T M caller : mreach T M -> outside base own (fo T) caller -> is_self nb base own (fo T) caller = Ok false.
Proof.
  intros HM [->|((f & L & A & C) & H)]; [reflexivity|]. unfold is_self. destruct base; [|reflexivity].
  destruct (mreach_inv _ _ _ _ _ _ _ _ _ HM) as [MI _]. assert (HR := mi_R _ _ _ _ _ _ _ MI).
  destruct (big_find_by_allocator nb biggest dbg al cur_ max_ (fo T) caller FILE false HR) as (a & Ea & Pa).
  destruct (big_find_by_allocator nb biggest dbg al cur_ max_ (fo T) own FILE false HR) as (b & Eb & Pb).
  rewrite Ea, Eb. cbn [bind]. f_equal. destruct (Nat.eqb_spec a b) as [->|]; [|reflexivity]. exfalso.
  destruct Pb as [(-> & N)|(Lb & Cb & Hb & _)]; [exact (N f L C A)|].
  destruct Pa as [(-> & _)|(_ & Ca & _)]; [destruct Lb; congruence|]. exact (H b Lb Hb Cb Ca).
Qed.

(* where nothing is mapped nothing is recorded *)
Lemma unmapped_clear T M lo hi : mreach T M ->
  (forall n, live (fo T) n -> b_parent (bigs (fo T) n) = 0%nat -> b_alloc (bigs (fo T) n) = MMAP) ->
  (forall a, lo <= a < hi -> M a = None) -> forall n, live (fo T) n -> ~ meets (fo T) n lo hi.
Proof.
  intros HM RT CL n L (a & Ha & Ca). destruct (mreach_inv _ _ _ _ _ _ _ _ _ HM) as [MI MR].
  destruct (big_top_level_lookup nb biggest dbg al cur_ max_ (fo T) a (mi_R _ _ _ _ _ _ _ MI)) as (r & _ & [(_ & N)|(Lr & Pr & Cr)]); [exact (N n L Ca)|].
  destruct (map_sequences_tidy_partial _ _ _ _ _ _ _ _ _ HM) as [TS _]. destruct (TS r Lr (RT r Lr Pr)) as (_ & SO & Eb & Ee).
  destruct (proj2 (says_range _ a SO)) as (t & St); [unfold covers in Cr; lia|].
  assert (X : M a = Some t) by (apply MR; exists r; split; [exact Lr|]; split; [exact (RT r Lr Pr)|]; split; [exact Cr|exact St]).
  rewrite (CL a Ha) in X. discriminate.
Qed.

Lemma room_map T M lo hi flags file : mreach T M -> 0 < lo < hi -> lo mod PAGE = 0 -> hi mod PAGE = 0 ->
  (forall a, lo <= a < hi -> M a = None) -> room nb biggest T lo hi -> may_map nb biggest T lo hi flags file.
Proof.
  intros HM H1 H2 H3 CL [R1 R2 R3 R4]. split; [exact H1|]. split; [exact H2|]. split; [exact H3|]. left. constructor; auto.
  exact (unmapped_clear T M lo hi HM R1 CL).
Qed.

Lemma lor_has flags : Z.land flags MREMAP_FIXED <> 0 -> Z.lor flags MREMAP_FIXED = flags.
Proof.
  unfold MREMAP_FIXED. intro H. change 2 with (2 ^ 1) in *.
  assert (B : Z.testbit flags 1 = true).
  { destruct (Z.testbit flags 1) eqn:E; [reflexivity|]. exfalso. apply H. apply Z.bits_inj'. intros i Hi. rewrite Z.land_spec, Z.bits_0.
    destruct (Z.eq_dec i 1) as [->|N]; [rewrite E; reflexivity|]. rewrite (Z.pow2_bits_false 1 i) by lia. apply Bool.andb_false_r. }
  apply Z.bits_inj'. intros i Hi. rewrite Z.lor_spec. destruct (Z.eq_dec i 1) as [->|N]; [rewrite B; reflexivity|].
  rewrite (Z.pow2_bits_false 1 i) by lia. apply Bool.orb_false_r.
Qed.
(* mremap to a given place *)
Lemma trap_fixed kernel t caller old olen nlen flags new :
  Z.land flags MREMAP_FIXED <> 0 -> new <> 0 -> new <> MAP_FAILED ->
  trap nb biggest dbg obj_of false base own links kernel t caller (Cmremap old olen nlen flags new) =
  let c := Cmremap old olen nlen flags new in let r := kernel c in
  do t2 <- (if is_error r then Ok t
            else do T1 <- notify_mremap nb biggest dbg obj_of (bm (tr_b t)) r old olen nlen (negb (Z.land flags MREMAP_DONTUNMAP =? 0)) caller ;
                 Ok (w_m t T1)) ;
  Ok (t2, r, [c]).
Proof.
  intros H1 H2 H3. unfold trap. cbv zeta. rewrite (proj2 (Z.eqb_neq _ _) H1), (proj2 (Z.eqb_neq _ _) H3).
  unfold nudge. cbn [m_addr]. rewrite (proj2 (Z.eqb_neq _ _) H2). cbn [bind m_addr m_len]. rewrite (proj2 (Z.eqb_neq _ _) H2), (lor_has flags H1).
  destruct t as [B ar]. reflexivity.
Qed.

Lemma map_over_same M K lo hi t : same M K -> same (map_over M lo hi t) (map_over K lo hi t).
Proof. intros H a. unfold map_over. rewrite H. reflexivity. Qed.
Lemma unmap_same M K lo hi : same M K -> same (unmap M lo hi) (unmap K lo hi).
Proof. intros H a. unfold unmap. rewrite H. reflexivity. Qed.

Lemma nudge_none T M area m caller : mreach T M -> m_addr m <> 0 \/ fixed m = true \/ outside base own (fo T) caller ->
  nudge nb false base own (fo T) area m caller = Ok (area, m).
Proof.
  intros HM H. unfold nudge. destruct (Z.eqb_spec (m_addr m) 0) as [A0|]; [|reflexivity].
  destruct H as [H|[H|H]]; [contradiction| |].
  - assert (HR := mi_R _ _ _ _ _ _ _ (proj1 (mreach_inv _ _ _ _ _ _ _ _ _ HM))).
    destruct (big_find_by_allocator nb biggest dbg al cur_ max_ (fo T) caller FILE false HR) as (x & Ex & _).
    destruct (big_find_by_allocator nb biggest dbg al cur_ max_ (fo T) own FILE false HR) as (y & Ey & _).
    unfold is_self, fixed in *. destruct base; [rewrite Ex, Ey|reflexivity]. cbn [bind].
    destruct (Z.land (m_flags m) MAP_FIXED =? 0); [discriminate|]. rewrite Bool.andb_false_r. reflexivity.
  - rewrite (outside_ok T M caller HM H). reflexivity.
Qed.

Lemma filename_ok m : (if anonymous m then m_fd m = -1 else m_fd m <> -1 /\ links (m_fd m) <> None) ->
  filename_for_fd dbg links (m_fd m) = Ok (backing links m).
Proof.
  unfold filename_for_fd, backing. destruct (anonymous m); [intros ->; reflexivity|]. intros [N L].
  destruct (Z.eqb_spec (m_fd m) (-1)); [contradiction|]. destruct (links (m_fd m)); [reflexivity|contradiction].
Qed.
End P.
Lemma RUP_pos x : 0 < x -> 0 < RUP x.
Proof. unfold RUP, rup, PAGE. lia. Qed.
Lemma RUP_page x : RUP x mod PAGE = 0.
Proof. unfold RUP, rup, PAGE. lia. Qed.
Lemma add_page x y : x mod PAGE = 0 -> y mod PAGE = 0 -> (x + y) mod PAGE = 0.
Proof. unfold PAGE. lia. Qed.
