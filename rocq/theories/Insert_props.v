(* C15, C16, C17: per-chunk heap metadata. *)
From Verif Require Import Base Bits.
From Verif Require Import Insert_model Insert_spec Insert_proof.

(* ---------- C15 ---------- *)

(* Full claim: for every requested size. Missing here: sizes above 2^64-16, for which it is
   false (metadata_disjoint_huge_refuted). For every heap whose chunks were requested with the enlarged size, the metadata word of
   a chunk: lies inside that chunk, starts at or after the caller's last byte, and shares
   no byte with the caller's bytes of any live chunk nor with any other chunk's metadata. *)
Theorem metadata_disjoint_partial : forall h,
  heap_ok chunk_size_with_trailer h ->
  (forall c, In c h -> c_req c <= 2 ^ 64 - 16) ->
  forall c, In c h ->
  let a := insert_for_chunk (c_base c) (c_usable c) in
  c_base c + c_req c <= a /\ a + 8 = c_base c + c_usable c /\
  (forall d x, In d h -> in_range a (a + 8) x -> ~ caller_byte d x) /\
  (forall d x, In d h -> d <> c -> in_range a (a + 8) x ->
     ~ in_range (insert_for_chunk (c_base d) (c_usable d))
                (insert_for_chunk (c_base d) (c_usable d) + 8) x).
Proof.
  intros h [H1 H2] Hs.
  assert (K : forall c, In c h ->
            c_req c + 8 <= c_usable c /\
            insert_for_chunk (c_base c) (c_usable c) = c_base c + c_usable c - 8).
  { intros c Hc. destruct (H1 c Hc) as (A & B & C & D). specialize (Hs c Hc).
    destruct (chunk_size_spec (c_req c)) as [E _]; [lia|]. split; [lia|].
    unfold insert_for_chunk, insert_at, caller_usable, INSERT_SIZE.
    rewrite (w64_small (c_usable c - 8)) by lia. rewrite w64_small by lia. lia. }
  intros c Hc a. destruct (K c Hc) as [K1 K2]. fold a in K2.
  destruct (H1 c Hc) as (A & B & C & D).
  split; [lia|]. split; [lia|]. split.
  - intros d x Hd Hx Hy. unfold caller_byte, in_range in *.
    destruct (K d Hd) as [L1 _]. destruct (H1 d Hd) as (A' & _).
    assert (X : c = d \/ c <> d).
    { destruct c as [p q r], d as [p' q' r'].
      destruct (Z.eq_dec p p'), (Z.eq_dec q q'), (Z.eq_dec r r'); subst;
        try (left; reflexivity); right; congruence. }
    destruct X as [<-|N]; [lia|].
    apply (H2 c d x Hc Hd N); unfold chunk_byte, in_range; lia.
  - intros d x Hd N Hx. destruct (K d Hd) as [L1 ->]. destruct (H1 d Hd) as (A' & _).
    unfold in_range in *. intro Hy.
    apply (H2 c d x Hc Hd (not_eq_sym N)); unfold chunk_byte, in_range; lia.
Qed.

(* The word is 8-byte aligned whenever the allocator's chunk addresses and usable sizes are
   multiples of 8, as dlmalloc's and glibc's are. *)
Theorem metadata_aligned_partial : forall b u,
  0 <= b -> 8 <= u -> b + u <= 2 ^ 64 -> b mod 8 = 0 -> u mod 8 = 0 ->
  insert_for_chunk b u mod 8 = 0.
Proof.
  intros b u Hb Hu Hs Mb Mu.
  unfold insert_for_chunk, insert_at, caller_usable, INSERT_SIZE.
  rewrite (w64_small (u - 8)) by lia. rewrite w64_small by lia. lia.
Qed.

(* The size asked of the allocator is a multiple of 8 and never wastes 16 bytes or more. *)
Theorem enlarged_size_tight : forall sz,
  0 <= sz <= 2 ^ 64 - 16 ->
  chunk_size_with_trailer sz mod 8 = 0 /\
  sz + 8 <= chunk_size_with_trailer sz <= sz + 15.
Proof. intros sz H. destruct (chunk_size_spec sz H). split; lia. Qed.

(* Without the bound on the requested size the claim is false: a caller asking for nearly
   the whole address space makes the enlarged size wrap to a tiny one, the underlying
   allocator happily returns it, and the caller's bytes cover the metadata. *)
Theorem metadata_disjoint_huge_refuted : exists h c x,
  heap_ok chunk_size_with_trailer h /\ In c h /\
  in_range (insert_for_chunk (c_base c) (c_usable c))
           (insert_for_chunk (c_base c) (c_usable c) + 8) x /\ caller_byte c x.
Proof.
  exists [mkChunk 4096 24 (2 ^ 64 - 8)], (mkChunk 4096 24 (2 ^ 64 - 8)), 4112.
  split; [split|split; [simpl; auto|split]].
  - intros c [<-|[]]. vm_compute. repeat split; discriminate.
  - intros c d x [<-|[]] [<-|[]] N. congruence.
  - vm_compute. split; [discriminate|reflexivity].
  - vm_compute. split; [discriminate|reflexivity].
Qed.

(* Nor is alignment automatic: an allocator whose usable size is not a multiple of 8
   (exact-size reporting is allowed by the interface) gets a misaligned word. *)
Theorem metadata_aligned_refuted : exists b u,
  b mod 16 = 0 /\ chunk_size_with_trailer 5 <= u /\ b + u <= 2 ^ 64 /\
  insert_for_chunk b u mod 8 <> 0.
Proof. exists 4096, 17. vm_compute. repeat split; discriminate. Qed.

(* ---------- C16 ---------- *)

(* Whatever bytes were there before, after recording a site the word reads back as
   "allocation site, not type", with exactly that site; bit 0 and the policies are
   whatever they were. *)
Theorem site_roundtrip : forall v c,
  0 <= c < 2 ^ 47 ->
  is_with_type (store_site v c) = false /\ i_site (store_site v c) = c /\
  lifetime (store_site v c) = lifetime v.
Proof.
  intros v c H. split; [apply store_site_kind|]. split; [apply store_site_site, H|].
  apply store_site_life.
Qed.

(* Recording a type and a site id: both read back unchanged, and the word is recognised as
   typed exactly when the type lives at or above 2^35. *)
Theorem type_roundtrip_partial : forall u id,
  0 <= u < 2 ^ 47 -> u mod 8 = 0 -> - 2 ^ 14 <= id < 2 ^ 14 ->
  t_type (mk_with_type u id) = u /\ t_id (mk_with_type u id) = id /\
  lifetime (mk_with_type u id) = 0 /\ getf (mk_with_type u id) 0 1 = 1 /\
  (is_with_type (mk_with_type u id) = true <-> 2 ^ 35 <= u).
Proof.
  intros u id H A I. split; [apply mk_type; assumption|]. split; [apply mk_id, I|].
  split; [apply mk_life|]. split; [apply mk_bit0|].
  rewrite mk_kind by exact H. apply Z.leb_le.
Qed.

(* Attaching or detaching policies changes the policy set as a set, and nothing else. *)
Theorem policy_roundtrip : forall v p,
  0 <= p < 16 ->
  (forall i, 0 <= i < 4 ->
     Z.testbit (lifetime (policy_or v p)) i = Z.testbit (lifetime v) i || Z.testbit p i /\
     Z.testbit (lifetime (policy_clear v p)) i = Z.testbit (lifetime v) i && negb (Z.testbit p i)) /\
  (forall lo w, 0 <= lo -> 0 <= w -> lo + w <= 60 ->
     getf (policy_or v p) lo w = getf v lo w /\ getf (policy_clear v p) lo w = getf v lo w).
Proof.
  intros v p H. split.
  - intros i Hi. unfold policy_or, policy_clear.
    destruct (policy_fields v (Z.lor (lifetime v) p)) as (_ & _ & _ & _ & ->).
    destruct (policy_fields v (Z.ldiff (lifetime v) p)) as (_ & _ & _ & _ & ->).
    change 16 with (2 ^ 4). rewrite !Z.mod_pow2_bits_low by lia.
    rewrite Z.lor_spec, Z.ldiff_spec. split; reflexivity.
  - intros lo w Hl Hw Hlw. unfold policy_or, policy_clear.
    rewrite !getf_setf_other by lia. split; reflexivity.
Qed.

(* A type descriptor below 2^35 (a position-dependent executable, say) is stored but then
   taken for an allocation site; and site ids of 2^14 or more do not read back. *)
Theorem type_roundtrip_low_refuted : exists u id,
  0 < u < 2 ^ 47 /\ u mod 8 = 0 /\ is_with_type (mk_with_type u id) = false.
Proof. exists 6291456, 7. vm_compute. repeat split; discriminate || reflexivity. Qed.

Theorem id_roundtrip_refuted : exists u id,
  2 ^ 35 <= u < 2 ^ 47 /\ u mod 8 = 0 /\ 0 <= id < 2 ^ 16 /\ t_id (mk_with_type u id) <> id.
Proof. exists 140737351975936, 20000. vm_compute. repeat split; discriminate || reflexivity. Qed.

(* Recording the type drops the policies: "storing one field never disturbs another" fails
   for exactly this pair. *)
Theorem set_type_keeps_policies_refuted : exists T s u,
  lifetime (ins s) = 2 /\ high_type u /\ lifetime (ins (set_type T s u)) = 0.
Proof.
  exists (mkSites (fun _ => 0) (fun _ => 65535)),
         (mkI (policy_or (store_site 0 4198400) 2) []), 140737351975936.
  split; [vm_compute; reflexivity|]. split; [|vm_compute; reflexivity].
  split; [vm_compute; split; [discriminate|reflexivity]|reflexivity].
Qed.

(* The stored site leaves stale policy bits from the reused memory in place. *)
Theorem fresh_policies_refuted : exists garbage c, lifetime (ins (fresh garbage c)) <> 0.
Proof. exists (2 ^ 63), 4198400. vm_compute. discriminate. Qed.

(* ---------- C17 ---------- *)

Definition view (o : iop) : mop :=
  match o with Query => MQuery | SetType u => MSet u | _ => MOther end.

Lemma expected_reported u h : expected u h = reported u (map view h).
Proof. revert u. induction h as [|o h IH]; intro u; [reflexivity|]. destruct o; cbn; rewrite IH; reflexivity. Qed.

(* For either build setting, any site table, any prior content of the word, and any
   history of queries, type changes and policy changes: if the chunk's site has a type and
   all types involved live at or above 2^35, every query succeeds and reports the type
   last set, or the site's type if none was. *)
Theorem type_query_stable_partial : forall nd T garbage c h,
  0 <= c < 2 ^ 47 -> high_type (type_of T c) ->
  (forall w, In (SetType w) h -> high_type w) ->
  types_of (snd (irun nd T (fresh garbage c) h)) = reported (type_of T c) (map view h) /\
  (forall a, In (Some a) (snd (irun nd T (fresh garbage c) h)) -> a_err a = false).
Proof.
  intros nd T g c h Hc Hi Hs. rewrite <- expected_reported. apply run_cur; [|exact Hs].
  right. exists c. split; [|split; [reflexivity|exact Hi]].
  split; [apply store_site_kind|apply store_site_site, Hc].
Qed.

(* Without NDEBUG the recorded word is never rewritten by a query, so the site is stable as
   well, recognised or not, wherever types live. *)
Theorem site_query_stable_debug : forall T garbage c n,
  0 <= c < 2 ^ 47 ->
  snd (irun false T (fresh garbage c) (repeat Query n)) =
  repeat (Some (mkA (type_of T c =? 0) (type_of T c) c)) n.
Proof.
  intros T g c n Hc.
  assert (G : forall l, snd (irun false T (mkI (store_site g c) l) (repeat Query n)) =
                        repeat (Some (mkA (type_of T c =? 0) (type_of T c) c)) n).
  { induction n as [|n IH]; intro l; [reflexivity|].
    cbn [repeat irun istep]. unfold extract. cbn [ins unrec].
    rewrite store_site_kind, store_site_site by exact Hc.
    destruct (Z.eqb_spec (type_of T c) 0) as [E|E].
    - match goal with |- context [mkI (store_site g c) ?u] => specialize (IH u) end.
      destruct (irun _ _ _ _) as [s2 r]. cbn [snd] in *. rewrite IH, E. reflexivity.
    - match goal with |- context [mkI (store_site g c) ?u] => specialize (IH u) end.
      destruct (irun _ _ _ _) as [s2 r]. cbn [snd] in *. rewrite IH. reflexivity. }
  apply G.
Qed.

(* Every site whose type is unknown is recorded, at most once, and only such sites are. *)
Theorem unrecognised_sites_exact : forall nd T s,
  is_with_type (ins s) = false ->
  let site := i_site (ins s) in
  (forall x, In x (unrec (fst (extract nd T s))) <->
             In x (unrec s) \/ (x = site /\ site <> 0 /\ type_of T site = 0)) /\
  (NoDup (unrec s) -> NoDup (unrec (fst (extract nd T s)))).
Proof.
  intros nd T s K site. unfold extract. rewrite K. fold site.
  assert (X : existsb (Z.eqb site) (unrec s) = true <-> In site (unrec s)).
  { rewrite existsb_exists. split.
    - intros (y & Hy & E). apply Z.eqb_eq in E. subst y. exact Hy.
    - intro Hy. exists site. split; [exact Hy|apply Z.eqb_refl]. }
  set (un := if (type_of T site =? 0) && negb (site =? 0) && negb (existsb (Z.eqb site) (unrec s))
             then unrec s ++ [site] else unrec s).
  replace (unrec (fst _)) with un by (destruct (type_of T site =? 0); reflexivity).
  unfold un. clear un.
  clearbody site.
  destruct (Z.eqb_spec (type_of T site) 0) as [E|E]; cbn [andb];
    [|split; [intro x; split; [auto|intros [?|(? & ? & ?)]; [assumption|congruence]]|auto]].
  destruct (Z.eqb_spec site 0) as [F|F]; cbn [andb negb];
    [split; [intro x; split; [auto|intros [?|(? & ? & ?)]; [assumption|congruence]]|auto]|].
  destruct (existsb (Z.eqb site) (unrec s)) eqn:B; cbn [andb negb].
  - split; [|auto]. intro x; split; [auto|]. intros [?|(-> & _)]; [assumption|]. apply X; reflexivity.
  - split.
    + intro x. rewrite in_app_iff. split.
      * intros [?|[<-|[]]]; auto.
      * intros [?|(-> & _)]; auto. right; simpl; auto.
    + intro N. apply NoDup_rev in N. rewrite <- (rev_involutive (unrec s ++ [site])).
      apply NoDup_rev. rewrite rev_app_distr. cbn. constructor; [|exact N].
      rewrite <- in_rev. intro Hy. apply X in Hy. congruence.
Qed.

(* In the release build the site is reported by the first query only. *)
Theorem site_query_stable_refuted : exists T c a b,
  0 <= c < 2 ^ 47 /\ high_type (type_of T c) /\
  snd (irun true T (fresh 0 c) [Query; Query]) = [Some a; Some b] /\
  a_site a = c /\ a_site b = 0 /\ c <> 0.
Proof.
  exists (mkSites (fun c => if c =? 93824992235520 then 140737351975936 else 0)
                  (fun _ => 12)), 93824992235520.
  eexists. eexists. split; [vm_compute; split; [discriminate|reflexivity]|].
  split; [split; [vm_compute; split; [discriminate|reflexivity]|reflexivity]|].
  split; [vm_compute; reflexivity|]. cbn. repeat split; discriminate || reflexivity.
Qed.

(* In the release build, querying a chunk with an unrecognised site twice records a second
   "unrecognised site", 0x7fff, which is no site of the program at all: the marker left by
   the first query is read back as a site. *)
Theorem unrecognised_twice_refuted : exists T c,
  0 <= c < 2 ^ 47 /\
  (forall x, type_of T x = 0) /\
  unrec (fst (irun true T (fresh 0 c) [Query; Query])) = [c; 32767] /\ c <> 32767.
Proof.
  exists (mkSites (fun _ => 0) (fun _ => 65535)), 93824992235520.
  split; [vm_compute; split; [discriminate|reflexivity]|]. split; [reflexivity|].
  split; [vm_compute; reflexivity|discriminate].
Qed.

(* In the release build, if the site's type lives below 2^35 the second query no longer
   finds any type. *)
Theorem type_query_stable_low_refuted : exists T c a b,
  0 <= c < 2 ^ 47 /\ 0 < type_of T c < 2 ^ 47 /\ type_of T c mod 8 = 0 /\
  snd (irun true T (fresh 0 c) [Query; Query]) = [Some a; Some b] /\
  a_err a = false /\ a_type a = type_of T c /\ a_err b = true.
Proof.
  exists (mkSites (fun c => if c =? 4198400 then 6291456 else 0) (fun _ => 12)), 4198400.
  eexists. eexists. split; [vm_compute; split; [discriminate|reflexivity]|].
  split; [vm_compute; split; reflexivity|]. split; [reflexivity|].
  split; [vm_compute; reflexivity|]. cbn. repeat split; reflexivity.
Qed.

Module Insert_ex.
  (* two live chunks satisfying the hypotheses of metadata_disjoint_partial *)
  Definition h := [mkChunk 4096 40 30; mkChunk 4160 24 9].
  Example disjoint_hyps : heap_ok chunk_size_with_trailer h /\
    (forall c, In c h -> c_req c <= 2 ^ 64 - 16) /\
    insert_for_chunk 4096 40 = 4128 /\ insert_for_chunk 4160 24 = 4176.
  Proof.
    split; [split|split; [|vm_compute; auto]].
    - intros c [<-|[<-|[]]]; vm_compute; repeat split; discriminate.
    - intros c d x [<-|[<-|[]]] [<-|[<-|[]]] N; try congruence;
        unfold chunk_byte, in_range; cbn; lia.
    - intros c [<-|[<-|[]]]; vm_compute; discriminate.
  Qed.
  Example aligned_case : insert_for_chunk 4096 40 mod 8 = 0.
  Proof. apply metadata_aligned_partial; vm_compute; congruence. Qed.
  Example tight_case : chunk_size_with_trailer 30 = 40 /\ chunk_size_with_trailer 0 = 8.
  Proof. vm_compute; auto. Qed.
  Example site_case : i_site (store_site (2 ^ 64 - 1) 93824992235520) = 93824992235520.
  Proof. reflexivity. Qed.
  Example type_case : t_type (mk_with_type 140737351975936 (-1)) = 140737351975936 /\
    t_id (mk_with_type 140737351975936 (-1)) = -1.
  Proof. vm_compute; auto. Qed.
  Example policy_case : lifetime (policy_clear (policy_or (store_site 0 5) 6) 2) = 4.
  Proof. reflexivity. Qed.
  Definition T := mkSites (fun c => if c =? 93824992235520 then 140737351975936 else 0) (fun _ => 12).
  Example stable_case :
    high_type (type_of T 93824992235520) /\
    types_of (snd (irun true T (fresh 77 93824992235520)
      [Query; Attach 1; Query; SetType 140737351979000; Detach 1; Query])) =
    [Some 140737351975936; None; Some 140737351975936; None; None; Some 140737351979000].
  Proof.
    split; [split; [vm_compute; split; [discriminate|reflexivity]|reflexivity]|].
    vm_compute; reflexivity.
  Qed.
  Example unrec_case :
    unrec (fst (extract true T (fresh 0 4242))) = [4242] /\
    is_with_type (ins (fresh 0 4242)) = false.
  Proof. vm_compute; auto. Qed.
End Insert_ex.

Print Assumptions metadata_disjoint_partial.
Print Assumptions metadata_aligned_partial.
Print Assumptions enlarged_size_tight.
Print Assumptions metadata_disjoint_huge_refuted.
Print Assumptions metadata_aligned_refuted.
Print Assumptions site_roundtrip.
Print Assumptions type_roundtrip_partial.
Print Assumptions policy_roundtrip.
Print Assumptions type_roundtrip_low_refuted.
Print Assumptions id_roundtrip_refuted.
Print Assumptions set_type_keeps_policies_refuted.
Print Assumptions fresh_policies_refuted.
Print Assumptions type_query_stable_partial.
Print Assumptions site_query_stable_debug.
Print Assumptions unrecognised_sites_exact.
Print Assumptions site_query_stable_refuted.
Print Assumptions unrecognised_twice_refuted.
Print Assumptions type_query_stable_low_refuted.
