(* C63: concrete queries, and what is false of them. *)
From Verif Require Import Base Big_model Big_spec Big_inv Big_create Big_lookup Big_adopt Big_hist Big_props Map_model Map_spec Brk_model.
From Verif Require Import File_model File_spec File_hist File_props Scan_model Auxv_model Query_model Query_spec Query_props.

Lemma innermost_by nb biggest dbg al c m s a n : reach nb biggest dbg al c m s -> find_deepest nb s a = Ok (S n) -> innermost s a (S n).
Proof.
  intros HR E. destruct (big_lookup_innermost _ _ _ _ _ _ s a HR) as (r & E' & A). rewrite E in E'. injection E' as <-. exact A.
Qed.
Lemma uncovered_by nb biggest dbg al c m s a : reach nb biggest dbg al c m s -> find_deepest nb s a = Ok 0%nat -> forall n, live s n -> ~ covers s n a.
Proof.
  intros HR E. destruct (big_lookup_innermost _ _ _ _ _ _ s a HR) as (r & E' & A). rewrite E in E'. injection E' as <-. exact A.
Qed.

Module QyEx.
  Import Big_props.Ex FlEx.
  Definition bof (s : st) : bst := mkB (mkS s (fun _ => seq0) 0) 0 0 0 true 0.
  Definition fm (p : nat) : option fmd := match p with 70%nat => Some (mkFmd 4242 2097152 [(true, 64, 100); (false, 200, 5000); (true, 4096, 800)]) | _ => None end.
  Definition ax0 : auxv := mkAuxv 0 0 0 0 0 0 0 0 0 0.
  (* an ld.so chunk with a site in its insert, at 0x211100 *)
  Definition ld (x : Z) : option (Z * Z * bool * Z) := if (2167040 <=? x) && (x <? 2167140) then Some (2167040, 100, false, 555) else None.
  (* any other allocator: one account everywhere *)
  Definition oth (a : nat) (x : Z) (n : nat) (k : ask) : res (option qerr * outs) :=
    Ok (if k_type k || k_site k then Some Esite else None, mkOuts None (when (k_base k) (x - x mod 16)) (when (k_size k) 16) (when (k_site k) 321)).
  Notation G f := (f NB BIG true al (-1) (-1) fm 99 ax0 (fun _ => 98) 97 ld oth).
  Notation qb := (G q_base). Notation qz := (G q_size). Notation qt := (G q_type). Notation qs := (G q_site). Notation qa := (G q_alloc). Notation qi := (G q_inner).
  Notation info := (G get_alloc_info).
  Lemma rta : R ta.
  Proof. destruct (file_load_exact NB BIG true al (-1) (-1) t1 oa 0 12192 2105344 0 0 true 2 rt1 fit_a) as (s' & f & ls & lc & E & HR & _); [discriminate|]. unfold ta. rewrite E. exact HR. Qed.

  (* query_record_exact, query_file_site_partial: in a segment but in no section of it *)
  Example query_segment_ex : R ta /\ innermost ta 2098000 5 /\ itself (bof ta) 99 5 SEGM 99 /\ file_for ta fm 5 (mkFmd 4242 2097152 [(true, 64, 100); (false, 200, 5000); (true, 4096, 800)]) /\
    qb (bof ta) [] 0 2098000 = Ok (bof ta, 2097152) /\ qz (bof ta) [] 0 2098000 = Ok (bof ta, 5000) /\ qs (bof ta) [] 0 2098000 = Ok (bof ta, 4242) /\
    qt (bof ta) [] 0 2098000 = Ok (bof ta, 99) /\ qa (bof ta) [] 0 2098000 = Ok (bof ta, SEGM) /\ qi (bof ta) [] 0 2098000 = Ok (bof ta, Descend 99 848).
  Proof.
    assert (HN : innermost ta 2098000 5) by (apply (innermost_by _ _ _ _ _ _ _ _ _ rta); vm_compute; reflexivity).
    assert (HI : itself (bof ta) 99 5 SEGM 99) by (apply it_seg; vm_compute; reflexivity).
    assert (HF : file_for ta fm 5 (mkFmd 4242 2097152 [(true, 64, 100); (false, 200, 5000); (true, 4096, 800)])) by (apply (ff_seg _ _ _ _ 4%nat); vm_compute; reflexivity).
    destruct (query_record_exact NB BIG true al (-1) (-1) fm 99 ax0 (fun _ => 98) 97 ld oth (bof ta) [] 0 2098000 5 SEGM 99 rta HN HI) as (A1 & A2 & A3 & A4 & A5 & _).
    assert (A6 := query_file_site_partial NB BIG true al (-1) (-1) fm 99 ax0 (fun _ => 98) 97 ld oth (bof ta) [] 0 2098000 5 SEGM _ rta HN HI ltac:(vm_compute; reflexivity) HF).
    split; [exact rta|]. split; [exact HN|]. split; [exact HI|]. split; [exact HF|]. split; [exact A1|]. split; [exact A2|]. split; [exact A6|]. split; [exact A3|]. split; [exact A4|]. apply A5. discriminate.
  Qed.
  (* query_record_exact: in the file, between its segments *)
  Example query_rest_ex : R ta /\ innermost ta 2104000 4 /\ itself (bof ta) 99 4 SEGM 99 /\ qb (bof ta) [] 0 2104000 = Ok (bof ta, 2097152) /\
    qz (bof ta) [] 0 2104000 = Ok (bof ta, 12192) /\ qa (bof ta) [] 0 2104000 = Ok (bof ta, SEGM).
  Proof.
    assert (HN : innermost ta 2104000 4) by (apply (innermost_by _ _ _ _ _ _ _ _ _ rta); vm_compute; reflexivity).
    assert (HI : itself (bof ta) 99 4 SEGM 99) by (apply it_rest; vm_compute; reflexivity).
    destruct (query_record_exact NB BIG true al (-1) (-1) fm 99 ax0 (fun _ => 98) 97 ld oth (bof ta) [] 0 2104000 4 SEGM 99 rta HN HI) as (A1 & A2 & _ & A4 & _).
    split; [exact rta|]. split; [exact HN|]. split; [exact HI|]. split; [exact A1|]. split; [exact A2|exact A4].
  Qed.

  (* query_dispatch, query_agree_partial: record 5, which another allocator has parcelled out *)
  Example query_agree_ex : R s6 /\ innermost s6 2166800 5 /\ responsible s6 5 = 4%nat /\
    accounts (info_of NB true fm 99 ax0 (fun _ => 98) 97 ld oth (bof s6) 4 2166805 5) (NoType_ 2166800 16 321) /\
    qb (bof s6) [] 0 2166805 = Ok (bof s6, 2166800) /\ qz (bof s6) [] 0 2166805 = Ok (bof s6, 16) /\ qt (bof s6) [] 0 2166805 = Ok (bof s6, 0) /\
    qs (bof s6) [] 0 2166805 = Ok (bof s6, 321) /\ qa (bof s6) [] 0 2166805 = Ok (bof s6, 4%nat) /\ qi (bof s6) [] 0 2166805 = Ok (bof s6, NoType).
  Proof.
    split; [exact r6|]. split; [apply (innermost_by _ _ _ _ _ _ _ _ _ r6); vm_compute; reflexivity|]. split; [vm_compute; reflexivity|].
    assert (HA : accounts (info_of NB true fm 99 ax0 (fun _ => 98) 97 ld oth (bof s6) 4 2166805 5) (NoType_ 2166800 16 321)).
    { intro k. exists (if k_type k || k_site k then Some Esite else None), (mkOuts None (when (k_base k) 2166800) (when (k_size k) 16) (when (k_site k) 321)).
      destruct k as [[] [] [] []]; vm_compute; auto. }
    split; [exact HA|].
    assert (HN : innermost s6 2166805 5) by (apply (innermost_by _ _ _ _ _ _ _ _ _ r6); vm_compute; reflexivity).
    exact (query_agree_partial NB BIG true al (-1) (-1) fm 99 ax0 (fun _ => 98) 97 ld oth (bof s6) [] 0 2166805 5 _ r6 HN ltac:(vm_compute; discriminate) HA).
  Qed.

  Lemma al_ok : forall a, 0 <= al a /\ (al a = 0 \/ (al a | PAGE)).
  Proof. intro a. do 4 (destruct a as [|a]; [cbn; first [split; [lia|left; reflexivity]|split; [lia|right; exists 1; reflexivity]|split; [lia|right; exists 4096; reflexivity]]|]). cbn. split; [lia|left; reflexivity]. Qed.
  Lemma touch p : PAGE <= p -> 4259840 - RDOWN p <= BIG -> legal NB BIG al s6 (Touch [6%nat] p).
  Proof.
    intros Hp Hb. cbn [legal]. split; [exact Hp|]. split; [exact al_ok|]. intros b [<-|[]]. split; [isl|]. split; [vm_compute; reflexivity|].
    intros m Hm. inversion Hm as [|? N ?]; [|exfalso; apply N; vm_compute; reflexivity]. subst m. assert (E : b_end (bigs s6 6) = 4259840) by (vm_compute; reflexivity). lia.
  Qed.
  (* query_nothing: far from everything *)
  Example query_nothing_ex : R s6 /\ legal NB BIG al s6 (Touch [6%nat] 8000000) /\ (forall m, live s6 m -> ~ covers s6 m 8000000) /\
    (forall x, In x [6%nat] -> ~ (near (-1) (-1) s6 x 8000000 /\ gap_free s6 x 8000000)) /\ qb (bof s6) [6%nat] 0 8000000 = Ok (bof s6, 0).
  Proof.
    assert (L : legal NB BIG al s6 (Touch [6%nat] 8000000)) by (apply touch; [unfold PAGE; lia|apply Z.leb_le; vm_compute; reflexivity]).
    assert (U : forall m, live s6 m -> ~ covers s6 m 8000000) by (apply (uncovered_by _ _ _ _ _ _ _ _ r6); vm_compute; reflexivity).
    assert (N : forall x, In x [6%nat] -> ~ (near (-1) (-1) s6 x 8000000 /\ gap_free s6 x 8000000)).
    { intros x [<-|[]] [[X _] _]. assert (E : b_begin (bigs s6 6) = 4194304) by (vm_compute; reflexivity). lia. }
    split; [exact r6|]. split; [exact L|]. split; [exact U|]. split; [exact N|].
    exact (proj1 (proj2 (query_nothing NB BIG true al (-1) (-1) fm 99 ax0 (fun _ => 98) 97 ld oth (bof s6) [6%nat] 0 8000000 r6 L U N eq_refl))).
  Qed.
  (* query_stack_grown: record 6 is a stack and has grown down two pages *)
  Example query_stack_ex : R s6 /\ legal NB BIG al s6 (Touch [6%nat] 4190000) /\ (forall m, live s6 m -> ~ covers s6 m 4190000) /\
    near (-1) (-1) s6 6 4190000 /\ gap_free s6 6 4190000 /\ responsible s6 6 <> 0%nat /\
    match info (bof s6) [6%nat] 0 4190000 (mkAsk true true true false) with
    | Ok (B', a, e, o) => a = Some MMAP /\ e = None /\ o = mkOuts (Some 0) (Some 4186112) (Some 73728) None | _ => False end.
  Proof.
    split; [exact r6|]. split; [apply touch; [unfold PAGE; lia|apply Z.leb_le; vm_compute; reflexivity]|].
    split; [apply (uncovered_by _ _ _ _ _ _ _ _ r6); vm_compute; reflexivity|]. split; [split; [dec|left; dec]|]. split.
    - intros m a L C H. assert (Hb := bound _ m r6 L). assert (E : b_begin (bigs s6 6) = 4194304) by (vm_compute; reflexivity). rewrite E in C.
      assert (D : RDOWN 4190000 = 4186112) by (vm_compute; reflexivity). rewrite D in C.
      assert (X : (b_end (bigs s6 m) <=? 4186112) || (4194304 <=? b_begin (bigs s6 m)) = true).
      { clear C H. en 10%nat m ltac:(first [vm_compute; reflexivity|exfalso; exact (proj1 L eq_refl)]). }
      unfold covers in H. lia.
    - split; [vm_compute; discriminate|]. vm_compute. auto.
  Qed.
  (* query_section_search: from segment 5, in a section and outside *)
  Example query_section_ex : climb_to_file 11 ta 5 = Ok 4%nat /\ b_alloc (bigs ta 5) <> SECT /\ fm (b_priv (bigs ta 4)) <> None /\
    section_info NB fm 99 ta 2101300 5 (mkAsk false true true true) = Ok (None, mkOuts None (Some 2101248) (Some 800) (Some 4242)) /\
    section_info NB fm 99 ta 2097400 5 (mkAsk false true true true) = Ok (Some Estatic, nothing).
  Proof. split; [vm_compute; reflexivity|]. split; [vm_compute; discriminate|]. split; [vm_compute; discriminate|]. split; vm_compute; reflexivity. Qed.
  (* query_specific_exact: the file's datum, for an address in a section of it; none of the frame allocator's *)
  Example query_specific_ex : R ta /\ q_specific NB ta 2101300 FILE = Ok 70%nat /\ q_specific NB ta 2101300 FRAME = Ok 0%nat.
  Proof. split; [exact rta|]. split; vm_compute; reflexivity. Qed.

  (* ---- what is false ---- *)
  (* The allocation site of an address in a file but in no segment of it is read from the mapping's
     records as if they were the file's. *)
  Theorem query_file_site_refuted : exists s obj f, R s /\ innermost s obj f /\ b_alloc (bigs s f) = FILE /\ fm (b_priv (bigs s f)) <> None /\
    qb (bof s) [] 0 obj = Ok (bof s, b_begin (bigs s f)) /\ qs (bof s) [] 0 obj = UB.
  Proof.
    exists ta, 2104000, 4%nat. destruct query_rest_ex as (A & B & _ & D & _). split; [exact A|]. split; [exact B|]. split; [vm_compute; reflexivity|].
    split; [vm_compute; discriminate|]. split; [|vm_compute; reflexivity]. assert (E : b_begin (bigs ta 4) = 2097152) by (vm_compute; reflexivity). rewrite E. exact D.
  Qed.
  (* Asking for the innermost type of plain mapped memory follows a null pointer. *)
  Theorem query_inner_refuted : exists s obj n, R s /\ innermost s obj n /\ itself (bof s) 99 n MMAP 0 /\ qi (bof s) [] 0 obj = UB.
  Proof.
    exists s6, 4194310, 6%nat. split; [exact r6|]. split; [apply (innermost_by _ _ _ _ _ _ _ _ _ r6); vm_compute; reflexivity|].
    split; [apply it_map; vm_compute; reflexivity|vm_compute; reflexivity].
  Qed.
  (* START parcelled out by the private allocator, as create_private_nommap_malloc_heap leaves it; the
     ld.so's arena in record 5 *)
  Definition s7 : st := stp s6 (SetSub 1 PRIV 1).
  Definition s8 : st := stp s6 (SetSub 5 LDSO 1).
  Lemma r7 : R s7. Proof. apply (reach_step _ _ _ _ _ _ s6 (SetSub 1 PRIV 1)); [exact r6|cbn [legal]; isl|runs]. Qed.
  Lemma r8 : R s8. Proof. apply (reach_step _ _ _ _ _ _ s6 (SetSub 5 LDSO 1)); [exact r6|cbn [legal]; isl|runs]. Qed.
  (* Every query about the library's own heap calls a null function. *)
  Theorem query_private_heap_refuted : exists s obj n, R s /\ innermost s obj n /\ n = start s /\
    qb (bof s) [] 0 obj = UB /\ qz (bof s) [] 0 obj = UB /\ qt (bof s) [] 0 obj = UB /\ qs (bof s) [] 0 obj = UB /\ qa (bof s) [] 0 obj = UB /\ qi (bof s) [] 0 obj = UB.
  Proof.
    exists s7, 1050000, 1%nat. split; [exact r7|]. split; [apply (innermost_by _ _ _ _ _ _ _ _ _ r7); vm_compute; reflexivity|].
    repeat split; vm_compute; reflexivity.
  Qed.
  (* The type of an ld.so chunk that has no type yet is whatever was in the variable; its site is
     answered. *)
  Theorem query_ldso_type_refuted : exists s obj n, R s /\ innermost s obj n /\ b_sub (bigs s n) = LDSO /\
    qt (bof s) [] 0 obj = UB /\ qs (bof s) [] 0 obj = Ok (bof s, 555) /\ qb (bof s) [] 0 obj = Ok (bof s, 2167040) /\
    ~ exists x, accounts (info_of NB true fm 99 ax0 (fun _ => 98) 97 ld oth (bof s) LDSO obj n) x.
  Proof.
    exists s8, 2167100, 5%nat. split; [exact r8|]. assert (HN : innermost s8 2167100 5) by (apply (innermost_by _ _ _ _ _ _ _ _ _ r8); vm_compute; reflexivity).
    split; [exact HN|]. split; [vm_compute; reflexivity|]. split; [vm_compute; reflexivity|].
    assert (NZ : responsible (fo (bm (bof s8))) 5 <> 0%nat) by (vm_compute; discriminate).
    assert (D := fun k => query_dispatch NB BIG true al (-1) (-1) fm 99 ax0 (fun _ => 98) 97 ld oth (bof s8) [] 0 2167100 5 k r8 HN NZ).
    assert (I1 : info_of NB true fm 99 ax0 (fun _ => 98) 97 ld oth (bof s8) (responsible (fo (bm (bof s8))) 5) 2167100 5 (mkAsk false false false true) = Ok (None, mkOuts None None None (Some 555))) by (vm_compute; reflexivity).
    assert (I2 : info_of NB true fm 99 ax0 (fun _ => 98) 97 ld oth (bof s8) (responsible (fo (bm (bof s8))) 5) 2167100 5 (mkAsk false true true false) = Ok (None, mkOuts None (Some 2167040) (Some 100) None)) by (vm_compute; reflexivity).
    split; [unfold Query_model.q_site; rewrite D, I1; reflexivity|].
    split; [unfold Query_model.q_base; rewrite D, I2; reflexivity|].
    intros (x & HA). destruct (HA (mkAsk true false false false)) as (e & o & E & X). vm_compute in E. injection E as <- <-.
    destruct x as [t b z s|b z s|err]; cbn in X; destruct X as [X Y]; try discriminate.
  Qed.
  (* The stack allocator's own answer is that the allocation site is unknown, which the queries for
     base and size take to mean that these were given. *)
  Theorem query_stack_own_refuted : ~ exists x, accounts (fun k => stack_info) x.
  Proof.
    intros (x & HA). destruct (HA (mkAsk false true false false)) as (e & o & E & X). unfold stack_info in E. injection E as <- <-.
    destruct x as [t b z s|b z s|err]; cbn in X; destruct X as [X Y]; try discriminate. injection X as <-. apply (proj1 Y). reflexivity.
  Qed.
End QyEx.
