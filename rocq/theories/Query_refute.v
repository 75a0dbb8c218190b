(* C63: queries about mappings and the heap: concrete cases, and what is false. *)
From Verif Require Import Base Big_model Big_spec Big_inv Big_create Big_hist Big_props Map_model Map_spec Big_field Map_seq Map_state Map_hist Map_props Map_ex.
From Verif Require Import Brk_model Brk_spec Brk_props Brk_refute File_model Scan_model Auxv_model Query_model Query_spec Query_props Query_ex.
Import Map_ex.Ex.

Module QmEx.
  Definition no_fm (p : nat) : option fmd := None.
  Definition ld (x : Z) : option (Z * Z * bool * Z) := None.
  Definition oth (a : nat) (x : Z) (n : nat) (k : ask) : res (option qerr * outs) := Ok (Some Eother, nothing).
  Notation G d f := (f NB BIG d al (-1) (-1) no_fm 99 QyEx.ax0 (fun _ => 98) 97 ld oth).
  Definition plain (T : mst) : bst := mkB T 0 0 0 false 0.

  (* five pages of file 7 mapped by the code at 55, two anonymous pages behind them by that at 77 *)
  Definition u1 d := get (e0 d) (do_mmap NB BIG d obj (e0 d) 2097152 20000 5 2 (Some 7) 0 55).
  Definition u2 d := get (u1 d) (do_mmap NB BIG d obj (u1 d) 2117632 8192 3 34 None 0 77).
  Definition N1 := map_over M0 2097152 (2097152 + RUP 20000) (mkAttr 5 2 (Some 7) 55).
  Definition N2 := map_over N1 2117632 (2117632 + RUP 8192) (mkAttr 3 34 None 77).
  Lemma k1 d : mreach d (u1 d) N1.
  Proof.
    apply (m_map _ _ _ _ _ _ _ (e0 d) M0 2097152 20000 5 2 (Some 7) 0 55); [apply h0| |].
    - apply (chk_free_ok _ _ d al (-1) (-1)); [inv (h0 d)|destruct d; vm_compute; reflexivity].
    - apply get_ok. destruct d; vm_compute; reflexivity.
  Qed.
  Lemma k2 d : mreach d (u2 d) N2.
  Proof.
    apply (m_map _ _ _ _ _ _ _ (u1 d) N1 2117632 8192 3 34 None 0 77); [apply k1| |].
    - apply (chk_free_ok _ _ d al (-1) (-1)); [inv (k1 d)|destruct d; vm_compute; reflexivity].
    - apply get_ok. destruct d; vm_compute; reflexivity.
  Qed.

  (* query_mapping_site_partial: in the file's part *)
  Example query_mapping_ex : forall d, mreach d (u2 d) N2 /\ innermost (fo (u2 d)) 2100000 2 /\ itself (plain (u2 d)) 99 2 MMAP 0 /\
    G d q_site (plain (u2 d)) [] 0 2100000 = Ok (plain (u2 d), 55) /\ G d q_base (plain (u2 d)) [] 0 2100000 = Ok (plain (u2 d), 2097152).
  Proof.
    intro d. assert (HM := k2 d). assert (HR := mreach_R _ _ _ _ _ _ _ _ _ HM).
    assert (HN : innermost (fo (u2 d)) 2100000 2) by (apply (innermost_by _ _ _ _ _ _ _ _ _ HR); destruct d; vm_compute; reflexivity).
    assert (HI : itself (plain (u2 d)) 99 2 MMAP 0) by (apply it_map; destruct d; vm_compute; reflexivity).
    split; [exact HM|]. split; [exact HN|]. split; [exact HI|]. split.
    - destruct (query_mapping_site_partial NB BIG d al (-1) (-1) obj no_fm 99 QyEx.ax0 (fun _ => 98) 97 ld oth (plain (u2 d)) N2 [] 0 2100000 2 HM HN HI) as (t & Ht & E).
      rewrite E. assert (B : b_begin (bigs (fo (bm (plain (u2 d)))) 2) = 2097152) by (destruct d; vm_compute; reflexivity). rewrite B in Ht.
      vm_compute in Ht. injection Ht as <-. reflexivity.
    - destruct (query_record_exact NB BIG d al (-1) (-1) no_fm 99 QyEx.ax0 (fun _ => 98) 97 ld oth (plain (u2 d)) [] 0 2100000 2 MMAP 0 HR HN HI) as (E & _). rewrite E.
      assert (B : b_begin (bigs (fo (bm (plain (u2 d)))) 2) = 2097152) by (destruct d; vm_compute; reflexivity). rewrite B. reflexivity.
  Qed.
  (* The site of mapped memory is in general not where it was mapped. *)
  Theorem query_mapping_site_refuted : forall d, exists T M a n t, mreach d T M /\ innermost (fo T) a n /\ itself (plain T) 99 n MMAP 0 /\ M a = Some t /\
    exists s, G d q_site (plain T) [] 0 a = Ok (plain T, s) /\ s <> at_caller t.
  Proof.
    intro d. exists (u2 d), N2, 2120000, 2%nat, (mkAttr 3 34 None 77). assert (HM := k2 d). assert (HR := mreach_R _ _ _ _ _ _ _ _ _ HM).
    assert (HN : innermost (fo (u2 d)) 2120000 2) by (apply (innermost_by _ _ _ _ _ _ _ _ _ HR); destruct d; vm_compute; reflexivity).
    assert (HI : itself (plain (u2 d)) 99 2 MMAP 0) by (apply it_map; destruct d; vm_compute; reflexivity).
    split; [exact HM|]. split; [exact HN|]. split; [exact HI|]. split; [vm_compute; reflexivity|].
    destruct (query_mapping_site_partial NB BIG d al (-1) (-1) obj no_fm 99 QyEx.ax0 (fun _ => 98) 97 ld oth (plain (u2 d)) N2 [] 0 2120000 2 HM HN HI) as (t & Ht & E).
    exists (at_caller t). split; [exact E|]. assert (B : b_begin (bigs (fo (bm (plain (u2 d)))) 2) = 2097152) by (destruct d; vm_compute; reflexivity). rewrite B in Ht.
    vm_compute in Ht. injection Ht as <-. cbn. discriminate.
  Qed.

  (* ---- the heap ---- *)
  Lemma hb4' dbg : exists M, mreach dbg (bm (b4' dbg)) M.
  Proof.
    destruct (hb4 dbg) as (M & H). destruct (hcur dbg _ _ _ 2120000 H) as (M' & H'). destruct (breach_inv _ _ _ _ _ _ _ _ _ _ H') as (_ & (M0' & HM & _) & _).
    exists M0'. exact HM.
  Qed.
  Lemma al_ok : forall a, 0 <= al a /\ (al a = 0 \/ (al a | PAGE)).
  Proof. intro a. do 2 (destruct a as [|a]; [cbn; split; [lia|right; first [exists 1; reflexivity|exists 4096; reflexivity]]|]). cbn. split; [lia|right; exists 4096; reflexivity]. Qed.
  Lemma mv4 d : may_move BIG (bm (b4' d)) (b_map (b4' d)) (b_brk (b4' d)) (attrs_of (bigs (fo (bm (b4' d))) (b_map (b4' d)))) (attrs_of (bigs (fo (bm (b4' d))) (b_brk (b4' d)))) 2150001 2150001.
  Proof. destruct (hb4' d) as (M & HM). apply (chk_move_ok d _ M); [exact HM|destruct d; vm_compute; reflexivity]. Qed.
  Lemma ends4 d : b_end (bigs (fo (bm (b4' d))) (b_brk (b4' d))) <= 2150000.
  Proof. apply Z.leb_le. destruct d; vm_compute; reflexivity. Qed.
  (* query_heap_grown_partial: a raw brk system call nobody notified *)
  Example query_heap_ex : forall d, let B := b4' d in let T := bm B in
    (exists M, mreach d T M) /\ heap T (b_map B) (b_brk B) (attrs_of (bigs (fo T) (b_map B))) (attrs_of (bigs (fo T) (b_brk B))) /\
    may_move BIG T (b_map B) (b_brk B) (attrs_of (bigs (fo T) (b_map B))) (attrs_of (bigs (fo T) (b_brk B))) 2150001 2150001 /\
    legal NB BIG al (fo T) (Touch [] 2150000) /\ (forall m, live (fo T) m -> ~ covers (fo T) m 2150000) /\
    a_sub (attrs_of (bigs (fo T) (b_brk B))) = 0%nat /\ a_begin (attrs_of (bigs (fo T) (b_brk B))) <= b_cur B /\ b_cur B <= 2150000 < 2150001 /\
    exists B', G d q_base B [] 2150001 2150000 = Ok (B', 2117632) /\ G d q_size B [] 2150001 2150000 = Ok (B', 32369) /\ G d q_alloc B [] 2150001 2150000 = Ok (B', BRK).
  Proof.
    intros d B T. destruct (hb4' d) as (M & HM). assert (HR := mreach_R _ _ _ _ _ _ _ _ _ HM).
    assert (HP : heap T (b_map B) (b_brk B) (attrs_of (bigs (fo T) (b_map B))) (attrs_of (bigs (fo T) (b_brk B)))) by (constructor; unfold T, B; destruct d; vm_compute; reflexivity).
    assert (MV : may_move BIG T (b_map B) (b_brk B) (attrs_of (bigs (fo T) (b_map B))) (attrs_of (bigs (fo T) (b_brk B))) 2150001 2150001) by exact (mv4 d).
    assert (LG : legal NB BIG al (fo T) (Touch [] 2150000)) by (cbn [legal]; split; [unfold PAGE; lia|]; split; [exact al_ok|]; intros b []).
    assert (UN : forall m, live (fo T) m -> ~ covers (fo T) m 2150000) by (apply (uncovered_by _ _ _ _ _ _ _ _ HR); unfold T, B; destruct d; vm_compute; reflexivity).
    assert (S0 : a_sub (attrs_of (bigs (fo T) (b_brk B))) = 0%nat) by (unfold T, B; destruct d; vm_compute; reflexivity).
    assert (C0 : b_cur B = 2120000) by (unfold B; destruct d; vm_compute; reflexivity).
    assert (B0 : a_begin (attrs_of (bigs (fo T) (b_brk B))) = 2117632) by (unfold T, B; destruct d; vm_compute; reflexivity).
    assert (E0 : a_end (attrs_of (bigs (fo T) (b_brk B))) = 2120000) by (unfold T, B; destruct d; vm_compute; reflexivity).
    split; [exists M; exact HM|]. split; [exact HP|]. split; [exact MV|]. split; [exact LG|]. split; [exact UN|]. split; [exact S0|].
    rewrite C0, B0. split; [lia|]. split; [lia|].
    destruct (query_heap_grown_partial NB BIG d al (-1) (-1) obj no_fm 99 QyEx.ax0 (fun _ => 98) 97 ld oth B M _ _ 2150001 [] 2150000 HM HP MV) as (T' & _ & _ & Q1 & Q2 & _ & _ & Q5); try assumption.
    - intro X. lia.
    - intros x [].
    - lia.
    - lia.
    - exists (with_m B T'). fold T in Q1, Q2. rewrite B0 in Q1, Q2. split; [exact Q1|]. split; [exact Q2|exact Q5].
  Qed.

  (* What the second of two identical queries answers, nothing having happened in between. *)
  Definition again d (B : bst) (kbrk a : Z) : res Z := do '(B1, _) <- G d q_base B [] kbrk a ; do '(_, v) <- G d q_base B1 [] kbrk a ; Ok v.
  Definition first d (B : bst) (kbrk a : Z) : res Z := do '(_, v) <- G d q_base B [] kbrk a ; Ok v.
  (* The C library's sbrk moves the break and its own note of it, without our being told; asking about
     the new memory first answers that there is nothing there, then that it is the heap. *)
  Definition set_cur (B : bst) (c : Z) : bst := mkB (bm B) c (b_map B) (b_brk B) (b_init B) (b_last B).
  Lemma set_cur_eqs B c : bm (set_cur B c) = bm B /\ b_map (set_cur B c) = b_map B /\ b_brk (set_cur B c) = b_brk B /\ b_cur (set_cur B c) = c.
  Proof. auto. Qed.
  Definition b6 d := set_cur (b4' d) 2150001.
  Lemma first6 d : first d (b6 d) 2150001 2150000 = Ok 0.
  Proof. destruct d; vm_compute; reflexivity. Qed.
  Lemma again6 d : again d (b6 d) 2150001 2150000 = Ok (b_begin (bigs (fo (bm (b4' d))) (b_brk (b4' d)))).
  Proof. destruct d; vm_compute; reflexivity. Qed.
  Theorem query_twice_refuted : forall d, exists B M k a, mreach d (bm B) M /\ b_cur B = k /\
    may_move BIG (bm B) (b_map B) (b_brk B) (attrs_of (bigs (fo (bm B)) (b_map B))) (attrs_of (bigs (fo (bm B)) (b_brk B))) k k /\
    b_end (bigs (fo (bm B)) (b_brk B)) <= a < k /\ first d B k a = Ok 0 /\ again d B k a = Ok (b_begin (bigs (fo (bm B)) (b_brk B))).
  Proof.
    intro d. destruct (hb4' d) as (M & HM). exists (b6 d), M, 2150001, 2150000.
    destruct (set_cur_eqs (b4' d) 2150001) as (W1 & W2 & W3 & W4). fold (b6 d) in W1, W2, W3, W4. rewrite W1, W2, W3, W4. split; [exact HM|]. split; [reflexivity|].
    split; [exact (mv4 d)|]. split; [split; [exact (ends4 d)|reflexivity]|].
    split; [exact (first6 d)|exact (again6 d)].
  Qed.
  (* Likewise the rest of the page above the break, which then counts as mapped. *)
  Theorem query_twice_page_refuted : forall d, exists B M k a, mreach d (bm B) M /\ k <= a < RUP k /\ b_cur B < k /\
    first d B k a = Ok 0 /\ again d B k a = Ok (b_begin (bigs (fo (bm B)) (b_map B))).
  Proof.
    intro d. destruct (hb4' d) as (M & HM). exists (b4' d), M, 2150001, 2150002. split; [exact HM|].
    split; [split; [lia|apply Z.ltb_lt; vm_compute; reflexivity]|]. split; [apply Z.ltb_lt; destruct d; vm_compute; reflexivity|]. split; destruct d; vm_compute; reflexivity.
  Qed.
End QmEx.

Print Assumptions query_dispatch.
Print Assumptions query_agree_partial.
Print Assumptions query_record_exact.
Print Assumptions query_mapping_site_partial.
Print Assumptions query_brk_site.
Print Assumptions query_file_site_partial.
Print Assumptions query_nothing.
Print Assumptions query_stack_grown.
Print Assumptions query_heap_grown_partial.
Print Assumptions query_section_search.
Print Assumptions query_specific_exact.
Print Assumptions QyEx.query_file_site_refuted.
Print Assumptions QyEx.query_inner_refuted.
Print Assumptions QyEx.query_private_heap_refuted.
Print Assumptions QyEx.query_ldso_type_refuted.
Print Assumptions QyEx.query_stack_own_refuted.
Print Assumptions QmEx.query_mapping_site_refuted.
Print Assumptions QmEx.query_twice_refuted.
Print Assumptions QmEx.query_twice_page_refuted.
