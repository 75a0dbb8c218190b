(* C55: a concrete process, and what is false of system calls. *)
From Verif Require Import Base Big_model Big_spec Big_inv Big_create Big_hist Big_props Big_field Map_model Map_spec Map_seq Map_state Map_hist Map_props Map_ex Brk_model Brk_spec Brk_props Brk_refute File_model Trap_model Trap_spec Trap_proof Trap_props.
Import Ex.

Module TrEx.
(* This library's file is in the mapping at 0x200000 of e1. *)
Definition of := New 2097152 16384 0 0 FILE.
Definition OWN : Z := 2097200.
Definition ef d : mst := match step NB BIG d al (-1) (-1) (fo (e1 d)) of with Ok s => set_fo (e1 d) s | _ => e1 d end.
Lemma lf d : legal NB BIG al (fo (e1 d)) of.
Proof.
  cbn [legal of]. assert (MI := proj1 (mreach_inv _ _ _ _ _ _ _ _ _ (h1 d))).
  split; [apply (some_free_ok NB al); destruct d; vm_compute; reflexivity|]. split; [unfold BIG; lia|]. exists 2%nat. split.
  - split; [lia|]. split.
    + cbn [Nat.eqb]. split; [split; [discriminate|destruct d; vm_compute; reflexivity]|].
      split; apply Z.leb_le; destruct d; vm_compute; reflexivity.
    + intros c Lc Pc. assert (X := all_live_ok NB BIG d al (-1) (-1) (e1 d) (fun c => negb (Nat.eqb (b_parent (bigs (fo (e1 d)) c)) 2)) MI).
      exfalso. assert (Y := X ltac:(destruct d; vm_compute; reflexivity) c Lc). cbn beta in Y. rewrite Pc in Y. discriminate.
  - assert (R := mi_R _ _ _ _ _ _ _ MI). destruct (reach_good _ _ _ _ _ _ _ R) as [(K & rk & HI) _].
    split; (match goal with |- lookup_answer ?s ?a ?r => destruct (Big_lookup.find_deepest_correct _ _ _ _ HI a) as (r' & E & A); replace r with r'; [exact A|] end);
    revert E; destruct d; vm_compute; intro E; injection E as <-; reflexivity.
Qed.
Lemma hf d : mreach d (ef d) M1.
Proof.
  assert (MI := proj1 (mreach_inv _ _ _ _ _ _ _ _ _ (h1 d))). assert (R := mi_R _ _ _ _ _ _ _ MI).
  destruct (big_calls_succeed NB BIG d al (-1) (-1) (fo (e1 d)) of R (lf d)) as (s' & E & R').
  unfold ef. rewrite E.
  apply (m_other _ _ _ _ _ _ _ (e1 d) M1 of s' (h1 d) (lf d) E).
  destruct (lf d) as (Hf & Hs & p & Fi & Pc).
  destruct (big_create_exact NB BIG d al (-1) (-1) (fo (e1 d)) 2097152 16384 0 0 FILE p R Hf Hs Fi Pc) as (s2 & n & E2 & _ & _ & Vn & VW & _).
  cbn [step of] in E. rewrite E2 in E. cbn [bind] in E. injection E as ->.
  intros m v A. rewrite VW. destruct (Nat.eqb_spec m n) as [->|]; [|tauto]. rewrite Vn. split; [|discriminate].
  intro X. injection X as <-. discriminate.
Qed.

Definition tf d := mkTr (mkB (ef d) 0 0 0 false 0) AREA0.
Definition lk (fd : Z) : option Z := if fd =? 5 then Some 9 else None.
Notation trap d := (trap NB BIG d obj false true OWN lk).
Notation proc d := (proc NB BIG d al (-1) (-1) obj true OWN lk).
Notation follows d := (follows NB BIG d al (-1) (-1) obj).

(* the state after a call, and its answers without the state *)
Definition after3 {A B C} (t : A) (x : res (A * B * C)) : A := match x with Ok (t', _, _) => t' | _ => t end.
Definition is3 {A B C} (r : B) (c : C) (x : res (A * B * C)) : Prop := match x with Ok (_, r', c') => r' = r /\ c' = c | _ => False end.
Lemma is3_ok {A B C} (t : A) (r : B) (c : C) x : is3 r c x -> x = Ok (after3 t x, r, c).
Proof. destruct x as [[[t' r'] c']| | |]; intros []; subst; reflexivity. Qed.

(* deciding the hypotheses *)
Definition chk_out (s : st) (caller : Z) : bool :=
  existsb (fun f => negb (Nat.eqb f 0) && in_use (bigs s f) && Nat.eqb (b_alloc (bigs s f)) FILE && (b_begin (bigs s f) <=? OWN) && (OWN <? b_end (bigs s f))) (seq 0 NB)
  && all_live NB s (fun f => negb (Nat.eqb (b_alloc (bigs s f)) FILE && (b_begin (bigs s f) <=? OWN) && (OWN <? b_end (bigs s f)) && (b_begin (bigs s f) <=? caller) && (caller <? b_end (bigs s f)))).
Lemma chk_out_ok d T M caller : mreach d T M -> chk_out (fo T) caller = true -> outside true OWN (fo T) caller.
Proof.
  intros HM H. apply andb_prop in H. destruct H as [H1 H2]. right. split.
  - apply existsb_exists in H1. destruct H1 as (f & _ & F). repeat (apply andb_prop in F; let X := fresh "X" in destruct F as [F X]).
    exists f. split; [split; [destruct (Nat.eqb_spec f 0); [discriminate|assumption]|assumption]|].
    split; [apply Nat.eqb_eq; assumption|unfold covers; lia].
  - intros f L A C1 C2. assert (X := all_live_ok NB BIG d al (-1) (-1) T _ (proj1 (mreach_inv _ _ _ _ _ _ _ _ _ HM)) H2 f L).
    cbn beta in X. rewrite A in X. unfold covers in *. change (Nat.eqb FILE FILE) with true in X. lia.
Qed.
Definition chk_room (T : mst) (lo hi : Z) : bool :=
  all_live NB (fo T) (fun n => negb (Nat.eqb (b_parent (bigs (fo T) n)) 0) || Nat.eqb (b_alloc (bigs (fo T) n)) MMAP)
  && some_free NB (fo T) && (hi - lo <=? BIG)
  && all_live NB (fo T) (fun n => negb (b_end (bigs (fo T) n) =? lo) || (hi - b_begin (bigs (fo T) n) <=? BIG)).
Lemma chk_room_ok d T M lo hi : mreach d T M -> chk_room T lo hi = true -> room NB BIG T lo hi.
Proof.
  intros HM H. do 3 (apply andb_prop in H; let X := fresh "X" in destruct H as [H X]).
  assert (MI := proj1 (mreach_inv _ _ _ _ _ _ _ _ _ HM)). constructor.
  - intros n L P. assert (Y := all_live_ok NB BIG d al (-1) (-1) T _ MI H n L). cbn beta in Y. rewrite P in Y. apply Nat.eqb_eq, Y.
  - apply (some_free_ok NB al), X1.
  - apply Z.leb_le, X0.
  - intros n L _ E. assert (Y := all_live_ok NB BIG d al (-1) (-1) T _ MI X n L). cbn beta in Y. rewrite E, Z.eqb_refl in Y. apply Z.leb_le, Y.
Qed.

(* The program asks for 10000 bytes of memory anywhere and receives 0x300000; maps file 9, open
   as descriptor 5, behind it; and unmaps the middle. *)
Definition CALLER : Z := 5000.
Definition c1 := Cmmap (mkMm 0 10000 3 34 (-1) 0).
Definition c2 := Cmmap (mkMm 3158016 8192 1 2 5 0).
Definition c3 := Cmunmap 3149824 12288.
Definition kern (c : call) : Z :=
  match c with Cmmap m => if m_addr m =? 0 then 3145728 else m_addr m | _ => 0 end.
Definition nxt d (t : tst) (c : call) : tst := match trap d kern t CALLER c with Ok (t', _, _) => t' | _ => t end.
Definition t1 d := nxt d (tf d) c1.
Definition t2 d := nxt d (t1 d) c2.
Definition t3 d := nxt d (t2 d) c3.
Definition K1 := map_over M1 3145728 (3145728 + RUP 10000) (mkAttr 3 34 None CALLER).
Definition K2 := map_over K1 3158016 (3158016 + RUP 8192) (mkAttr 1 2 (Some 9) CALLER).
Definition K3 := unmap K2 3149824 (3149824 + RUP 12288).

Lemma M1_none a : 3145728 <= a -> M1 a = None.
Proof. intro H. unfold M1, M0, map_over, RUP, rup, PAGE. destruct (_ && _) eqn:E; [lia|]. destruct ((1048576 <=? a) && _) eqn:E1; [lia|reflexivity]. Qed.
Lemma K1_none a : 3158016 <= a -> K1 a = None.
Proof. intro H. unfold K1, map_over. change (RUP 10000) with 12288. destruct (_ && _) eqn:E; [lia|]. apply M1_none. lia. Qed.
Lemma does1 e : does lk CALLER e M1 c1 3145728 K1.
Proof.
  apply (d_mmap lk CALLER e M1 (mkMm 0 10000 3 34 (-1) 0)); try reflexivity; [vm_compute; discriminate|].
  change (fixed (mkMm 0 10000 3 34 (-1) 0)) with false. intros a H. apply M1_none. lia.
Qed.
Lemma may1 d e : may_call NB BIG true OWN lk (tr_b (tf d)) CALLER c1 3145728 e.
Proof.
  split.
  - right. right. apply (chk_out_ok d _ M1); [apply hf|destruct d; vm_compute; reflexivity].
  - right. split; [reflexivity|]. change (fixed (mkMm 0 10000 3 34 (-1) 0)) with false. apply (chk_room_ok d _ M1); [apply hf|destruct d; vm_compute; reflexivity].
Qed.
Lemma proc0 d : proc d (tf d) M1.
Proof. apply p_start. apply hf. Qed.
Lemma fol0 d : follows d (tf d) M1.
Proof. exists M1. split; [apply hf|intro a; reflexivity]. Qed.
Lemma run1 d : trap d kern (tf d) CALLER c1 = Ok (t1 d, 3145728, [c1]).
Proof.
  destruct (trap_call_exact_partial NB BIG d al (-1) (-1) obj true OWN lk (tf d) M1 CALLER c1 3145728 0 K1 kern (fol0 d) (does1 0) (may1 d 0) eq_refl) as (t' & E & _).
  unfold t1, nxt. rewrite E. reflexivity.
Qed.
Lemma proc1 d : proc d (t1 d) K1.
Proof. exact (p_call _ _ _ _ _ _ _ _ _ _ (tf d) M1 CALLER c1 3145728 0 K1 kern _ _ _ (proc0 d) (does1 0) (may1 d 0) eq_refl (run1 d)). Qed.
Lemma does2 e : does lk CALLER e K1 c2 3158016 K2.
Proof.
  apply (d_mmap lk CALLER e K1 (mkMm 3158016 8192 1 2 5 0)); try reflexivity; [vm_compute; discriminate|].
  change (fixed (mkMm 3158016 8192 1 2 5 0)) with false. intros a H. apply K1_none. lia.
Qed.
Lemma may2 d e : may_call NB BIG true OWN lk (tr_b (t1 d)) CALLER c2 3158016 e.
Proof.
  split; [left; discriminate|]. right. split; [split; discriminate|]. change (fixed (mkMm 3158016 8192 1 2 5 0)) with false.
  destruct (proc_follows _ _ _ _ _ _ _ _ _ _ _ _ (proc1 d)) as (M & HM & _). apply (chk_room_ok d _ M); [exact HM|destruct d; vm_compute; reflexivity].
Qed.
Lemma run2 d : trap d kern (t1 d) CALLER c2 = Ok (t2 d, 3158016, [c2]).
Proof.
  destruct (trap_call_exact_partial NB BIG d al (-1) (-1) obj true OWN lk (t1 d) K1 CALLER c2 3158016 0 K2 kern (proc_follows _ _ _ _ _ _ _ _ _ _ _ _ (proc1 d)) (does2 0) (may2 d 0) eq_refl) as (t' & E & _).
  unfold t2, nxt. rewrite E. reflexivity.
Qed.
Lemma proc2 d : proc d (t2 d) K2.
Proof. exact (p_call _ _ _ _ _ _ _ _ _ _ (t1 d) K1 CALLER c2 3158016 0 K2 kern _ _ _ (proc1 d) (does2 0) (may2 d 0) eq_refl (run2 d)). Qed.
Lemma does3 e : does lk CALLER e K2 c3 0 K3.
Proof. apply d_munmap; reflexivity. Qed.
Lemma may3 d e : may_call NB BIG true OWN lk (tr_b (t2 d)) CALLER c3 0 e.
Proof.
  right. destruct (proc_follows _ _ _ _ _ _ _ _ _ _ _ _ (proc2 d)) as (M & HM & _).
  apply (chk_unmap_ok _ BIG d al (-1) (-1)); [exact (proj1 (mreach_inv _ _ _ _ _ _ _ _ _ HM))|destruct d; vm_compute; reflexivity].
Qed.
Lemma run3 d : trap d kern (t2 d) CALLER c3 = Ok (t3 d, 0, [c3]).
Proof.
  destruct (trap_call_exact_partial NB BIG d al (-1) (-1) obj true OWN lk (t2 d) K2 CALLER c3 0 0 K3 kern (proc_follows _ _ _ _ _ _ _ _ _ _ _ _ (proc2 d)) (does3 0) (may3 d 0) eq_refl) as (t' & E & _).
  unfold t3, nxt. rewrite E. reflexivity.
Qed.
Lemma proc3 d : proc d (t3 d) K3.
Proof. exact (p_call _ _ _ _ _ _ _ _ _ _ (t2 d) K2 CALLER c3 0 0 K3 kern _ _ _ (proc2 d) (does3 0) (may3 d 0) eq_refl (run3 d)). Qed.

(* Or, after the first call, moves what it received to 0x400000. *)
Definition c4 := Cmremap 3145728 10000 12000 3 4194304.
Definition kern4 (c : call) : Z := match c with Cmremap _ _ _ _ n => n | _ => 0 end.
Definition t4 d : tst := match trap d kern4 (t1 d) CALLER c4 with Ok (t', _, _) => t' | _ => t1 d end.
Definition K1m := unmap (map_over K1 4194304 (4194304 + RUP 10000) (mkAttr 3 34 None CALLER)) 3145728 (3145728 + RUP 10000).
Lemma does4 e : does lk CALLER e K1 c4 4194304 K1m.
Proof.
  apply (d_mremap lk CALLER e K1 3145728 10000 12000 3 4194304 (mkAttr 3 34 None CALLER)); try reflexivity; try discriminate.
  - right. vm_compute. discriminate.
  - intros a Ha. unfold K1, map_over. destruct (_ && _) eqn:E; [reflexivity|lia].
Qed.
Lemma may4 d e : may_call NB BIG true OWN lk (tr_b (t1 d)) CALLER c4 4194304 e.
Proof.
  destruct (proc_follows _ _ _ _ _ _ _ _ _ _ _ _ (proc1 d)) as (M & HM & SM). destruct (mreach_inv _ _ _ _ _ _ _ _ _ HM) as [MI MR].
  split; [discriminate|]. split; [discriminate|]. split; [discriminate|]. right.
  exists 4%nat, (slot (q_maps (seqs (bm (tr_b (t1 d))) (priv_of (bm (tr_b (t1 d))) 4))) 0).
  split; [split; [split; [discriminate|]|]; destruct d; vm_compute; reflexivity|].
  split; [destruct d; vm_compute; left; reflexivity|].
  split; [apply Z.leb_le; destruct d; vm_compute; reflexivity|].
  split; [apply Z.leb_le; destruct d; vm_compute; reflexivity|].
  split; [destruct d; vm_compute; reflexivity|].
  split; [destruct (chk_free_ok NB BIG d al (-1) (-1) _ 4194304 (4194304 + RUP 10000) 0 None MI ltac:(destruct d; vm_compute; reflexivity)) as (_ & _ & _ & [X|(X & _)]);
      [exact X|exfalso; apply X; reflexivity]|].
  split; [intros u Hu; apply MR in Hu; rewrite SM in Hu; vm_compute in Hu; discriminate|].
  split; [apply (chk_unmap_ok _ BIG d al (-1) (-1)); [exact MI|destruct d; vm_compute; reflexivity]|].
  exists 6%nat, 7%nat. split; [discriminate|]. split; [unfold NB; lia|]. split; [unfold NB; lia|]. split; destruct d; vm_compute; reflexivity.
Qed.
Lemma run4 d : trap d kern4 (t1 d) CALLER c4 = Ok (t4 d, 4194304, [c4]).
Proof.
  destruct (trap_call_exact_partial NB BIG d al (-1) (-1) obj true OWN lk (t1 d) K1 CALLER c4 4194304 0 K1m kern4 (proc_follows _ _ _ _ _ _ _ _ _ _ _ _ (proc1 d)) (does4 0) (may4 d 0) eq_refl) as (t' & E & _).
  unfold t4. rewrite E. reflexivity.
Qed.

Definition at_ (T : mst) (a : Z) : option attr :=
  match Map_model.query NB T a with Ok (Some (q, e)) => Some (attr_of q e) | _ => None end.
Example ex_trap : forall d, proc d (t3 d) K3 /\
  map (at_ (bm (tr_b (t3 d)))) [3145728; 3149823; 3149824; 3162111; 3162112; 2097152] =
  [Some (mkAttr 3 34 None CALLER); Some (mkAttr 3 34 None CALLER); None; None; Some (mkAttr 1 2 (Some 9) CALLER); Some (mkAttr 5 2 (Some 7) 0)].
Proof. intro d. split; [apply proc3|]. destruct d; vm_compute; reflexivity. Qed.

Example ex_trap_move : forall d, proc d (t4 d) K1m /\
  map (at_ (bm (tr_b (t4 d)))) [3145728; 3158015; 4194303; 4194304; 4206591; 4206592] =
  [None; None; None; Some (mkAttr 3 34 None CALLER); Some (mkAttr 3 34 None CALLER); None].
Proof.
  intro d. split; [exact (p_call _ _ _ _ _ _ _ _ _ _ (t1 d) K1 CALLER c4 4194304 0 K1m kern4 _ _ _ (proc1 d) (does4 0) (may4 d 0) eq_refl (run4 d))|].
  destruct d; vm_compute; reflexivity.
Qed.

(* a mapping by dlbind, and one that is too big *)
Example ex_binding : forall d, match Trap_model.trap NB BIG d obj true true OWN lk kern (tf d) CALLER (Cmmap (mkMm 3158016 8192 3 2050 5 0)) with
  | Ok (t, r, s) => r = 3158016 /\ s = [Cmmap (mkMm 3158016 8192 3 2049 5 0)] /\ at_ (bm (tr_b t)) 3158016 = Some (mkAttr 3 2049 (Some 9) CALLER)
  | _ => False end.
Proof. intro d. destruct d; vm_compute; auto. Qed.
Example ex_own_big : forall d, nudge NB false true OWN (fo (bm (tr_b (tf d)))) (tr_area (tf d)) (mkMm 0 (BIG + 1) 3 34 (-1) 0) OWN =
    Ok (AREA0 + (BIG + 1), mkMm AREA0 (BIG + 1) 3 34 (-1) 0) /\
  match own_mmap NB BIG d obj false true OWN lk true (fun _ => W64 - 12) (tf d) (mkMm 0 (BIG + 1) 3 34 (-1) 0) OWN with
  | Ok (_, r, e, _) => r = MAP_FAILED /\ e = Some 12 | _ => False end.
Proof. intro d. split; destruct d; vm_compute; auto. Qed.

(* the break moves: Brk_refute's b2', from 0x205001 to 2200000 *)
Definition tb d := mkTr (b2' d) AREA0.
Example ex_trap_brk : forall d, exists v w, may_call NB BIG true OWN lk (tr_b (tb d)) CALLER (Cbrk 2200000) 2200000 (a_end v) /\
  heap (bm (tr_b (tb d))) (b_map (tr_b (tb d))) (b_brk (tr_b (tb d))) v w /\ a_end v = 2121728 /\
  match trap d (fun _ => 2200000) (tb d) CALLER (Cbrk 2200000) with
  | Ok (t, r, s) => r = 2200000 /\ s = [Cbrk 2200000] /\ at_ (bm (tr_b t)) 2200100 = Some (mkAttr 3 0 None 0)
  | _ => False
  end.
Proof.
  intro d. exists (attrs_of (bigs (fo (bm (b2' d))) (b_map (b2' d)))), (attrs_of (bigs (fo (bm (b2' d))) (b_brk (b2' d)))).
  destruct (hb2 d) as (M & H). destruct (hcur d _ _ _ 2117633 H) as (M' & H'). destruct (breach_inv _ _ _ _ _ _ _ _ _ _ H') as (IN & (M0 & HM & _) & _).
  assert (HP : heap (bm (b2' d)) (b_map (b2' d)) (b_brk (b2' d)) (attrs_of (bigs (fo (bm (b2' d))) (b_map (b2' d)))) (attrs_of (bigs (fo (bm (b2' d))) (b_brk (b2' d))))).
  { constructor; destruct d; vm_compute; reflexivity. }
  split; [|split; [exact HP|split; [destruct d; vm_compute; reflexivity|]]].
  - split; [exact IN|]. eexists _, _. split; [exact HP|]. split; [reflexivity|].
    apply (chk_move_ok d _ M0); [exact HM|]. destruct d; vm_compute; reflexivity.
  - destruct d; vm_compute; auto.
Qed.

(* the library's own mappings: two unhinted, and between them one by the program *)
Definition own1 := mkMm 0 4096 3 34 (-1) 0.
Definition prog1 := mkMm 0 10000 3 34 (-1) 0.
Definition owns d := [(fo (ef d), own1, OWN); (fo (ef d), prog1, CALLER); (fo (ef d), own1, OWN)].
Example ex_places : forall d, exists a ms, nudges NB true OWN AREA0 (owns d) = Ok (a, ms) /\
  map m_addr ms = [0x70fffffff000; 0; 0x710000000000] /\ map chosen (combine (owns d) ms) = [true; false; true].
Proof. intro d. eexists _, _. split; [destruct d; vm_compute; reflexivity|]. split; vm_compute; reflexivity. Qed.
Definition own1' := mkMm AREA0 4096 3 34 (-1) 0.
Definition K4 := map_over M1 AREA0 (AREA0 + RUP 4096) (mkAttr 3 34 None OWN).
Definition kern1 (c : call) : Z := match c with Cmmap m => m_addr m | _ => 0 end.
Example ex_own : forall d, exists t', own_mmap NB BIG d obj false true OWN lk true kern1 (tf d) own1 OWN = Ok (t', AREA0, None, [Cmmap own1']) /\
  follows d t' K4 /\ tr_area t' = AREA0 + 4096.
Proof.
  intro d.
  assert (D : does lk OWN 0 M1 (Cmmap own1') AREA0 K4).
  { apply (d_mmap lk OWN 0 M1 own1'); try reflexivity; [vm_compute; discriminate|]. change (fixed own1') with false. intros a H. apply M1_none. unfold AREA0 in H. lia. }
  assert (MC : may_call NB BIG true OWN lk (tr_b (tf d)) OWN (Cmmap own1') AREA0 0).
  { split; [left; discriminate|]. right. split; [reflexivity|]. change (fixed own1') with false. apply (chk_room_ok d _ M1); [apply hf|destruct d; vm_compute; reflexivity]. }
  assert (NU : nudge NB false true OWN (fo (bm (tr_b (tf d)))) (tr_area (tf d)) own1 OWN = Ok (AREA0 + 4096, own1')) by (destruct d; vm_compute; reflexivity).
  destruct (own_mmap_exact_partial NB BIG d al (-1) (-1) obj true OWN lk (tf d) M1 OWN own1 _ own1' AREA0 0 K4 kern1 (fol0 d) NU D MC eq_refl) as (t' & er & E & N & F & A); [vm_compute; discriminate|].
  assert (er = None) by (apply N; reflexivity). subst er. exists t'. split; [exact E|]. split; [exact F|exact A].
Qed.
End TrEx.
Import TrEx.

(* ---- what is false ---- *)
(* A program's mremap that leaves the choice of place to the kernel does not reach it: it becomes
   one to a place of the library's.  Here without MREMAP_MAYMOVE, so that the kernel, which refuses
   MREMAP_FIXED alone, always fails it. *)
Theorem trap_mremap_refuted : forall d, exists t K caller c kernel t' sent, follows d t K /\ outside true OWN (fo (bm (tr_b t))) caller /\
  trap d kernel t caller c = Ok (t', W64 - 22, sent) /\ kernel c <> W64 - 22 /\ sent <> [c].
Proof.
  intro d. exists (tf d), M1, CALLER, (Cmremap 2097152 4096 8192 0 0),
    (fun c => match c with Cmremap _ _ _ 0 _ => 2097152 | _ => W64 - 22 end).
  eexists _, [Cmremap 2097152 4096 8192 2 AREA0]. split; [apply fol0|]. split; [apply (chk_out_ok d _ M1); [apply hf|destruct d; vm_compute; reflexivity]|].
  split; [apply (is3_ok (tf d)); destruct d; vm_compute; auto|]. split; discriminate.
Qed.

(* A change of protection is not followed. *)
Theorem trap_mprotect_refuted : forall d, exists t K caller c kernel t' e K', follows d t K /\ does lk caller e K c 0 K' /\
  kernel c = 0 /\ trap d kernel t caller c = Ok (t', 0, [c]) /\ ~ follows d t' K'.
Proof.
  intro d. exists (tf d), M1, CALLER, (Cmprotect 2097152 4096 1), (fun _ => 0), (tf d), 0. eexists.
  split; [apply fol0|]. split; [apply d_mprotect|]. split; [reflexivity|]. split; [reflexivity|].
  intros (M & HM & SM). assert (R1 := proj2 (mreach_inv _ _ _ _ _ _ _ _ _ (hf d))). assert (R2 := proj2 (mreach_inv _ _ _ _ _ _ _ _ _ HM)).
  assert (X : M 2097152 = Some (mkAttr 1 2 (Some 7) 0)) by (rewrite SM; vm_compute; reflexivity). apply R2, R1 in X. vm_compute in X. discriminate.
Qed.

(* Anonymous memory asked for with a file descriptor, which the kernel ignores, is recorded as a
   mapping of the file; and if there is no such descriptor, a debug build stops. *)
Theorem trap_anonymous_fd_refuted : forall d, exists t K caller m r kernel t' e K', follows d t K /\ anonymous m = true /\
  does lk caller e K (Cmmap m) r K' /\ kernel (Cmmap m) = r /\ trap d kernel t caller (Cmmap m) = Ok (t', r, [Cmmap m]) /\
  exists a, Map_model.query NB (bm (tr_b t')) a <> Ok None /\ at_ (bm (tr_b t')) a <> K' a.
Proof.
  intro d. exists (tf d), M1, CALLER, (mkMm 3145728 4096 3 34 5 0), 3145728, kern. eexists _, 0. eexists.
  split; [apply fol0|]. split; [reflexivity|]. split; [|split; [reflexivity|split; [apply (is3_ok (tf d)); destruct d; vm_compute; auto|]]].
  - apply d_mmap; try reflexivity; [vm_compute; discriminate|]. change (fixed (mkMm 3145728 4096 3 34 5 0)) with false. intros a H. apply M1_none. lia.
  - exists 3145728. split; destruct d; vm_compute; discriminate.
Qed.
Theorem trap_no_fd_refuted : exists t K caller m r kernel e K', follows true t K /\ anonymous m = true /\
  does lk caller e K (Cmmap m) r K' /\ kernel (Cmmap m) = r /\ trap true kernel t caller (Cmmap m) = Abort.
Proof.
  exists (tf true), M1, CALLER, (mkMm 3145728 4096 3 34 77 0), 3145728, kern, 0. eexists.
  split; [apply fol0|]. split; [reflexivity|]. split; [|split; [reflexivity|vm_compute; reflexivity]].
  apply d_mmap; try reflexivity; [vm_compute; discriminate|]. change (fixed (mkMm 3145728 4096 3 34 77 0)) with false. intros a H. apply M1_none. lia.
Qed.

(* A mapping that is bigger than the index can represent stops the program. *)
Theorem trap_big_refuted : forall d, exists t K caller m r kernel e K', follows d t K /\ outside true OWN (fo (bm (tr_b t))) caller /\
  does lk caller e K (Cmmap m) r K' /\ kernel (Cmmap m) = r /\ trap d kernel t caller (Cmmap m) = Abort.
Proof.
  intro d. exists (tf d), M1, CALLER, (mkMm 0 (BIG + 1) 3 34 (-1) 0), 3145728, kern, 0. eexists.
  split; [apply fol0|]. split; [apply (chk_out_ok d _ M1); [apply hf|destruct d; vm_compute; reflexivity]|].
  split; [|split; [reflexivity|destruct d; vm_compute; reflexivity]].
  apply d_mmap; try reflexivity; [vm_compute; discriminate|]. change (fixed (mkMm 0 (BIG + 1) 3 34 (-1) 0)) with false. intros a H. apply M1_none. lia.
Qed.

(* Before this library's own file is recorded, the program's mappings are taken for the library's. *)
Theorem trap_early_refuted : forall d, exists t K caller m kernel t' sent, follows d t K /\
  trap d kernel t caller (Cmmap m) = Ok (t', AREA0, sent) /\ sent <> [Cmmap m].
Proof.
  intro d. exists (mkTr (mkB (e1 d) 0 0 0 false 0) AREA0), M1, CALLER, (mkMm 0 4096 3 34 (-1) 0), kern1. eexists _, [Cmmap (mkMm AREA0 4096 3 34 (-1) 0)].
  split; [exists M1; split; [apply h1|intro a; reflexivity]|]. split; [apply (is3_ok (tf d)); destruct d; vm_compute; auto|discriminate].
Qed.

(* Places chosen are not whole pages after a mapping that is not: two share a page. *)
Theorem own_places_page_refuted : forall d, exists l a m1 m2 m3, nudges NB true OWN AREA0 l = Ok (a, [m1; m2; m3]) /\
  (forall x, In x l -> fst (fst x) = fo (ef d) /\ 0 < m_len (snd (fst x))) /\ RUP (m_addr m2) = RUP (m_addr m3).
Proof.
  intro d. exists [(fo (ef d), mkMm 0 100 3 34 (-1) 0, OWN); (fo (ef d), mkMm 0 100 3 34 (-1) 0, OWN); (fo (ef d), mkMm 0 100 3 34 (-1) 0, OWN)].
  eexists _, _, _, _. split; [destruct d; vm_compute; reflexivity|]. split; [|vm_compute; reflexivity].
  intros x [<-|[<-|[<-|[]]]]; (split; reflexivity).
Qed.

(* A failure of the library's own mmap always tells EPERM. *)
Theorem own_mmap_errno_refuted : forall d, exists t m caller t' sent,
  own_mmap NB BIG d obj false true OWN lk true (fun _ => W64 - 12) t m caller = Ok (t', MAP_FAILED, Some EPERM, sent) /\ EPERM <> 12.
Proof.
  intro d. exists (tf d), own1, OWN, (w_area (tf d) (AREA0 + 4096)), [Cmmap own1']. split; [|discriminate].
  unfold own_mmap. cbv zeta.
  assert (NU : nudge NB false true OWN (fo (bm (tr_b (tf d)))) (tr_area (tf d)) own1 OWN = Ok (AREA0 + 4096, own1')) by (destruct d; vm_compute; reflexivity).
  rewrite NU. reflexivity.
Qed.

(* While a file is opened for dlbind, one to be opened for writing is not opened for reading and
   writing, but with the invalid access mode 3. *)
Theorem open_write_refuted : exists flags, Z.land flags 3 = 1 /\ Z.land (nudge_open true flags) 3 = 3.
Proof. exists 1. split; reflexivity. Qed.

Print Assumptions trap_call_exact_partial.
Print Assumptions trap_history_exact_partial.
Print Assumptions own_mmap_exact_partial.
Print Assumptions trap_mremap_forced.
Print Assumptions own_mmap_big.
Print Assumptions trap_binding_shares.
Print Assumptions own_places_apart.
Print Assumptions trap_mremap_refuted.
Print Assumptions trap_mprotect_refuted.
Print Assumptions trap_anonymous_fd_refuted.
Print Assumptions trap_no_fd_refuted.
Print Assumptions trap_big_refuted.
Print Assumptions trap_early_refuted.
Print Assumptions own_places_page_refuted.
Print Assumptions own_mmap_errno_refuted.
Print Assumptions open_write_refuted.
