(* A concrete history of the mapping layer, for the examples and refutations. *)
From Verif Require Import Base Big_model Big_spec Big_inv Big_create Big_hist Big_props Map_model Map_spec Big_field Map_seq Map_state Map_hist Map_props.

(* deciding the caller's duties on a state whose records are bounded *)
Section Dec.
Variables (nb : nat) (biggest : Z) (dbg : bool) (al : nat -> Z) (cur_ max_ : Z).
Notation MInv := (MInv nb biggest dbg al cur_ max_).

Definition all_live (s : st) (p : nat -> bool) : bool := forallb (fun n => Nat.eqb n 0 || negb (in_use (bigs s n)) || p n) (seq 0 nb).
Lemma all_live_ok S p : MInv S -> all_live (fo S) p = true -> forall n, live (fo S) n -> p n = true.
Proof.
  intros MI H n L. destruct (reach_good _ _ _ _ _ _ _ (mi_R _ _ _ _ _ _ _ MI)) as [(K & rk & HI) _].
  assert (B := I_bnd _ _ _ _ HI n L). apply forallb_forall with (x := n) in H; [|apply in_seq; lia].
  destruct L as [N U]. rewrite U in H. destruct (Nat.eqb_spec n 0); [contradiction|exact H].
Qed.
Definition some_free (s : st) : bool := existsb (fun n => negb (in_use (bigs s n))) (seq 1 (nb - 1)).
Lemma some_free_ok s : some_free s = true -> has_free nb s.
Proof. intro H. apply existsb_exists in H. destruct H as (n & I & U). apply in_seq in I. exists n. split; [lia|]. destruct (in_use (bigs s n)); [discriminate|reflexivity]. Qed.

Definition off_ (s : st) (lo hi : Z) (n : nat) : bool := (b_end (bigs s n) <=? lo) || (hi <=? b_begin (bigs s n)).
Lemma off_ok s lo hi n : off_ s lo hi n = true -> ~ meets s n lo hi.
Proof. unfold off_. intros H (a & H1 & H2). unfold covers in H2. lia. Qed.

Definition chk_range (lo hi : Z) : bool := (0 <? lo) && (lo <? hi) && (lo mod PAGE =? 0) && (hi mod PAGE =? 0).
Lemma chk_range_ok lo hi : chk_range lo hi = true -> 0 < lo < hi /\ lo mod PAGE = 0 /\ hi mod PAGE = 0.
Proof.
  unfold chk_range. intro H. apply andb_prop in H. destruct H as [H H1]. apply andb_prop in H. destruct H as [H H2]. apply andb_prop in H.
  destruct H as [H3 H4]. apply Z.ltb_lt in H3, H4. apply Z.eqb_eq in H1, H2. auto.
Qed.

Definition chk_free (S : mst) (lo hi : Z) : bool :=
  chk_range lo hi && all_live (fo S) (off_ (fo S) lo hi) && some_free (fo S) && (hi - lo <=? biggest)
  && all_live (fo S) (fun n => negb (b_end (bigs (fo S) n) =? lo) || (hi - b_begin (bigs (fo S) n) <=? biggest)).
Lemma chk_free_ok S lo hi flags file : MInv S -> chk_free S lo hi = true -> may_map nb biggest S lo hi flags file.
Proof.
  unfold chk_free. intros MI H. apply andb_prop in H. destruct H as [H H1]. apply andb_prop in H. destruct H as [H H2].
  apply andb_prop in H. destruct H as [H H3]. apply andb_prop in H. destruct H as [H H4]. apply chk_range_ok in H. destruct H as (R1 & R2 & R3).
  split; [exact R1|]. split; [exact R2|]. split; [exact R3|]. left. constructor.
  - intros n L. apply off_ok. exact (all_live_ok S _ MI H4 n L).
  - apply some_free_ok, H3.
  - apply Z.leb_le, H2.
  - intros n L _ E. assert (X := all_live_ok S _ MI H1 n L). cbn beta in X. rewrite E, Z.eqb_refl in X. apply Z.leb_le, X.
Qed.

Definition chk_over (S : mst) (n : nat) (lo hi flags : Z) : bool :=
  chk_range lo hi && negb (Z.land flags MAP_FIXED =? 0) && negb (Nat.eqb n 0) && in_use (bigs (fo S) n)
  && Nat.eqb (b_alloc (bigs (fo S) n)) MMAP && (b_begin (bigs (fo S) n) <? lo) && (hi <=? b_end (bigs (fo S) n))
  && is_none (q_file (seqs S (priv_of S n))) && Nat.leb (length (used (seqs S (priv_of S n))) + 2) MAXLEN.
Lemma chk_over_ok S n lo hi flags : chk_over S n lo hi flags = true -> may_map nb biggest S lo hi flags None.
Proof.
  unfold chk_over. intro H. do 8 (apply andb_prop in H; let X := fresh "X" in destruct H as [H X]).
  apply chk_range_ok in H. destruct H as (R1 & R2 & R3). split; [exact R1|]. split; [exact R2|]. split; [exact R3|]. right.
  apply Bool.negb_true_iff, Z.eqb_neq in X6. split; [exact X6|]. split; [reflexivity|]. exists n.
  apply Bool.negb_true_iff, Nat.eqb_neq in X5. apply Nat.eqb_eq in X3. apply Z.ltb_lt in X2. apply Z.leb_le in X1. apply Nat.leb_le in X.
  constructor; try tauto; [split; [split; assumption|exact X3]|split; [apply Z.lt_le_incl|]; assumption|].
  destruct (q_file (seqs S (priv_of S n))); [discriminate|reflexivity].
Qed.

Definition chk_unmap (S : mst) (lo hi : Z) : bool :=
  chk_range lo hi && off_ (fo S) lo hi (start (fo S)) && some_free (fo S)
  && all_live (fo S) (fun n => off_ (fo S) lo hi n
       || ((lo <=? b_begin (bigs (fo S) n)) && (b_end (bigs (fo S) n) <=? hi))
       || all_live (fo S) (fun c => negb (Nat.eqb (b_parent (bigs (fo S) c)) n) || off_ (fo S) lo hi c)).
Lemma chk_unmap_ok S lo hi : MInv S -> chk_unmap S lo hi = true -> may_unmap nb S lo hi.
Proof.
  unfold chk_unmap. intros MI H. do 3 (apply andb_prop in H; let X := fresh "X" in destruct H as [H X]).
  apply chk_range_ok in H. constructor.
  - exact H.
  - apply off_ok, X1.
  - clear H. intros n c Ln A (a & M1 & M2) P Lc Pc. assert (Y := all_live_ok S _ MI X n Ln). cbn beta in Y.
    destruct (off_ (fo S) lo hi n) eqn:O1; [exfalso; exact (off_ok _ _ _ _ O1 (ex_intro _ a (conj M1 M2)))|].
    destruct (Z.leb_spec lo (b_begin (bigs (fo S) n))), (Z.leb_spec (b_end (bigs (fo S) n)) hi); cbn [orb andb] in Y; try lia.
    all: assert (Z0 := all_live_ok S _ MI Y c Lc); cbn beta in Z0; rewrite Pc, Nat.eqb_refl in Z0; cbn [negb orb] in Z0; unfold off_ in Z0; lia.
  - intros n _ _ _ _. apply some_free_ok, X0.
Qed.
End Dec.

Module Ex.
  Definition NB : nat := 10.
  Definition BIG : Z := 2 ^ 20.
  Definition al (a : nat) : Z := match a with 1%nat => 4096 | _ => 1 end.
  Definition obj (x : Z) : Z := x / 65536.
  Definition get (d : mst) (r : res mst) : mst := match r with Ok a => a | _ => d end.
  Definition is_ok (r : res mst) : bool := match r with Ok _ => true | _ => false end.
  Lemma get_ok d r : is_ok r = true -> r = Ok (get d r).
  Proof. destruct r; intro H; [reflexivity|discriminate..]. Qed.
  Definition seq_of (r : res (mseq * bool)) : mseq := match r with Ok (q, _) => q | _ => seq0 end.

  Section D.
    Variable dbg : bool.
    Definition mm S a l p f fi := get S (do_mmap NB BIG dbg obj S a l p f fi 0 0).
    Definition mu S a l := get S (do_munmap NB BIG dbg S a l).
    (* START: 0x100000-0x110000, anonymous *)
    Definition q0 := seq_of (augment dbg obj seq0 1048576 1114112 3 34 0 None 0).
    Definition e0 := init_m 1048576 1114112 q0.
    (* five pages of file 7 at 0x200000 *)
    Definition e1 := mm e0 2097152 20000 5 2 (Some 7).
    (* two anonymous pages right behind: they join the sequence *)
    Definition e2 := mm e1 2117632 8192 3 34 None.
    (* PROT_NONE over two pages of START *)
    Definition e3 := mm e2 1064960 8192 0 50 None.
    (* another allocator carves out the fourth page of the file mapping *)
    Definition o4 := New 2109440 4096 0 0 2.
    Definition e4 := match step NB BIG dbg al (-1) (-1) (fo e3) o4 with Ok s => set_fo e3 s | _ => e3 end.
    (* a hole: the second page of the file mapping goes *)
    Definition e5 := mu e4 2101248 4096.
  End D.
  Definition t0 := mkAttr 3 34 None 0.
  Definition M0 : space := map_over (fun _ => None) 1048576 1114112 t0.
  Definition M1 := map_over M0 2097152 (2097152 + RUP 20000) (mkAttr 5 2 (Some 7) 0).
  Definition M2 := map_over M1 2117632 (2117632 + RUP 8192) t0.
  Definition M3 := map_over M2 1064960 (1064960 + RUP 8192) (mkAttr 0 50 None 0).
  Definition M5 := unmap M3 2101248 (2101248 + RUP 4096).

  Notation mreach dbg := (mreach NB BIG dbg al (-1) (-1) obj).
  Ltac inv H := exact (proj1 (mreach_inv _ _ _ _ _ _ _ _ _ H)).
  Lemma h0 dbg : mreach dbg (e0 dbg) M0.
  Proof.
    apply (m_init _ _ _ _ _ _ _ 1048576 1114112 3 34 0 None 0 (q0 dbg)).
    - unfold NB. lia.
    - lia.
    - unfold BIG. lia.
    - reflexivity.
    - reflexivity.
    - destruct dbg; vm_compute; reflexivity.
  Qed.
  Lemma h1 dbg : mreach dbg (e1 dbg) M1.
  Proof.
    apply (m_map _ _ _ _ _ _ _ (e0 dbg) M0 2097152 20000 5 2 (Some 7) 0 0); [apply h0| |].
    - apply (chk_free_ok _ _ dbg al (-1) (-1)); [inv (h0 dbg)|destruct dbg; vm_compute; reflexivity].
    - apply get_ok. destruct dbg; vm_compute; reflexivity.
  Qed.
  Lemma h2 dbg : mreach dbg (e2 dbg) M2.
  Proof.
    apply (m_map _ _ _ _ _ _ _ (e1 dbg) M1 2117632 8192 3 34 None 0 0); [apply h1| |].
    - apply (chk_free_ok _ _ dbg al (-1) (-1)); [inv (h1 dbg)|destruct dbg; vm_compute; reflexivity].
    - apply get_ok. destruct dbg; vm_compute; reflexivity.
  Qed.
  Lemma h3 dbg : mreach dbg (e3 dbg) M3.
  Proof.
    apply (m_map _ _ _ _ _ _ _ (e2 dbg) M2 1064960 8192 0 50 None 0 0); [apply h2| |].
    - apply (chk_over_ok NB BIG al (e2 dbg) 1). destruct dbg; vm_compute; reflexivity.
    - apply get_ok. destruct dbg; vm_compute; reflexivity.
  Qed.
  Lemma l4 dbg : legal NB BIG al (fo (e3 dbg)) o4.
  Proof.
    cbn [legal o4]. assert (MI := proj1 (mreach_inv _ _ _ _ _ _ _ _ _ (h3 dbg))).
    split; [apply (some_free_ok NB al); destruct dbg; vm_compute; reflexivity|]. split; [unfold BIG; lia|]. exists 2%nat. split.
    - split; [lia|]. split.
      + cbn [Nat.eqb]. split; [split; [discriminate|destruct dbg; vm_compute; reflexivity]|].
        split; apply Z.leb_le; destruct dbg; vm_compute; reflexivity.
      + intros c Lc Pc. assert (X := all_live_ok NB BIG dbg al (-1) (-1) (e3 dbg) (fun c => negb (Nat.eqb (b_parent (bigs (fo (e3 dbg)) c)) 2)) MI).
        exfalso. assert (Y := X ltac:(destruct dbg; vm_compute; reflexivity) c Lc). cbn beta in Y. rewrite Pc in Y. discriminate.
    - assert (R := mi_R _ _ _ _ _ _ _ MI). destruct (reach_good _ _ _ _ _ _ _ R) as [(K & rk & HI) _].
      split; (match goal with |- lookup_answer ?s ?a ?r => destruct (Big_lookup.find_deepest_correct _ _ _ _ HI a) as (r' & E & A); replace r with r'; [exact A|] end);
      (assert (F : forall r, find_deepest NB (fo (e3 dbg)) r = find_deepest NB (fo (e3 dbg)) r) by reflexivity); clear F; revert E; destruct dbg; vm_compute; intro E; injection E as <-; reflexivity.
  Qed.
  Lemma h4 dbg : mreach dbg (e4 dbg) M3.
  Proof.
    assert (MI := proj1 (mreach_inv _ _ _ _ _ _ _ _ _ (h3 dbg))). assert (R := mi_R _ _ _ _ _ _ _ MI).
    destruct (big_calls_succeed NB BIG dbg al (-1) (-1) (fo (e3 dbg)) o4 R (l4 dbg)) as (s' & E & R').
    unfold e4. rewrite E.
    apply (m_other _ _ _ _ _ _ _ (e3 dbg) M3 o4 s' (h3 dbg) (l4 dbg) E).
    destruct (l4 dbg) as (Hf & Hs & p & Fi & Pc).
    destruct (big_create_exact NB BIG dbg al (-1) (-1) (fo (e3 dbg)) 2109440 4096 0 0 2 p R Hf Hs Fi Pc) as (s2 & n & E2 & _ & _ & Vn & VW & _).
    cbn [step o4] in E. rewrite E2 in E. cbn [bind] in E. injection E as ->.
    intros m v A. rewrite VW. destruct (Nat.eqb_spec m n) as [->|]; [|tauto]. rewrite Vn. split; [|discriminate].
    intro X. injection X as <-. discriminate.
  Qed.
  Lemma h5 dbg : mreach dbg (e5 dbg) M5.
  Proof.
    apply (m_unmap _ _ _ _ _ _ _ (e4 dbg) M3 2101248 4096); [apply h4|lia| |].
    - apply (chk_unmap_ok _ BIG dbg al (-1) (-1)); [inv (h4 dbg)|destruct dbg; vm_compute; reflexivity].
    - apply get_ok. destruct dbg; vm_compute; reflexivity.
  Qed.
End Ex.
