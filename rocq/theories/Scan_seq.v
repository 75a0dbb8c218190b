(* The start-up scan: gathering lines into sequences. *)
From Verif Require Import Base Big_model Big_spec Big_field Map_model Map_spec Map_seq Scan_model Scan_spec.

Definition E (l : line) : entry :=
  mkE (l_first l) (l_second l) (l_prot l) (flags_of (l_shared l) (name_of (l_rest l))) (l_off l) (is_none (name_of (l_rest l))) 0.
Definition plain (l : line) : Prop := file_of (l_rest l) = Some (name_of (l_rest l)).
Definition head_name (G : list line) : option Z := match G with l :: _ => name_of (l_rest l) | [] => None end.
Definition mk (b e : Z) (G : list line) : mseq :=
  mkM b e (head_name G) (length G) (map E G ++ repeat ent0 (MAXLEN - length G)).

Record gathered (q : mseq) (G : list line) : Prop := {
  ga_eq : q = mk (q_begin q) (q_end q) G;
  ga_ne : G <> [];
  ga_len : (length G <= MAXLEN)%nat;
  ga_pos : 0 < q_begin q;
  ga_chain : chain (q_begin q) (map E G) (q_end q);
  ga_same : forall l, In l G -> name_of (l_rest l) = None \/ name_of (l_rest l) = head_name G }.

Lemma flags_sum b f : flags_of b f = (if b then 1 else 2) + (match f with None => 32 | Some _ => 0 end).
Proof. unfold flags_of, is_none. destruct b, f; reflexivity. Qed.

Lemma attr_E q l : name_of (l_rest l) = None \/ name_of (l_rest l) = q_file q -> attr_of q (E l) = line_attr l.
Proof.
  intro H. unfold attr_of, E, line_attr. cbn [e_prot e_flags e_anon e_caller]. rewrite flags_sum. f_equal.
  destruct H as [H|H]; rewrite H; [reflexivity|]. destruct (q_file q); reflexivity.
Qed.

Section Ga.
  Variables (q : mseq) (G : list line).
  Hypothesis GA : gathered q G.
  Lemma ga_used : used q = map E G.
  Proof. rewrite (ga_eq _ _ GA). unfold used, mk. cbn [q_nused q_maps]. apply firstn_app_l. apply map_length. Qed.
  Lemma ga_file : q_file q = head_name G.
  Proof. rewrite (ga_eq _ _ GA). reflexivity. Qed.
  Lemma ga_nused : q_nused q = length G.
  Proof. rewrite (ga_eq _ _ GA). reflexivity. Qed.
  Lemma ga_maps : q_maps q = map E G ++ repeat ent0 (MAXLEN - length G).
  Proof. rewrite (ga_eq _ _ GA). reflexivity. Qed.
  Lemma ga_seq : seq_inv q.
  Proof.
    assert (CH := ga_chain _ _ GA). assert (LG := ga_len _ _ GA). split.
    - constructor.
      + rewrite ga_maps, app_length, map_length, repeat_length. lia.
      + rewrite ga_nused. destruct G; [exfalso; exact (ga_ne _ _ GA eq_refl)|cbn in *; lia].
      + apply (ga_pos _ _ GA).
      + rewrite ga_used. exact CH.
      + rewrite ga_used, ga_file. intros e He A. apply in_map_iff in He. destruct He as (l & <- & Hl). cbn in A.
        destruct (ga_same _ _ GA l Hl) as [X|X]; rewrite X in A; [discriminate|]. intro Y. rewrite Y in A. discriminate.
    - intros e He Le. rewrite ga_maps in He. apply in_app_iff in He. destruct He as [He|He].
      + assert (X := chain_in _ _ _ _ CH He). lia.
      + apply repeat_spec in He. subst e. cbn in Le. lia.
  Qed.
  Lemma says_gathered a t : says q a t <-> exists l, In l G /\ l_first l <= a < l_second l /\ t = line_attr l.
  Proof.
    unfold says. rewrite ga_used. split.
    - intros (e & He & Ha & ->). apply in_map_iff in He. destruct He as (l & <- & Hl). exists l. split; [exact Hl|]. split; [exact Ha|].
      apply attr_E. rewrite ga_file. apply (ga_same _ _ GA), Hl.
    - intros (l & Hl & Ha & ->). exists (E l). split; [apply in_map, Hl|]. split; [exact Ha|]. symmetry. apply attr_E. rewrite ga_file. apply (ga_same _ _ GA), Hl.
  Qed.
  Lemma ga_in l : In l G -> q_begin q <= l_first l /\ l_first l < l_second l /\ l_second l <= q_end q.
  Proof. intro H. apply (chain_in _ _ _ (E l) (ga_chain _ _ GA)). apply in_map, H. Qed.
  Lemma ga_slot k l : nth_error G k = Some l -> slot (q_maps q) k = E l.
  Proof.
    intro H. rewrite ga_maps. unfold slot. assert (L := nth_error_Some G k). rewrite H in L. assert (k < length G)%nat by (apply L; discriminate).
    rewrite app_nth1 by (rewrite map_length; lia). apply nth_error_nth. rewrite nth_error_map, H. reflexivity.
  Qed.
End Ga.

Lemma head_app G l : G <> [] -> head_name (G ++ [l]) = head_name G.
Proof. destruct G; [congruence|reflexivity]. Qed.

Section Ext.
Variables (dbg : bool) (obj_of : Z -> Z).

Lemma ga_one l : 0 < l_first l < l_second l -> gathered (mk (l_first l) (l_second l) [l]) [l].
Proof.
  intro H. constructor; cbn [mk q_begin q_end]; [reflexivity|discriminate|cbn; unfold MAXLEN; lia|lia| |].
  - cbn. lia.
  - intros z [<-|[]]. right. reflexivity.
Qed.

Lemma ext_new l : plain l -> 0 < l_first l < l_second l ->
  extend_current dbg obj_of seq0 l = Ok (mk (l_first l) (l_second l) [l], true).
Proof.
  intros P H. unfold extend_current. rewrite P. assert (SO := proj1 (ga_seq _ _ (ga_one l H))). set (f := name_of (l_rest l)).
  unfold augment. rewrite (asrt_true _ _ (eq_refl : seq_sane seq0 = true)). cbn [bind].
  cbn [seq0 q_begin q_end q_file q_nused q_maps Z.eqb orb andb Nat.eqb MAXLEN].
  replace (0 <=? l_first l) with true by lia. cbn [andb negb]. unfold augment_clean.
  cbn [seq0 q_begin q_end q_file q_nused q_maps Z.eqb orb andb Nat.eqb is_none].
  replace (is_none f && true || true) with true by (destruct (is_none f); reflexivity). cbn [orb negb].
  unfold store. cbn [Nat.ltb Nat.leb MAXLEN bind repeat firstn skipn app].
  match goal with |- context [asrt dbg (seq_sane ?q)] => rewrite (asrt_true dbg (seq_sane q) (seq_ok_sane q SO)) end. reflexivity.
Qed.

Lemma ext_more q G l : gathered q G -> plain l -> q_end q <= l_first l < l_second l ->
  exists q' ok, extend_current dbg obj_of q l = Ok (q', ok) /\
    if ok then q_end q = l_first l /\ gathered q' (G ++ [l]) /\ q_begin q' = q_begin q /\ q_end q' = l_second l else q' = q.
Proof.
  intros GA P H. assert (OK := proj1 (ga_seq _ _ GA)). unfold extend_current. rewrite P. set (f := name_of (l_rest l)).
  assert (LT := seq_ok_lt _ OK). assert (PO := so_pos _ OK). assert (SO := so_used _ OK).
  unfold augment. rewrite (asrt_true _ _ (seq_ok_sane _ OK)). cbn [bind].
  replace (q_end q =? 0) with false by lia. cbn [orb].
  destruct (Z.eqb_spec (q_end q) (l_first l)) as [EQ|NQ].
  2:{ unfold OVERLAPS. replace (l_first l <=? q_end q) with false by lia. rewrite andb_false_r. cbn [orb andb bind].
      rewrite (asrt_true _ _ (seq_ok_sane _ OK)). exists q, false. auto. }
  cbn [orb]. replace (q_begin q <=? l_first l) with true by lia. cbn [andb].
  destruct (Nat.eqb_spec (q_nused q) MAXLEN) as [FL|NF]; cbn [negb bind].
  { rewrite (asrt_true _ _ (seq_ok_sane _ OK)). exists q, false. auto. }
  unfold augment_clean.
  match goal with |- context [if negb ?c then _ else _] => destruct c eqn:CO end; cbn [negb].
  2:{ cbn [bind]. rewrite (asrt_true _ _ (seq_ok_sane _ OK)). exists q, false. auto. }
  change (mkE (l_first l) (l_second l) (l_prot l) (flags_of (l_shared l) f) (l_off l) (is_none f) 0) with (E l).
  assert (LM := so_len _ OK). rewrite (ga_nused _ _ GA) in NF, SO, CO. rewrite (ga_nused _ _ GA). rewrite (ga_maps _ _ GA) in LM |- *.
  assert (RP : repeat ent0 (MAXLEN - length G) = ent0 :: repeat ent0 (MAXLEN - S (length G))).
  { replace (MAXLEN - length G)%nat with (S (MAXLEN - S (length G))) by lia. reflexivity. }
  rewrite RP in LM |- *. assert (SA := store_app (map E G) ent0 (repeat ent0 (MAXLEN - S (length G))) (E l) LM).
  rewrite map_length in SA. rewrite SA. cbn [bind]. replace (q_begin q =? 0) with false by lia.
  assert (FF : (f = None \/ f = q_file q) /\ (if is_none (q_file q) then f else q_file q) = q_file q).
  { clear - CO SO. destruct f as [g|].
    - cbn [is_none andb orb] in CO. rewrite andb_false_r in CO. replace (Nat.eqb (length G) 0) with false in CO by lia.
      cbn [orb] in CO. unfold same_file in CO. destruct (q_file q) as [h|]; [|discriminate].
      apply Z.eqb_eq in CO. subst h. cbn. auto.
    - split; [auto|]. destruct (q_file q); reflexivity. }
  destruct FF as (FF & EF). rewrite EF.
  set (q' := mkM (q_begin q) (l_second l) (q_file q) (S (length G)) (map E G ++ E l :: repeat ent0 (MAXLEN - S (length G)))).
  assert (GA' : gathered q' (G ++ [l])).
  { assert (NE := ga_ne _ _ GA). constructor; cbn [q' q_begin q_end].
    - unfold mk, q'. rewrite (ga_file _ _ GA), (head_app _ l NE), app_length, map_app, <- app_assoc. cbn [length map app].
      replace (length G + 1)%nat with (S (length G)) by lia. reflexivity.
    - destruct G; discriminate.
    - rewrite app_length. cbn [length]. lia.
    - exact PO.
    - rewrite map_app. apply chain_app. exists (q_end q). split; [apply (ga_chain _ _ GA)|]. cbn. split; [symmetry; exact EQ|]. split; [lia|reflexivity].
    - rewrite (head_app _ l NE). intros z Hz. apply in_app_iff in Hz. destruct Hz as [Hz|[<-|[]]]; [apply (ga_same _ _ GA), Hz|].
      rewrite <- (ga_file _ _ GA). exact FF. }
  rewrite (asrt_true _ _ (seq_ok_sane _ (proj1 (ga_seq _ _ GA')))). exists q', true. auto.
Qed.
End Ext.

(* taking off the last line *)
Lemma ga_trim q G k : gathered q (G ++ [k]) -> G <> [] -> gathered (trim q 1 (l_first k)) G /\ q_begin (trim q 1 (l_first k)) = q_begin q /\
  q_end (trim q 1 (l_first k)) = l_first k.
Proof.
  intros GA NE. split; [|auto]. assert (LG := ga_len _ _ GA). rewrite app_length in LG. cbn [length] in LG.
  assert (CH := ga_chain _ _ GA). rewrite map_app in CH. apply chain_app in CH. destruct CH as (m & C1 & C2). cbn in C2. destruct C2 as (C2 & C3 & C4).
  constructor; cbn [trim q_begin q_end].
  - unfold trim, mk. rewrite (ga_file _ _ GA), (head_app _ k NE), (ga_nused _ _ GA), (ga_maps _ _ GA), app_length, map_app. cbn [length map].
    replace (length G + 1 - 1)%nat with (length G) by lia. f_equal.
    rewrite <- app_assoc. rewrite (firstn_app_l (map E G)) by apply map_length. f_equal.
    rewrite app_assoc. rewrite skipn_app, skipn_all2 by (rewrite app_length, map_length; cbn; lia).
    rewrite app_length, map_length. cbn [length]. rewrite Nat.sub_diag. cbn [skipn app repeat].
    replace (MAXLEN - length G)%nat with (S (MAXLEN - (length G + 1))) by lia. reflexivity.
  - exact NE.
  - lia.
  - apply (ga_pos _ _ GA).
  - rewrite C2. exact C1.
  - intros z Hz. rewrite <- (head_app _ k NE). apply (ga_same _ _ GA), in_app_iff. auto.
Qed.
