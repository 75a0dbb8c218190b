(* C75: extra symbols, from the tool that writes them to queries. *)
From Verif Require Import Base Static_model Static_spec Static_props Esym_model.

(* ---- what is asked of the input ---- *)
Definition plain (c : Z) : Prop := 0 < c < 256 /\ c <> 34 /\ c <> 92 /\ c <> 10.
Record good (e : esym) : Prop := {
  g_name : forall n, e_name e = Some n -> Forall plain n;
  g_value : 0 <= e_value e < 2 ^ 64; g_size : 0 <= e_size e < 2 ^ 64;
  g_info : 0 <= e_info e < 256; g_other : 0 <= e_other e < 256 }.
(* room its name takes *)
Definition room (e : esym) : Z := match e_name e with Some n => Z.of_nat (length n) + 1 | None => 0 end.
Definition rooms (l : list esym) : Z := fold_right (fun e z => room e + z) 0 l.

(* [r], with strings [str], says what [e] says *)
Record says (str : bytes) (e : esym) (r : elfsym) : Prop := {
  y_value : st_value r = e_value e; y_size : st_size r = e_size e; y_info : st_info r = e_info e; y_other : st_other r = e_other e;
  y_shndx : st_shndx r = 0;
  y_name : match e_name e with Some n => 0 < st_name r /\ name_at str (st_name r) = n | None => st_name r = 0 end }.

(* ---- lemmas ---- *)
Lemma nth_error_ext_ {A} (l : list A) : forall m, (forall i, nth_error l i = nth_error m i) -> l = m.
Proof.
  induction l as [|a l IH]; intros [|b m] H; [reflexivity|specialize (H 0%nat); discriminate|specialize (H 0%nat); discriminate|].
  f_equal; [specialize (H 0%nat); cbn in H; congruence|]. apply IH. intro i. exact (H (S i)).
Qed.
Lemma unle_le n : forall v, 0 <= v < 256 ^ Z.of_nat n -> unle (le n v) = v.
Proof.
  induction n as [|n IH]; intros v H; cbn [le unle]; [cbn in H; lia|].
  rewrite Nat2Z.inj_succ, Z.pow_succ_r in H by lia. rewrite IH.
  - pose proof (Z.div_mod v 256 ltac:(lia)). lia.
  - split; [apply Z.div_pos; lia|apply Z.div_lt_upper_bound; lia].
Qed.
Lemma le_length n : forall v, length (le n v) = n.
Proof. induction n as [|n IH]; intro v; cbn; [reflexivity|rewrite IH; reflexivity]. Qed.
Lemma sym_bytes_length a b c d e : length (sym_bytes a b c d e) = 24%nat.
Proof. reflexivity. Qed.
Definition row_of (r : bytes) : elfsym :=
  mkElf (unle (slice r 0 4)) (unle (slice r 4 1)) (unle (slice r 5 1)) (unle (slice r 6 2)) (unle (slice r 8 8)) (unle (slice r 16 8)).
Lemma row_sym a b c d e : 0 <= a < W32 -> 0 <= b < 2 ^ 64 -> 0 <= c < 2 ^ 64 -> 0 <= d < 256 -> 0 <= e < 256 ->
  row_of (sym_bytes a b c d e) = mkElf a d e 0 b c.
Proof.
  intros Ha Hb Hc Hd He. unfold row_of. f_equal.
  - change (slice (sym_bytes a b c d e) 0 4) with (le 4 a). apply unle_le. exact Ha.
  - change (slice (sym_bytes a b c d e) 4 1) with (le 1 d). apply unle_le. exact Hd.
  - change (slice (sym_bytes a b c d e) 5 1) with (le 1 e). apply unle_le. exact He.
  - change (slice (sym_bytes a b c d e) 8 8) with (le 8 b). apply unle_le. exact Hb.
  - change (slice (sym_bytes a b c d e) 16 8) with (le 8 c). apply unle_le. exact Hc.
Qed.

Lemma slice_concat rows : Forall (fun r : bytes => length r = 24%nat) rows -> forall i r, nth_error rows i = Some r ->
  slice (concat rows) (24 * i) 24 = r /\ (24 * i + 24 <= length (concat rows))%nat.
Proof.
  induction 1 as [|r0 rows L F IH]; intros i r H; [destruct i; discriminate|].
  destruct i as [|i]; cbn [nth_error] in H.
  - injection H; intros ->. cbn [concat]. rewrite app_length, L. split; [|lia]. unfold slice. rewrite Nat.mul_0_r. cbn [skipn].
    rewrite firstn_app, L, Nat.sub_diag, firstn_O, app_nil_r. rewrite <- L at 1. apply firstn_all.
  - destruct (IH i r H) as [A B]. cbn [concat]. rewrite app_length, L. split; [|lia]. unfold slice in *.
    rewrite skipn_app, L. replace (24 * S i - 24)%nat with (24 * i)%nat by lia.
    rewrite (skipn_all2 r0) by lia. exact A.
Qed.
Lemma read_concat rows i r : Forall (fun r : bytes => length r = 24%nat) rows -> nth_error rows i = Some r ->
  read_sym (concat rows) i = Some (row_of r).
Proof.
  intros F H. destruct (slice_concat rows F i r H) as [A B]. unfold read_sym.
  replace (24 * i + 24 <=? length (concat rows))%nat with true by (symmetry; apply Nat.leb_le; exact B).
  rewrite A. reflexivity.
Qed.

Lemma literal_plain n : Forall plain n -> literal n = Some n.
Proof.
  unfold literal. induction 1 as [|c n H F IH]; [reflexivity|]. cbn [app clit]. destruct H as (_ & H1 & H2 & H3).
  destruct (Z.eqb_spec c 34); [contradiction|]. destruct (Z.eqb_spec c 92); [contradiction|]. destruct (Z.eqb_spec c 10); [contradiction|].
  cbn [orb]. rewrite IH. reflexivity.
Qed.
Lemma cstr_name n rest : Forall plain n -> cstr (n ++ 0 :: rest) = n.
Proof.
  induction 1 as [|c n H F IH]; [reflexivity|]. cbn. destruct H as [H _]. destruct (Z.eqb_spec c 0); [lia|]. rewrite IH. reflexivity.
Qed.

(* what the tool's statements come to *)
Fixpoint rows (off : Z) (l : list esym) : list bytes :=
  match l with
  | [] => []
  | e :: t => sym_bytes (match e_name e with Some _ => off | None => 0 end) (e_value e) (e_size e) (e_info e) (e_other e) :: rows (off + room e) t
  end.
Definition str_of (e : esym) : bytes := match e_name e with Some n => n ++ [0] | None => [] end.
Definition strs (l : list esym) : bytes := flat_map str_of l.
Lemma room_nonneg e : 0 <= room e.
Proof. unfold room. destruct (e_name e); lia. Qed.
Lemma rooms_nonneg l : 0 <= rooms l.
Proof. induction l as [|e l IH]; cbn; [lia|]. pose proof (room_nonneg e). unfold rooms in IH. lia. Qed.
Lemma strs_length l : Z.of_nat (length (strs l)) = rooms l.
Proof.
  induction l as [|e l IH]; [reflexivity|]. change (strs (e :: l)) with (str_of e ++ strs l). change (rooms (e :: l)) with (room e + rooms l).
  rewrite app_length, Nat2Z.inj_add, IH. f_equal. unfold str_of, room. destruct (e_name e); rewrite ?app_length; cbn [length]; lia.
Qed.
Lemma emit_ok l : forall off s, Forall good l -> 0 <= off -> off + rooms l < W32 ->
  snd (emit off l) = off + rooms l /\
  assemble (fst (emit off l)) s = Some (mkSecs (symtab_ s ++ concat (rows off l)) (strtab s ++ strs l)).
Proof.
  induction l as [|e l IH]; intros off s G H0 H1.
  - cbn. rewrite !app_nil_r. destruct s. split; [lia|reflexivity].
  - inversion G as [|? ? Ge Gl]; subst. cbn [rooms fold_right] in *. fold (rooms l) in *.
    pose proof (room_nonneg e) as Rn. pose proof (rooms_nonneg l) as Rl.
    cbn [emit]. set (off' := match e_name e with Some n => (off + Z.of_nat (length n) + 1) mod W32 | None => off end).
    assert (Eo : off' = off + room e).
    { unfold off', room in *. destruct (e_name e); [|lia]. rewrite Z.mod_small; lia. }
    rewrite Eo. clear off' Eo.
    destruct (emit (off + room e) l) as [ss z] eqn:Ee. cbn [fst snd].
    split.
    + destruct (IH (off + room e) s Gl) as [A _]; [lia|lia|]. rewrite Ee in A. cbn in A. lia.
    + cbn [rows concat]. unfold strs. cbn [flat_map]. fold (strs l). unfold str_of at 1.
      destruct (e_name e) as [n|] eqn:En; cbn [app assemble].
      * rewrite (literal_plain n (g_name e Ge n En)). 
        specialize (IH (off + room e) (mkSecs (symtab_ s ++ sym_bytes off (e_value e) (e_size e) (e_info e) (e_other e)) (strtab s ++ n ++ [0])) Gl).
        destruct IH as [_ IH]; [lia|lia|]. rewrite Ee in IH. cbn [fst symtab_ strtab] in *. rewrite IH. rewrite <- !app_assoc. reflexivity.
      * specialize (IH (off + room e) (mkSecs (symtab_ s ++ sym_bytes 0 (e_value e) (e_size e) (e_info e) (e_other e)) (strtab s)) Gl).
        destruct IH as [_ IH]; [lia|lia|]. rewrite Ee in IH. cbn [fst symtab_ strtab] in *. rewrite IH. rewrite <- !app_assoc. reflexivity.
Qed.
Lemma rows_24 l : forall off, Forall (fun r : bytes => length r = 24%nat) (rows off l).
Proof. induction l as [|e l IH]; intro off; cbn [rows]; constructor; auto. Qed.
Lemma rows_length l : forall off, length (rows off l) = length l.
Proof. induction l as [|e l IH]; intro off; cbn; auto. Qed.
Lemma concat_24 rs : Forall (fun r : bytes => length r = 24%nat) rs -> length (concat rs) = (24 * length rs)%nat.
Proof. induction 1 as [|r rs L F IH]; [reflexivity|]. cbn [concat length]. rewrite app_length, L, IH. lia. Qed.

Lemma rows_say l : forall off pre, Forall good l -> 0 < off -> Z.of_nat (length pre) = off -> off + rooms l < W32 ->
  forall i e, nth_error l i = Some e -> exists r, nth_error (rows off l) i = Some r /\ says (pre ++ strs l) e (row_of r).
Proof.
  induction l as [|e0 l IH]; intros off pre G H0 Hp H1 i e He; [destruct i; discriminate|].
  inversion G as [|? ? Ge Gl]; subst. cbn [rooms fold_right] in H1. fold (rooms l) in H1.
  pose proof (room_nonneg e0) as Rn. pose proof (rooms_nonneg l) as Rl.
  destruct i as [|i]; cbn [nth_error rows] in *.
  - injection He; intros ->. eexists. split; [reflexivity|].
    destruct Ge as [Gn Gv Gs Gi Go].
    rewrite row_sym; [|destruct (e_name e); lia|assumption|assumption|assumption|assumption].
    constructor; cbn; try reflexivity. unfold strs, str_of. cbn [flat_map]. destruct (e_name e) as [n|] eqn:En; [|reflexivity].
    split; [exact H0|]. unfold name_at. rewrite Nat2Z.id, skipn_app, Nat.sub_diag, skipn_all. cbn [app skipn].
    rewrite <- !app_assoc. cbn [app]. apply cstr_name. apply Gn. reflexivity.
  - destruct (IH (Z.of_nat (length pre) + room e0) (pre ++ str_of e0) Gl) with (i := i) (e := e) as (r & A & B); [lia| |lia|exact He|].
    + rewrite app_length. unfold str_of, room. destruct (e_name e0); rewrite ?app_length; cbn [length]; lia.
    + exists r. split; [exact A|]. unfold strs in *. cbn [flat_map]. rewrite <- app_assoc in B. exact B.
Qed.

(* ---- the table is what the tool was given ---- *)
(* For any symbols with plain names, the file assembles to a table with an empty entry first and
   then, in order, one entry for each symbol, with its value, size, kind and visibility, and its
   name among the strings. *)
Theorem esym_table_partial : forall h l, Forall good l -> 1 + rooms l < W32 ->
  exists d tab str, tool (h :: l) = Some d /\
    dlsym d EXTRASYMS = Some (24 * Z.of_nat (S (length l)), tab) /\ dlsym d EXTRASTR = Some (Z.of_nat (length str), str) /\
    length tab = (24 * S (length l))%nat /\
    read_sym tab 0 = Some (mkElf 0 0 0 0 0 0) /\
    forall i e, nth_error l i = Some e -> exists r, read_sym tab (S i) = Some r /\ says str e r.
Proof.
  intros h l G R. destruct (emit_ok l 1 secs0 G ltac:(lia) R) as [E1 E2].
  unfold tool. destruct (emit 1 l) as [ss z]. cbn [fst snd] in *. rewrite E2.
  set (all := repeat 0 24 :: rows 1 l).
  assert (F : Forall (fun r : bytes => length r = 24%nat) all) by (constructor; [reflexivity|apply rows_24]).
  eexists. exists (concat all), ([0] ++ strs l).
  split; [reflexivity|]. split; [reflexivity|]. split.
  { change (dlsym _ EXTRASTR) with (Some (z, [0] ++ strs l)). f_equal. f_equal. rewrite app_length, Nat2Z.inj_add, strs_length. cbn [length]. lia. }
  split; [rewrite concat_24 by exact F; cbn [length all]; unfold all; cbn [length]; rewrite rows_length; reflexivity|].
  split; [rewrite (read_concat all 0 (repeat 0 24) F eq_refl); reflexivity|].
  intros i e He. destruct (rows_say l 1 [0] G ltac:(lia) eq_refl R i e He) as (r & A & B).
  exists (row_of r). split; [|exact B]. apply read_concat; [exact F|exact A].
Qed.

(* ---- the walk over the dynamic linker's symbols ---- *)
Definition is_last (cb : elfsym -> bytes -> bool) (seen : list (elfsym * bytes)) : Prop :=
  forall p, In p (removelast seen) -> cb (fst p) (snd p) = true.
Theorem esym_walk_partial : forall h l cb, Forall good l -> 1 + rooms l < W32 ->
  exists d seen, tool (h :: l) = Some d /\ walk_extra d cb = Ok seen /\
    (* in order, from the empty entry on *)
    (exists r n, nth_error seen 0 = Some (r, n) /\ r = mkElf 0 0 0 0 0 0 /\ n = []) /\
    (forall i r n, nth_error seen (S i) = Some (r, n) -> exists e str, nth_error l i = Some e /\ says str e r /\ (e_name e = Some n \/ e_name e = None)) /\
    (* none but the last stops it, and it goes on to the end unless the last does *)
    is_last cb seen /\
    (length seen = S (length l) \/ exists p, nth_error seen (length seen - 1) = Some p /\ cb (fst p) (snd p) = false).
Proof.
  intros h l cb G R. destruct (esym_table_partial h l G R) as (d & tab & str & E & E1 & E2 & L & Z0 & H).
  exists d. unfold walk_extra. rewrite E1, E2.
  replace (24 * Z.of_nat (S (length l)) / 24) with (Z.of_nat (S (length l))) by (rewrite Z.mul_comm, Z.div_mul; lia).
  rewrite Nat2Z.id.
  assert (W : forall m i, (i + m = S (length l))%nat -> exists seen, iterate tab str cb i m = Ok seen /\
     (forall k p, nth_error seen k = Some p -> read_sym tab (i + k) = Some (fst p) /\ snd p = name_at str (st_name (fst p))) /\
     is_last cb seen /\ (m <> 0%nat -> seen <> []) /\
     (length seen = m \/ exists p, nth_error seen (length seen - 1) = Some p /\ cb (fst p) (snd p) = false)).
  { induction m as [|m IH]; intros i Hi.
    - exists []. split; [reflexivity|]. split; [intros [|k] p; discriminate|]. split; [intros p []|]. split; [congruence|]. left; reflexivity.
    - assert (exists r, read_sym tab i = Some r) as (r & Er).
      { destruct i as [|i]; [eauto|]. destruct (nth_error l i) as [e|] eqn:Ee; [|apply nth_error_None in Ee; lia].
        destruct (H i e Ee) as (r & A & _). eauto. }
      cbn [iterate]. rewrite Er. destruct (cb r (name_at str (st_name r))) eqn:Ec.
      + destruct (IH (S i)) as (seen & A & B & C & N & D); [lia|]. rewrite A. cbn [bind].
        exists ((r, name_at str (st_name r)) :: seen). split; [reflexivity|]. split; [|split; [|split]].
        * intros [|k] p Hk; cbn in Hk; [injection Hk; intros <-; rewrite Nat.add_0_r; auto|]. replace (i + S k)%nat with (S i + k)%nat by lia. apply B; exact Hk.
        * intros p Hp. destruct seen as [|q seen]; [destruct Hp|]. cbn [removelast] in Hp. destruct Hp as [<-|Hp]; [exact Ec|]. apply C. exact Hp.
        * discriminate.
        * destruct D as [D|(p & D1 & D2)]; [left; cbn; lia|]. right. exists p. split; [|exact D2].
          destruct seen as [|q seen]; [discriminate|]. cbn [length] in *. replace (S (S (length seen)) - 1)%nat with (S (S (length seen) - 1)) by lia. exact D1.
      + exists [(r, name_at str (st_name r))]. split; [reflexivity|]. split; [|split; [|split]].
        * intros [|[|k]] p Hk; cbn in Hk; try discriminate. injection Hk; intros <-. rewrite Nat.add_0_r. auto.
        * intros p [].
        * discriminate.
        * right. exists (r, name_at str (st_name r)). split; [reflexivity|exact Ec]. }
  destruct (W (S (length l)) 0%nat) as (seen & A & B & C & N & D); [lia|].
  exists seen. split; [exact E|]. split; [exact A|]. split; [|split; [|split; [exact C|exact D]]].
  - destruct seen as [|[r n] seen]; [exfalso; apply N; [discriminate|reflexivity]|]. exists r, n. split; [reflexivity|].
    destruct (B 0%nat (r, n) eq_refl) as [B1 B2]. cbn [fst snd plus] in *. rewrite Z0 in B1. injection B1; intros <-. split; [reflexivity|].
    subst n. unfold name_at. cbn [st_name]. unfold tool in E. destruct (emit 1 l) as [ss z] eqn:Em.
    destruct (emit_ok l 1 secs0 G ltac:(lia) R) as [_ E3]. rewrite Em in E3. cbn [fst] in E3. rewrite E3 in E. injection E; intros <-.
    injection E2; intros <- _. reflexivity.
  - intros i r n Hi. destruct (B (S i) (r, n) Hi) as [B1 B2]. cbn [fst snd plus] in *.
    destruct (nth_error l i) as [e|] eqn:Ee.
    + destruct (H i e Ee) as (r' & A1 & A2). rewrite B1 in A1. injection A1; intros <-. exists e, str. split; [reflexivity|]. split; [exact A2|].
      destruct A2 as [_ _ _ _ _ An]. destruct (e_name e) as [m|]; [|right; reflexivity]. left. subst n. destruct An as [_ ->]. reflexivity.
    + exfalso. apply nth_error_None in Ee. unfold read_sym in B1. destruct (Nat.leb_spec (24 * S i + 24) (length tab)); [lia|discriminate].
Qed.

(* ---- finding it at load time ---- *)
(* Whatever the tool was given, the library's table of extra symbols is empty: the symbol it asks
   for is not the one the tool defines. *)
Theorem esym_never_loaded : forall l d load dyn sy, tool l = Some d -> sf_extra (load_file load dyn sy d) = [].
Proof.
  intros [|h l] d load dyn sy E; [discriminate|]. unfold tool in E. destruct (emit 1 l) as [ss z]. destruct (assemble ss secs0); [|discriminate].
  injection E; intros <-. reflexivity.
Qed.

Lemma read_all_nth tab n : (forall i, (i < n)%nat -> exists r, read_sym tab i = Some r) ->
  length (read_all tab n) = n /\ forall i r, (i < n)%nat -> read_sym tab i = Some r -> nth_error (read_all tab n) i = Some (mkSym (st_value r) (st_size r)).
Proof.
  induction n as [|n IH]; intro H; [split; [reflexivity|intros; lia]|].
  destruct IH as [IL IN]; [intros i Hi; apply H; lia|]. cbn [read_all]. destruct (H n ltac:(lia)) as (r & Er). rewrite Er.
  split; [rewrite app_length, IL; cbn; lia|]. intros i r' Hi Hr.
  destruct (Nat.eq_dec i n) as [->|N].
  - rewrite nth_error_app2 by lia. rewrite IL, Nat.sub_diag. cbn. congruence.
  - rewrite nth_error_app1 by lia. apply IN; [lia|exact Hr].
Qed.
(* Were it asked for by its name, the library would have the table. *)
Theorem esym_asked : forall h l, Forall good l -> 1 + rooms l < W32 ->
  exists d, tool (h :: l) = Some d /\ load_extra EXTRASYMS d = mkSym 0 0 :: map (fun e => mkSym (e_value e) (e_size e)) l.
Proof.
  intros h l G R. destruct (esym_table_partial h l G R) as (d & tab & str & E & E1 & E2 & L & Z0 & H).
  exists d. split; [exact E|]. unfold load_extra. rewrite E1, L, Nat.mul_comm, Nat.div_mul by lia.
  assert (HR : forall i, (i < S (length l))%nat -> exists r, read_sym tab i = Some r).
  { intros [|i] Hi; [eauto|]. destruct (nth_error l i) as [e|] eqn:Ee; [|apply nth_error_None in Ee; lia].
    destruct (H i e Ee) as (r & A & _). eauto. }
  destruct (read_all_nth tab _ HR) as [RL RN].
  apply nth_error_ext_. intro i. destruct (Nat.lt_ge_cases i (S (length l))) as [Li|Li].
  - destruct i as [|i]; [rewrite (RN 0%nat _ Li Z0); reflexivity|].
    destruct (nth_error l i) as [e|] eqn:Ee; [|apply nth_error_None in Ee; lia].
    destruct (H i e Ee) as (r & A & B). rewrite (RN _ _ Li A). cbn [nth_error]. rewrite nth_error_map, Ee. cbn. destruct B as [-> -> _ _ _ _]. reflexivity.
  - transitivity (@None sym); [apply nth_error_None; lia|symmetry; apply nth_error_None; cbn; rewrite map_length; lia].
Qed.

(* ---- queries ---- *)
Definition extra (s : static) : bool := skind_eqb (t_kind s) KExtra.
Lemma described_from f ss : forall n,
  (forall j s, nth_error (filter extra ss) j = Some s -> nth_error (sf_extra f) (n + j) = Some (mkSym (t_lo s) (t_hi s - t_lo s))) ->
  (forall s, In s ss -> extra s = false -> nth_error (symtab f (t_kind s)) (t_idx s) = Some (mkSym (t_lo s) (t_hi s - t_lo s))) ->
  described f n ss.
Proof.
  induction ss as [|s ss IH]; intros n Hx Ho; [exact I|]. cbn [described]. unfold extra in *. cbn [filter] in Hx.
  destruct (t_kind s) eqn:Ek; cbn [skind_eqb] in Hx.
  - split; [rewrite <- Ek; apply Ho; [left; reflexivity|rewrite Ek; reflexivity]|]. apply IH; [exact Hx|]. intros s' Hs'. apply Ho. right. exact Hs'.
  - split; [rewrite <- Ek; apply Ho; [left; reflexivity|rewrite Ek; reflexivity]|]. apply IH; [exact Hx|]. intros s' Hs'. apply Ho. right. exact Hs'.
  - split; [rewrite <- (Nat.add_0_r n); apply (Hx 0%nat); reflexivity|]. apply IH.
    + intros j s' Hj. replace (S n + j)%nat with (n + S j)%nat by lia. apply Hx. exact Hj.
    + intros s' Hs'. apply Ho. right. exact Hs'.
Qed.
(* The symbols of the statics which have none elsewhere, named or not *)
Definition for_static (s : static) (e : esym) : Prop := e_value e = t_lo s /\ e_size e = t_hi s - t_lo s.
(* Were it asked for by its name, and were the statics' symbols the third and later ones given
   to the tool, every address in a static would be answered with its type, start and size. *)
Theorem esym_query_partial : forall dbg arr load dyn sy h x es ss ts lo hi lo1 p s a,
  Forall good (x :: es) -> 1 + rooms (x :: es) < W32 ->
  Forall2 for_static (filter extra ss) es ->
  statics_apart lo1 ss ->
  (forall s, In s ss -> extra s = false -> nth_error (match t_kind s with KDyn => dyn | _ => sy end) (t_idx s) = Some (mkSym (t_lo s) (t_hi s - t_lo s))) ->
  exists d, tool (h :: x :: es) = Some d /\
  (let f := mkSF load dyn sy (load_extra EXTRASYMS d) in
   seg_place p f (Static_model.emit lo hi (generate ss ts)) -> In s ss -> lo <= t_lo s < hi -> t_lo s <= a < t_hi s -> 0 <= a < W64 ->
   get_info dbg arr (load + a) (Some p) = Ok (Some (t_ty s, load + t_lo s, t_hi s - t_lo s))).
Proof.
  intros dbg arr load dyn sy h x es ss ts lo hi lo1 p s a G R F Ap Ho.
  destruct (esym_asked h (x :: es) G R) as (d & E & EL). exists d. split; [exact E|]. intros f P Hs Hl Ha Hw.
  apply (metatab_static_found dbg arr f ss ts lo hi lo1 p s a Ap); auto.
  apply described_from.
  - intros j s' Hj. unfold f. cbn [sf_extra]. rewrite EL. cbn [plus nth_error map]. rewrite nth_error_map.
    clear - F Hj. revert j Hj. induction F as [|u e us es [V1 V2] F IH]; intros j Hj; [destruct j; discriminate|].
    destruct j as [|j]; cbn in *; [|apply IH; exact Hj]. injection Hj; intros <-. rewrite V1, V2. reflexivity.
  - intros s' Hs' Hx. specialize (Ho s' Hs' Hx). unfold f. destruct (t_kind s') eqn:Ek; cbn [symtab sf_dyn sf_sym]; try exact Ho.
    unfold extra in Hx. rewrite Ek in Hx. discriminate.
Qed.

Module EsEx.
  Definition nm (l : list Z) : option bytes := Some l.
  Definition null : esym := mkE None 0 0 0 0.
  Definition ea : esym := mkE (nm [97; 98]) 4096 8 1 0.        (* ab *)
  Definition eb : esym := mkE (nm [99]) 4200 16 17 2.          (* c *)
  Definition ec : esym := mkE None 5000 4 2 0.
  Lemma good_0 : good null. Proof. constructor; cbn; try lia. discriminate. Qed.
  Lemma good_a : good ea. Proof. constructor; cbn; try lia. intros n H; injection H; intros <-; repeat constructor; cbn; lia. Qed.
  Lemma good_b : good eb. Proof. constructor; cbn; try lia. intros n H; injection H; intros <-; repeat constructor; cbn; lia. Qed.
  Lemma good_c : good ec. Proof. constructor; cbn; try lia. discriminate. Qed.
  Example table_ex : Forall good [ea; eb; ec] /\ 1 + rooms [ea; eb; ec] < W32 /\
    option_map (fun d => walk_extra d (fun r _ => negb (st_value r =? 4200))) (tool [null; ea; eb; ec]) =
      Some (Ok [(mkElf 0 0 0 0 0 0, []); (mkElf 1 1 0 0 4096 8, [97; 98]); (mkElf 4 17 2 0 4200 16, [99])]).
  Proof. split; [exact (Forall_cons _ good_a (Forall_cons _ good_b (Forall_cons _ good_c (Forall_nil _))))|]. split; vm_compute; reflexivity. Qed.
  Definition arr : Z -> place := fun _ => PElse.
  Definition sA : static := mkSt 4096 4104 KExtra 0 64.
  Definition sB : static := mkSt 4200 4216 KExtra 0 72.
  Example query_ex : Forall2 for_static (filter extra [sA; sB]) [ea; eb] /\ statics_apart 0 [sA; sB] /\
    option_map (fun d => let f := mkSF 1000 [] [] (load_extra EXTRASYMS d) in
      get_info true arr (1000 + 4205) (Some (PSegment f (Static_model.emit 0 8192 (generate [sA; sB] []))))) (tool [null; ec; ea; eb]) =
      Some (Ok (Some (72, 1000 + 4200, 16))).
  Proof. split; [repeat constructor|]. split; [cbn; lia|]. vm_compute. reflexivity. Qed.

  (* In the library as it is, a query for an address in an extra static reads a null table. *)
  Theorem esym_null_refuted : exists ss l d, tool l = Some d /\ Forall good l /\ Forall2 for_static (filter extra ss) (tl l) /\ statics_apart 0 ss /\
    In sA ss /\ forall dbg a, get_info dbg arr a (Some (PSegment (load_file 1000 [] [] d) (Static_model.emit 0 8192 (generate ss [])))) = UB.
  Proof.
    exists [sA], [null; ea]. eexists. split; [vm_compute; reflexivity|].
    split; [exact (Forall_cons _ good_0 (Forall_cons _ good_a (Forall_nil _)))|].
    split; [repeat constructor|]. split; [cbn; lia|]. split; [left; reflexivity|]. intros dbg a. reflexivity.
  Qed.
  (* And were the table found, statics are numbered one too high: of two extra statics, the first is
     taken to be where the second is, and so is not found. *)
  Theorem esym_number_refuted : exists ss l d, tool l = Some d /\ Forall good l /\ Forall2 for_static (filter extra ss) (tl l) /\ statics_apart 0 ss /\
    In sA ss /\ get_info true arr (1000 + 4096) (Some (PSegment (mkSF 1000 [] [] (load_extra EXTRASYMS d)) (Static_model.emit 0 4200 (generate ss [])))) = Ok None.
  Proof.
    exists [sA; sB], [null; ea; eb]. eexists. split; [vm_compute; reflexivity|].
    split; [exact (Forall_cons _ good_0 (Forall_cons _ good_a (Forall_cons _ good_b (Forall_nil _))))|].
    split; [repeat constructor|]. split; [cbn; lia|]. split; [left; reflexivity|]. vm_compute. reflexivity.
  Qed.
  (* A name with quotes in it, as those of C++'s literal operators have, makes later names wrong:
     here the offset of "c" is past the end of the strings. *)
  Definition opkm : list Z := [111;112;101;114;97;116;111;114;34;34;95;107;109].   (* operator""_km *)
  Theorem esym_quotes_refuted : exists l d tab z1 str z2 r, tool l = Some d /\ nth_error l 2 = Some eb /\
    dlsym d EXTRASYMS = Some (z1, tab) /\ dlsym d EXTRASTR = Some (z2, str) /\ read_sym tab 2 = Some r /\ st_value r = e_value eb /\
    e_name eb = Some [99] /\ Z.of_nat (length str) <= st_name r /\ name_at str (st_name r) = [].
  Proof.
    exists [null; mkE (nm opkm) 4096 8 2 0; eb]. do 6 eexists.
    split; [vm_compute; reflexivity|]. split; [reflexivity|]. split; [vm_compute; reflexivity|]. split; [vm_compute; reflexivity|].
    split; [vm_compute; reflexivity|]. split; [reflexivity|]. split; [reflexivity|]. split; [vm_compute; discriminate|vm_compute; reflexivity].
  Qed.
  (* Other names with a quote make a file that does not compile. *)
  Theorem esym_compile_refuted : exists l, tool l = None /\ l <> [].
  Proof. exists [null; mkE (nm [97; 34; 98]) 4096 8 2 0]. split; [vm_compute; reflexivity|discriminate]. Qed.
End EsEx.

Print Assumptions esym_table_partial.
Print Assumptions esym_walk_partial.
Print Assumptions esym_never_loaded.
Print Assumptions esym_asked.
Print Assumptions esym_query_partial.
Print Assumptions EsEx.esym_null_refuted.
Print Assumptions EsEx.esym_number_refuted.
Print Assumptions EsEx.esym_quotes_refuted.
Print Assumptions EsEx.esym_compile_refuted.
