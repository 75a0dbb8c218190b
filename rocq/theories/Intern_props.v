(* Theorems about types made at run time: see properties.jsonl C28. *)
From Verif Require Import Base Big_model Big_field Intern_model Intern_proof.

(* ---- specification ---- *)
(* what is asked for, by constituents *)
Inductive shape := SArr (e : nat) (n : Z) | SPtr (p : nat) | SFun (ret : nat) (args : list nat).
Definition shape_of (r : req) : option shape :=
  match r with
  | RArr e n => Some (SArr e n)
  | RUnb e | RFlex e => Some (SArr e UNBLEN)
  | RPtr p => Some (SPtr p)
  | RFun t a => Some (SFun t a)
  | RUnion _ => None
  end.
Definition kind_shape (k : tkind) : option shape :=
  match k with
  | TArr e n _ => Some (SArr e n)
  | TPtr p _ _ => Some (SPtr p)
  | TFun t a => Some (SFun t a)
  | _ => None
  end.
(* following pointers from a type: after [k] of them, [u], which is not one *)
Inductive chain (w : world) : nat -> Z -> nat -> Prop :=
| chain_end p t : nth_error w p = Some t -> (forall q l u, t_kind t <> TPtr q l u) -> chain w p 0 p
| chain_ptr p t q l u k v : nth_error w p = Some t -> t_kind t = TPtr q l u -> chain w q k v -> chain w p (k + 1) v.
(* a type is what a shape says *)
Definition is_shape (w : world) (i : nat) (s : shape) : Prop :=
  exists t, nth_error w i = Some t /\ kind_shape (t_kind t) = Some s /\
  match s with
  | SArr e n => exists et, nth_error w e = Some et /\ t_max t = if n =? UNBLEN then UNBMAX else n * t_max et
  | SPtr p => exists lv u, t_kind t = TPtr p lv u /\ t_max t = 8 /\ chain w p (lv - 1) u
  | SFun _ _ => t_max t = UNBMAX
  end.

(* names by constituents, as the debugging information's types have them too *)
Definition wname (w : world) (i : nat) : str := match nth_error w i with Some t => tname t | None => [] end.
Definition nc_of (w : world) (s : shape) : nc :=
  match s with
  | SArr e n => NArr (dlen n) (wname w e)
  | SPtr p => NPtr (wname w p)
  | SFun t a => NFun (map (wname w) a) (wname w t)
  end.
Definition ids (s : shape) : list nat := match s with SArr e _ => [e] | SPtr p => [p] | SFun t a => t :: a end.
Definition valid (w : world) (s : shape) : Prop :=
  Forall (fun i => exists t, nth_error w i = Some t) (ids s) /\ match s with SArr _ n => 0 <= n <= UNBLEN | _ => True end.
Definition symbol (w : world) (s : shape) : str := L "__uniqtype__" ++ enc (nc_of w s).

(* the process's types are well named: no two share a simple name; arrays, pointers and functions are
   named after their constituents and are as described; other names do not look like those *)
Definition well_named (w : world) : Prop :=
  (forall i j ti tj, nth_error w i = Some ti -> nth_error w j = Some tj -> tname ti = tname tj -> i = j) /\
  (forall i t, nth_error w i = Some t ->
     match kind_shape (t_kind t) with
     | None => basename (tname t)
     | Some s => t_sym t = Some (symbol w s) /\ valid w s /\ is_shape w i s
     end).
(* requests in range: of existing types with sizes, whose sizes and names fit *)
Definition sized (w : world) (e : nat) : Prop := exists t, nth_error w e = Some t /\ 0 < t_max t < UNBMAX.
Definition ok_req (w : world) (r : req) : Prop :=
  match r with
  | RArr e n => 0 <= n < UNBLEN /\ exists t, nth_error w e = Some t /\ 0 < t_max t < UNBMAX /\ n * t_max t < W32
  | RUnb e | RFlex e => sized w e
  | RPtr p => exists t, nth_error w p = Some t
  | RFun t a => Forall (fun i => exists t, nth_error w i = Some t) (t :: a)
  | RUnion _ => False
  end /\ match shape_of r with Some s => (length (symbol w s) <= 4095)%nat | None => False end.
Fixpoint lawful (dbg : bool) (w : world) (h : list req) : Prop :=
  match h with
  | [] => True
  | r :: t => ok_req w r /\ forall w' o, step dbg w r = Ok (w', o) -> lawful dbg w' t
  end.

(* ---- finding ---- *)
Lemma find_idx_some f w k i : find_idx f w k = Some i -> exists t, nth_error w (i - k) = Some t /\ f t = true /\ (k <= i)%nat.
Proof.
  revert k. induction w as [|t w IH]; intros k H; [discriminate|]. cbn in H. destruct (f t) eqn:E.
  - injection H as <-. exists t. rewrite Nat.sub_diag. auto.
  - destruct (IH _ H) as (t' & A & B & C). exists t'. split; [|split; auto; lia]. replace (i - k)%nat with (S (i - S k)) by lia. auto.
Qed.
Lemma find_idx_none f w k : find_idx f w k = None -> forall t, In t w -> f t = false.
Proof. revert k. induction w as [|t w IH]; intros k H x Ix; [easy|]. cbn in H. destruct (f t) eqn:E; [discriminate|]. destruct Ix as [<-|Ix]; eauto. Qed.
Lemma find_idx_app f w w2 k i : find_idx f w k = Some i -> find_idx f (w ++ w2) k = Some i.
Proof. revert k. induction w as [|t w IH]; intros k H; [discriminate|]. cbn in *. destruct (f t); auto. Qed.
Lemma find_idx_app_none f w w2 k : find_idx f w k = None -> find_idx f (w ++ w2) k = find_idx f w2 (k + length w).
Proof.
  revert k. induction w as [|t w IH]; intros k H; cbn [find_idx app length]; [rewrite Nat.add_0_r; auto|].
  cbn in H. destruct (f t); [discriminate|]. rewrite IH by auto. f_equal. lia.
Qed.
Lemma named_eq s t : named s t = true <-> t_sym t = Some s.
Proof. unfold named. destruct (t_sym t) as [x|]; [rewrite eqs_eq; split; congruence|split; discriminate]. Qed.
Lemma lookup_some w s i : lookup w s = Some i -> exists t, nth_error w i = Some t /\ t_sym t = Some s.
Proof.
  unfold lookup, dlsym. destruct (find_idx (fun t => t_rt t && named s t) w 0) as [j|] eqn:E; intros H.
  - injection H as <-. apply find_idx_some in E. destruct E as (t & A & B & _). rewrite Nat.sub_0_r in A. apply andb_true_iff in B. destruct B as (_ & B). apply named_eq in B. eauto.
  - apply find_idx_some in H. destruct H as (t & A & B & _). rewrite Nat.sub_0_r in A. apply named_eq in B. eauto.
Qed.
Lemma lookup_none w s i t : lookup w s = None -> nth_error w i = Some t -> t_sym t <> Some s.
Proof.
  unfold lookup, dlsym. destruct (find_idx (fun t => t_rt t && named s t) w 0); [discriminate|]. intros H N E. apply named_eq in E.
  rewrite (find_idx_none _ _ _ H t) in E; [discriminate|]. eapply nth_error_In; eauto.
Qed.

(* ---- well-named worlds ---- *)
Lemma tname_sym t x : t_sym t = Some (L "__uniqtype__" ++ x) -> tname t = x.
Proof. unfold tname. intros ->. rewrite pre_app. reflexivity. Qed.
Lemma wname_at w i t : nth_error w i = Some t -> wname w i = tname t.
Proof. unfold wname. intros ->. auto. Qed.

Lemma digits_of w s : valid w s -> digits (nc_of w s).
Proof. destruct s; cbn; auto. intros (_ & H). apply dlen_digits. auto. Qed.
Lemma part_short c p : In p (parts c) -> (length p < length (enc c))%nat.
Proof.
  assert (PL : forall a args i, In a args -> (length a <= length (pieces args i))%nat).
  { induction args as [|b args IH]; intros i H; [easy|]. cbn [pieces]. rewrite !app_length. destruct H as [<-|H]; [lia|]. specialize (IH (i + 1) H). lia. }
  destruct c as [d e|p'|args ret]; cbn [parts enc]; intros H; rewrite !app_length; cbn [length L list_ascii_of_string].
  - destruct H as [<-|[]]. lia.
  - destruct H as [<-|[]]. lia.
  - destruct H as [<-|H]; [lia|]. pose proof (PL p args 0 H). lia.
Qed.
Lemma nc_parts w s : parts (nc_of w s) = map (wname w) (ids s).
Proof. destruct s; reflexivity. Qed.
Lemma all_N w : well_named w -> forall len i t, nth_error w i = Some t -> (length (tname t) <= len)%nat -> N (tname t).
Proof.
  intros (_ & WN). induction len as [|len IH]; intros i t NT LE; pose proof (WN i t NT) as H;
    destruct (kind_shape (t_kind t)) as [s|] eqn:K; try (apply Nb; exact H); destruct H as (SY & V & _); rewrite (tname_sym _ _ SY) in *.
  - destruct (nc_of w s); cbn in LE; lia.
  - apply Ne; [apply digits_of; auto|]. destruct V as (V & _). rewrite nc_parts.
    apply Forall_forall. intros x Ix. assert (SH : (length x < length (enc (nc_of w s)))%nat) by (apply part_short; rewrite nc_parts; auto).
    apply in_map_iff in Ix. destruct Ix as (j & <- & Ij). rewrite Forall_forall in V. destruct (V j Ij) as (u & Nu). rewrite (wname_at _ _ _ Nu) in *. eapply IH; eauto. lia.
Qed.
Lemma valid_parts w s : well_named w -> valid w s -> Forall N (parts (nc_of w s)).
Proof.
  intros W (V & _). rewrite nc_parts. apply Forall_forall. intros x Ix. apply in_map_iff in Ix. destruct Ix as (j & <- & Ij).
  rewrite Forall_forall in V. destruct (V j Ij) as (u & Nu). rewrite (wname_at _ _ _ Nu). eapply all_N; eauto.
Qed.
Lemma wname_inj w i j : well_named w -> (exists t, nth_error w i = Some t) -> (exists t, nth_error w j = Some t) -> wname w i = wname w j -> i = j.
Proof. intros (D & _) (t & A) (u & B) E. rewrite (wname_at _ _ _ A), (wname_at _ _ _ B) in E. eapply D; eauto. Qed.
Lemma wnames_inj w l m : well_named w -> Forall (fun i => exists t, nth_error w i = Some t) l -> Forall (fun i => exists t, nth_error w i = Some t) m ->
  map (wname w) l = map (wname w) m -> l = m.
Proof.
  intros W. revert m. induction l as [|i l IH]; intros [|j m] A B E; try discriminate; auto. cbn in E. injection E as E1 E2.
  inversion A; subst. inversion B; subst. f_equal; [eapply wname_inj; eauto|auto].
Qed.
Lemma shape_inj w s1 s2 : well_named w -> valid w s1 -> valid w s2 -> symbol w s1 = symbol w s2 -> s1 = s2.
Proof.
  intros W V1 V2 E. apply app_inv_head in E. apply enc_injective in E; try (apply digits_of; auto); try (apply valid_parts; auto).
  destruct V1 as (V1 & R1), V2 as (V2 & R2). destruct s1, s2; cbn in E, V1, V2; try discriminate.
  - injection E as E1 E2. inversion V1; subst. inversion V2; subst. f_equal; [eapply wname_inj; eauto|apply dlen_inj; auto].
  - injection E as E1. inversion V1; subst. inversion V2; subst. f_equal. eapply wname_inj; eauto.
  - injection E as E1 E2. inversion V1; subst. inversion V2; subst. f_equal; [eapply wname_inj; eauto|eapply wnames_inj; eauto].
Qed.

(* ---- growing ---- *)
Lemma nth_app {A} (w ext : list A) i t : nth_error w i = Some t -> nth_error (w ++ ext) i = Some t.
Proof. intros H. rewrite nth_error_app1; auto. apply nth_error_Some. congruence. Qed.
Lemma wname_app w ext i : (exists t, nth_error w i = Some t) -> wname (w ++ ext) i = wname w i.
Proof. intros (t & H). rewrite (wname_at _ _ _ H). apply wname_at, nth_app, H. Qed.
Lemma symbol_app w ext s : valid w s -> symbol (w ++ ext) s = symbol w s.
Proof.
  intros (V & _). unfold symbol. do 2 f_equal. destruct s; cbn in *.
  - inversion V; subst. rewrite wname_app; auto.
  - inversion V; subst. rewrite wname_app; auto.
  - inversion V; subst. rewrite wname_app by auto. f_equal. apply map_ext_in. intros i Ii. apply wname_app. rewrite Forall_forall in H2. auto.
Qed.
Lemma valid_app w ext s : valid w s -> valid (w ++ ext) s.
Proof. intros (V & R). split; auto. eapply Forall_impl; [|exact V]. cbn. intros i (t & H). exists t. apply nth_app, H. Qed.
Lemma chain_app w ext p k u : chain w p k u -> chain (w ++ ext) p k u.
Proof. induction 1; [eapply chain_end; eauto using nth_app|eapply chain_ptr; eauto using nth_app]. Qed.
Lemma is_shape_app w ext i s : is_shape w i s -> is_shape (w ++ ext) i s.
Proof.
  intros (t & A & B & C). exists t. split; [apply nth_app, A|]. split; auto. destruct s.
  - destruct C as (et & C1 & C2). exists et. split; [apply nth_app, C1|auto].
  - destruct C as (lv & u & C1 & C2 & C3). exists lv, u. auto using chain_app.
  - auto.
Qed.

(* finding or making a type of a shape keeps the world well named and gives that type *)
Definition made (w : world) (s : shape) (mx : Z) (k : tkind) : world * option nat :=
  match lookup w (symbol w s) with Some i => (w, Some i) | None => bind_type w (symbol w s) mx k end.
Lemma base_not_enc c : ~ basename (enc c).
Proof. intros B. eapply (base_enc _ c [] [] B); [left; auto|auto]. Qed.
Lemma made_good w s mx k : well_named w -> valid w s -> kind_shape k = Some s ->
  (forall w', nth_error w' (length w) = Some (mkT (Some (symbol w s)) true mx k) -> (exists ext, w' = w ++ ext) -> is_shape w' (length w) s) ->
  exists w' i, made w s mx k = (w', Some i) /\ well_named w' /\ (exists ext, w' = w ++ ext) /\ is_shape w' i s.
Proof.
  intros W V KS IS. unfold made. destruct (lookup w (symbol w s)) as [i|] eqn:LK.
  - exists w, i. split; auto. split; auto. split; [exists []; rewrite app_nil_r; auto|].
    apply lookup_some in LK. destruct LK as (t & NT & SY). destruct W as (D & WN). pose proof (WN i t NT) as H. destruct (kind_shape (t_kind t)) as [s'|] eqn:K.
    + destruct H as (SY' & V' & I'). assert (s' = s); [|subst; auto]. apply (shape_inj w); auto; [split; auto|]. congruence.
    + exfalso. rewrite (tname_sym _ _ SY) in H. eapply base_not_enc; eauto.
  - unfold bind_type. set (nt := mkT (Some (symbol w s)) true mx k). exists (w ++ [nt]), (length w).
    assert (NL : nth_error (w ++ [nt]) (length w) = Some nt) by (rewrite nth_error_app2, Nat.sub_diag by lia; auto).
    assert (IN : is_shape (w ++ [nt]) (length w) s) by (apply IS; eauto).
    split; auto. split; [|eauto].
    assert (TN : tname nt = enc (nc_of w s)) by (apply tname_sym; auto).
    assert (FRESH : forall i t, nth_error w i = Some t -> tname t <> tname nt).
    { intros i t NT E. rewrite TN in E. destruct W as (D & WN). pose proof (WN i t NT) as H. destruct (kind_shape (t_kind t)) as [s'|] eqn:K.
      - destruct H as (SY' & V' & I'). rewrite (tname_sym _ _ SY') in E. eapply lookup_none; eauto. rewrite SY'. unfold symbol. rewrite E. auto.
      - rewrite E in H. eapply base_not_enc; eauto. }
    assert (CASES : forall i t, nth_error (w ++ [nt]) i = Some t -> (nth_error w i = Some t) \/ (i = length w /\ t = nt)).
    { intros i t H. destruct (Nat.lt_ge_cases i (length w)) as [X|X]; [rewrite nth_error_app1 in H by auto; auto|].
      rewrite nth_error_app2 in H by auto. destruct (i - length w)%nat as [|m] eqn:E; [|destruct m; discriminate]. cbn in H. injection H as <-. right. split; auto. lia. }
    destruct W as (D & WN). split.
    + intros i j ti tj A B E. apply CASES in A. apply CASES in B. destruct A as [A|(-> & ->)], B as [B|(-> & ->)]; auto.
      * eapply D; eauto.
      * exfalso. eapply FRESH; eauto.
      * exfalso. eapply FRESH; eauto.
    + intros i t A. apply CASES in A. destruct A as [A|(-> & ->)].
      * pose proof (WN i t A) as H. destruct (kind_shape (t_kind t)) as [s'|]; auto. destruct H as (SY' & V' & I'). rewrite symbol_app by auto. auto using valid_app, is_shape_app.
      * cbn [t_kind nt t_sym]. rewrite KS. rewrite symbol_app by auto. auto using valid_app.
Qed.

Lemma snp_fits s : (length s <= 4095)%nat -> snp s = s.
Proof. intros. unfold snp. apply firstn_all2. auto. Qed.
Lemma types_names w l : Forall (fun i => exists t, nth_error w i = Some t) l -> exists ts, types_of w l = Some ts /\ map tname ts = map (wname w) l.
Proof.
  induction 1 as [|i l (t & H) F (ts & A & B)]; cbn; [exists []; auto|]. rewrite H, A. exists (t :: ts). split; auto. cbn. rewrite (wname_at _ _ _ H), B. auto.
Qed.
Lemma fun_pieces_eq l : forall i acc, (length (acc ++ pieces l i) <= 4095)%nat -> fun_pieces l i acc = Ok (acc ++ pieces l i).
Proof.
  induction l as [|a l IH]; intros i acc H; cbn [fun_pieces pieces]; [rewrite app_nil_r; auto|].
  cbn [pieces] in H. rewrite !app_length in H. destruct (4096 <? Z.of_nat (length acc)) eqn:E; [lia|].
  rewrite IH; [rewrite <- !app_assoc; auto|]. rewrite !app_length. lia.
Qed.

Lemma step_made dbg w r s : well_named w -> ok_req w r -> shape_of r = Some s ->
  valid w s /\ exists mx k, step dbg w r = Ok (made w s mx k) /\ kind_shape k = Some s /\
  (forall w', nth_error w' (length w) = Some (mkT (Some (symbol w s)) true mx k) -> (exists ext, w' = w ++ ext) -> is_shape w' (length w) s).
Proof.
  intros W (OK & FIT) SH. rewrite SH in FIT. destruct r as [e n|e|e|p|rt a|ms]; cbn in SH; try discriminate; injection SH as <-; cbn [step].
  - destruct OK as (Rn & t & NT & RM & RS). unfold UNBLEN in Rn. split; [split; [cbn; eauto|unfold UNBLEN; lia]|]. rewrite NT. rewrite asrt_true by (unfold UNBLEN; lia). cbn [bind].
    unfold UNBMAX in RM. unfold UNBMAX. destruct (_ || _) eqn:EZ; [lia|]. unfold array_type. destruct (n =? UNBLEN) eqn:EU; [unfold UNBLEN in EU; lia|].
    assert (EQ : L "__uniqtype____ARR" ++ decd n ++ L "_" ++ tname t = symbol w (SArr e n)).
    { unfold symbol. cbn [nc_of enc]. unfold dlen. rewrite EU, (wname_at _ _ _ NT). reflexivity. }
    rewrite EQ, snp_fits by auto. do 2 eexists. split; [reflexivity|]. rewrite (Z.mod_small n (2 ^ 31)) by (change (2 ^ 31) with 2147483648; lia). split; [reflexivity|].
    intros w' NW (ext & ->). eexists. split; [exact NW|]. split; [reflexivity|]. exists t. split; [apply nth_app; auto|]. cbn. rewrite EU. apply Z.mod_small. split; [|exact RS]. clear - Rn RM. apply Z.mul_nonneg_nonneg; lia.
  - destruct OK as (t & NT & RM). unfold UNBMAX in RM. split; [split; [cbn; eauto|unfold UNBLEN; lia]|]. rewrite NT. unfold UNBMAX. destruct (_ || _) eqn:EZ; [lia|]. unfold array_type. rewrite Z.eqb_refl.
    assert (EQ : L "__uniqtype____ARR_" ++ tname t = symbol w (SArr e UNBLEN)).
    { unfold symbol. cbn [nc_of enc]. unfold dlen. rewrite Z.eqb_refl, (wname_at _ _ _ NT). reflexivity. }
    rewrite EQ, snp_fits by auto. do 2 eexists. split; [reflexivity|]. split; [reflexivity|].
    intros w' NW (ext & ->). eexists. split; [exact NW|]. split; [reflexivity|]. exists t. split; [apply nth_app; auto|]. reflexivity.
  - destruct OK as (t & NT & RM). unfold UNBMAX in RM. split; [split; [cbn; eauto|unfold UNBLEN; lia]|]. rewrite NT. unfold UNBMAX. destruct (_ || _) eqn:EZ; [lia|].
    assert (EQ : L "__uniqtype____ARR_" ++ tname t = symbol w (SArr e UNBLEN)).
    { unfold symbol. cbn [nc_of enc]. unfold dlen. rewrite Z.eqb_refl, (wname_at _ _ _ NT). reflexivity. }
    rewrite EQ, snp_fits by auto. exists UNBMAX, (TArr e UNBLEN true). cbv zeta. unfold made. split; [destruct (lookup _ _); reflexivity|]. split; [reflexivity|].
    intros w' NW (ext & ->). eexists. split; [exact NW|]. split; [reflexivity|]. exists t. split; [apply nth_app; auto|]. reflexivity.
  - destruct OK as (t & NT). split; [split; cbn; eauto|]. rewrite NT.
    assert (EQ : L "__uniqtype____PTR_" ++ tname t = symbol w (SPtr p)).
    { unfold symbol. cbn [nc_of enc]. rewrite (wname_at _ _ _ NT). reflexivity. }
    rewrite EQ, snp_fits by auto. cbv zeta.
    set (lu := match t_kind t with TPtr _ l u => (1 + l, u) | _ => (1, p) end).
    assert (CH : chain w p (fst lu - 1) (snd lu)).
    { unfold lu. destruct (t_kind t) as [|? ? ?|q l u|? ?|?] eqn:K; cbn [fst snd]; try (apply (chain_end w p t); auto; rewrite K; discriminate).
      destruct W as (_ & WN). pose proof (WN p t NT) as H. rewrite K in H. cbn in H. destruct H as (_ & _ & (t' & A & B & lv & v & C & _ & D)).
      assert (t' = t) by congruence. subst t'. rewrite K in C. injection C as <- <-. replace (1 + l - 1) with ((l - 1) + 1) by lia. eapply chain_ptr; eauto. }
    exists 8, (TPtr p (fst lu) (snd lu)). split; [|split; [reflexivity|]].
    + unfold made. destruct (lookup _ _); [reflexivity|]. destruct lu; reflexivity.
    + intros w' NW (ext & ->). eexists. split; [exact NW|]. split; [reflexivity|]. cbn. exists (fst lu), (snd lu). split; auto. split; auto. apply chain_app. auto.
  - inversion OK as [|? ? (t & NT) F]; subst. split; [split; cbn; auto; constructor; eauto|]. rewrite NT. destruct (types_names w a F) as (ts & -> & TN).
    assert (EQ : fun_name (tname t) (map tname ts) = Ok (symbol w (SFun rt a))).
    { unfold fun_name. rewrite TN. unfold symbol in *. cbn [nc_of enc] in *. rewrite (wname_at _ _ _ NT) in *.
      change (L "__uniqtype____FUN_FROM_") with (L "__uniqtype__" ++ L "__FUN_FROM_") in *. rewrite !app_length in FIT.
      rewrite fun_pieces_eq by (rewrite !app_length; lia). cbn [bind]. destruct (4096 <? _) eqn:E; [rewrite !app_length in E; lia|].
      rewrite snp_fits by (rewrite !app_length; lia). rewrite <- !app_assoc. reflexivity. }
    rewrite EQ. cbn [bind]. exists UNBMAX, (TFun rt a). split; [unfold made; destruct (lookup _ _); reflexivity|]. split; [reflexivity|].
    intros w' NW (ext & ->). eexists. split; [exact NW|]. split; [reflexivity|]. reflexivity.
Qed.

Lemma step_good dbg w r : well_named w -> ok_req w r ->
  exists w' i s, step dbg w r = Ok (w', Some i) /\ shape_of r = Some s /\ well_named w' /\ (exists ext, w' = w ++ ext) /\ is_shape w' i s.
Proof.
  intros W OK. destruct (shape_of r) as [s|] eqn:SH; [|destruct OK as (_ & F); rewrite SH in F; easy].
  destruct (step_made dbg w r s W OK SH) as (V & mx & k & ST & KS & IS). destruct (made_good w s mx k W V KS IS) as (w' & i & M & W' & EX & I).
  exists w', i, s. rewrite ST, M. auto 6.
Qed.

Lemma run_good dbg : forall h w, well_named w -> lawful dbg w h ->
  exists w' outs, run dbg w h = Ok (w', outs) /\ well_named w' /\ (exists ext, w' = w ++ ext) /\
  Forall2 (fun r o => exists i s, o = Some i /\ shape_of r = Some s /\ is_shape w' i s) h outs.
Proof.
  induction h as [|r h IH]; intros w W LW; cbn [run].
  - exists w, []. repeat split; auto; try apply W. exists []. rewrite app_nil_r. auto.
  - destruct LW as (OK & LW). destruct (step_good dbg w r W OK) as (w1 & i & s & ST & SH & W1 & (e1 & X1) & I). rewrite ST. cbn [bind].
    destruct (IH w1 W1 (LW _ _ ST)) as (w2 & outs & R & W2 & (e2 & X2) & F). rewrite R. cbn [bind]. exists w2, (Some i :: outs). split; auto. split; auto.
    split; [exists (e1 ++ e2); rewrite X2, X1, app_assoc; auto|]. constructor; auto. exists i, s. split; auto. split; auto. rewrite X2. apply is_shape_app. auto.
Qed.

(* C28: in any history of requests for array, pointer and function types, every request is answered with
   a type of the elements, target or signature asked for and the size that implies (for a pointer, with
   the right depth and ultimate target) *)
Theorem intern_describes_partial : forall dbg w h, well_named w -> lawful dbg w h ->
  exists w' outs, run dbg w h = Ok (w', outs) /\ length outs = length h /\
  forall k r, nth_error h k = Some r -> exists i s, nth_error outs k = Some (Some i) /\ shape_of r = Some s /\ is_shape w' i s.
Proof.
  intros dbg w h W LW. destruct (run_good dbg h w W LW) as (w' & outs & R & _ & _ & F). exists w', outs. split; auto. split; [clear - F; induction F; cbn; auto|].
  clear - F. induction F as [|r o h outs (i & s & -> & S1 & S2) F IH]; intros [|k] r' H; try discriminate; cbn in *.
  - injection H as <-. eauto.
  - eauto.
Qed.

(* ---- asking again ---- *)
Lemma dlsym_stays w s i t : dlsym w s = Some i -> dlsym (w ++ [t]) s = Some i.
Proof. apply find_idx_app. Qed.
Lemma lookup_stays w s i t : lookup w s = Some i -> t_sym t <> Some s -> lookup (w ++ [t]) s = Some i.
Proof.
  intros H NE. unfold lookup in *. destruct (find_idx (fun t => t_rt t && named s t) w 0) as [j|] eqn:E.
  - injection H as <-. rewrite (find_idx_app _ _ _ _ _ E). auto.
  - rewrite find_idx_app_none by auto. cbn [find_idx]. destruct (t_rt t && named s t) eqn:B; [|apply dlsym_stays; auto].
    apply andb_true_iff in B. destruct B as (_ & B). apply named_eq in B. congruence.
Qed.
Lemma dlsym_lookup w s i : lookup w s = Some i -> exists j, dlsym w s = Some j.
Proof.
  intros H. destruct (dlsym w s) as [j|] eqn:D; eauto. unfold lookup in H. rewrite D in H. destruct (find_idx (fun t => t_rt t && named s t) w 0) as [j|] eqn:E; [|discriminate].
  apply find_idx_some in E. destruct E as (t & A & B & _). apply andb_true_iff in B. destruct B as (_ & B). rewrite (find_idx_none _ _ _ D t) in B; [discriminate|eapply nth_error_In; eauto].
Qed.
(* every step leaves the world or adds one type under a name there was not *)
Lemma step_grows dbg w r w' o : step dbg w r = Ok (w', o) -> w' = w \/ exists t s, w' = w ++ [t] /\ t_sym t = Some s /\ dlsym w s = None.
Proof.
  assert (LD : forall s, lookup w s = None -> dlsym w s = None).
  { intros s H. unfold lookup in H. destruct (find_idx _ w 0); [discriminate|auto]. }
  assert (AT : forall e et n, (fst (array_type w e et n) = w \/ exists t s, fst (array_type w e et n) = w ++ [t] /\ t_sym t = Some s /\ dlsym w s = None)).
  { intros. unfold array_type. cbv zeta. destruct (lookup w _) eqn:LK; [left; auto|]. right. do 2 eexists. split; [reflexivity|]. split; [reflexivity|]. auto. }
  destruct r as [e n|e|e|p|rt a|ms]; cbn [step].
  - destruct (nth_error w e) as [et|]; [|discriminate]. destruct (asrt _ _); try discriminate. cbn [bind]. destruct (_ || _); intros H; [injection H as H H'; auto|]. injection H as H.
    specialize (AT e et n). rewrite H in AT. auto.
  - destruct (nth_error w e) as [et|]; [|discriminate]. destruct (_ || _); intros H; [injection H as H H'; auto|]. injection H as H. specialize (AT e et UNBLEN). rewrite H in AT. auto.
  - destruct (nth_error w e) as [et|]; [|discriminate]. destruct (_ || _); [intros H; injection H as H H'; auto|]. cbv zeta. destruct (lookup w _) eqn:LK; intros H; injection H as <- <-; auto.
    right. do 2 eexists. split; [reflexivity|]. split; [reflexivity|]. auto.
  - destruct (nth_error w p) as [pt|]; [|discriminate]. cbv zeta. destruct (lookup w _) eqn:LK; [intros H; injection H as <- <-; auto|].
    destruct (match t_kind pt with TPtr _ l u => (1 + l, u) | _ => (1, p) end) as (lv, ul). intros H; injection H as <- <-.
    right. do 2 eexists. split; [reflexivity|]. split; [reflexivity|]. auto.
  - destruct (nth_error w rt) as [rtt|]; [|discriminate]. destruct (types_of w a) as [ats|]; [|discriminate]. destruct (fun_name _ _) as [s| | |]; try discriminate. cbn [bind].
    destruct (lookup w s) eqn:LK; intros H; injection H as <- <-; auto. right. do 2 eexists. split; [reflexivity|]. split; [reflexivity|]. auto.
  - destruct ms as [|m ms]; [intros H; injection H as <- <-; auto|]. destruct (types_of w (m :: ms)) as [mts|]; [|discriminate]. destruct (asrt _ _); try discriminate. cbn [bind].
    destruct (union_name _ _) as [[s|]| | |]; try discriminate; cbn [bind]; [|intros H; injection H as <- <-; auto].
    destruct (dlsym w s) eqn:LK; intros H; injection H as <- <-; auto. right. do 2 eexists. split; [reflexivity|]. split; [reflexivity|]. auto.
Qed.

Lemma types_app w t l ts : types_of w l = Some ts -> types_of (w ++ [t]) l = Some ts.
Proof.
  revert ts. induction l as [|i l IH]; intros ts H; cbn in *; auto. destruct (nth_error w i) eqn:E; [|discriminate]. destruct (types_of w l) eqn:E2; [|discriminate].
  rewrite (nth_app _ _ _ _ E), (IH _ eq_refl). auto.
Qed.
(* how a request is answered: by a name that depends on its constituents only *)
Definition sym_of (w : world) (r : req) : res (option (str * bool)) :=
  match r with
  | RArr e n => match nth_error w e with Some et => Ok (Some (snp (if n =? UNBLEN then L "__uniqtype____ARR_" ++ tname et else L "__uniqtype____ARR" ++ decd n ++ L "_" ++ tname et), true)) | None => UB end
  | RUnb e | RFlex e => match nth_error w e with Some et => Ok (Some (snp (L "__uniqtype____ARR_" ++ tname et), true)) | None => UB end
  | RPtr p => match nth_error w p with Some et => Ok (Some (snp (L "__uniqtype____PTR_" ++ tname et), true)) | None => UB end
  | RFun t a => match nth_error w t, types_of w a with Some rt, Some ats => do s <- fun_name (tname rt) (map tname ats) ; Ok (Some (s, true)) | _, _ => UB end
  | RUnion ms => match types_of w ms with Some mts => do o <- union_name (map tname mts) [] ; Ok (match o with Some s => Some (s, false) | None => None end) | None => UB end
  end.
Definition answer (w : world) (s : str) (full : bool) : option nat := if full then lookup w s else dlsym w s.
Lemma lookup_self w s t : lookup w s = None -> t_sym t = Some s -> t_rt t = true -> lookup (w ++ [t]) s = Some (length w) /\ dlsym (w ++ [t]) s = Some (length w).
Proof.
  intros H S1 R. unfold lookup in *. destruct (find_idx (fun t => t_rt t && named s t) w 0) eqn:E; [discriminate|]. unfold dlsym in *.
  rewrite !find_idx_app_none by auto. cbn [find_idx]. assert (N1 : named s t = true) by (apply named_eq; auto). rewrite N1, R. auto.
Qed.
Lemma dlsym_self w s t : dlsym w s = None -> t_sym t = Some s -> dlsym (w ++ [t]) s = Some (length w).
Proof. intros H S1. unfold dlsym in *. rewrite find_idx_app_none by auto. cbn [find_idx]. apply named_eq in S1. rewrite S1. auto. Qed.
Lemma step_answer dbg w r w' i : step dbg w r = Ok (w', Some i) ->
  exists s full, sym_of w r = Ok (Some (s, full)) /\ sym_of w' r = Ok (Some (s, full)) /\ answer w' s full = Some i.
Proof.
  intros H. assert (G := step_grows _ _ _ _ _ H).
  assert (NA : forall k t, nth_error w k = Some t -> nth_error w' k = Some t).
  { intros k t Hk. destruct G as [->|(? & ? & -> & _)]; auto. apply nth_app. auto. }
  assert (TA : forall l ts, types_of w l = Some ts -> types_of w' l = Some ts).
  { intros l ts Hl. destruct G as [->|(? & ? & -> & _)]; auto. apply types_app. auto. }
  assert (BT : forall s mx k, lookup w s = None -> bind_type w s mx k = (w', Some i) -> lookup w' s = Some i).
  { intros s mx k LK B. injection B as <- <-. apply lookup_self; auto. }
  destruct r as [e n|e|e|p|rt a|ms]; cbn [step sym_of] in *.
  - destruct (nth_error w e) as [et|] eqn:E; [|discriminate]. rewrite (NA _ _ E). destruct (asrt _ _); try discriminate. cbn [bind] in H. destruct (_ || _); [discriminate|].
    do 2 eexists. split; [reflexivity|]. split; [reflexivity|]. cbn [answer]. injection H as H. unfold array_type in H. destruct (lookup w _) eqn:LK; [injection H as <- <-; auto|eapply BT; eauto].
  - destruct (nth_error w e) as [et|] eqn:E; [|discriminate]. rewrite (NA _ _ E). destruct (_ || _); [discriminate|].
    do 2 eexists. split; [reflexivity|]. split; [reflexivity|]. cbn [answer]. injection H as H. unfold array_type in H. rewrite Z.eqb_refl in H. destruct (lookup w _) eqn:LK; [injection H as <- <-; auto|eapply BT; eauto].
  - destruct (nth_error w e) as [et|] eqn:E; [|discriminate]. rewrite (NA _ _ E). destruct (_ || _); [discriminate|].
    do 2 eexists. split; [reflexivity|]. split; [reflexivity|]. cbn [answer]. cbv zeta in H. destruct (lookup w _) eqn:LK; injection H as <- <-; auto; apply (lookup_self w _ _ LK); reflexivity.
  - destruct (nth_error w p) as [et|] eqn:E; [|discriminate]. rewrite (NA _ _ E).
    do 2 eexists. split; [reflexivity|]. split; [reflexivity|]. cbn [answer]. cbv zeta in H. destruct (lookup w _) eqn:LK; [injection H as <- <-; auto|].
    destruct (match t_kind et with TPtr _ l u => (1 + l, u) | _ => (1, p) end) as (lv, ul). injection H as <- <-; apply (lookup_self w _ _ LK); reflexivity.
  - destruct (nth_error w rt) as [t|] eqn:E; [|discriminate]. rewrite (NA _ _ E). destruct (types_of w a) as [ats|] eqn:E2; [|discriminate]. rewrite (TA _ _ E2).
    destruct (fun_name _ _) as [s| | |]; try discriminate. cbn [bind] in *. do 2 eexists. split; [reflexivity|]. split; [reflexivity|]. cbn [answer].
    destruct (lookup w s) eqn:LK; injection H as <- <-; auto; apply (lookup_self w _ _ LK); reflexivity.
  - destruct ms as [|m ms]; [discriminate|]. destruct (types_of w (m :: ms)) as [mts|] eqn:E; [|discriminate]. rewrite (TA _ _ E). destruct (asrt _ _); try discriminate. cbn [bind] in *.
    destruct (union_name _ _) as [[s|]| | |]; try discriminate. cbn [bind] in *. do 2 eexists. split; [reflexivity|]. split; [reflexivity|]. cbn [answer].
    destruct (dlsym w s) eqn:LK; injection H as H H'; [congruence|]. subst. apply dlsym_self; auto.
Qed.
Lemma answer_stays w t s s' full i : answer w s full = Some i -> t_sym t = Some s' -> dlsym w s' = None -> answer (w ++ [t]) s full = Some i.
Proof.
  intros A S1 D. destruct full; cbn [answer] in *; [|apply dlsym_stays; auto]. apply lookup_stays; auto. intros S2. destruct (dlsym_lookup _ _ _ A) as (j & D'). congruence.
Qed.
Lemma sym_stays w t r s full : sym_of w r = Ok (Some (s, full)) -> sym_of (w ++ [t]) r = Ok (Some (s, full)).
Proof.
  destruct r as [e n|e|e|p|rt a|ms]; cbn [sym_of]; intros H.
  - destruct (nth_error w e) eqn:E; [|discriminate]. rewrite (nth_app _ _ _ _ E). auto.
  - destruct (nth_error w e) eqn:E; [|discriminate]. rewrite (nth_app _ _ _ _ E). auto.
  - destruct (nth_error w e) eqn:E; [|discriminate]. rewrite (nth_app _ _ _ _ E). auto.
  - destruct (nth_error w p) eqn:E; [|discriminate]. rewrite (nth_app _ _ _ _ E). auto.
  - destruct (nth_error w rt) eqn:E; [|discriminate]. rewrite (nth_app _ _ _ _ E). destruct (types_of w a) eqn:E2; [|discriminate]. rewrite (types_app _ _ _ _ E2). auto.
  - destruct (types_of w ms) eqn:E2; [|discriminate]. rewrite (types_app _ _ _ _ E2). auto.
Qed.
Lemma run_stays dbg s full i r : forall h w w' outs, sym_of w r = Ok (Some (s, full)) -> answer w s full = Some i -> run dbg w h = Ok (w', outs) ->
  sym_of w' r = Ok (Some (s, full)) /\ answer w' s full = Some i.
Proof.
  induction h as [|r' h IH]; intros w w' outs SY A R; cbn [run] in R; [injection R as <- _; auto|].
  destruct (step dbg w r') as [(w1, o)| | |] eqn:ST; try discriminate. cbn [bind] in R. destruct (run dbg w1 h) as [(w2, os)| | |] eqn:R2; try discriminate. cbn in R. injection R as <- _.
  eapply IH; [| |exact R2]; destruct (step_grows _ _ _ _ _ ST) as [->|(t & s' & -> & S1 & D)]; auto; [eapply sym_stays; eauto|eapply answer_stays; eauto].
Qed.
Lemma step_again dbg w r w1 i w2 s full : step dbg w r = Ok (w1, Some i) -> (exists ext, w2 = w ++ ext) ->
  sym_of w2 r = Ok (Some (s, full)) -> answer w2 s full = Some i -> step dbg w2 r = Ok (w2, Some i).
Proof.
  intros S1 (ext & X) SY A.
  assert (NA : forall k t, nth_error w k = Some t -> nth_error w2 k = Some t) by (intros; subst; apply nth_app; auto).
  assert (TA : forall l ts, types_of w l = Some ts -> types_of w2 l = Some ts).
  { induction l as [|k l IH]; intros ts H; cbn in *; auto. destruct (nth_error w k) eqn:E; [|discriminate]. destruct (types_of w l) eqn:E2; [|discriminate].
    rewrite (NA _ _ E), (IH _ eq_refl). auto. }
  destruct r as [e n|e|e|p|rt a|ms]; cbn [step sym_of] in *.
  1-4: destruct (nth_error w _) as [et|] eqn:E; [|discriminate]; rewrite (NA _ _ E) in *.
  1-4: match type of SY with Ok (Some (?x, _)) = _ => assert (SX : x = s) by congruence; assert (full = true) by congruence; subst full; clear SY end; cbn [answer] in A.
  - destruct (asrt _ _); try discriminate. cbn [bind] in *. destruct (_ || _); [congruence|]. unfold array_type. rewrite SX, A. auto.
  - destruct (_ || _); [congruence|]. unfold array_type. rewrite Z.eqb_refl, SX, A. auto.
  - destruct (_ || _); [congruence|]. cbv zeta. rewrite SX, A. auto.
  - cbv zeta. rewrite SX, A. auto.
  - destruct (nth_error w rt) as [t|] eqn:E; [|discriminate]. destruct (types_of w a) as [ats|] eqn:E2; [|discriminate]. rewrite (NA _ _ E), (TA _ _ E2) in *.
    destruct (fun_name _ _) as [x| | |]; try discriminate. cbn [bind] in *.
    assert (x = s) by congruence. assert (full = true) by congruence. subst. cbn [answer] in A. rewrite A. auto.
  - destruct ms as [|m ms]; [congruence|]. destruct (types_of w _) as [mts|] eqn:E; [|discriminate]. rewrite (TA _ _ E) in *. destruct (asrt _ _); try discriminate. cbn [bind] in *.
    destruct (union_name _ _) as [[x|]| | |]; try discriminate. cbn [bind] in *. assert (x = s) by congruence. assert (full = false) by congruence. subst. cbn [answer] in A. rewrite A. auto.
Qed.
Lemma run_grows dbg : forall h w w' outs, run dbg w h = Ok (w', outs) -> exists ext, w' = w ++ ext.
Proof.
  induction h as [|r h IH]; intros w w' outs R; cbn [run] in R; [injection R as <- _; exists []; rewrite app_nil_r; auto|].
  destruct (step dbg w r) as [(w1, o)| | |] eqn:ST; try discriminate. cbn [bind] in R. destruct (run dbg w1 h) as [(w2, os)| | |] eqn:R2; try discriminate. cbn in R. injection R as <- _.
  destruct (IH _ _ _ R2) as (e2 & ->). destruct (step_grows _ _ _ _ _ ST) as [->|(t & s' & -> & _)]; eauto. rewrite <- app_assoc. eauto.
Qed.
(* C28: a request of any kind (unions too), made again after any other requests, is answered with the
   same type, and nothing is made *)
Theorem intern_same : forall dbg w r w1 i h w2 outs,
  step dbg w r = Ok (w1, Some i) -> run dbg w1 h = Ok (w2, outs) -> step dbg w2 r = Ok (w2, Some i).
Proof.
  intros dbg w r w1 i h w2 outs S1 R. destruct (step_answer _ _ _ _ _ S1) as (s & full & _ & SY & A).
  destruct (run_stays dbg s full i r h w1 w2 outs SY A R) as (SY2 & A2). eapply step_again; eauto.
  destruct (run_grows _ _ _ _ _ R) as (e2 & ->). destruct (step_grows _ _ _ _ _ S1) as [->|(t & s' & -> & _)]; eauto. rewrite <- app_assoc. eauto.
Qed.

(* C28: two requests in a history are answered with the same type exactly if they ask for the same *)
Theorem intern_distinct_partial : forall dbg w h, well_named w -> lawful dbg w h ->
  exists w' outs, run dbg w h = Ok (w', outs) /\
  forall k1 k2 r1 r2, nth_error h k1 = Some r1 -> nth_error h k2 = Some r2 ->
    (nth_error outs k1 = nth_error outs k2 <-> shape_of r1 = shape_of r2).
Proof.
  intros dbg w h W LW. destruct (run_good dbg h w W LW) as (w' & outs & R & W' & _ & F). exists w', outs. split; auto.
  assert (D : forall k r, nth_error h k = Some r -> exists i s, nth_error outs k = Some (Some i) /\ shape_of r = Some s /\ is_shape w' i s).
  { clear - F. induction F as [|r o h outs (i & s & -> & S1 & S2) F IH]; intros [|k] r' H; try discriminate; cbn in *; [injection H as <-; eauto|eauto]. }
  intros k1 k2 r1 r2 H1 H2. destruct (D _ _ H1) as (i1 & s1 & -> & S1 & I1). destruct (D _ _ H2) as (i2 & s2 & -> & S2 & I2). rewrite S1, S2. split; intros E.
  - injection E as ->. destruct I1 as (t & A & B & _), I2 as (t' & A' & B' & _). congruence.
  - injection E as ->. f_equal. f_equal. destruct I1 as (t & A & B & _), I2 as (t' & A' & B' & _). destruct W' as (DN & WN).
    pose proof (WN _ _ A) as X. rewrite B in X. destruct X as (X & _). pose proof (WN _ _ A') as Y. rewrite B' in Y. destruct Y as (Y & _).
    eapply DN; eauto. unfold tname. rewrite X, Y. auto.
Qed.

(* C28: an open-ended array of a range of memory is given as many elements as fit in the range *)
Theorem precise_partial : forall dbg w it e n0 f et obj base sz, well_named w -> In it w -> t_kind it = TArr e n0 f -> nth_error w e = Some et ->
  0 < t_max et < UNBMAX -> base <= obj <= base + sz -> base + sz - obj < W32 -> (base + sz - obj) / t_max et < UNBLEN ->
  (length (symbol w (SArr e ((base + sz - obj) / t_max et))) <= 4095)%nat ->
  exists w' i t, make_precise dbg w it obj base sz = Ok (w', Some i) /\ nth_error w' i = Some t /\ (exists f', t_kind t = TArr e ((base + sz - obj) / t_max et) f') /\
    t_max t <= base + sz - obj < t_max t + t_max et.
Proof.
  intros dbg w it e n0 f et obj base sz W II K NE RM RB RW RN FIT. unfold make_precise. rewrite K, NE. set (ps := base + sz - obj) in *.
  assert (P : 0 <= ps < W32) by (unfold ps; lia). clearbody ps. clear RB RW. change W32 with 4294967296 in *. rewrite (Z.mod_small ps) by (change W64 with 18446744073709551616; lia).
  destruct (t_max et =? 0) eqn:EZ; [lia|]. set (q := ps / t_max et) in *.
  assert (Q : 0 <= q /\ q * t_max et <= ps < q * t_max et + t_max et).
  { unfold q. pose proof (Z.div_mod ps (t_max et) ltac:(lia)). pose proof (Z.mod_pos_bound ps (t_max et) ltac:(lia)). pose proof (Z.div_pos ps (t_max et) ltac:(lia) ltac:(lia)). nia. }
  clearbody q. unfold UNBLEN in RN. rewrite (Z.mod_small q) by lia.
  destruct (step_good dbg w (RArr e q) W) as (w' & i & s & ST & SH & _ & (ext & ->) & (t & NT & KS & C)).
  { split; [|exact FIT]. split; [unfold UNBLEN; lia|]. exists et. split; auto. split; auto. change W32 with 4294967296. lia. }
  cbn in SH. injection SH as <-. destruct C as (et' & NE' & MX). rewrite (nth_app _ _ _ _ NE) in NE'. injection NE' as <-.
  unfold UNBLEN in MX. destruct (q =? 2147483647) eqn:E; [lia|].
  exists (w ++ ext), i, t. split; auto. split; auto. split; [|lia]. destruct (t_kind t); try discriminate. cbn in KS. injection KS as <- <-. eauto.
Qed.

(* ---- examples and refutations ---- *)
Module InEx.
Definition base (s : string) (mx : Z) := mkT (Some (L s)) false mx TBase.
Definition w0 := [base "__uniqtype__int" 4; base "__uniqtype_0000000a_node" 24; mkT (Some (L "__uniqtype____PTR_int")) false 8 (TPtr 0 1 0)].
Definition h0 := [RArr 1 10; RPtr 0; RPtr 2; RFun 0 [2%nat; 4%nat]; RPtr 5; RFun 6 [6%nat]; RArr 1 10; RFlex 0; RUnb 0; RPtr 4].
(* two types of one simple name *)
Definition w1 := [base "__uniqtype_0000000a_node" 24; base "__uniqtype_0000000b_node" 8].
Definition w2 := [mkT None false 24 TBase; mkT None false 8 TBase].
Definition long (n : nat) (c : ascii) := L "__uniqtype__" ++ repeat "a"%char n ++ [c].
Definition w3 := [mkT (Some (long 4090 "x")) false 24 TBase; mkT (Some (long 4090 "y")) false 8 TBase].
Definition w4 := [mkT (Some (long 2100 "x")) false 24 TBase].
Definition w5 := [base "__uniqtype__a" 4; base "__uniqtype__bc" 8; base "__uniqtype__ab" 16; base "__uniqtype__c" 2].
End InEx.
Import InEx.
Example intern_ex : exists w, run true w0 h0 = Ok (w, map Some [3; 2; 4; 5; 6; 7; 3; 8; 8; 9]%nat) /\
  map t_kind (skipn 3 w) = [TArr 1 10 false; TPtr 2 2 0; TFun 0 [2%nat; 4%nat]; TPtr 5 1 5; TFun 6 [6%nat]; TArr 0 UNBLEN true; TPtr 4 3 0].
Proof. eexists. split; [vm_compute; reflexivity|reflexivity]. Qed.
Lemma holds_dec p s : {holds p s} + {~ holds p s}.
Proof.
  induction s as [|c s IH].
  - destruct p; [left; exists [], []; auto|right; intros (u & v & E); destruct u; discriminate].
  - destruct (pre p (c :: s)) eqn:E.
    + left. exists [], (skipn (length p) (c :: s)). cbn [app]. revert E. generalize (c :: s). clear. induction p as [|x p IH]; intros [|y l] E; cbn in *; auto; try discriminate.
      apply andb_true_iff in E. destruct E as (E1 & E2). apply Ascii.eqb_eq in E1. subst. f_equal. auto.
    + destruct IH as [H|H]; [left; destruct H as (a & b & ->); exists (c :: a), b; auto|]. right. intros (u & v & X). destruct u as [|x u].
      * cbn [app] in X. rewrite X, pre_app in E. discriminate.
      * injection X as -> X. apply H. exists u, v. auto.
Defined.
Example intern_hyp : well_named w0.
Proof.
  split.
  - intros i j ti tj A B. destruct i as [|[|[|i]]], j as [|[|[|j]]]; cbn in A, B; try (destruct i; discriminate); try (destruct j; discriminate); auto;
      injection A as <-; injection B as <-; intros E; vm_compute in E; discriminate.
  - intros i t A. assert (BN : forall b, (if holds_dec (L "__ARG") b then false else if holds_dec (L "__FUN_TO") b then false else negb (pre (L "__ARR") b || pre (L "__PTR") b || pre (L "__FUN") b)) = true -> basename b).
    { intros b H. destruct (holds_dec (L "__ARG") b); [discriminate|]. destruct (holds_dec (L "__FUN_TO") b); [discriminate|]. unfold basename.
      destruct (pre (L "__ARR") b), (pre (L "__PTR") b), (pre (L "__FUN") b); try discriminate. auto. }
    destruct i as [|[|[|i]]]; cbn in A; try (destruct i; discriminate); injection A as <-; cbn [t_kind base kind_shape].
    + apply BN. vm_compute. reflexivity.
    + apply BN. vm_compute. reflexivity.
    + split; [vm_compute; reflexivity|]. split; [split; [|exact Logic.I]; constructor; [eexists; reflexivity|constructor]|]. eexists. split; [reflexivity|]. split; [reflexivity|]. exists 1, 0%nat. split; auto. split; auto.
      eapply chain_end; [reflexivity|]. cbn. discriminate.
Qed.
Example intern_hyp2 : lawful true w0 [RArr 1 10; RPtr 2; RFun 0 [2%nat]].
Proof.
  cbn [lawful]. split; [split; [|vm_compute; lia]; split; [unfold UNBLEN; lia|]; eexists; split; [reflexivity|]; cbn; unfold UNBMAX, W32; lia|].
  intros w' o E. vm_compute in E. injection E as <- <-. split; [split; [eexists; reflexivity|vm_compute; lia]|].
  intros w' o E. vm_compute in E. injection E as <- <-. split; [|auto]. split; [|vm_compute; lia]. repeat constructor; eexists; reflexivity.
Qed.

(* types of the same simple name, told apart only by their codes: the array of the second is the array of the first *)
Theorem intern_code_refuted : exists w e1 e2 w' i t, nth_error w e1 <> nth_error w e2 /\ e1 <> e2 /\ run true w [RArr e1 10; RArr e2 10] = Ok (w', [Some i; Some i]) /\
  nth_error w' i = Some t /\ t_max t = 240 /\ (exists et, nth_error w e2 = Some et /\ 10 * t_max et = 80).
Proof. exists w1, 0%nat, 1%nat. do 3 eexists. split; [discriminate|]. split; [discriminate|]. split; [vm_compute; reflexivity|]. split; [reflexivity|]. split; [reflexivity|]. eexists. split; reflexivity. Qed.
(* likewise types without names *)
Theorem intern_unnamed_refuted : exists w w' i, run true w [RPtr 0; RPtr 1] = Ok (w', [Some i; Some i]) /\ nth_error w 0 <> nth_error w 1.
Proof. exists w2. do 2 eexists. split; [vm_compute; reflexivity|discriminate]. Qed.
(* long names are cut *)
Theorem intern_long_refuted : exists w w' i, run true w [RArr 0 10; RArr 1 10] = Ok (w', [Some i; Some i]) /\ length w = 2%nat /\ wname w 0 <> wname w 1.
Proof.
  exists w3. do 2 eexists. split; [vm_compute; reflexivity|]. split; [reflexivity|]. intros E.
  assert (X : last (wname w3 0) "a"%char = last (wname w3 1) "a"%char) by (rewrite E; auto). vm_compute in X. discriminate.
Qed.
(* sizes are kept in 32 bits *)
Theorem intern_size_refuted : exists e n w' i t, run true w0 [RArr e n] = Ok (w', [Some i]) /\ nth_error w' i = Some t /\ t_max t = 0 /\ n < UNBLEN /\ wname w0 e = L "int".
Proof. exists 0%nat, (2 ^ 30). do 3 eexists. split; [vm_compute; reflexivity|]. repeat split. Qed.
(* a flexible array type is not refined if the unbounded one was asked for first *)
Theorem intern_flex_refuted : exists w a b, run true w0 [RUnb 0; RFlex 0] = Ok (w, [a; Some b]) /\ option_map t_kind (nth_error w b) = Some (TArr 0 UNBLEN false) /\
  exists w' b', run true w0 [RFlex 0] = Ok (w', [Some b']) /\ option_map t_kind (nth_error w' b') = Some (TArr 0 UNBLEN true).
Proof. do 3 eexists. split; [vm_compute; reflexivity|]. split; [reflexivity|]. do 2 eexists. split; [vm_compute; reflexivity|reflexivity]. Qed.
(* a function type with long argument names is written outside the buffer *)
Theorem intern_fun_overflow_refuted : exists w, Forall (fun t => (length (tname t) < 4000)%nat) w /\ run true w [RFun 0 [0; 0]%nat] = UB.
Proof. exists w4. split; [|vm_compute; reflexivity]. constructor; auto. apply Nat.ltb_lt. vm_compute. reflexivity. Qed.
(* so is a union of such *)
Theorem intern_union_overflow_refuted : exists w, Forall (fun t => (length (tname t) < 4000)%nat) w /\ run true w [RUnion [0; 0]%nat] = UB.
Proof. exists w4. split; [|vm_compute; reflexivity]. constructor; auto. apply Nat.ltb_lt. vm_compute. reflexivity. Qed.
(* unions of different members share a name: one is given the size of the other *)
Theorem intern_union_concat_refuted : exists w w' i t, run true w [RUnion [0; 1]; RUnion [2; 3]]%nat = Ok (w', [Some i; Some i]) /\ nth_error w' i = Some t /\ t_max t = 8 /\
  (exists t2, nth_error w 2 = Some t2 /\ t_max t2 = 16) /\ NoDup (map tname w).
Proof.
  exists w5. do 3 eexists. split; [vm_compute; reflexivity|]. split; [reflexivity|]. split; [reflexivity|]. split; [eexists; split; reflexivity|].
  vm_compute. repeat constructor; cbn; intuition discriminate.
Qed.
(* a range of 4GiB and one byte is made an array of one byte *)
Theorem precise_count_refuted : exists w it sz w' i t, make_precise true w it 4096 4096 sz = Ok (w', Some i) /\ sz = 2 ^ 32 + 1 /\ nth_error w' i = Some t /\ t_max t = 1.
Proof.
  exists [base "__uniqtype__char" 1; mkT (Some (L "__uniqtype____ARR_char")) false UNBMAX (TArr 0 UNBLEN true)], (mkT (Some (L "__uniqtype____ARR_char")) false UNBMAX (TArr 0 UNBLEN true)), (2 ^ 32 + 1).
  do 3 eexists. split; [vm_compute; reflexivity|]. repeat split.
Qed.
Example precise_ex : exists w', make_precise true [base "__uniqtype__int" 4; mkT (Some (L "__uniqtype____ARR_int")) false UNBMAX (TArr 0 UNBLEN true)]
    (mkT (Some (L "__uniqtype____ARR_int")) false UNBMAX (TArr 0 UNBLEN true)) 4104 4096 50 = Ok (w', Some 2%nat) /\ option_map t_kind (nth_error w' 2) = Some (TArr 0 10 false).
Proof. eexists. split; [vm_compute; reflexivity|reflexivity]. Qed.

Print Assumptions intern_describes_partial.
Print Assumptions intern_distinct_partial.
Print Assumptions intern_same.
Print Assumptions precise_partial.
