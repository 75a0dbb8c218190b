(* Proofs about the compiler wrapper's command. *)
From Coq Require Import String Ascii.
From Verif Require Import Base Cwrap_model Cwrap_spec.
Open Scope string_scope.

(* ---- words *)
Lemma oneof_in a l : oneof a l = true <-> In a l.
Proof.
  unfold oneof. rewrite existsb_exists. split; [intros (x & I & E); apply String.eqb_eq in E; now subst|]. intro I. exists a. split; [exact I|apply String.eqb_refl].
Qed.
Definition early (ps : phases) : bool := existsb (fun p => has p [PREPROCESS; COMPILE; ASSEMBLE]) ps.
Lemma flag_kind f : plain_flag f -> exists ps, kindof f = KOpt ps f /\ early ps = true.
Proof.
  intros (P & R & X). cbn [oneof existsb] in R. cbn [existsb] in X.
  repeat match goal with H : _ || _ = false |- _ => apply orb_false_iff in H; destruct H as [? H] end.
  unfold kindof. cbn [oneof existsb]. rewrite P.
  repeat match goal with H : (f =? _) = false |- _ => try rewrite H; clear H | H : prefix _ f = false |- _ => try rewrite H; clear H end. cbn [orb negb].
  repeat match goal with |- context [if ?b then _ else _] => destruct b eqn:?B end; eexists; (split; [reflexivity|reflexivity]).
Qed.
Lemma lib_kind f : prefix "-l" f = true \/ (prefix "-L" f = true /\ f <> "-L") \/ prefix "-Wl" f = true ->
  kindof f = KItem [LINK] \/ kindof f = KOpt [LINK] f.
Proof.
  assert (D : forall c s, prefix (String "-" (String c "")) s = true -> exists r, s = String "-" (String c r)).
  { intros c s H. destruct s as [|a [|b s]]; cbn [prefix] in H.
    - discriminate H.
    - destruct (ascii_dec "-" a); cbn [prefix] in H; discriminate H.
    - destruct (ascii_dec "-" a); [|discriminate H]. destruct (ascii_dec c b); [|discriminate H]. subst. now exists s. }
  intros [H|[[H N]|H]].
  - left. apply D in H. destruct H as [r ->]. unfold kindof. destruct r; reflexivity.
  - left. apply D in H. destruct H as [r ->]. unfold kindof. destruct r; [congruence|reflexivity].
  - right. destruct f as [|a [|b [|c s]]]; cbn [prefix] in H; try discriminate H.
    + destruct (ascii_dec "-" a); cbn [prefix] in H; discriminate H.
    + destruct (ascii_dec "-" a); [|discriminate H]. destruct (ascii_dec "W" b); cbn [prefix] in H; discriminate H.
    + destruct (ascii_dec "-" a); [|discriminate H]. destruct (ascii_dec "W" b); [|discriminate H]. destruct (ascii_dec "l" c); [|discriminate H]. subst.
      unfold kindof. destruct s; reflexivity.
Qed.
Lemma src_kind f : prefix "-" f = false -> kindof f = KFile.
Proof.
  intro H. unfold kindof. rewrite H. destruct (f =? "--") eqn:E; [apply String.eqb_eq in E; subst f; discriminate H|]. now rewrite orb_true_r.
Qed.
Lemma place_kind o : In o ["-include"; "-isystem"; "-idirafter"; "-imacros"; "-iprefix"; "-iquote"; "-iwithprefix"; "-iwithprefixbefore"; "--param"] ->
  exists ps, kindof o = KItem2 ps /\ early ps = true.
Proof. revert o. apply Forall_forall. repeat (apply Forall_cons; [eexists; split; vm_compute; reflexivity|]). apply Forall_nil. Qed.
Lemma val_kind o : In o ["-MT"; "-MQ"; "-MF"] -> kindof o = KOptV [PREPROCESS].
Proof. revert o. apply Forall_forall. repeat (apply Forall_cons; [vm_compute; reflexivity|]). apply Forall_nil. Qed.
Lemma guess_phases f l : guess f = Some l -> exists ps, phases_for (Some l) = Some ps /\ early ps = true /\ has LINK ps = true.
Proof.
  unfold guess. intro H. repeat match type of H with context [if ?b then _ else _] => destruct b end; try discriminate H; injection H as <-; eexists; repeat split; reflexivity.
Qed.

(* ---- dictionaries *)
Lemma dset_keys k v d : forall x, In x (map fst (dset k v d)) <-> x = k \/ In x (map fst d).
Proof.
  induction d as [|[k' v'] d IH]; cbn; intro x; [intuition|]. destruct (k' =? k) eqn:E; cbn; [apply String.eqb_eq in E; subst; intuition|]. rewrite IH. intuition.
Qed.
Lemma dset_nodup k v d : NoDup (map fst d) -> NoDup (map fst (dset k v d)).
Proof.
  induction d as [|[k' v'] d IH]; cbn; intro N; [repeat constructor; auto|]. inversion N as [|? ? N1 N2]; subst. destruct (k' =? k) eqn:E; cbn.
  - apply String.eqb_eq in E. subst. now constructor.
  - constructor; [|auto]. rewrite dset_keys. intros [->|I]; [now rewrite String.eqb_refl in E|contradiction].
Qed.
Lemma dset_in k v d kv : (forall v', In (k, v') d -> v' = v) -> (In kv (dset k v d) <-> kv = (k, v) \/ In kv d).
Proof.
  induction d as [|[k' v'] d IH]; cbn; intro F; [intuition|]. destruct (k' =? k) eqn:E; cbn.
  - apply String.eqb_eq in E. subst k'. assert (v' = v) by (apply F; auto). subst. intuition.
  - rewrite IH by (intros; apply F; auto). intuition.
Qed.
Definition build (l : dict) (d : dict) : dict := fold_left (fun d kv => dset (fst kv) (snd kv) d) l d.
Definition func (l : dict) : Prop := forall k v v', In (k, v) l -> In (k, v') l -> v = v'.
Lemma build_in l : forall d kv, func (d ++ l)%list -> (In kv (build l d) <-> In kv d \/ In kv l).
Proof.
  induction l as [|[k v] l IH]; intros d kv F; [cbn; intuition|]. cbn [build fold_left fst snd]. fold (build l (dset k v d)).
  assert (Fk : forall v', In (k, v') d -> v' = v) by (intros v' I; apply (F k); apply in_or_app; [left; exact I|right; now left]).
  rewrite IH.
  - rewrite dset_in by exact Fk. cbn. intuition.
  - intros k0 v0 v1 I0 I1. apply in_app_or in I0. apply in_app_or in I1. rewrite dset_in in I0, I1 by exact Fk.
    apply (F k0); apply in_or_app; cbn; [destruct I0 as [[E|I0]|I0]; [injection E as -> ->|..]|destruct I1 as [[E|I1]|I1]; [injection E as -> ->|..]]; auto.
Qed.
Lemma build_nodup l : forall d, NoDup (map fst d) -> NoDup (map fst (build l d)).
Proof. induction l as [|[k v] l IH]; intros d N; [exact N|]. cbn. apply IH. now apply dset_nodup. Qed.
Lemma filter_nodup {A B} (g : A -> B) f (l : list A) : NoDup (map g l) -> NoDup (map g (filter f l)).
Proof.
  induction l as [|x l IH]; cbn; intro N; [constructor|]. inversion N as [|? ? N1 N2]; subst. destruct (f x); cbn; [|auto]. constructor; [|auto].
  intro I. apply N1. apply in_map_iff in I. destruct I as (y & E & I). apply filter_In in I. apply in_map_iff. exists y. tauto.
Qed.

(* ---- reading the command line *)
(* the phases of a flag *)
Definition flag_ph (f : string) : phases := match kindof f with KOpt ps _ => ps | _ => [] end.
(* the options a word gives *)
Definition evs (w : word) : list (phases * (string * option string)) :=
  match w with
  | WFlag f => [(flag_ph f, (f, None))]
  | WVal o v => [([PREPROCESS], (o, Some v))]
  | WInc v => [([PREPROCESS], ("-I" ++ v, None))]
  | WLib f => match kindof f with KOpt ps _ => [(ps, (f, None))] | _ => [] end
  | WOut v => [([DRIVER], ("-o", Some v))]
  | _ => []
  end.
Definition its (w : word) : list (phases * item) :=
  match w with
  | WSrc f => match guess f with Some l => match phases_for (Some l) with Some ps => [(ps, ISrc f l)] | None => [] end | None => [] end
  | WPlace o v => match kindof o with KItem2 ps => [(ps, IStr o); (ps, IStr v)] | _ => [] end
  | WLib f => match kindof f with KItem ps => [(ps, IStr f)] | _ => [] end
  | WC => [([DRIVER], IStr "-c")]
  | _ => []
  end.
Definition at_ph (p : nat) (l : list (phases * (string * option string))) : dict :=
  flat_map (fun e => if has p (fst e) then [snd e] else []) l.
Definition en_after (ws : list word) (e : phases) : phases := if existsb (fun w => match w with WC => true | _ => false end) ws then [PREPROCESS; COMPILE; ASSEMBLE] else e.
Fixpoint out_after (ws : list word) (o : option string) : option string :=
  match ws with [] => o | WOut v :: ws => out_after ws (Some v) | _ :: ws => out_after ws o end.

Lemma build_app a b d : build (a ++ b)%list d = build b (build a d).
Proof. apply fold_left_app. Qed.
Lemma classify_ws ws : Forall ok ws -> forall s, c_lang s = None -> exists s', classify s (flat_map render ws) = Some s' /\
  c_en s' = en_after ws (c_en s) /\ c_items s' = (c_items s ++ flat_map its ws)%list /\ c_out s' = out_after ws (c_out s) /\
  (forall p, c_opts s' p = build (at_ph p (flat_map evs ws)) (c_opts s p)).
Proof.
  induction 1 as [|w ws O F IH]; intros s L.
  - exists s. cbn. rewrite app_nil_r. auto.
  - assert (Step : forall s1 wi we, c_lang s1 = None -> classify s (flat_map render (w :: ws)) = classify s1 (flat_map render ws) -> its w = wi -> evs w = we ->
      c_en s1 = (match w with WC => [PREPROCESS; COMPILE; ASSEMBLE] | _ => c_en s end) -> c_items s1 = (c_items s ++ wi)%list ->
      c_out s1 = (match w with WOut v => Some v | _ => c_out s end) -> (forall p, c_opts s1 p = build (at_ph p we) (c_opts s p)) ->
      exists s', classify s (flat_map render (w :: ws)) = Some s' /\ c_en s' = en_after (w :: ws) (c_en s) /\ c_items s' = (c_items s ++ flat_map its (w :: ws))%list /\
        c_out s' = out_after (w :: ws) (c_out s) /\ (forall p, c_opts s' p = build (at_ph p (flat_map evs (w :: ws))) (c_opts s p))).
    { intros s1 wi we L1 C Ei Ee En Ei1 Eo Ep. destruct (IH s1 L1) as (s' & C' & A1 & A2 & A3 & A4). exists s'. split; [now rewrite C|]. split; [|split; [|split]].
      - rewrite A1, En. unfold en_after. cbn [existsb]. destruct w; cbn; try reflexivity. now destruct (existsb _ ws).
      - rewrite A2, Ei1. cbn [flat_map]. rewrite Ei, app_assoc. reflexivity.
      - rewrite A3, Eo. destruct w; reflexivity.
      - intro p. rewrite A4, Ep. cbn [flat_map]. unfold at_ph. rewrite flat_map_app, Ee, build_app. reflexivity. }
    destruct w as [f|f|o v|o v|v|f|v|].
    + destruct O as [P G]. destruct (guess f) as [l|] eqn:Eg; [|congruence]. destruct (guess_phases f l Eg) as (ps & Ep & _).
      eapply (Step (add_item ps (ISrc f l) s)); [exact L| |cbn [its]; rewrite Eg, Ep; reflexivity|reflexivity|reflexivity|reflexivity|reflexivity|reflexivity].
      cbn [flat_map render app classify]. rewrite (src_kind f P), L, Eg, Ep. reflexivity.
    + destruct (flag_kind f O) as (ps & K & E). eapply (Step (add_opt ps f None s)); [exact L| |reflexivity|reflexivity|reflexivity|cbn; now rewrite app_nil_r|reflexivity|].
      * cbn [flat_map render app classify]. rewrite K. reflexivity.
      * intro p. cbn [evs]. unfold flag_ph. rewrite K. cbn [at_ph flat_map fst snd]. cbn [add_opt c_opts]. destruct (has p ps); reflexivity.
    + destruct (place_kind o O) as (ps & K & _).
      eapply (Step (add_item ps (IStr v) (add_item ps (IStr o) s))); [exact L| |cbn [its]; rewrite K; reflexivity|reflexivity|reflexivity|cbn; now rewrite <- app_assoc|reflexivity|reflexivity].
      cbn [flat_map render app classify]. rewrite K. reflexivity.
    + assert (K := val_kind o O).
      eapply (Step (add_opt [PREPROCESS] o (Some v) s)); [exact L| |reflexivity|reflexivity|reflexivity|cbn; now rewrite app_nil_r|reflexivity|].
      * cbn [flat_map render app classify]. rewrite K. reflexivity.
      * intro p. cbn [evs at_ph flat_map fst snd]. cbn [add_opt c_opts]. destruct (has p [PREPROCESS]); reflexivity.
    + eapply (Step (add_opt [PREPROCESS] ("-I" ++ v) None s)); [exact L| |reflexivity|reflexivity|reflexivity|cbn; now rewrite app_nil_r|reflexivity|].
      * reflexivity.
      * intro p. cbn [evs at_ph flat_map fst snd]. cbn [add_opt c_opts]. destruct (has p [PREPROCESS]); reflexivity.
    + destruct (lib_kind f O) as [K|K].
      * eapply (Step (add_item [LINK] (IStr f) s)); [exact L| |cbn [its]; rewrite K; reflexivity|cbn [evs]; rewrite K; reflexivity|reflexivity|reflexivity|reflexivity|reflexivity].
        cbn [flat_map render app classify]. rewrite K. reflexivity.
      * eapply (Step (add_opt [LINK] f None s)); [exact L| |cbn [its]; rewrite K; reflexivity|cbn [evs]; rewrite K; reflexivity|reflexivity|cbn; now rewrite app_nil_r|reflexivity|].
        -- cbn [flat_map render app classify]. rewrite K. reflexivity.
        -- intro p. cbn [evs at_ph flat_map fst snd]. cbn [add_opt c_opts]. destruct (has p [LINK]); reflexivity.
    + eapply (Step (mkC (c_en s) (c_items s) (c_opts (add_opt [DRIVER] "-o" (Some v) s)) (c_lang s) (Some v))); [exact L| |reflexivity|reflexivity|reflexivity|cbn; now rewrite app_nil_r|reflexivity|].
      * reflexivity.
      * intro p. cbn [evs at_ph flat_map fst snd c_opts add_opt]. destruct (has p [DRIVER]); reflexivity.
    + eapply (Step (set_en (Some [PREPROCESS; COMPILE; ASSEMBLE]) (add_item [DRIVER] (IStr "-c") s))); [exact L| |reflexivity|reflexivity|reflexivity|reflexivity|reflexivity|reflexivity].
      reflexivity.
Qed.

(* ---- the command *)
Definition keep (x : phases * item) : list item := if early (fst x) then [snd x] else [].
Lemma flat_items_ws ws : Forall ok ws ->
  flat_items (flat_map keep (flat_map its ws)) = Some (flat_map placed ws).
Proof.
  induction 1 as [|w ws O F IH]; [reflexivity|]. cbn [flat_map]. rewrite flat_map_app.
  destruct w as [f|f|o v|o v|v|f|v|]; cbn [its placed app]; try exact IH.
  - destruct O as [_ G]. destruct (guess f) as [l|] eqn:Eg; [|congruence]. destruct (guess_phases f l Eg) as (ps & Ep & E & _). rewrite Ep. cbn [flat_map]. unfold keep at 1. cbn [fst snd]. rewrite E. cbn [app flat_items]. rewrite Eg, IH, String.eqb_refl. reflexivity.
  - destruct (place_kind o O) as (ps & K & E). rewrite K. cbn [flat_map]. unfold keep at 1 2. cbn [fst snd]. rewrite E. cbn [app flat_items]. rewrite IH. reflexivity.
  - destruct (lib_kind f O) as [K|K]; rewrite K; exact IH.
Qed.
Lemma has_in p ps : has p ps = true <-> In p ps.
Proof. unfold has. rewrite existsb_exists. split; [intros (x & I & E); apply Nat.eqb_eq in E; now subst|]. intro I. exists p. split; [exact I|apply Nat.eqb_refl]. Qed.
Lemma at_ph_in p l kv : In kv (at_ph p l) <-> exists ps, In (ps, kv) l /\ has p ps = true.
Proof.
  unfold at_ph. rewrite in_flat_map. split.
  - intros ([ps e] & I & X). cbn [fst snd] in X. destruct (has p ps) eqn:E; [|destruct X]. destruct X as [<-|[]]. exists ps. auto.
  - intros (ps & I & E). exists (ps, kv). split; [exact I|]. cbn [fst snd]. rewrite E. now left.
Qed.
Lemma out_after_in ws o : out_after ws o = o /\ (forall v, ~ In (WOut v) ws) \/ exists v, out_after ws o = Some v /\ In (WOut v) ws.
Proof.
  revert o. induction ws as [|w ws IH]; intro o; [left; split; [reflexivity|intros v []]|].
  destruct w as [f|f|o' v|o' v|v|f|v|]; cbn [out_after]; try (destruct (IH o) as [[E N]|(u & E & I)]; [left; split; [exact E|intros u [X|X]; [discriminate X|exact (N u X)]]|right; exists u; split; [exact E|now right]]).
  destruct (IH (Some v)) as [[E N]|(u & E & I)]; right; [exists v; split; [exact E|now left]|exists u; split; [exact E|now right]].
Qed.

(* ---- the order of directories *)
Lemma dset_keys_eq k v d : map fst (dset k v d) = if oneof k (map fst d) then map fst d else (map fst d ++ [k])%list.
Proof.
  induction d as [|[k' v'] d IH]; [reflexivity|]. cbn [dset map fst]. unfold oneof. cbn [existsb]. rewrite (String.eqb_sym k k'). destruct (k' =? k) eqn:E.
  - apply String.eqb_eq in E. subst k'. reflexivity.
  - cbn [map fst orb]. rewrite IH. fold (oneof k (map fst d)). now destruct (oneof k (map fst d)).
Qed.
Lemma filter_filter {A} (f g : A -> bool) l : filter f (filter g l) = filter (fun x => g x && f x) l.
Proof. induction l as [|x l IH]; [reflexivity|]. cbn. destruct (g x); cbn; [destruct (f x)|]; now rewrite IH. Qed.
Lemma build_keys l : forall d, map fst (build l d) = (map fst d ++ filter (fun x => negb (oneof x (map fst d))) (firsts (map fst l)))%list.
Proof.
  induction l as [|[k v] l IH]; intro d; [cbn; now rewrite app_nil_r|]. cbn [build fold_left fst snd]. fold (build l (dset k v d)). rewrite IH, dset_keys_eq.
  cbn [map fst firsts filter]. rewrite filter_filter. destruct (oneof k (map fst d)) eqn:E; cbn [negb].
  - f_equal. apply filter_ext. intro x. destruct (x =? k) eqn:X; cbn; [|reflexivity]. apply String.eqb_eq in X. subst x. now rewrite E.
  - rewrite <- app_assoc. f_equal. cbn [app]. f_equal. apply filter_ext. intro x. unfold oneof. rewrite existsb_app. cbn [existsb]. rewrite Bool.orb_false_r, Bool.negb_orb. apply Bool.andb_comm.
Qed.
Lemma filter_all {A} (l : list A) : filter (fun _ => true) l = l.
Proof. induction l; cbn; congruence. Qed.
Lemma build_keys0 l : map fst (build l []) = firsts (map fst l).
Proof. rewrite build_keys. cbn [map app]. apply filter_all. Qed.
Lemma firsts_filter f l : filter f (firsts l) = firsts (filter f l).
Proof.
  induction l as [|x l IH]; [reflexivity|]. cbn [firsts filter]. rewrite filter_filter. destruct (f x) eqn:E; cbn [firsts].
  - f_equal. rewrite <- IH, filter_filter. apply filter_ext. intro y. apply Bool.andb_comm.
  - rewrite <- IH. apply filter_ext. intro y. destruct (y =? x) eqn:Y; cbn; [|reflexivity]. apply String.eqb_eq in Y. subst y. now rewrite E.
Qed.
Lemma firsts_twice l : firsts (firsts l) = firsts l.
Proof.
  induction l as [|x l IH]; [reflexivity|]. cbn [firsts]. f_equal. rewrite <- firsts_filter, filter_filter, IH. apply filter_ext. intro y. apply Bool.andb_diag.
Qed.
Lemma inc_flag f : plain_flag f -> prefix "-I" f = true -> flag_ph f = [PREPROCESS].
Proof.
  intros (_ & R & _) P. destruct f as [|a [|b r]]; [discriminate P|cbn [prefix] in P; destruct (ascii_dec "-" a); discriminate P|].
  cbn [prefix] in P. destruct (ascii_dec "-" a) as [<-|]; [|discriminate P]. destruct (ascii_dec "I" b) as [<-|]; [|discriminate P].
  destruct r as [|c r]; [discriminate R|]. unfold flag_ph, kindof. cbn. destruct r; reflexivity.
Qed.
Lemma inc_at p ws : Forall ok ws -> In p [PREPROCESS; COMPILE; ASSEMBLE] ->
  filter (prefix "-I") (map fst (at_ph p (flat_map evs ws))) = if Nat.eqb p PREPROCESS then flat_map inc ws else [].
Proof.
  intros O Ip. induction O as [|w ws O F IH]; [now destruct (Nat.eqb p PREPROCESS)|]. cbn [flat_map]. unfold at_ph. rewrite flat_map_app, map_app, filter_app. fold (at_ph p (flat_map evs ws)). rewrite IH.
  assert (H : filter (prefix "-I") (map fst (at_ph p (evs w))) = if Nat.eqb p PREPROCESS then inc w else []).
  { destruct w as [f|f|o v|o v|v|f|v|]; cbn [evs inc]; try (now destruct (Nat.eqb p PREPROCESS)).
    - destruct (prefix "-I" f) eqn:P.
      + rewrite (inc_flag f O P). cbn [at_ph flat_map fst snd]. unfold has. cbn [existsb]. rewrite Bool.orb_false_r. destruct (Nat.eqb p PREPROCESS); cbn [app map filter fst]; [now rewrite P|reflexivity].
      + cbn [at_ph flat_map fst snd]. destruct (has p (flag_ph f)); cbn [app map filter fst]; [rewrite P|]; now destruct (Nat.eqb p PREPROCESS).
    - assert (P : prefix "-I" o = false) by (destruct O as [<-|[<-|[<-|[]]]]; reflexivity).
      cbn [at_ph flat_map fst snd]. destruct (has p [PREPROCESS]); cbn [app map filter fst]; [rewrite P|]; now destruct (Nat.eqb p PREPROCESS).
    - cbn [at_ph flat_map fst snd]. unfold has. cbn [existsb]. rewrite Bool.orb_false_r. destruct (Nat.eqb p PREPROCESS); cbn [app map filter fst]; [|reflexivity]. destruct v; reflexivity.
    - assert (L : has p [LINK] = false) by (destruct Ip as [<-|[<-|[<-|[]]]]; reflexivity).
      destruct (lib_kind f O) as [-> | ->]; cbn [at_ph flat_map fst snd]; [|rewrite L]; now destruct (Nat.eqb p PREPROCESS).
    - assert (L : has p [DRIVER] = false) by (destruct Ip as [<-|[<-|[<-|[]]]]; reflexivity).
      cbn [at_ph flat_map fst snd]. rewrite L. now destruct (Nat.eqb p PREPROCESS). }
  unfold at_ph in H. rewrite H. now destruct (Nat.eqb p PREPROCESS).
Qed.
