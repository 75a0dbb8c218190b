(* The theorems about the compiler wrapper's command. *)
From Coq Require Import String Ascii.
From Verif Require Import Base Cwrap_model Cwrap_spec Cwrap_proof.
Open Scope string_scope.

Lemma flag_not f o : plain_flag f -> In o ["-o"; "-MT"; "-MQ"; "-MF"] -> f <> o.
Proof. intros (_ & R & _) I ->. repeat destruct I as [<-|I]; try discriminate R. destruct I. Qed.

(* Compiling with -c: sources, flags, options with one value each, include options, words for the
   linker, in any number and order.  Missing: what the refutations below are about, and compiling
   for a link. *)
Theorem cwrap_compiles_partial : forall ws, Forall ok ws -> settled ws -> In WC ws -> (exists f, In (WSrc f) ws) ->
  exists c, command (flat_map render ws) = Runs c /\ compiles ws c.
Proof.
  intros ws O [S1 S2] HC [f0 Hf]. destruct (classify_ws ws O start eq_refl) as (s & Ec & En & Ei & Eo & Ep). unfold command. rewrite Ec.
  assert (En' : c_en s = [PREPROCESS; COMPILE; ASSEMBLE]).
  { rewrite En. unfold en_after. replace (existsb _ ws) with true; [reflexivity|]. symmetry. apply existsb_exists. exists WC. auto. }
  set (o := c_out s) in *. 
  assert (Fin : c_en (finish s) = c_en s /\ c_items (finish s) = c_items s /\
    (forall p, c_opts (finish s) p = build (match o with Some v => if has p [ASSEMBLE] then [("-o", Some v)] else [] | None => [] end) (c_opts s p))).
  { unfold finish. fold o. assert (Ho : o = None \/ exists v, o = Some v /\ v <> "").
    { subst o. rewrite Eo. destruct (out_after_in ws (c_out start)) as [[E _]|(v & E & I)]; rewrite E; [now left|right]. exists v. split; [reflexivity|]. rewrite Forall_forall in O. exact (O _ I). }
    destruct Ho as [->|(v & -> & N)]; [auto|]. apply String.eqb_neq in N. rewrite N. cbn [add_opt c_en c_items c_opts]. rewrite En'. repeat split.
    intro p. change (maxp [PREPROCESS; COMPILE; ASSEMBLE]) with ASSEMBLE. destruct (has p [ASSEMBLE]); reflexivity. }
  destruct Fin as (F1 & F2 & F3). rewrite F1, F2, En'. set (t := finish s) in *. change (has LINK [PREPROCESS; COMPILE; ASSEMBLE]) with false. cbv beta iota.
  assert (Sr : existsb (fun x : phases * item => match snd x with ISrc _ _ => true | _ => false end) (c_items s) = true).
  { apply existsb_exists. rewrite Ei. rewrite Forall_forall in O. destruct (O _ Hf) as [_ G]. destruct (guess f0) as [l|] eqn:Eg; [|congruence]. destruct (guess_phases f0 l Eg) as (ps & Eps & _).
    exists (ps, ISrc f0 l). split; [|reflexivity]. cbn [start c_items app]. apply in_flat_map. exists (WSrc f0). split; [exact Hf|]. cbn [its]. rewrite Eg, Eps. now left. }
  rewrite Sr. 
  assert (It : flat_items (items_for [PREPROCESS; COMPILE; ASSEMBLE] t) = Some (flat_map placed ws)).
  { unfold items_for. rewrite F2, Ei. cbn [start c_items app]. exact (flat_items_ws ws O). }
  rewrite It. change (maxp [PREPROCESS; COMPILE; ASSEMBLE]) with ASSEMBLE. change (stop_at ASSEMBLE) with "-c".
  (* the options of phase p *)
  set (G := (flat_map evs ws ++ match o with Some v => [([ASSEMBLE], ("-o", Some v))] | None => [] end)%list).
  assert (Op : forall p, c_opts t p = build (at_ph p G) []).
  { intro p. rewrite F3, Ep. cbn [start c_opts]. rewrite <- build_app. f_equal. unfold G, at_ph. rewrite flat_map_app. f_equal. destruct o; [|reflexivity]. cbn [flat_map fst snd]. now rewrite app_nil_r. }
  assert (Oin : forall v, In (WOut v) ws -> o = Some v).
  { intros v I. subst o. rewrite Eo. destruct (out_after_in ws (c_out start)) as [[_ N]|(u & E & J)]; [destruct (N v I)|]. rewrite E. f_equal. eauto. }
  assert (Oout : forall v, o = Some v -> In (WOut v) ws).
  { intros v E. subst o. rewrite Eo in E. destruct (out_after_in ws (c_out start)) as [[E' _]|(u & E' & J)]; rewrite E' in E; [discriminate E|]. now injection E as <-. }
  assert (Gin : forall ps k v, In (ps, (k, v)) G <->
     (exists f, In (WFlag f) ws /\ ps = flag_ph f /\ k = f /\ v = None) \/ (exists x, In (WVal k x) ws /\ ps = [PREPROCESS] /\ v = Some x) \/
     (exists x, In (WInc x) ws /\ ps = [PREPROCESS] /\ k = "-I" ++ x /\ v = None) \/
     (exists f, In (WLib f) ws /\ kindof f = KOpt [LINK] f /\ ps = [LINK] /\ k = f /\ v = None) \/
     (exists x, In (WOut x) ws /\ k = "-o" /\ v = Some x /\ (ps = [DRIVER] \/ ps = [ASSEMBLE]))).
  { intros ps k v. unfold G. rewrite in_app_iff, in_flat_map. rewrite Forall_forall in O. split.
    - intros [(w & Iw & X)|X].
      + destruct w as [f|f|a b|a b|b|f|b|]; cbn [evs] in X; try (destruct X; fail).
        * destruct X as [[= <- <- <-]|[]]. left. exists f. auto.
        * destruct X as [[= <- <- <-]|[]]. right; left. exists b. auto.
        * destruct X as [[= <- <- <-]|[]]. right; right; left. exists b. auto.
        * destruct (lib_kind f (O _ Iw)) as [K|K]; rewrite K in X; [destruct X|]. destruct X as [[= <- <- <-]|[]]. right; right; right; left. exists f. auto.
        * destruct X as [[= <- <- <-]|[]]. right; right; right; right. exists b. auto.
      + destruct o as [u|]; [|destruct X]. destruct X as [[= <- <- <-]|[]]. right; right; right; right. exists u. repeat split; auto.
    - intros [(f & I & -> & -> & ->)|[(x & I & -> & ->)|[(x & I & -> & -> & ->)|[(f & I & K & -> & -> & ->)|(x & I & -> & -> & [-> | ->])]]]].
      + left. exists (WFlag f). split; [exact I|now left].
      + left. exists (WVal k x). split; [exact I|now left].
      + left. exists (WInc x). split; [exact I|now left].
      + left. exists (WLib f). split; [exact I|]. cbn [evs]. rewrite K. now left.
      + left. exists (WOut x). split; [exact I|now left].
      + right. rewrite (Oin x I). now left. }
  assert (Inc : filter (prefix "-I") (map fst (options_for [PREPROCESS; COMPILE; ASSEMBLE] t)) = firsts (flat_map inc ws)).
  { unfold options_for. fold (build (flat_map (c_opts t) [PREPROCESS; COMPILE; ASSEMBLE]) []). rewrite build_keys0, firsts_filter. cbn [flat_map]. rewrite !map_app, !filter_app.
    assert (H : forall p, In p [PREPROCESS; COMPILE; ASSEMBLE] -> filter (prefix "-I") (map fst (c_opts t p)) = firsts (if Nat.eqb p PREPROCESS then flat_map inc ws else [])).
    { intros p Ip. rewrite Op, build_keys0, firsts_filter. f_equal. rewrite <- (inc_at p ws O Ip). unfold G, at_ph. rewrite flat_map_app, map_app, filter_app.
      destruct o; cbn [flat_map fst snd]; [destruct (has p [ASSEMBLE]); cbn|cbn]; apply app_nil_r. }
    rewrite !H by (cbn; auto). cbn [Nat.eqb PREPROCESS COMPILE ASSEMBLE firsts map filter app]. rewrite app_nil_r. apply firsts_twice. }
  rewrite Forall_forall in O.
  assert (Nv : forall k x, In (WVal k x) ws -> In k ["-o"; "-MT"; "-MQ"; "-MF"]) by (intros k x I; right; exact (O _ I)).
  assert (Lb : forall f k, In (WLib f) ws -> In k ["-o"; "-MT"; "-MQ"; "-MF"] -> f <> k).
  { intros f k I Hk ->. destruct (lib_kind k (O _ I)) as [K|K]; repeat destruct Hk as [<-|Hk]; try discriminate K; destruct Hk. }
  assert (Ib : forall x k, In k ["-o"; "-MT"; "-MQ"; "-MF"] -> "-I" ++ x <> k).
  { intros x k Hk. repeat destruct Hk as [<-|Hk]; try (intro E; discriminate E). destruct Hk. }
  assert (o4 : In "-o" ["-o"; "-MT"; "-MQ"; "-MF"]) by now left.
  assert (Vo : forall x, ~ In (WVal "-o" x) ws) by (intros x I; apply O in I; cbn in I; destruct I as [E|[E|[E|[]]]]; discriminate E).
  assert (Gs : forall ps k x, In (ps, (k, Some x)) G -> In (WVal k x) ws \/ (k = "-o" /\ In (WOut x) ws)).
  { intros ps k x I. rewrite Gin in I. destruct I as [(f & _ & _ & _ & [=])|[(y & I & _ & [= <-])|[(y & _ & _ & _ & [=])|[(f & _ & _ & _ & _ & [=])|(y & I & -> & [= <-] & _)]]]]; auto. }
  assert (Gn : forall ps k, In (ps, (k, None)) G -> ~ In k ["-o"; "-MT"; "-MQ"; "-MF"]).
  { intros ps k I. rewrite Gin in I. destruct I as [(f & I & _ & -> & _)|[(y & _ & _ & [=])|[(y & I & _ & -> & _)|[(f & I & _ & _ & -> & _)|(y & _ & _ & [=] & _)]]]]; intro Hk.
    - exact (flag_not f f (O _ I) Hk eq_refl).
    - exact (Ib y _ Hk eq_refl).
    - exact (Lb f f I Hk eq_refl). }
  assert (Gk : forall ps k x, In (ps, (k, Some x)) G -> In k ["-o"; "-MT"; "-MQ"; "-MF"]).
  { intros ps k x I. destruct (Gs _ _ _ I) as [J|[-> _]]; [exact (Nv _ _ J)|exact o4]. }
  assert (Fu : forall ps ps' k v v', In (ps, (k, v)) G -> In (ps', (k, v')) G -> v = v').
  { intros ps ps' k [v|] [v'|] IA IB; [|destruct (Gn _ _ IB (Gk _ _ _ IA))|destruct (Gn _ _ IA (Gk _ _ _ IB))|reflexivity]. f_equal.
    destruct (Gs _ _ _ IA) as [IA'|[-> IA']], (Gs _ _ _ IB) as [IB'|[E IB']]; [eauto|subst k; destruct (Vo _ IA')|destruct (Vo _ IB')|eauto]. }
  assert (OfP : forall ps kv, In kv (options_for ps t) <-> exists p q, In p ps /\ In (q, kv) G /\ has p q = true).
  { assert (C1 : forall p kv, In kv (c_opts t p) <-> exists q, In (q, kv) G /\ has p q = true).
    { intros p kv. rewrite Op, build_in.
      - rewrite at_ph_in. cbn. intuition.
      - cbn [app]. intros k v v' A B. apply at_ph_in in A. apply at_ph_in in B. destruct A as (? & A & _), B as (? & B & _). eauto. }
    intros ps kv. unfold options_for. fold (build (flat_map (c_opts t) ps) []). rewrite build_in.
    - cbn [In]. rewrite in_flat_map. split.
      + intros [[]|(p & Ip & X)]. apply C1 in X. destruct X as (q & X). exists p, q. tauto.
      + intros (p & q & Ip & X). right. exists p. split; [exact Ip|]. apply C1. eauto.
    - cbn [app]. intros k v v' A B. apply in_flat_map in A. apply in_flat_map in B. destruct A as (p & _ & A), B as (p' & _ & B).
      apply C1 in A. apply C1 in B. destruct A as (q & A & _), B as (q' & B & _). eauto. }
  assert (Nd : forall ps, NoDup (map fst (options_for ps t))) by (intro ps; apply build_nodup; constructor).
  set (A := options_for [PREPROCESS; COMPILE; ASSEMBLE] t) in *.
  set (d := match lookup "-o" (options_for [ASSEMBLE] t) with Some v => (without "-o" A ++ [("-o", v)])%list | None => without "-o" A end).
  eexists. split; [reflexivity|]. fold d.
  (* what is in d *)
  assert (Lk : forall v, lookup "-o" (options_for [ASSEMBLE] t) = Some v <-> exists x, v = Some x /\ In (WOut x) ws).
  { intro v. unfold lookup. destruct (find _ _) as [[k u]|] eqn:E.
    - apply find_some in E. destruct E as [I E]. cbn in E. apply String.eqb_eq in E. subst k. apply OfP in I. destruct I as (p & q & _ & I & _).
      assert (X : exists x, u = Some x /\ In (WOut x) ws).
      { destruct u as [u|]; [|destruct (Gn _ _ I o4)]. destruct (Gs _ _ _ I) as [J|[_ J]]; [destruct (Vo _ J)|eauto]. }
      cbn. destruct X as (x & -> & Ix). split; [intros [= <-]; eauto|]. intros (y & -> & Iy). now rewrite (S2 _ _ Ix Iy).
    - split; [intros [=]|]. intros (x & -> & Ix). exfalso.
      assert (I : In ("-o", Some x) (options_for [ASSEMBLE] t)).
      { apply OfP. exists ASSEMBLE, [ASSEMBLE]. split; [now left|]. split; [|reflexivity]. apply Gin. right; right; right; right. exists x. auto. }
      apply find_none with (x := ("-o", Some x)) in E; [|exact I]. discriminate E. }
  assert (Din : forall k v, In (k, v) d <-> (k <> "-o" /\ In (k, v) A) \/ (k = "-o" /\ exists x, v = Some x /\ In (WOut x) ws)).
  { assert (Wi : forall k v, In (k, v) (without "-o" A) <-> k <> "-o" /\ In (k, v) A).
    { intros k v. unfold without. rewrite filter_In. cbn [fst]. destruct (k =? "-o") eqn:E; [apply String.eqb_eq in E|apply String.eqb_neq in E]; cbn; intuition congruence. }
    intros k v. unfold d. destruct (lookup "-o" (options_for [ASSEMBLE] t)) as [u|] eqn:E.
    - rewrite in_app_iff, Wi. destruct (proj1 (Lk u) eq_refl) as (x & -> & Ix). cbn [In]. split.
      + intros [H|[[= <- <-]|[]]]; [now left|]. right. eauto.
      + intros [H|(-> & y & -> & Iy)]; [now left|]. right. left. now rewrite (S2 _ _ Ix Iy).
    - rewrite Wi. split; [now left|]. intros [H|(-> & y & -> & Iy)]; [exact H|]. exfalso. assert (X := proj2 (Lk (Some y)) (ex_intro _ y (conj eq_refl Iy))). discriminate X. }
  assert (Dn : NoDup (map fst d)).
  { assert (N1 : NoDup (map fst (without "-o" A))) by (apply filter_nodup, Nd). unfold d. destruct (lookup _ _) as [u|]; [|exact N1]. rewrite map_app. cbn [map fst].
    assert (Nn : ~ In "-o" (map fst (without "-o" A))).
    { intro I. apply in_map_iff in I. destruct I as ((k & v) & E & I). cbn in E. subst k. unfold without in I. apply filter_In in I. destruct I as [_ I]. discriminate I. }
    clear - N1 Nn. induction (map fst (without "-o" A)) as [|k l IH]; cbn; [repeat constructor; auto|]. inversion N1 as [|? ? M1 M2]; subst. constructor.
    - rewrite in_app_iff. intros [X|[X|[]]]; [contradiction|]. apply Nn. left. congruence.
    - apply IH; [exact M2|]. intro X. apply Nn. now right. }
  exists (flat_map (fun kv => match snd kv with Some v => [(fst kv, v)] | None => [] end) d), (flat_map (fun kv => match snd kv with Some _ => [] | None => [fst kv] end) d).
  assert (In1 : forall k v, In (k, v) (flat_map (fun kv : string * option string => match snd kv with Some v => [(fst kv, v)] | None => [] end) d) <-> In (k, Some v) d).
  { intros k v. rewrite in_flat_map. split; [intros ((a & [b|]) & I & X); cbn in X; [destruct X as [[= <- <-]|[]]; exact I|destruct X]|]. intro I. exists (k, Some v). split; [exact I|now left]. }
  assert (In2 : forall k, In k (flat_map (fun kv : string * option string => match snd kv with Some _ => [] | None => [fst kv] end) d) <-> In (k, None) d).
  { intros k. rewrite in_flat_map. split; [intros ((a & [b|]) & I & X); cbn in X; [destruct X|destruct X as [<-|[]]; exact I]|]. intro I. exists (k, None). split; [exact I|now left]. }
  split; [|split; [|split; [|split; [|split]]]].
  - unfold flat_opts. rewrite <- app_assoc. f_equal. clear. induction d as [|[k [v|]] d IH]; cbn; [reflexivity| |exact IH]. now rewrite IH.
  - clear - Dn. induction d as [|[k [v|]] d IH]; cbn in *; [constructor| |]; inversion Dn as [|? ? D1 D2]; subst; [constructor; [|auto]|auto].
    intro I. apply D1. apply in_map_iff in I. destruct I as ((a & b) & E & I). cbn in E. subst a. apply in_flat_map in I. destruct I as ((a & [c|]) & I & X); cbn in X; [|destruct X]. destruct X as [[= <- <-]|[]]. apply in_map_iff. exists (a, Some c). auto.
  - clear - Dn. induction d as [|[k [v|]] d IH]; cbn in *; [constructor| |]; inversion Dn as [|? ? D1 D2]; subst; [auto|constructor; [|auto]].
    intro I. apply D1. apply in_flat_map in I. destruct I as ((a & [c|]) & I & X); cbn in X; [destruct X|]. destruct X as [<-|[]]. apply in_map_iff. exists (a, None). auto.
  - intros k v. rewrite In1, Din. split.
    + intros [(N & I)|(-> & x & [= <-] & I)]; [|right; auto]. left. apply OfP in I. destruct I as (p & q & _ & I & _). rewrite Gin in I.
      destruct I as [(f & _ & _ & _ & [=])|[(x & I & _ & [= <-])|[(x & _ & _ & _ & [=])|[(f & _ & _ & _ & _ & [=])|(x & _ & E & _)]]]]; [exact I|congruence].
    + intros [I|(-> & I)]; [|right; eauto]. left. split.
      * intros ->. apply O in I. cbn in I. repeat destruct I as [E|I]; try discriminate E; destruct I.
      * apply OfP. exists PREPROCESS, [PREPROCESS]. split; [now left|]. split; [|reflexivity]. apply Gin. right; left. eauto.
  - intro k. rewrite In2, Din. split.
    + intros [(N & I)|(_ & x & [=] & _)]. apply OfP in I. destruct I as (p & q & Ip & I & Hp). rewrite Gin in I.
      destruct I as [(f & I & _ & -> & _)|[(x & _ & _ & [=])|[(x & I & _ & -> & _)|[(f & _ & _ & -> & _ & _)|(x & _ & _ & [=] & _)]]]]; [now left|right; eauto|].
      exfalso. cbn in Ip. repeat destruct Ip as [<-|Ip]; try discriminate Hp. destruct Ip.
    + assert (P : forall q k, In (q, (k, None)) G -> early q = true -> k <> "-o" -> k <> "-o" /\ In (k, None) A \/ k = "-o" /\ exists x, None = Some x /\ In (WOut x) ws).
      { intros q k' I E N. left. split; [exact N|]. apply OfP. unfold early in E. apply existsb_exists in E. destruct E as (p & Ip & Hp). exists p, q. split; [now apply has_in|]. split; [exact I|now apply has_in]. }
      intros [I|(v & -> & I)].
      * destruct (flag_kind k (O _ I)) as (q & K & E). apply (P q); [|exact E|exact (flag_not k "-o" (O _ I) o4)]. apply Gin. left. exists k. unfold flag_ph. rewrite K. auto.
      * apply (P [PREPROCESS]); [|reflexivity|exact (Ib v "-o" o4)]. apply Gin. right; right; left. eauto.
  - rewrite <- Inc. fold A.
    assert (W : filter (prefix "-I") (map fst d) = filter (prefix "-I") (map fst A)).
    { assert (W1 : filter (prefix "-I") (map fst (without "-o" A)) = filter (prefix "-I") (map fst A)).
      { clear. induction A as [|[k v] l IH]; [reflexivity|]. unfold without in *. cbn [filter map fst]. destruct (k =? "-o") eqn:E; cbn [negb map fst filter].
        - apply String.eqb_eq in E. subst k. exact IH.
        - now rewrite IH. }
      unfold d. destruct (lookup _ _); [|exact W1]. rewrite map_app, filter_app. cbn [map fst filter]. change (prefix "-I" "-o") with false. cbv beta iota. now rewrite app_nil_r. }
    rewrite <- W. assert (K : forall k x, In (k, Some x) d -> prefix "-I" k = false).
    { intros k x I. assert (Hk : In k ["-o"; "-MT"; "-MQ"; "-MF"]).
      { apply Din in I. destruct I as [(_ & I)|(-> & _)]; [|exact o4]. apply OfP in I. destruct I as (p & q & _ & I & _). exact (Gk _ _ _ I). }
      destruct Hk as [<-|[<-|[<-|[<-|[]]]]]; reflexivity. }
    clear - K. induction d as [|[k [v|]] d IH]; [reflexivity| |]; cbn [flat_map map fst snd app filter].
    + rewrite (K k v) by now left. apply IH. intros; eapply K; right; eauto.
    + destruct (prefix "-I" k); [f_equal|]; apply IH; intros; eapply K; right; eauto.
Qed.

Module CwEx.
Definition line : list word :=
  [WFlag "-DX=1"; WFlag "-O2"; WInc "inc"; WPlace "-include" "cfg.h"; WVal "-MF" "d/a.d"; WSrc "src/a.c"; WLib "-lm"; WFlag "-O2"; WC; WOut "a.o"; WSrc "b.cpp"].
Example line_ok : Forall ok line /\ settled line /\ In WC line /\ (exists f, In (WSrc f) line).
Proof.
  split; [|split; [|split]].
  - repeat (apply Forall_cons || apply Forall_nil); cbn; repeat split; auto; discriminate.
  - split; cbn; intros; repeat match goal with H : _ \/ _ |- _ => destruct H end; try discriminate; try contradiction; congruence.
  - cbn. tauto.
  - exists "b.cpp". cbn. tauto.
Qed.
Example line_runs : command (flat_map render line) =
  Runs ["-MF"; "d/a.d"; "-o"; "a.o"; "-DX=1"; "-Iinc"; "-O2"; "-include"; "cfg.h"; "src/a.c"; "b.cpp"; "-c"].
Proof. vm_compute. reflexivity. Qed.
End CwEx.

(* -MD and its like take no other word, but the word after is lost: a source file, or -c itself, so
   that the wrapper goes on to link. *)
Theorem cwrap_depend_refuted : (forall x, command ["-c"; "-MD"; x; "b.c"] = Runs ["-MD"; "b.c"; "-c"]) /\ command ["-MD"; "-c"; "a.c"] = Links.
Proof. split; [intro x|]; vm_compute; reflexivity. Qed.
(* A language given with -x: the file is compiled as what its name says, or the wrapper stops. *)
Theorem cwrap_language_refuted : command ["-c"; "-x"; "c++"; "a.c"] = Runs ["-x"; "c"; "a.c"; "-x"; "none"; "-c"] /\ command ["-c"; "-x"; "c"; "a.txt"] = Raises.
Proof. vm_compute. auto. Qed.
(* The value of -D, -U and others as a word of its own is lost, and the option takes what follows. *)
Theorem cwrap_separate_refuted : forall x, prefix "-" x = false -> guess x = None -> command ["-c"; "-D"; x; "a.c"] = Runs ["-D"; "a.c"; "-c"].
Proof.
  intros x P G. unfold command. change (classify start ["-c"; "-D"; x; "a.c"]) with
    (classify (add_opt [DRIVER; PREPROCESS; COMPILE; ASSEMBLE; LINK] "-D" None (set_en (Some [PREPROCESS; COMPILE; ASSEMBLE]) (add_item [DRIVER] (IStr "-c") start))) [x; "a.c"]).
  set (s := add_opt _ _ _ _). cbn [classify]. rewrite (src_kind x P). change (c_lang s) with (@None string). cbv beta iota. rewrite G. vm_compute. reflexivity.
Qed.
Example separate_ex : prefix "-" "NDEBUG" = false /\ guess "NDEBUG" = None. Proof. vm_compute. auto. Qed.
(* Of options given several times with different values only the last is kept, and of flags only the
   first place: -DX -UX -DX leaves X undefined. *)
Theorem cwrap_repeated_refuted : command ["-c"; "-MT"; "a"; "-MT"; "b"; "f.c"] = Runs ["-MT"; "b"; "f.c"; "-c"] /\
  command ["-c"; "-DX"; "-UX"; "-DX"; "f.c"] = Runs ["-DX"; "-UX"; "f.c"; "-c"].
Proof. vm_compute. auto. Qed.
(* Preprocessing only: the options which set what macros are defined are left out. *)
Theorem cwrap_preprocess_refuted : command ["-E"; "-O2"; "-fopenmp"; "f.c"] = Runs ["f.c"; "-E"].
Proof. vm_compute. reflexivity. Qed.
(* The marker which ends options stops the wrapper, whatever else is given. *)
Theorem cwrap_marker_refuted : forall ws r, Forall ok ws -> command (flat_map render ws ++ "--" :: r)%list = Raises.
Proof.
  intros ws r O. unfold command. replace (classify start (flat_map render ws ++ "--" :: r)%list) with (@None cst); [reflexivity|]. symmetry.
  assert (H : forall ws, Forall ok ws -> forall s, c_lang s = None -> classify s (flat_map render ws ++ "--" :: r)%list = None).
  { clear. induction 1 as [|w ws O F IH]; intros s L; [reflexivity|]. destruct w as [f|f|o v|o v|v|f|v|]; cbn [flat_map render app classify].
    - destruct O as [P G]. rewrite (src_kind f P), L. destruct (guess f) as [l|] eqn:E; [|congruence]. destruct (guess_phases f l E) as (ps & -> & _). now apply IH.
    - destruct (flag_kind f O) as (ps & -> & _). now apply IH.
    - destruct (place_kind o O) as (ps & -> & _). now apply IH.
    - rewrite (val_kind o O). now apply IH.
    - apply IH. exact L.
    - destruct (lib_kind f O) as [-> | ->]; now apply IH.
    - apply IH. exact L.
    - apply IH. exact L. }
  exact (H ws O start eq_refl).
Qed.
Example marker_ex : Forall ok CwEx.line /\ command (flat_map render CwEx.line ++ ["--"; "c.c"])%list = Raises.
Proof. split; [apply CwEx.line_ok|vm_compute; reflexivity]. Qed.

Print Assumptions cwrap_compiles_partial.
Print Assumptions cwrap_depend_refuted.
Print Assumptions cwrap_language_refuted.
Print Assumptions cwrap_separate_refuted.
Print Assumptions cwrap_repeated_refuted.
Print Assumptions cwrap_preprocess_refuted.
Print Assumptions cwrap_marker_refuted.
