From Verif Require Import Base Big_model Wrap_model Wrap_spec.

(* induction over programs *)
Section Ind.
Variable P : act -> Prop.
Hypothesis HM : forall c s, P (Malloc c s).
Hypothesis HR : forall c m, P (Realloc c m).
Hypothesis HC : forall f r s k b, Forall P b -> P (Call f r s k b).
Hypothesis HS : forall f r s b p, Forall P b -> P (Sub f r s b p).
Hypothesis HF : forall b, Forall P b -> P (Free b).
Hypothesis HU : forall f p b, Forall P b -> P (SubFree f p b).
Hypothesis HK : forall b, Forall P b -> P (Catch b).
Hypothesis HJ : P Jump.
Fixpoint act_ind' (a : act) : P a :=
  let fix all (l : list act) : Forall P l :=
    match l with [] => Forall_nil P | x :: r => Forall_cons x (act_ind' x) (all r) end in
  match a with
  | Malloc c s => HM c s
  | Realloc c m => HR c m
  | Call f r s k b => HC f r s k b (all b)
  | Sub f r s b p => HS f r s b p (all b)
  | Free b => HF b (all b)
  | SubFree f p b => HU f p b (all b)
  | Catch b => HK b (all b)
  | Jump => HJ
  end.
End Ind.

(* a jump is only under way if the text has one *)
Lemma escapes_none : forall a ch, escapes a = false -> snd (happen ch a) = false.
Proof.
  apply (act_ind' (fun a => forall ch, escapes a = false -> snd (happen ch a) = false));
    try (intros; reflexivity || discriminate).
  all: assert (L : forall b, Forall (fun a => forall ch, escapes a = false -> snd (happen ch a) = false) b ->
    forall ch, existsb escapes b = false -> snd (happens ch b) = false)
    by (induction 1 as [|x l HX HL IH]; intros ch E; [reflexivity|];
        cbn [existsb] in E; apply orb_false_iff in E; destruct E as [E1 E2];
        cbn [happens]; specialize (HX ch E1); specialize (IH ch E2);
        destruct (happen ch x) as [h j]; cbn in HX; subst j;
        destruct (happens ch l) as [h' j']; cbn in *; exact IH).
  - intros f r s k b HB ch E. change (snd (happens (ch ++ [mkF r s]) b) = false). apply (L b HB). exact E.
  - intros f r s b p HB ch E.
    change (snd (let ch' := ch ++ [mkF r s] in let '(h, j) := happens ch' b in
                 if j then (h, true) else (h ++ [(ch', WSmall f p)], false)) = false).
    cbv zeta. specialize (L b HB (ch ++ [mkF r s]) E).
    destruct (happens (ch ++ [mkF r s]) b) as [h j]. cbn in L. subst j. reflexivity.
  - intros b HB ch E. change (snd (happens ch b) = false). apply (L b HB). exact E.
  - intros f p b HB ch E. change (snd (let '(h, j) := happens ch b in ((ch, WUnsmall f p) :: h, j)) = false).
    specialize (L b HB ch E). destruct (happens ch b) as [h j]. exact L.
Qed.
Lemma escapes_none_l : forall l ch, existsb escapes l = false -> snd (happens ch l) = false.
Proof.
  induction l as [|x l IH]; intros ch E; [reflexivity|].
  cbn [existsb] in E. apply orb_false_iff in E. destruct E as [E1 E2].
  cbn [happens]. pose proof (escapes_none x ch E1) as HX. specialize (IH ch E2).
  destruct (happen ch x) as [h j]. cbn in HX. subst j. destruct (happens ch l) as [h' j']. exact IH.
Qed.

Definition tmap (h : list (list frame * what)) : list ev := map attributed h.

(* While an allocation function is in progress: everything is attributed to the outermost, and
   the variables are left as they are. *)
Definition inside (dbg : bool) (a : act) : Prop :=
  forall f rest w w' j, t_fn (w_t w) <> 0 -> t_site (w_t w) = f_ret f -> f_ret f <> 0 -> t_sz (w_t w) = f_size f ->
  tame a = true -> proper a = true -> run dbg a w = Ok (w', j) ->
  j = snd (happen (f :: rest) a) /\ w_t w' = w_t w /\ w_log w' = w_log w ++ tmap (fst (happen (f :: rest) a)).

Lemma inside_list : forall dbg l, Forall (inside dbg) l ->
  forall f rest w w' j, t_fn (w_t w) <> 0 -> t_site (w_t w) = f_ret f -> f_ret f <> 0 -> t_sz (w_t w) = f_size f ->
  forallb tame l = true -> forallb proper l = true -> runs dbg l w = Ok (w', j) ->
  j = snd (happens (f :: rest) l) /\ w_t w' = w_t w /\ w_log w' = w_log w ++ tmap (fst (happens (f :: rest) l)).
Proof.
  induction 1 as [|x l HX HL IH]; intros f rest w w' j H1 H2 H3 H4 T P R.
  - cbn in R. inversion R; subst. cbn. rewrite app_nil_r. auto.
  - cbn [forallb] in T, P. apply andb_true_iff in T. apply andb_true_iff in P.
    destruct T as [T1 T2], P as [P1 P2]. cbn [runs] in R.
    destruct (run dbg x w) as [[w1 j1]| | |] eqn:E; cbn in R; try discriminate.
    destruct (HX f rest w w1 j1 H1 H2 H3 H4 T1 P1 E) as (J & Tw & Lw).
    cbn [happens]. destruct (happen (f :: rest) x) as [h jx]. cbn in J, Lw. subst jx.
    destruct j1.
    + inversion R; subst. cbn. auto.
    + rewrite <- Tw in H1, H2, H4.
      destruct (IH f rest w1 w' j H1 H2 H3 H4 T2 P2 R) as (J & Tw' & Lw').
      destruct (happens (f :: rest) l) as [h' j']. cbn in *.
      split; [exact J|]. split; [congruence|].
      rewrite Lw', Lw. unfold tmap. rewrite map_app, app_assoc. reflexivity.
Qed.

Lemma tls_eta : forall t, mkT (t_site t) (t_fn t) (t_sz t) (t_freeing t) (t_allocing t) = t.
Proof. destruct t; reflexivity. Qed.
Lemma w_tls_id : forall w, w_tls w (w_t w) = w.
Proof. destruct w; reflexivity. Qed.
Lemma enter_in : forall t fn r s, t_fn t <> 0 -> enter t fn r s = (t, false, false).
Proof. intros t fn r s H. unfold enter. destruct (Z.eqb_spec (t_fn t) 0); [contradiction|reflexivity]. Qed.

(* the free wrappers, whose bodies leave the variables alone but for their own flag *)
Definition fr (t : tls) (b : bool) : tls := mkT (t_site t) (t_fn t) (t_sz t) b (t_allocing t).
Lemma fr_back : forall t, t_freeing t = false -> fr (fr t true) false = t.
Proof. intros [a b c d e] H. cbn in *. subst. reflexivity. Qed.

Lemma run_inside : forall dbg a, inside dbg a.
Proof.
  intros dbg. apply (act_ind' (inside dbg)); unfold inside.
  - intros c s f rest w w' j H1 H2 H3 H4 T P R. cbn in R. inversion R; subst. cbn.
    unfold site_or. rewrite H2. destruct (Z.eqb_spec (f_ret f) 0); [contradiction|]. auto.
  - intros c m f rest w w' j H1 H2 H3 H4 T P R. cbn in R. inversion R; subst. cbn.
    unfold site_or. rewrite H2, H4. destruct (Z.eqb_spec (f_ret f) 0); [contradiction|]. auto.
  - intros fn r s k b HB f rest w w' j H1 H2 H3 H4 T P R.
    cbn [tame proper] in T, P. apply andb_true_iff in T. destruct T as [Te Tb].
    apply andb_true_iff in P. destruct P as [_ Pb]. apply negb_true_iff in Te.
    cbn [run] in R. rewrite enter_in in R by exact H1. cbn [bind] in R.
    rewrite w_tls_id in R.
    match type of R with context [bind ?e _] => change e with (runs dbg b w) in R end.
    destruct (runs dbg b w) as [[w1 j1]| | |] eqn:E; cbn in R; try discriminate.
    destruct (inside_list dbg b HB f (rest ++ [mkF r s]) w w1 j1 H1 H2 H3 H4 Tb Pb E) as (J & Tw & Lw).
    pose proof (escapes_none_l b (f :: rest ++ [mkF r s]) Te) as N. rewrite N in J. subst j1.
    inversion R; subst.
    change (happen (f :: rest) (Call fn r s k b)) with (happens (f :: rest ++ [mkF r s]) b).
    rewrite w_tls_id. auto.
  - intros fn r s b p HB f rest w w' j H1 H2 H3 H4 T P R.
    cbn [tame proper] in T, P. apply andb_true_iff in T. destruct T as [Te Tb].
    apply andb_true_iff in P. destruct P as [_ Pb]. apply negb_true_iff in Te.
    cbn [run] in R. rewrite enter_in in R by exact H1. cbn [bind] in R. rewrite w_tls_id in R.
    match type of R with context [bind ?e _] => change e with (runs dbg b w) in R end.
    destruct (runs dbg b w) as [[w1 j1]| | |] eqn:E; cbn in R; try discriminate.
    destruct (inside_list dbg b HB f (rest ++ [mkF r s]) w w1 j1 H1 H2 H3 H4 Tb Pb E) as (J & Tw & Lw).
    pose proof (escapes_none_l b (f :: rest ++ [mkF r s]) Te) as N. rewrite N in J. subst j1.
    destruct (asrt dbg _) eqn:A in R; cbn in R; try discriminate.
    change (happen (f :: rest) (Sub fn r s b p)) with
      (let ch' := f :: rest ++ [mkF r s] in let '(h, j) := happens ch' b in
       if j then (h, true) else (h ++ [(ch', WSmall fn p)], false)).
    cbv zeta. destruct (happens (f :: rest ++ [mkF r s]) b) as [h jh]. cbn in N, Lw. subst jh. cbn.
    inversion R; subst. clear R. split; [reflexivity|].
    assert (G : forall x, w_t (if w_lev w1 fn =? 0 then w_setlev (w_ev w1 x) fn 2 else w_ev w1 x) = w_t w1 /\
                          w_log (if w_lev w1 fn =? 0 then w_setlev (w_ev w1 x) fn 2 else w_ev w1 x) = w_log w1 ++ [x]).
    { intros x. destruct (w_lev w1 fn =? 0); split; reflexivity. }
    destruct (G (ESmall p (t_site (w_t w1)) (t_sz (w_t w1) mod W32))) as [G1 G2].
    cbn in G1, G2 |- *. rewrite G1, G2.
    split; [exact Tw|]. rewrite Lw. unfold tmap. rewrite map_app, <- app_assoc. cbn. rewrite Tw, H2, H4. reflexivity.
  - intros b HB f rest w w' j H1 H2 H3 H4 T P R.
    cbn [tame proper] in T, P. apply andb_true_iff in T. destruct T as [Te Tb]. apply negb_true_iff in Te.
    cbn [run] in R.
    match type of R with context [bind ?e _] =>
      change e with (runs dbg b (if negb (t_freeing (w_t w)) then w_tls w (fr (w_t w) true) else w)) in R end.
    set (w0 := if negb (t_freeing (w_t w)) then w_tls w (fr (w_t w) true) else w) in *.
    assert (F : t_fn (w_t w0) <> 0 /\ t_site (w_t w0) = f_ret f /\ t_sz (w_t w0) = f_size f /\ w_log w0 = w_log w).
    { subst w0. destruct (negb (t_freeing (w_t w))); cbn; auto. }
    destruct F as (F1 & F2 & F4 & F5).
    destruct (runs dbg b w0) as [[w1 j1]| | |] eqn:E; cbn in R; try discriminate.
    destruct (inside_list dbg b HB f rest w0 w1 j1 F1 F2 H3 F4 Tb P E) as (J & Tw & Lw).
    pose proof (escapes_none_l b (f :: rest) Te) as N. rewrite N in J. subst j1.
    change (happen (f :: rest) (Free b)) with (happens (f :: rest) b). rewrite N. rewrite F5 in Lw.
    inversion R; subst w' j. clear R. subst w0.
    destruct (t_freeing (w_t w)) eqn:Q; cbn in *.
    + auto.
    + split; [reflexivity|]. split; [|exact Lw].
      change (fr (w_t w1) false = w_t w). rewrite Tw. apply fr_back. exact Q.
  - intros fn p b HB f rest w w' j H1 H2 H3 H4 T P R.
    cbn [tame proper] in T, P. apply andb_true_iff in T. destruct T as [Te Tb]. apply negb_true_iff in Te.
    cbn [run] in R.
    set (w0 := if negb (t_freeing (w_t w)) then _ else w) in R.
    assert (W0 : w0 = if negb (t_freeing (w_t w)) then w_tls w (fr (w_t w) true) else w) by reflexivity.
    destruct (asrt dbg (negb (w_lev w0 fn =? 0))) eqn:A; cbn [bind] in R; try discriminate.
    match type of R with context [bind ?e _] => change e with (runs dbg b (w_ev w0 (EUnsmall p))) in R end.
    clearbody w0.
    assert (F : t_fn (w_t w0) <> 0 /\ t_site (w_t w0) = f_ret f /\ t_sz (w_t w0) = f_size f /\ w_log w0 = w_log w).
    { subst w0. destruct (negb (t_freeing (w_t w))); cbn; auto. }
    destruct F as (F1 & F2 & F4 & F5).
    destruct (runs dbg b (w_ev w0 (EUnsmall p))) as [[w1 j1]| | |] eqn:E; cbn in R; try discriminate.
    destruct (inside_list dbg b HB f rest (w_ev w0 (EUnsmall p)) w1 j1 F1 F2 H3 F4 Tb P E) as (J & Tw & Lw).
    pose proof (escapes_none_l b (f :: rest) Te) as N. rewrite N in J. subst j1.
    change (happen (f :: rest) (SubFree fn p b)) with
      (let '(h, j) := happens (f :: rest) b in ((f :: rest, WUnsmall fn p) :: h, j)).
    destruct (happens (f :: rest) b) as [h jh]. cbn in N, Lw. subst jh. cbn.
    inversion R; subst w' j. clear R. split; [reflexivity|].
    rewrite F5 in Lw. cbn in Tw.
    destruct (t_freeing (w_t w)) eqn:Q; cbn in *.
    + subst w0. rewrite Lw, <- app_assoc. auto.
    + split; [change (fr (w_t w1) false = w_t w); rewrite Tw; subst w0; apply fr_back; exact Q|].
      rewrite Lw, <- app_assoc. reflexivity.
  - intros b HB f rest w w' j H1 H2 H3 H4 T P R. cbn [tame proper] in T, P. cbn [run] in R.
    match type of R with context [bind ?e _] => change e with (runs dbg b w) in R end.
    destruct (runs dbg b w) as [[w1 j1]| | |] eqn:E; cbn in R; try discriminate.
    destruct (inside_list dbg b HB f rest w w1 j1 H1 H2 H3 H4 T P E) as (J & Tw & Lw).
    change (happen (f :: rest) (Catch b)) with (fst (happens (f :: rest) b), false).
    inversion R; subst. cbn. auto.
  - intros f rest w w' j H1 H2 H3 H4 T P R. cbn in R. inversion R; subst. cbn. rewrite app_nil_r. auto.
Qed.

Lemma runs_inside : forall dbg l f rest w w' j,
  t_fn (w_t w) <> 0 -> t_site (w_t w) = f_ret f -> f_ret f <> 0 -> t_sz (w_t w) = f_size f ->
  forallb tame l = true -> forallb proper l = true -> runs dbg l w = Ok (w', j) ->
  j = snd (happens (f :: rest) l) /\ w_t w' = w_t w /\ w_log w' = w_log w ++ tmap (fst (happens (f :: rest) l)).
Proof.
  intros dbg l. apply inside_list. apply Forall_forall. intros x _. apply run_inside.
Qed.

(* Outside any: the variables but the size are as they were; so is the size if no function leaves
   it set. *)
Definition with_sz (t : tls) (z : Z) : tls := mkT (t_site t) (t_fn t) z (t_freeing t) (t_allocing t).
Definition outcome (w w' : world) (h : list (list frame * what)) (s : bool) : Prop :=
  (exists z, w_t w' = with_sz (w_t w) z) /\
  map unsized (w_log w') = map unsized (w_log w) ++ map unsized (tmap h) /\
  (s = true -> t_sz (w_t w) = 0 -> w_t w' = w_t w /\ w_log w' = w_log w ++ tmap h).
Definition outside (dbg : bool) (a : act) : Prop :=
  forall w w' j, t_fn (w_t w) = 0 -> t_site (w_t w) = 0 ->
  tame a = true -> proper a = true -> run dbg a w = Ok (w', j) ->
  j = snd (happen [] a) /\ outcome w w' (fst (happen [] a)) (sizeless a).

Lemma outside_list : forall dbg l, Forall (outside dbg) l ->
  forall w w' j, t_fn (w_t w) = 0 -> t_site (w_t w) = 0 ->
  forallb tame l = true -> forallb proper l = true -> runs dbg l w = Ok (w', j) ->
  j = snd (happens [] l) /\ outcome w w' (fst (happens [] l)) (forallb sizeless l).
Proof.
  induction 1 as [|x l HX HL IH]; intros w w' j H1 H2 T P R.
  - cbn in R. inversion R; subst. cbn. split; [reflexivity|]. unfold outcome. cbn. rewrite !app_nil_r.
    split; [exists (t_sz (w_t w')); symmetry; apply tls_eta|]. auto.
  - cbn [forallb] in T, P. apply andb_true_iff in T. apply andb_true_iff in P.
    destruct T as [T1 T2], P as [P1 P2]. cbn [runs] in R.
    destruct (run dbg x w) as [[w1 j1]| | |] eqn:E; cbn in R; try discriminate.
    destruct (HX w w1 j1 H1 H2 T1 P1 E) as (J & (z & Tw) & Lw & Sw).
    cbn [happens]. destruct (happen [] x) as [h jx]. cbn in J, Lw, Sw. subst jx.
    destruct j1.
    + inversion R; subst. cbn [fst snd]. split; [reflexivity|].
      split; [exists z; exact Tw|]. split; [exact Lw|].
      intros S Z0. cbn [forallb] in S. apply andb_true_iff in S. destruct S as [S _]. auto.
    + assert (F1 : t_fn (w_t w1) = 0) by (rewrite Tw; exact H1).
      assert (F2 : t_site (w_t w1) = 0) by (rewrite Tw; exact H2).
      destruct (IH w1 w' j F1 F2 T2 P2 R) as (J & (z' & Tw') & Lw' & Sw').
      destruct (happens [] l) as [h' j']. cbn [fst snd] in *. split; [exact J|].
      split; [exists z'; rewrite Tw', Tw; reflexivity|].
      split; [rewrite Lw', Lw; unfold tmap; rewrite !map_app, app_assoc; reflexivity|].
      intros S Z0. cbn [forallb] in S. apply andb_true_iff in S. destruct S as [S1 S2].
      destruct (Sw S1 Z0) as (A & B). destruct (Sw' S2) as (C & D); [rewrite A; exact Z0|].
      split; [congruence|]. rewrite D, B. unfold tmap. rewrite map_app, app_assoc. reflexivity.
Qed.

Lemma leave_enter : forall t fn r s keep, t_fn t = 0 -> t_site t = 0 ->
  leave (fst (fst (enter t fn r s))) (snd (fst (enter t fn r s))) (snd (enter t fn r s)) keep = with_sz t (if keep then s else 0).
Proof.
  intros [a b c d e] fn r s keep H1 H2. cbn in *. subst. cbn. unfold with_sz. cbn. destruct e; reflexivity.
Qed.

Lemma run_outside : forall dbg a, outside dbg a.
Proof.
  intros dbg. apply (act_ind' (outside dbg)); unfold outside.
  - intros c s w w' j H1 H2 T P R. cbn in R. inversion R; subst. cbn. split; [reflexivity|].
    unfold site_or. rewrite H2. cbn. unfold outcome. cbn.
    split; [exists (t_sz (w_t w)); symmetry; apply tls_eta|]. rewrite map_app. auto.
  - intros c m w w' j H1 H2 T P R. cbn in R. inversion R; subst. cbn. split; [reflexivity|].
    unfold site_or. rewrite H2. cbn. unfold outcome. cbn.
    split; [exists (t_sz (w_t w)); symmetry; apply tls_eta|]. rewrite map_app. split; [reflexivity|].
    intros _ Z0. rewrite Z0. auto.
  - intros fn r s k b HB w w' j H1 H2 T P R.
    cbn [tame proper] in T, P. apply andb_true_iff in T. destruct T as [Te Tb].
    apply andb_true_iff in P. destruct P as [P Pb]. apply andb_true_iff in P. destruct P as [P1 P2].
    apply negb_true_iff in Te, P1, P2. apply Z.eqb_neq in P1, P2.
    cbn [run] in R. pose proof (leave_enter (w_t w) fn r s k H1 H2) as LE.
    assert (EN : t_fn (fst (fst (enter (w_t w) fn r s))) = fn /\ t_site (fst (fst (enter (w_t w) fn r s))) = r /\ t_sz (fst (fst (enter (w_t w) fn r s))) = s).
    { unfold enter. rewrite H1, H2. cbn. auto. }
    destruct (enter (w_t w) fn r s) as [[t setting] set]. cbn [fst snd] in LE, EN. destruct EN as (E1 & E2 & E3).
    match type of R with context [bind ?e _] => change e with (runs dbg b (w_tls w t)) in R end.
    destruct (runs dbg b (w_tls w t)) as [[w1 j1]| | |] eqn:E; cbn in R; try discriminate.
    destruct (runs_inside dbg b (mkF r s) [] (w_tls w t) w1 j1) as (J & Tw & Lw); try assumption; try (cbn; congruence).
    pose proof (escapes_none_l b [mkF r s] Te) as N. rewrite N in J. subst j1.
    inversion R; subst w' j. clear R.
    change (happen [] (Call fn r s k b)) with (happens [mkF r s] b). rewrite N. split; [reflexivity|].
    cbn [w_tls w_t w_log] in Tw, Lw. unfold outcome. cbn [w_tls w_t w_log]. rewrite Tw, LE, Lw.
    split; [eexists; reflexivity|]. rewrite map_app. split; [reflexivity|].
    intros S Z0. cbn [sizeless] in S. apply andb_true_iff in S. destruct S as [S _]. apply negb_true_iff in S. subst k.
    split; [|reflexivity]. rewrite <- (tls_eta (w_t w)) at 2. rewrite Z0. reflexivity.
  - intros fn r s b p HB w w' j H1 H2 T P R.
    cbn [tame proper] in T, P. apply andb_true_iff in T. destruct T as [Te Tb].
    apply andb_true_iff in P. destruct P as [P Pb]. apply andb_true_iff in P. destruct P as [P1 P2].
    apply negb_true_iff in Te, P1, P2. apply Z.eqb_neq in P1, P2.
    cbn [run] in R. pose proof (leave_enter (w_t w) fn r s false H1 H2) as LE.
    assert (EN : t_fn (fst (fst (enter (w_t w) fn r s))) = fn /\ t_site (fst (fst (enter (w_t w) fn r s))) = r /\ t_sz (fst (fst (enter (w_t w) fn r s))) = s).
    { unfold enter. rewrite H1, H2. cbn. auto. }
    destruct (enter (w_t w) fn r s) as [[t setting] set]. cbn [fst snd] in LE, EN. destruct EN as (E1 & E2 & E3).
    match type of R with context [bind ?e _] => change e with (runs dbg b (w_tls w t)) in R end.
    destruct (runs dbg b (w_tls w t)) as [[w1 j1]| | |] eqn:E; cbn [bind] in R; try discriminate.
    destruct (runs_inside dbg b (mkF r s) [] (w_tls w t) w1 j1) as (J & Tw & Lw); try assumption; try (cbn; congruence).
    pose proof (escapes_none_l b [mkF r s] Te) as N. rewrite N in J. subst j1.
    destruct (asrt dbg _) eqn:A in R; cbn [bind] in R; try discriminate.
    change (happen [] (Sub fn r s b p)) with
      (let ch' := [mkF r s] in let '(h, j) := happens ch' b in
       if j then (h, true) else (h ++ [(ch', WSmall fn p)], false)).
    cbv zeta. destruct (happens [mkF r s] b) as [h jh]. cbn [fst snd w_tls w_log w_t] in N, Lw, Tw. subst jh. cbn [fst snd].
    inversion R; subst w' j. clear R. split; [reflexivity|].
    assert (G : forall x, w_t (if w_lev w1 fn =? 0 then w_setlev (w_ev w1 x) fn 2 else w_ev w1 x) = w_t w1 /\
                          w_log (if w_lev w1 fn =? 0 then w_setlev (w_ev w1 x) fn 2 else w_ev w1 x) = w_log w1 ++ [x]).
    { intros x. destruct (w_lev w1 fn =? 0); split; reflexivity. }
    destruct (G (ESmall p (t_site (w_t w1)) (t_sz (w_t w1) mod W32))) as [G1 G2].
    match type of G1 with w_t ?x = _ => set (w3 := x) in * end. clearbody w3.
    unfold outcome. cbn [w_tls w_t w_log]. rewrite G1, G2, Tw, LE, Lw, E2, E3.
    assert (LL : (w_log w ++ tmap h) ++ [ESmall p r (s mod W32)] = w_log w ++ tmap (h ++ [([mkF r s], WSmall fn p)])).
    { unfold tmap. rewrite map_app, <- app_assoc. reflexivity. }
    rewrite LL. split; [eexists; reflexivity|]. rewrite map_app. split; [reflexivity|].
    intros S Z0. split; [|reflexivity]. rewrite <- (tls_eta (w_t w)) at 2. rewrite Z0. reflexivity.
  - intros b HB w w' j H1 H2 T P R.
    cbn [tame proper] in T, P. apply andb_true_iff in T. destruct T as [Te Tb]. apply negb_true_iff in Te.
    cbn [run] in R.
    match type of R with context [bind ?e _] =>
      change e with (runs dbg b (if negb (t_freeing (w_t w)) then w_tls w (fr (w_t w) true) else w)) in R end.
    set (w0 := if negb (t_freeing (w_t w)) then w_tls w (fr (w_t w) true) else w) in *.
    assert (F : t_fn (w_t w0) = 0 /\ t_site (w_t w0) = 0 /\ t_sz (w_t w0) = t_sz (w_t w) /\ w_log w0 = w_log w).
    { subst w0. destruct (negb (t_freeing (w_t w))); cbn; auto. }
    destruct F as (F1 & F2 & F4 & F5).
    destruct (runs dbg b w0) as [[w1 j1]| | |] eqn:E; cbn [bind] in R; try discriminate.
    destruct (outside_list dbg b HB w0 w1 j1 F1 F2 Tb P E) as (J & (z & Tw) & Lw & Sw).
    pose proof (escapes_none_l b [] Te) as N. rewrite N in J. subst j1.
    change (happen [] (Free b)) with (happens [] b). rewrite N.
    inversion R; subst w' j. clear R. split; [reflexivity|].
    rewrite F5 in *. rewrite F4 in Sw. change (sizeless (Free b)) with (forallb sizeless b).
    destruct (t_freeing (w_t w)) eqn:Q; cbn [negb] in *.
    + subst w0. unfold outcome. eauto.
    + unfold outcome. cbn [w_tls w_t w_log]. split.
      * exists z. rewrite Tw. subst w0. cbn. unfold with_sz. cbn. rewrite Q. reflexivity.
      * split; [exact Lw|]. intros S Z0. destruct (Sw S Z0) as (A & B). split; [|exact B].
        change (fr (w_t w1) false = w_t w). rewrite A. subst w0. apply fr_back. exact Q.
  - intros fn p b HB w w' j H1 H2 T P R.
    cbn [tame proper] in T, P. apply andb_true_iff in T. destruct T as [Te Tb]. apply negb_true_iff in Te.
    cbn [run] in R.
    set (w0 := if negb (t_freeing (w_t w)) then _ else w) in R.
    assert (W0 : w0 = if negb (t_freeing (w_t w)) then w_tls w (fr (w_t w) true) else w) by reflexivity.
    destruct (asrt dbg (negb (w_lev w0 fn =? 0))) eqn:A; cbn [bind] in R; try discriminate.
    match type of R with context [bind ?e _] => change e with (runs dbg b (w_ev w0 (EUnsmall p))) in R end.
    clearbody w0.
    assert (F : t_fn (w_t w0) = 0 /\ t_site (w_t w0) = 0 /\ t_sz (w_t w0) = t_sz (w_t w) /\ w_log w0 = w_log w).
    { subst w0. destruct (negb (t_freeing (w_t w))); cbn; auto. }
    destruct F as (F1 & F2 & F4 & F5).
    destruct (runs dbg b (w_ev w0 (EUnsmall p))) as [[w1 j1]| | |] eqn:E; cbn [bind] in R; try discriminate.
    destruct (outside_list dbg b HB (w_ev w0 (EUnsmall p)) w1 j1 F1 F2 Tb P E) as (J & (z & Tw) & Lw & Sw).
    pose proof (escapes_none_l b [] Te) as N. rewrite N in J. subst j1.
    change (happen [] (SubFree fn p b)) with
      (let '(h, j) := happens [] b in (([], WUnsmall fn p) :: h, j)).
    destruct (happens [] b) as [h jh]. cbn [fst snd w_tls w_log w_t w_ev] in N, Lw, Tw, Sw. subst jh. cbn [fst snd].
    inversion R; subst w' j. clear R. split; [reflexivity|].
    rewrite F5 in *. rewrite F4 in Sw. change (sizeless (SubFree fn p b)) with (forallb sizeless b).
    rewrite map_app, <- app_assoc in Lw.
    assert (LL : forall S : Prop, S -> w_log w1 = (w_log w ++ [EUnsmall p]) ++ tmap h -> w_log w1 = w_log w ++ EUnsmall p :: tmap h).
    { intros _ _ ->. rewrite <- app_assoc. reflexivity. }
    destruct (t_freeing (w_t w)) eqn:Q; cbn [negb] in *.
    + subst w0. unfold outcome. split; [exists z; exact Tw|]. split; [exact Lw|].
      intros S Z0. destruct (Sw S Z0) as (C & D). split; [exact C|]. cbn. apply (LL _ I D).
    + unfold outcome. cbn [w_tls w_t w_log]. split.
      * exists z. rewrite Tw. subst w0. cbn. unfold with_sz. cbn. rewrite Q. reflexivity.
      * split; [exact Lw|]. intros S Z0. destruct (Sw S Z0) as (C & D). split; [|apply (LL _ I D)].
        change (fr (w_t w1) false = w_t w). rewrite C. subst w0. apply fr_back. exact Q.
  - intros b HB w w' j H1 H2 T P R. cbn [tame proper] in T, P. cbn [run] in R.
    match type of R with context [bind ?e _] => change e with (runs dbg b w) in R end.
    destruct (runs dbg b w) as [[w1 j1]| | |] eqn:E; cbn in R; try discriminate.
    destruct (outside_list dbg b HB w w1 j1 H1 H2 T P E) as (J & O).
    change (happen [] (Catch b)) with (fst (happens [] b), false).
    inversion R; subst. split; [reflexivity|]. exact O.
  - intros w w' j H1 H2 T P R. cbn in R. inversion R; subst. cbn. split; [reflexivity|].
    unfold outcome. cbn. rewrite !app_nil_r. split; [exists (t_sz (w_t w')); symmetry; apply tls_eta|]. auto.
Qed.

(* the checks on small objects' functions *)
Fixpoint able (lev : Z -> Z) (h : list (list frame * what)) : Prop :=
  match h with
  | [] => True
  | (_, WUnsmall f _) :: r => lev f <> 0 /\ able lev r
  | (_, WSmall f _) :: r => able (fun g => if g =? f then 2 else lev g) r
  | _ :: r => able lev r
  end.
Lemma able_ext : forall h l1 l2, (forall g, l1 g = l2 g) -> able l1 h -> able l2 h.
Proof.
  induction h as [|[c x] h IH]; intros l1 l2 H A; [exact I|].
  destruct x as [a b|a b|f p|f p]; cbn in *; try (apply (IH l1); assumption).
  - apply (IH (fun g => if g =? f then 2 else l1 g)); [|exact A].
    intros g. destruct (g =? f); [reflexivity|apply H].
  - destruct A as [A1 A2]. rewrite <- H. split; [exact A1|apply (IH l1); assumption].
Qed.

Definition levels (lev : Z -> Z) : Prop := forall f, lev f = 0 \/ lev f = 2.
Definition ready (dbg : bool) (lev : Z -> Z) (k : list (list frame * what)) : Prop :=
  dbg = true -> levels lev /\ able lev k.
Definition runs_ok (dbg : bool) (a : act) : Prop :=
  forall ch w k, tame a = true -> ready dbg (w_lev w) (fst (happen ch a) ++ k) ->
  exists w', run dbg a w = Ok (w', snd (happen ch a)) /\ ready dbg (w_lev w') k.

Lemma runs_ok_list : forall dbg l, Forall (runs_ok dbg) l -> forall ch w k, forallb tame l = true ->
  ready dbg (w_lev w) (fst (happens ch l) ++ k) ->
  exists w', runs dbg l w = Ok (w', snd (happens ch l)) /\ ready dbg (w_lev w') k.
Proof.
  induction 1 as [|x l HX HL IH]; intros ch w k T A.
  - exists w. auto.
  - cbn [forallb] in T. apply andb_true_iff in T. destruct T as [T1 T2].
    cbn [runs happens] in *. specialize (HX ch w). destruct (happen ch x) as [h j]. cbn [fst snd] in HX.
    destruct j.
    + destruct (HX k T1 A) as (w1 & R & B). exists w1. rewrite R. cbn. auto.
    + specialize (IH ch). destruct (happens ch l) as [h' j']. cbn [fst snd] in *.
      rewrite <- app_assoc in A. destruct (HX (h' ++ k) T1 A) as (w1 & R & B).
      destruct (IH w1 k T2 B) as (w2 & R2 & B2). exists w2. rewrite R. cbn. auto.
Qed.

Lemma run_ok : forall dbg a, runs_ok dbg a.
Proof.
  intros dbg. apply (act_ind' (runs_ok dbg)); unfold runs_ok.
  - intros c s ch w k T A. eexists. split; [reflexivity|]. exact A.
  - intros c m ch w k T A. eexists. split; [reflexivity|]. exact A.
  - intros fn r s keep b HB ch w k T A.
    cbn [tame] in T. apply andb_true_iff in T. destruct T as [Te Tb]. apply negb_true_iff in Te.
    cbn [run]. destruct (enter (w_t w) fn r s) as [[t setting] set].
    match goal with |- context [bind ?e _] => change e with (runs dbg b (w_tls w t)) end.
    change (happen ch (Call fn r s keep b)) with (happens (ch ++ [mkF r s]) b) in *.
    destruct (runs_ok_list dbg b HB (ch ++ [mkF r s]) (w_tls w t) k Tb A) as (w1 & R & B).
    rewrite R. rewrite (escapes_none_l b _ Te). cbn. eexists. split; [reflexivity|]. exact B.
  - intros fn r s b p HB ch w k T A.
    cbn [tame] in T. apply andb_true_iff in T. destruct T as [Te Tb]. apply negb_true_iff in Te.
    cbn [run]. destruct (enter (w_t w) fn r s) as [[t setting] set].
    match goal with |- context [bind ?e _] => change e with (runs dbg b (w_tls w t)) end.
    change (happen ch (Sub fn r s b p)) with
      (let ch' := ch ++ [mkF r s] in let '(h, j) := happens ch' b in
       if j then (h, true) else (h ++ [(ch', WSmall fn p)], false)) in *.
    cbv zeta in *. pose proof (escapes_none_l b (ch ++ [mkF r s]) Te) as N.
    pose proof (runs_ok_list dbg b HB (ch ++ [mkF r s]) (w_tls w t)) as X.
    destruct (happens (ch ++ [mkF r s]) b) as [h jh]. cbn [fst snd] in *. subst jh. cbn [fst snd] in *.
    rewrite <- app_assoc in A. cbn in A.
    destruct (X ((ch ++ [mkF r s], WSmall fn p) :: k) Tb A) as (w1 & R & B).
    rewrite R. cbn [bind w_lev w_ev].
    assert (AS : asrt dbg ((w_lev w1 fn =? 0) || (2 =? w_lev w1 fn)) = Ok tt).
    { unfold Big_model.asrt. destruct dbg; [|reflexivity]. destruct (B eq_refl) as [L _].
      destruct (L fn) as [-> | ->]; reflexivity. }
    rewrite AS. cbn [bind]. eexists. split; [reflexivity|].
    intros D. destruct (B D) as [L AB]. cbn in AB.
    destruct (Z.eqb_spec (w_lev w1 fn) 0) as [Q|Q]; cbn.
    + split; [|exact AB]. intros g. destruct (g =? fn); [right; reflexivity|apply L].
    + split; [exact L|]. eapply able_ext; [|exact AB]. intros g. cbn.
      destruct (Z.eqb_spec g fn) as [->|]; [|reflexivity]. destruct (L fn); congruence.
  - intros b HB ch w k T A.
    cbn [tame] in T. apply andb_true_iff in T. destruct T as [Te Tb]. apply negb_true_iff in Te.
    cbn [run]. set (w0 := if negb (t_freeing (w_t w)) then _ else w).
    assert (W0 : w_lev w0 = w_lev w) by (subst w0; destruct (negb (t_freeing (w_t w))); reflexivity).
    match goal with |- context [bind ?e _] => change e with (runs dbg b w0) end. clearbody w0.
    change (happen ch (Free b)) with (happens ch b) in *. rewrite <- W0 in A.
    destruct (runs_ok_list dbg b HB ch w0 k Tb A) as (w1 & R & B).
    rewrite R. rewrite (escapes_none_l b _ Te). cbn. eexists. split; [reflexivity|].
    destruct (negb (t_freeing (w_t w))); exact B.
  - intros fn p b HB ch w k T A.
    cbn [tame] in T. apply andb_true_iff in T. destruct T as [Te Tb]. apply negb_true_iff in Te.
    cbn [run]. set (w0 := if negb (t_freeing (w_t w)) then _ else w).
    assert (W0 : w_lev w0 = w_lev w) by (subst w0; destruct (negb (t_freeing (w_t w))); reflexivity).
    match goal with |- context [bind ?e _] => match e with context [w_ev] => change e with (runs dbg b (w_ev w0 (EUnsmall p))) end end.
    clearbody w0.
    change (happen ch (SubFree fn p b)) with
      (let '(h, j) := happens ch b in ((ch, WUnsmall fn p) :: h, j)) in *.
    pose proof (escapes_none_l b ch Te) as N.
    pose proof (runs_ok_list dbg b HB ch (w_ev w0 (EUnsmall p)) k Tb) as X.
    destruct (happens ch b) as [h jh]. cbn [fst snd] in *. subst jh.
    assert (AS : asrt dbg (negb (w_lev w0 fn =? 0)) = Ok tt).
    { unfold Big_model.asrt. destruct dbg; [|reflexivity]. destruct (A eq_refl) as [L [AB _]].
      rewrite W0. destruct (Z.eqb_spec (w_lev w fn) 0); [contradiction|reflexivity]. }
    rewrite AS. cbn [bind]. destruct X as (w1 & R & B).
    { cbn. rewrite W0. intros D. destruct (A D) as [L [_ AB]]. auto. }
    rewrite R. cbn. eexists. split; [reflexivity|].
    destruct (negb (t_freeing (w_t w))); exact B.
  - intros b HB ch w k T A. cbn [tame] in T. cbn [run].
    match goal with |- context [bind ?e _] => change e with (runs dbg b w) end.
    change (happen ch (Catch b)) with (fst (happens ch b), false) in *. cbn [fst snd] in *.
    destruct (runs_ok_list dbg b HB ch w k T A) as (w1 & R & B). rewrite R. cbn. eauto.
  - intros ch w k T A. exists w. auto.
Qed.

Lemma freed_able : forall h pre lev, (forall c f p, In (c, WSmall f p) pre -> lev f <> 0) ->
  freed_after (pre ++ h) -> able lev h.
Proof.
  induction h as [|[c x] h IH]; intros pre lev K F; [exact I|].
  assert (S : pre ++ (c, x) :: h = (pre ++ [(c, x)]) ++ h) by (rewrite <- app_assoc; reflexivity).
  assert (K' : (forall f p, x <> WSmall f p) -> forall c0 f p, In (c0, WSmall f p) (pre ++ [(c, x)]) -> lev f <> 0).
  { intros X c0 f p H. apply in_app_or in H. destruct H as [H|[H|[]]]; [eapply K; eassumption|].
    inversion H. subst. exfalso. eapply X. reflexivity. }
  destruct x as [a b|a b|f p|f p]; cbn.
  - apply (IH (pre ++ [(c, WHeap a b)])); [apply K'; discriminate|rewrite <- S; exact F].
  - apply (IH (pre ++ [(c, WResize a b)])); [apply K'; discriminate|rewrite <- S; exact F].
  - apply (IH (pre ++ [(c, WSmall f p)])); [|rewrite <- S; exact F].
    intros c0 g q H. cbn. destruct (Z.eqb_spec g f); [lia|].
    apply in_app_or in H. destruct H as [H|[H|[]]]; [eapply K; eassumption|]. inversion H. congruence.
  - split.
    + destruct (F pre c f p h eq_refl) as (c' & q & H). eapply K. exact H.
    + apply (IH (pre ++ [(c, WUnsmall f p)])); [apply K'; discriminate|rewrite <- S; exact F].
Qed.

(* a test for freed_after *)
Fixpoint freedb (seen : list Z) (h : list (list frame * what)) : bool :=
  match h with
  | [] => true
  | (_, WUnsmall f _) :: r => existsb (Z.eqb f) seen && freedb seen r
  | (_, WSmall f _) :: r => freedb (f :: seen) r
  | _ :: r => freedb seen r
  end.
Lemma freedb_spec : forall h pre seen, (forall f, In f seen -> exists c p, In (c, WSmall f p) pre) ->
  freedb seen h = true -> forall h1 c f p h2, h = h1 ++ (c, WUnsmall f p) :: h2 -> exists c' q, In (c', WSmall f q) (pre ++ h1).
Proof.
  induction h as [|[c0 x] h IH]; intros pre seen K B h1 c f p h2 E; [destruct h1; discriminate|].
  destruct h1 as [|y h1]; cbn [app] in E.
  - inversion E; subst. cbn in B. apply andb_true_iff in B. destruct B as [B _].
    apply existsb_exists in B. destruct B as (g & G1 & G2). apply Z.eqb_eq in G2. subst g.
    destruct (K f G1) as (c' & q & I). exists c', q. apply in_or_app. left. exact I.
  - inversion E; subst. 
    assert (S : pre ++ (c0, x) :: h1 = (pre ++ [(c0, x)]) ++ h1) by (rewrite <- app_assoc; reflexivity).
    rewrite S. destruct x as [a b|a b|g q|g q]; cbn in B.
    3: { apply (IH (pre ++ [(c0, WSmall g q)]) (g :: seen)) with (c := c) (p := p) (h2 := h2); auto.
         intros f0 [->|H]; [exists c0, q; apply in_or_app; right; left; reflexivity|].
         destruct (K f0 H) as (c' & q' & I). exists c', q'. apply in_or_app. left. exact I. }
    3: apply andb_true_iff in B; destruct B as [_ B].
    1: apply (IH (pre ++ [(c0, WHeap a b)]) seen) with (c := c) (p := p) (h2 := h2); auto.
    2: apply (IH (pre ++ [(c0, WResize a b)]) seen) with (c := c) (p := p) (h2 := h2); auto.
    3: apply (IH (pre ++ [(c0, WUnsmall g q)]) seen) with (c := c) (p := p) (h2 := h2); auto.
    all: intros f0 H; destruct (K f0 H) as (c' & q' & I); exists c', q'; apply in_or_app; left; exact I.
Qed.
Lemma freedb_ok : forall h, freedb [] h = true -> freed_after h.
Proof. intros h B h1 c f p h2 E. apply (freedb_spec h [] [] (fun f H => match H with end) B h1 c f p h2 E). Qed.
