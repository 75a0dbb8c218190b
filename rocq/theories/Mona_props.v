(* C81: rewriting calls of alloca leaves programs as they were, and reports each call. *)
From Coq Require Import String.
From Verif Require Import Base Insert_model Alloca_model Mona_model.

(* ---- what it says *)
(* Does the function call alloca? *)
Definition names_alloca (f : string) : bool := (f =? "alloca")%string || (f =? "__builtin_alloca")%string.
Fixpoint calls_alloca (c : stmt) : bool :=
  match c with
  | Ins (Call _ (Named f) [_] _) => names_alloca f
  | Seq a b | If _ a b => calls_alloca a || calls_alloca b
  | Loop a => calls_alloca a
  | _ => false
  end.

(* The variables of expressions and of functions are below n; sizes given to alloca are not read
   from volatile variables; the functions called are none of the library's, nor the other built-in
   form of alloca. *)
Fixpoint below (n : var) (e : expr) : Prop :=
  match e with
  | Lv v | AddrOf v => (v < n)%nat
  | Add a b | Mul a b => below n a /\ below n b
  | Mem a => below n a
  | Const _ | Vol _ => True
  end.
Fixpoint steady (e : expr) : Prop :=
  match e with
  | Vol _ => False
  | Add a b | Mul a b => steady a /\ steady b
  | Mem a => steady a
  | _ => True
  end.
Definition opt_below (n : var) (t : option var) : Prop := match t with Some v => (v < n)%nat | None => True end.
Definition reserved (f : string) : bool :=
  (f =? "__liballocs_alloca_size")%string || (f =? "__liballocs_notify_and_adjust_alloca")%string
  || (f =? "__builtin_alloca_with_align")%string.
Definition plain1 (n : var) (i : instr) : Prop :=
  match i with
  | Set_ v e => (v < n)%nat /\ below n e
  | Poke a e => below n a /\ below n e
  | Call t (Named f) args _ => opt_below n t /\ Forall (below n) args /\ reserved f = false /\
      (names_alloca f = true -> forall e, args = [e] -> steady e)
  | Call t (Computed e) args _ => opt_below n t /\ below n e /\ Forall (below n) args
  | Asm v _ => (v < n)%nat
  end.
Fixpoint plain (n : var) (c : stmt) : Prop :=
  match c with
  | Skip | Break => True
  | Ins i => plain1 n i
  | Seq a b => plain n a /\ plain n b
  | If e a b => below n e /\ plain n a /\ plain n b
  | Loop a => plain n a
  | Return e => below n e
  end.
Definition plain_fun (f : fundec) : Prop :=
  plain (f_next f) (f_body f) /\
  Forall (fun l => l_named l = false /\ l_cleanup l = false) (f_locals f) /\
  f_name f <> "__liballocs_unindex_stack_objects_counted_by"%string /\ f_name f <> "__liballocs_alloca"%string.

(* The run the program is to be unable to tell from its own: alloca returns the aligned address
   inside the padded block, whose contents are whatever the library has left there. *)
Definition unwatched (w : world) : world :=
  mkW (w_vol w) (w_ret w) (w_eff w) (w_adr w) (fun k => user_of (w_give w k)) (w_note w) (w_note w).
Definition quiet (w : world) : Prop := forall k m, w_fill w k m = m.
(* What the library sees: each alloca is of the padded size, and is at once notified with its
   address, the size asked for and that given, the counter, and the place. *)
Fixpoint watch (w : world) (c : var) (k : nat) (l : list event) : list event :=
  match l with
  | [] => []
  | EAlloca n _ site :: l =>
      EAlloca (alloca_size n) (w_give w k) site ::
      ENotify (w_give w k) n (alloca_size n) (w_adr w c) site :: watch w c (S k) l
  | e :: l => e :: watch w c k l
  end.
(* the usable sizes of the chunks of a run, which the library's cleanup counts *)
Fixpoint chunks (w : world) (k : nat) (l : list event) : list Z :=
  match l with
  | [] => []
  | EAlloca n _ _ :: l => usable_of (w_give w k) (alloca_size n) :: chunks w (S k) l
  | _ :: l => chunks w k l
  end.
Definition total (w : world) (l : list event) : Z := w64 (fold_right Z.add 0 (chunks w 0 l)).

(* ---- proofs *)
Fixpoint allocs (l : list event) : nat :=
  match l with [] => O | EAlloca _ _ _ :: l => S (allocs l) | _ :: l => allocs l end.
Lemma watch_app w c k l m : watch w c k (l ++ m) = watch w c k l ++ watch w c (k + allocs l) m.
Proof.
  revert k. induction l as [|e l IH]; intros k; [cbn; now rewrite Nat.add_0_r|].
  destruct e; cbn [app watch allocs]; rewrite IH; try reflexivity. now rewrite Nat.add_succ_r.
Qed.
Lemma chunks_app w k l m : chunks w k (l ++ m) = chunks w k l ++ chunks w (k + allocs l) m.
Proof.
  revert k. induction l as [|e l IH]; intros k; [cbn; now rewrite Nat.add_0_r|].
  destruct e; cbn [app chunks allocs]; rewrite IH; try reflexivity. now rewrite Nat.add_succ_r.
Qed.
Lemma allocs_app l m : allocs (l ++ m) = (allocs l + allocs m)%nat.
Proof. induction l as [|e l IH]; [reflexivity|]. destruct e; cbn; rewrite IH; reflexivity. Qed.
Lemma sum_app l m : fold_right Z.add 0 (l ++ m) = fold_right Z.add 0 l + fold_right Z.add 0 m.
Proof. induction l; cbn; lia. Qed.
Lemma total_alloca w l n p site : total w (l ++ [EAlloca n p site]) = w64 (total w l + usable_of (w_give w (allocs l)) (alloca_size n)).
Proof.
  unfold total, w64. rewrite chunks_app, sum_app. cbn [chunks fold_right Nat.add]. rewrite Zplus_mod_idemp_l. f_equal. lia.
Qed.
Definition mute (e : event) : bool := match e with EAlloca _ _ _ => false | _ => true end.
Lemma total_mute w l e : mute e = true -> total w (l ++ [e]) = total w l.
Proof. intros M. unfold total. rewrite chunks_app. destruct e; try discriminate M; cbn; now rewrite app_nil_r. Qed.
Lemma watch_mute w c k l e : mute e = true -> watch w c k (l ++ [e]) = watch w c k l ++ [e].
Proof. intros M. rewrite watch_app. destruct e; try discriminate M; reflexivity. Qed.
Lemma allocs_mute l e : mute e = true -> allocs (l ++ [e]) = allocs l.
Proof. intros M. rewrite allocs_app. destruct e; try discriminate M; cbn; lia. Qed.

Section Sim.
Variable w : world.
Hypothesis Q : quiet w.
Variable n0 : var.          (* also the counter *)
Variable hc : bool.         (* is there a counter *)
Record sim (s s' : st) : Prop := mkSim {
  m_vars : forall v, (v < n0)%nat -> vars s' v = vars s v;
  m_mem : mem s' = mem s; m_vol : nvol s' = nvol s; m_call : ncall s' = ncall s; m_all : nall s' = nall s;
  m_tr : tr s' = watch w n0 0 (tr s);
  m_n : nall s = allocs (tr s);
  m_ctr : hc = true -> vars s' n0 = total w (tr s) }.

Lemma eval_sim e : below n0 e -> forall s s', sim s s' ->
  exists z t t', eval (unwatched w) s e = (z, t) /\ eval w s' e = (z, t') /\ sim t t'.
Proof.
  induction e; cbn [below eval]; intros B s s' H.
  - eauto 6.
  - rewrite (m_vars _ _ H v B). eauto 6.
  - eauto 6.
  - destruct B as [B1 B2]. destruct (IHe1 B1 s s' H) as (x & t & t' & E1 & E2 & H1). rewrite E1, E2.
    destruct (IHe2 B2 t t' H1) as (y & u & u' & E3 & E4 & H2). rewrite E3, E4. eauto 6.
  - destruct B as [B1 B2]. destruct (IHe1 B1 s s' H) as (x & t & t' & E1 & E2 & H1). rewrite E1, E2.
    destruct (IHe2 B2 t t' H1) as (y & u & u' & E3 & E4 & H2). rewrite E3, E4. eauto 6.
  - destruct (IHe B s s' H) as (x & t & t' & E1 & E2 & H1). rewrite E1, E2. rewrite (m_mem _ _ H1). eauto 6.
  - rewrite (m_vol _ _ H). eexists _, _, _. split; [reflexivity|]. split; [reflexivity|].
    destruct H; constructor; cbn; auto.
Qed.
Lemma evals_sim l : Forall (below n0) l -> forall s s', sim s s' ->
  exists zs t t', evals (unwatched w) s l = (zs, t) /\ evals w s' l = (zs, t') /\ sim t t'.
Proof.
  induction 1 as [|e l B _ IH]; intros s s' H; cbn [evals]; [eauto 6|].
  destruct (eval_sim e B s s' H) as (x & t & t' & E1 & E2 & H1). rewrite E1, E2.
  destruct (IH t t' H1) as (y & u & u' & E3 & E4 & H2). rewrite E3, E4. eauto 6.
Qed.
Lemma assign_sim t z s s' : opt_below n0 t -> sim s s' -> sim (assign t z s) (assign t z s').
Proof.
  destruct t as [v|]; cbn; [|auto]. intros B H. destruct H; constructor; cbn; auto.
  - intros u Hu. unfold upd. destruct (Nat.eqb u v); auto.
  - intros E. unfold upd. destruct (Nat.eqb_spec n0 v); [lia|auto].
Qed.
Lemma other_sim t e s s' : opt_below n0 t -> mute e = true -> sim s s' -> sim (other (unwatched w) t e s) (other w t e s').
Proof.
  intros B M H. unfold other. rewrite (m_call _ _ H), (m_mem _ _ H). apply assign_sim; auto.
  destruct H; constructor; cbn; auto.
  - now rewrite watch_mute, m_tr0.
  - now rewrite allocs_mute.
  - intros E. rewrite total_mute by auto. auto.
Qed.

(* sizes that are steady *)
Lemma eval_steady v s e : steady e -> snd (eval v s e) = s.
Proof.
  revert s. induction e; cbn [steady eval]; intros s H; try reflexivity; try contradiction.
  - destruct H as [H1 H2]. specialize (IHe1 s H1). destruct (eval v s e1) as [x t]. cbn in IHe1. subst t.
    specialize (IHe2 s H2). destruct (eval v s e2) as [y t]. cbn in IHe2. now subst.
  - destruct H as [H1 H2]. specialize (IHe1 s H1). destruct (eval v s e1) as [x t]. cbn in IHe1. subst t.
    specialize (IHe2 s H2). destruct (eval v s e2) as [y t]. cbn in IHe2. now subst.
  - specialize (IHe s H). destruct (eval v s e) as [x t]. cbn in *. now subst.
Qed.
Lemma eval_again s s2 e : below n0 e -> steady e -> mem s2 = mem s -> (forall v, (v < n0)%nat -> vars s2 v = vars s v) ->
  eval w s2 e = (fst (eval w s e), s2).
Proof.
  intros B S M V. assert (E : fst (eval w s2 e) = fst (eval w s e)).
  { revert B S. induction e; cbn [below steady eval]; intros B S; try reflexivity; try contradiction.
    - cbn. auto.
    - destruct B as [B1 B2], S as [S1 S2]. specialize (IHe1 B1 S1). specialize (IHe2 B2 S2).
      pose proof (eval_steady w s e1 S1) as K1. pose proof (eval_steady w s2 e1 S1) as K2.
      destruct (eval w s e1) as [x t], (eval w s2 e1) as [x2 t2]. cbn in *. subst.
      destruct (eval w s e2), (eval w s2 e2). cbn in *. now subst.
    - destruct B as [B1 B2], S as [S1 S2]. specialize (IHe1 B1 S1). specialize (IHe2 B2 S2).
      pose proof (eval_steady w s e1 S1) as K1. pose proof (eval_steady w s2 e1 S1) as K2.
      destruct (eval w s e1) as [x t], (eval w s2 e1) as [x2 t2]. cbn in *. subst.
      destruct (eval w s e2), (eval w s2 e2). cbn in *. now subst.
    - specialize (IHe B S). pose proof (eval_steady w s e S) as K1. pose proof (eval_steady w s2 e S) as K2.
      destruct (eval w s e), (eval w s2 e). cbn in *. subst. now rewrite M. }
  pose proof (eval_steady w s2 e S) as K. destruct (eval w s2 e) as [x t]. cbn in *. now subst.
Qed.

Lemma exec1_sim fn i : plain1 n0 i ->
  match i with Call _ f [_] _ => is_alloca fn f = false | _ => True end ->
  fn <> "__liballocs_unindex_stack_objects_counted_by"%string -> fn <> "__liballocs_alloca"%string ->
  forall s s', sim s s' -> sim (exec1 (unwatched w) i s) (exec1 w i s').
Proof.
  intros P NA F1 F2 s s' H. destruct i as [v e|a e|t [f|e] args loc|v loc]; cbn [exec1 plain1] in *.
  - destruct P as [P1 P2]. destruct (eval_sim e P2 s s' H) as (x & u & u' & E1 & E2 & H1). rewrite E1, E2.
    now apply assign_sim.
  - destruct P as [P1 P2]. destruct (eval_sim a P1 s s' H) as (x & u & u' & E1 & E2 & H1). rewrite E1, E2.
    destruct (eval_sim e P2 u u' H1) as (y & r & r' & E3 & E4 & H2). rewrite E3, E4.
    destruct H2; constructor; cbn; auto. now rewrite m_mem0.
  - destruct P as (Pt & Pa & Pr & _). unfold reserved in Pr. apply orb_false_iff in Pr. destruct Pr as [Pr P3].
    apply orb_false_iff in Pr. destruct Pr as [Pr1 P2].
    assert (Def : sim (let '(zs, s) := evals (unwatched w) s args in other (unwatched w) t (ECall f zs) s)
                      (let '(zs, s) := evals w s' args in other w t (ECall f zs) s)).
    { destruct (evals_sim args Pa s s' H) as (zs & u & u' & E1 & E2 & H1). rewrite E1, E2. now apply other_sim. }
    unfold exec_call. destruct args as [|a [|b [|c [|d [|e [|g args]]]]]]; try exact Def.
    + assert (B : is_builtin f = false).
      { unfold is_alloca in NA. apply String.eqb_neq in F1, F2. rewrite F1, F2 in NA. exact NA. }
      rewrite B, Pr1. cbn [evals] in Def. revert Def.
      destruct (eval (unwatched w) s a), (eval w s' a). auto.
    + rewrite P3. cbn [evals] in Def. revert Def.
      destruct (eval (unwatched w) s a) as [x u], (eval w s' a) as [x' u'].
      destruct (eval (unwatched w) u b), (eval w u' b). auto.
    + destruct d; exact Def.
    + destruct d; try exact Def. rewrite P2. exact Def.
    + destruct d; exact Def.
  - destruct P as (Pt & Pe & Pa). destruct (eval_sim e Pe s s' H) as (x & u & u' & E1 & E2 & H1). rewrite E1, E2.
    destruct (evals_sim args Pa u u' H1) as (zs & r & r' & E3 & E4 & H2). rewrite E3, E4. now apply other_sim.
  - now apply assign_sim.
Qed.

(* the code put in place of an alloca *)
Lemma alloca_sim t f size loc n : (n0 < n)%nat -> hc = true -> is_builtin f = true -> opt_below n0 t -> below n0 size -> steady size ->
  forall s s', sim s s' ->
  sim (exec1 (unwatched w) (Call t (Named f) [size] loc) s)
      (exec1 w (Call t (Named "__liballocs_notify_and_adjust_alloca") [Lv (S (S n)); size; Lv (S n); AddrOf n0; Lv n] loc)
        (exec1 w (Call (Some (S (S n))) (Named "__builtin_alloca") [Lv (S n)] loc)
          (exec1 w (Asm n loc)
            (exec1 w (Call (Some (S n)) (Named "__liballocs_alloca_size") [size] loc) s')))).
Proof.
  intros Hn Hh Hf Bt Bs Ss s s' H.
  destruct (eval_sim size Bs s s' H) as (z & u & u' & E1 & E2 & H1).
  pose proof (eval_steady (unwatched w) s size Ss) as K1. pose proof (eval_steady w s' size Ss) as K2.
  rewrite E1 in K1. rewrite E2 in K2. cbn [snd] in K1, K2. subst u u'.
  assert (P0 : exec1 (unwatched w) (Call t (Named f) [size] loc) s = do_alloc (unwatched w) t z loc s).
  { cbn [exec1 exec_call]. rewrite E1, Hf. reflexivity. }
  assert (P1 : exec1 w (Call (Some (S n)) (Named "__liballocs_alloca_size") [size] loc) s' = assign (Some (S n)) (alloca_size z) s').
  { cbn [exec1 exec_call]. rewrite E2. reflexivity. }
  rewrite P0, P1. clear P0 P1. set (s1 := exec1 w (Asm n loc) _).
  assert (V1 : vars s1 (S n) = alloca_size z).
  { cbn. unfold upd. destruct (Nat.eqb_spec (S n) n); [lia|]. now rewrite Nat.eqb_refl. }
  set (s2 := do_alloc w (Some (S (S n))) (alloca_size z) loc s1).
  assert (P2 : exec1 w (Call (Some (S (S n))) (Named "__builtin_alloca") [Lv (S n)] loc) s1 = s2).
  { unfold s2. rewrite <- V1. reflexivity. }
  rewrite P2. clear P2.
  assert (X : forall v, v <> S (S n) -> vars s2 v = vars s1 v).
  { intros v Hv. cbn. unfold upd at 1. destruct (Nat.eqb_spec v (S (S n))); [contradiction|reflexivity]. }
  assert (X0 : forall v, (v < n)%nat -> vars s2 v = vars s' v).
  { intros v Hv. rewrite X by lia. cbn. unfold upd. destruct (Nat.eqb_spec v n); [lia|]. destruct (Nat.eqb_spec v (S n)); [lia|]. reflexivity. }
  assert (M2 : mem s2 = mem s') by (cbn; apply Q).
  assert (W1 : vars s2 (S (S n)) = w_give w (nall s')).
  { cbn. unfold upd. now rewrite Nat.eqb_refl. }
  assert (W2 : vars s2 (S n) = alloca_size z) by (rewrite X by lia; exact V1).
  assert (W3 : vars s2 n = loc).
  { rewrite X by lia. cbn. unfold upd. now rewrite Nat.eqb_refl. }
  assert (P3 : exec1 w (Call t (Named "__liballocs_notify_and_adjust_alloca") [Lv (S (S n)); size; Lv (S n); AddrOf n0; Lv n] loc) s2
             = notify w n0 t (w_give w (nall s')) z (alloca_size z) loc s2).
  { cbn [exec1 exec_call evals eval]. rewrite (eval_again s' s2 size Bs Ss M2) by (intros v Hv; apply X0; lia).
    rewrite E2. cbn [fst]. rewrite W1, W2, W3. reflexivity. }
  rewrite P3. clear P3. unfold notify.
  assert (N2 : nall s2 = S (nall s')) by reflexivity.
  assert (T2 : tr s2 = tr s' ++ [EAlloca (alloca_size z) (w_give w (nall s')) loc]) by reflexivity.
  rewrite N2. cbn [pred]. unfold do_alloc. cbn [unwatched w_give w_fill]. rewrite <- (m_all _ _ H). apply assign_sim; [exact Bt|].
  constructor; cbn [emit vars mem nvol ncall nall tr].
  - intros v Hv. unfold upd. destruct (Nat.eqb_spec v n0); [lia|]. rewrite X0 by lia. apply (m_vars _ _ H v Hv).
  - now rewrite M2, (m_mem _ _ H).
  - apply (m_vol _ _ H).
  - apply (m_call _ _ H).
  - rewrite ?N2. reflexivity.
  - rewrite T2, (m_tr _ _ H), watch_app, <- app_assoc. cbn [watch app Nat.add].
    rewrite <- (m_n _ _ H), (m_all _ _ H). reflexivity.
  - rewrite allocs_app. cbn. rewrite (m_all _ _ H), (m_n _ _ H). lia.
  - intros E. unfold upd. rewrite Nat.eqb_refl, X0 by lia. rewrite (m_ctr _ _ H E), total_alloca, <- (m_n _ _ H), (m_all _ _ H). reflexivity.
Qed.

(* statements *)
Definition rel (r r' : option (outcome * st)) : Prop :=
  match r, r' with
  | Some (o, s), Some (o', s') => o' = o /\ sim s s'
  | None, None => True
  | _, _ => False
  end.
Variable fn : string.
Hypothesis F1 : fn <> "__liballocs_unindex_stack_objects_counted_by"%string.
Hypothesis F2 : fn <> "__liballocs_alloca"%string.
Definition inv (x : vst) : Prop :=
  (find_cleanup (snd x) = None /\ fst x = n0 /\ filter l_cleanup (snd x) = []) \/
  (find_cleanup (snd x) = Some n0 /\ (n0 < fst x)%nat /\ filter l_cleanup (snd x) = [mkL n0 true true]).
Lemma find_app a b : find_cleanup (a ++ b) = match find_cleanup a with Some v => Some v | None => find_cleanup b end.
Proof. induction a as [|x a IH]; cbn; [reflexivity|]. destruct (l_named x); auto. Qed.
Lemma is_alloca_fn f : is_alloca fn (Named f) = names_alloca f.
Proof. unfold is_alloca. apply String.eqb_neq in F1, F2. now rewrite F1, F2. Qed.

Lemma vstmt_sim c : plain n0 c -> forall x, inv x ->
  inv (fst (vstmt fn x c)) /\
  (find_cleanup (snd (fst (vstmt fn x c))) = if calls_alloca c then Some n0 else find_cleanup (snd x)) /\
  (calls_alloca c = false -> vstmt fn x c = (x, c)) /\
  ((calls_alloca c = true -> hc = true) -> forall fuel s s', sim s s' ->
     rel (exec (unwatched w) fuel c s) (exec w fuel (snd (vstmt fn x c)) s')).
Proof.
  induction c as [|i|a IHa b IHb|e a IHa b IHb|a IHa| |e]; cbn [plain vstmt]; intros P x I.
  - cbn. split; [exact I|]. split; [reflexivity|]. split; [reflexivity|]. intros _ fuel s s' H. now split.
  - assert (Same : (match i with Call _ f [_] _ => is_alloca fn f = false | _ => True end) ->
        vinst fn x i = (x, [i]) /\ calls_alloca (Ins i) = false).
    { destruct i as [v e|a e|t [f|e] args loc|v loc]; cbn [vinst calls_alloca]; auto;
        destruct args as [|a [|b args]]; auto.
      intros E. rewrite E. rewrite is_alloca_fn in E. auto. }
    assert (D : {match i with Call _ f [_] _ => is_alloca fn f = false | _ => True end} +
                {exists t f size loc, i = Call t (Named f) [size] loc /\ names_alloca f = true}).
    { destruct i as [v e|a e|t [f|e] args loc|v loc]; auto; destruct args as [|a [|b args]]; auto.
      destruct (is_alloca fn (Named f)) eqn:E; auto. right. rewrite is_alloca_fn in E. eauto 8. }
    destruct D as [D|D].
    + destruct (Same D) as [E C]. rewrite E, C. cbn [fst snd seq].
      split; [exact I|]. split; [reflexivity|]. split; [reflexivity|]. intros _ fuel s s' H. cbn [exec]. split; [reflexivity|].
      now apply (exec1_sim fn).
    + destruct D as (t & f & size & loc & -> & Nf). cbn [plain1] in P. destruct P as (Pt & Pa & _ & Ps).
      specialize (Ps Nf size eq_refl). inversion Pa as [|? ? Psz _]; subst.
      cbn [vinst calls_alloca]. rewrite is_alloca_fn, Nf.
      assert (J : exists n ls, ensure x = ((n, ls), n0) /\ (n0 < n)%nat /\ find_cleanup ls = Some n0 /\ filter l_cleanup ls = [mkL n0 true true]).
      { destruct x as [n ls]. destruct I as [(I1 & I2 & I3) | (I1 & I2 & I3)]; cbn [fst snd] in *; unfold ensure; rewrite I1.
        - subst n. exists (S n0), (ls ++ [mkL n0 true true]). split; [reflexivity|]. split; [lia|].
          split; [now rewrite find_app, I1|]. now rewrite filter_app, I3.
        - exists n, ls. auto. }
      destruct J as (n & ls & E & J1 & J2 & J3). rewrite E. cbn [fst snd].
      split; [right; cbn [fst snd]; rewrite find_app, J2, filter_app, J3; split; [reflexivity|]; split; [lia|reflexivity]|].
      split; [now rewrite find_app, J2|]. split; [discriminate|].
      intros Hh fuel s s' H. cbn [seq exec]. split; [reflexivity|].
      apply (alloca_sim t f size loc n J1 (Hh eq_refl)); auto.
  - destruct P as [Pa Pb]. destruct (IHa Pa x I) as (Ia & Fa & Ua & Sa).
    destruct (vstmt fn x a) as [xa a'] eqn:Ea. cbn [fst snd] in *.
    destruct (IHb Pb xa Ia) as (Ib & Fb & Ub & Sb). destruct (vstmt fn xa b) as [xb b'] eqn:Eb. cbn [fst snd] in *.
    split; [exact Ib|]. split; [rewrite Fb; cbn [calls_alloca]; destruct (calls_alloca a), (calls_alloca b); cbn; auto|].
    split.
    { cbn [calls_alloca]. intros C. apply orb_false_iff in C. destruct C as [Ca Cb].
      specialize (Ua Ca). injection Ua as -> ->. specialize (Ub Cb). injection Ub as -> ->. reflexivity. }
    intros Hh fuel s s' H. cbn [exec calls_alloca] in *.
    specialize (Sa ltac:(intros C; rewrite C in Hh; auto) fuel s s' H).
    destruct (exec (unwatched w) fuel a s) as [[o t]|], (exec w fuel a' s') as [[o' t']|]; cbn in Sa; try tauto.
    destruct Sa as [-> Sa]. destruct o; try (now split).
    apply Sb; auto. intros C. rewrite C, orb_true_r in Hh. auto.
  - destruct P as (Pe & Pa & Pb). destruct (IHa Pa x I) as (Ia & Fa & Ua & Sa).
    destruct (vstmt fn x a) as [xa a'] eqn:Ea. cbn [fst snd] in *.
    destruct (IHb Pb xa Ia) as (Ib & Fb & Ub & Sb). destruct (vstmt fn xa b) as [xb b'] eqn:Eb. cbn [fst snd] in *.
    split; [exact Ib|]. split; [rewrite Fb; cbn [calls_alloca]; destruct (calls_alloca a), (calls_alloca b); cbn; auto|].
    split.
    { cbn [calls_alloca]. intros C. apply orb_false_iff in C. destruct C as [Ca Cb].
      specialize (Ua Ca). injection Ua as -> ->. specialize (Ub Cb). injection Ub as -> ->. reflexivity. }
    intros Hh fuel s s' H. cbn [exec calls_alloca] in *.
    destruct (eval_sim e Pe s s' H) as (z & u & u' & E1 & E2 & H1). rewrite E1, E2.
    destruct (z =? 0).
    + apply Sb; auto. intros C. rewrite C, orb_true_r in Hh. auto.
    + apply Sa; auto. intros C. rewrite C in Hh. auto.
  - destruct (IHa P x I) as (Ia & Fa & Ua & Sa). destruct (vstmt fn x a) as [xa a'] eqn:Ea. cbn [fst snd] in *.
    split; [exact Ia|]. split; [exact Fa|]. split.
    { cbn [calls_alloca]. intros C. specialize (Ua C). now injection Ua as -> ->. }
    intros Hh fuel s s' H. cbn [exec calls_alloca] in *.
    assert (T : forall k s s', sim s s' -> rel
      ((fix turn (n : nat) (s : st) : option (outcome * st) :=
         match n with
         | O => None
         | S n => match exec (unwatched w) fuel a s with Some (Normal, s) => turn n s | Some (Broke, s) => Some (Normal, s) | r => r end
         end) k s)
      ((fix turn (n : nat) (s : st) : option (outcome * st) :=
         match n with
         | O => None
         | S n => match exec w fuel a' s with Some (Normal, s) => turn n s | Some (Broke, s) => Some (Normal, s) | r => r end
         end) k s')).
    { induction k as [|k IHk]; intros r r' Hr; [exact I0 || exact Logic.I|].
      specialize (Sa Hh fuel r r' Hr).
      destruct (exec (unwatched w) fuel a r) as [[o t]|], (exec w fuel a' r') as [[o' t']|]; cbn in Sa; try tauto.
      destruct Sa as [-> Sa]. destruct o; [now apply IHk|now split|now split]. }
    now apply T.
  - cbn. split; [exact I|]. split; [reflexivity|]. split; [reflexivity|]. intros _ fuel s s' H. now split.
  - cbn [fst snd calls_alloca]. split; [exact I|]. split; [reflexivity|]. split; [reflexivity|]. intros _ fuel s s' H. cbn [exec].
    destruct (eval_sim e P s s' H) as (z & u & u' & E1 & E2 & H1). rewrite E1, E2. now split.
Qed.
End Sim.

Lemma leave_filter ls s : Mona_model.leave ls s = Mona_model.leave (filter l_cleanup ls) s.
Proof.
  unfold Mona_model.leave. revert s. induction ls as [|l ls IH]; intros s; cbn; [reflexivity|].
  destruct (l_cleanup l) eqn:E; cbn; rewrite ?E; apply IH.
Qed.

(* A function called before and after the rewriting ends in the same way, or not at all; leaves the
   program's variables and memory the same; makes the same other calls; and the library is told of
   each alloca as it happens, and, on leaving, of their total. *)
Theorem mona_same_partial : forall keeps w f fuel s0, plain_fun f -> quiet w -> tr s0 = [] -> nall s0 = O ->
  match run (unwatched w) fuel f s0, run w fuel (instrument keeps f) s0 with
  | Some (o, s), Some (o', s') =>
      o' = o /\ (forall v, (v < f_next f)%nat -> vars s' v = vars s v) /\ mem s' = mem s /\
      nvol s' = nvol s /\ ncall s' = ncall s /\
      tr s' = watch w (f_next f) 0 (tr s) ++ (if calls_alloca (f_body f) then [ECleanup (total w (tr s))] else [])
  | None, None => True
  | _, _ => False
  end.
Proof.
  intros keeps w f fuel s0 (P & PL & N1 & N2) Q T0 A0.
  set (n0 := f_next f) in *. set (hc := calls_alloca (f_body f)).
  assert (FN : find_cleanup (f_locals f) = None /\ filter l_cleanup (f_locals f) = []).
  { clear - PL. induction PL as [|l ls [L1 L2] _ [I1 I2]]; cbn; [auto|]. now rewrite L1, L2. }
  destruct FN as [FN FL].
  destruct (vstmt_sim w Q n0 hc (f_name f) N1 N2 (f_body f) P (n0, f_locals f)) as (I & F & U & S).
  { left. auto. }
  unfold run, instrument. fold n0. destruct (vstmt (f_name f) (n0, f_locals f) (f_body f)) as [[n ls] b]. cbn [fst snd] in *.
  rewrite FN in *. fold hc in F, U, S. cbn [f_body f_locals]. rewrite F.
  assert (LV : forall s, Mona_model.leave (f_locals f) s = s) by (intros s; now rewrite leave_filter, FL).
  rewrite andb_true_r.
  destruct hc eqn:Hc.
  - assert (FS : filter l_cleanup ls = [mkL n0 true true]).
    { destruct I as [(I & _)|(_ & _ & I)]; [cbn in I; congruence|exact I]. }
    set (s1 := mkS (upd (vars s0) n0 0) (mem s0) (nvol s0) (ncall s0) (nall s0) (tr s0)).
    assert (HS : forall s', (forall v, vars s' v = vars s1 v) -> mem s' = mem s0 -> nvol s' = nvol s0 -> ncall s' = ncall s0 -> nall s' = nall s0 -> tr s' = tr s0 -> sim w n0 true s0 s').
    { intros s' V M B1 B2 B3 B4. constructor; auto.
      - intros v Hv. rewrite V. cbn. unfold upd. destruct (Nat.eqb_spec v n0); [lia|reflexivity].
      - now rewrite B4, T0.
      - now rewrite A0, T0.
      - intros _. rewrite V, T0. cbn. unfold upd. now rewrite Nat.eqb_refl. }
    assert (R : exists s', exec w fuel (Seq (Ins (Set_ n0 (Const 0))) (if keeps then Seq (Ins (Set_ n0 (Const 0))) b else b)) s0 = exec w fuel b s' /\ sim w n0 true s0 s').
    { destruct keeps; cbn [exec exec1 eval assign]; eexists; (split; [reflexivity|]); apply HS; try reflexivity.
      intros v. cbn. unfold upd. destruct (Nat.eqb v n0); reflexivity. }
    destruct R as (s' & R & HS'). rewrite R. specialize (S (fun _ => eq_refl) fuel s0 s' HS').
    destruct (exec (unwatched w) fuel (f_body f) s0) as [[o t]|], (exec w fuel b s') as [[o' t']|]; cbn in S; try tauto.
    destruct S as [-> S]. rewrite LV, leave_filter, FS. cbn [Mona_model.leave fold_left l_cleanup l_var emit vars mem nvol ncall tr].
    destruct S. split; [reflexivity|]. split; [exact m_vars0|]. split; [exact m_mem0|]. split; [exact m_vol0|]. split; [exact m_call0|].
    now rewrite m_tr0, m_ctr0.
  - specialize (U eq_refl). injection U as -> -> ->.
    assert (HS : sim w n0 false s0 s0).
    { constructor; auto; [now rewrite T0|now rewrite A0, T0|discriminate]. }
    specialize (S ltac:(discriminate) fuel s0 s0 HS).
    destruct (exec (unwatched w) fuel (f_body f) s0) as [[o t]|], (exec w fuel (f_body f) s0) as [[o' t']|]; cbn in S; try tauto.
    destruct S as [-> S]. rewrite !LV. destruct S. rewrite app_nil_r. repeat (split; [auto|]). exact m_tr0.
Qed.
(* A function that does not call alloca is not changed. *)
Theorem mona_untouched : forall keeps f, find_cleanup (f_locals f) = None ->
  calls_alloca (f_body f) = false -> instrument keeps f = f.
Proof.
  assert (A : forall fn c x, calls_alloca c = false -> vstmt fn x c = (x, c)).
  { induction c as [|i|a IHa b IHb|e a IHa b IHb|a IHa| |e]; intros x C; cbn [calls_alloca vstmt] in *; auto.
    - destruct i as [v e|a e|t [f|e] args loc|v loc]; auto; destruct args as [|a [|b args]]; auto; cbn [vinst].
      unfold is_alloca. unfold names_alloca in C. rewrite C, andb_false_r. reflexivity.
    - apply orb_false_iff in C. destruct C as [Ca Cb]. now rewrite IHa, IHb.
    - apply orb_false_iff in C. destruct C as [Ca Cb]. now rewrite IHa, IHb.
    - now rewrite IHa. }
  intros keeps [fn ls n b] L C. unfold instrument. cbn in *. rewrite A by exact C. now rewrite L.
Qed.

Module MoEx.
Local Open Scope string_scope.
(* for (i = 0; i < 3; i++) { p = alloca(8 * ( i + 2 )); *p = i; use(p) }, returning p *)
Definition i : var := 0%nat.  Definition p : var := 1%nat.
Definition body : stmt :=
  Seq (Ins (Set_ i (Const 0)))
  (Seq (Loop (If (Add (Lv i) (Const (2 ^ 64 - 3)))
       (Seq (Ins (Call (Some p) (Named "alloca") [Mul (Const 8) (Add (Lv i) (Const 2))] 77))
       (Seq (Ins (Poke (Lv p) (Lv i)))
       (Seq (Ins (Call None (Named "use") [Lv p] 78))
            (Ins (Set_ i (Add (Lv i) (Const 1)))))))
       Break))
   (Return (Lv p))).
Definition f : fundec := mkF "f" [mkL i false false; mkL p false false] 2%nat body.
Definition world0 : world := mkW (fun _ k => if Nat.eqb k 0 then 8 else 1000) (fun k => Z.of_nat k) (fun _ m => m)
  (fun v => 9000 + 8 * Z.of_nat v) (fun k => 8000 - 104 * Z.of_nat k) (fun _ m => m) (fun _ m => m).
Definition start : st := mkS (fun _ => 5) (fun _ => 0) 0 0 0 [].
Definition trace (r : option (outcome * st)) : list event := match r with Some (_, s) => tr s | None => [] end.
End MoEx.
Import MoEx.
Example f_plain : plain_fun f /\ quiet world0 /\ tr start = [] /\ nall start = 0%nat.
Proof.
  split; [|split; [intros k m; reflexivity|split; reflexivity]].
  split; [|split; [repeat constructor|split; discriminate]].
  cbn. repeat split; try lia; try discriminate; repeat constructor; try lia; intros; try discriminate;
    match goal with H : [_] = [_] |- _ => injection H as <-; cbn; tauto | _ => idtac end.
Qed.
Example f_calls : calls_alloca (f_body f) = true. Proof. reflexivity. Qed.
Example f_trace : trace (run (unwatched world0) 9 f start) =
  [EAlloca 16 8016 77; ECall "use" [8016]; EAlloca 24 7904 77; ECall "use" [7904]; EAlloca 32 7808 77; ECall "use" [7808]].
Proof. vm_compute. reflexivity. Qed.
Example f_watched : trace (run world0 9 (instrument true f) start) =
  [EAlloca 48 8000 77; ENotify 8000 16 48 9016 77; ECall "use" [8016];
   EAlloca 48 7896 77; ENotify 7896 24 48 9016 77; ECall "use" [7904];
   EAlloca 64 7792 77; ENotify 7792 32 64 9016 77; ECall "use" [7808];
   ECleanup (32 + 40 + 48)].
Proof. vm_compute. reflexivity. Qed.

(* A size read from a volatile variable is read twice: the block may be smaller than what is noted,
   so that the program is told of more than it has been given. *)
Theorem mona_volatile_refuted : exists f w a n fixed c site s, quiet w /\ calls_alloca (f_body f) = true /\
  run w 1 (instrument true f) start = Some (Normal, s) /\ In (ENotify a n fixed c site) (tr s) /\ fixed < n.
Proof.
  exists (mkF "g" [] 1%nat (Ins (Call (Some 0%nat) (Named "alloca") [Vol 0] 7))), world0, 8000, 1000, 32, 9008, 7.
  eexists. split; [intros k m; reflexivity|]. split; [reflexivity|]. split; [vm_compute; reflexivity|].
  split; [cbn; tauto|lia].
Qed.
(* The other built-in form of alloca is not seen: the library is never told. *)
Theorem mona_aligned_refuted : exists f w n p site s, quiet w /\ instrument true f = f /\
  run w 1 (instrument true f) start = Some (Normal, s) /\ In (EAlloca n p site) (tr s) /\
  forall a m x c y, ~ In (ENotify a m x c y) (tr s).
Proof.
  exists (mkF "g" [] 1%nat (Ins (Call (Some 0%nat) (Named "__builtin_alloca_with_align") [Const 64; Const 128] 7))), world0, 64, 8000, 7.
  eexists. split; [intros k m; reflexivity|]. split; [reflexivity|]. split; [vm_compute; reflexivity|].
  split; [cbn; tauto|]. intros a m x c y [H|[]]. discriminate H.
Qed.
(* A local that already has the counter's name is used for it, and is not cleaned up: the chunks
   stay recorded after the function is left. *)
Theorem mona_named_refuted : exists f w a n x c site s, quiet w /\ plain (f_next f) (f_body f) /\
  Forall (fun l => l_cleanup l = false) (f_locals f) /\
  run w 1 (instrument true f) start = Some (Normal, s) /\ In (ENotify a n x c site) (tr s) /\
  forall t, ~ In (ECleanup t) (tr s).
Proof.
  exists (mkF "g" [mkL 1%nat true false] 2%nat (Ins (Call (Some 0%nat) (Named "alloca") [Const 16] 7))), world0, 8000, 16, 48, 9008, 7.
  eexists. split; [intros k m; reflexivity|]. split.
  { cbn. split; [lia|]. split; [repeat constructor|]. split; [reflexivity|]. intros _ e H. injection H as <-. exact Logic.I. }
  split; [repeat constructor|]. split; [vm_compute; reflexivity|]. split; [cbn; tauto|].
  intros t H. cbn in H. destruct H as [H|[H|[]]]; discriminate H.
Qed.

Print Assumptions mona_same_partial.
Print Assumptions mona_untouched.
Print Assumptions mona_volatile_refuted.
Print Assumptions mona_aligned_refuted.
Print Assumptions mona_named_refuted.
