From Verif Require Import Base Meta_model Meta_proof Detour_model Detour_spec Detour_proof.

Section L.
Variable decode : mem -> Z -> Z -> insn.
Hypothesis DOK : decoder_ok decode.

Lemma straight_limit m limit : forall ms p q, straight decode m limit p ms q -> ms <> [] -> q <= limit.
Proof.
  induction ms as [|x r IH]; intros p q H Hne; [congruence|].
  apply straight_cases in H. destruct H as [(E & _)|(r' & E & L & H)]; [discriminate|]. injection E as -> <-.
  destruct r as [|y r].
  - apply straight_cases in H. destruct H as [(_ & ->)|(r' & E & _)]; [|discriminate].
    destruct (dlen decode DOK m p limit); lia.
  - apply (IH _ _ H). congruence.
Qed.
Lemma displaced_limit m limit func ms n : displaced decode m limit func ms n -> func + n <= limit /\ 5 <= n.
Proof. intros (H & Hn & ms0 & x & -> & _). split; [|exact Hn]. apply (straight_limit _ _ _ _ _ H). destruct ms0; discriminate. Qed.
Lemma displaced_same m m' limit func ms n : displaced decode m limit func ms n ->
  (forall x, func <= x < func + n -> m' x = m x) -> displaced decode m' limit func ms n.
Proof.
  intros H Hs. pose proof (displaced_limit _ _ _ _ _ H) as (L & _). destruct H as (H & Hn & R).
  split; [|split; [exact Hn | exact R]]. apply straight_same with (m := m); auto.
Qed.
Lemma redirected_same m m' func d slot tr n ms : 0 <= n -> redirected decode m func d slot tr n ms ->
  (forall x, func <= x < func + 5 -> m' x = m x) -> (forall x, slot <= x < slot + 8 -> m' x = m x) ->
  (forall x, tr <= x < tr + n + 5 -> m' x = m x) -> redirected decode m' func d slot tr n ms.
Proof.
  intros Hn [A B C D] H1 H2 H3. constructor.
  - destruct A as (A1 & A2). split; [rewrite H1 by lia; exact A1|].
    rewrite (get4_ext m m' (func + 1) (func + 1)); [exact A2|]. intros; apply H1; lia.
  - rewrite (get8_ext m m' slot slot); [exact B|]. intros; apply H2; lia.
  - apply straight_same with (m := m); auto; [lia|]. intros; apply H3; lia.
  - destruct D as (D1 & D2). split; [rewrite H3 by lia; exact D1|].
    rewrite (get4_ext m m' (tr + n + 1) (tr + n + 1)); [exact D2|]. intros; apply H3; lia.
Qed.

Lemma can_same m m' lo lo' hi t : can decode m lo hi t -> lo <= lo' <= hi ->
  (forall x, t_func t <= x < t_func t + t_n t -> m' x = m x) -> can decode m' lo' hi t.
Proof.
  intros (A & B & C & D & E & F & G & H & I) Hlo Hs. unfold can. 
  split; [apply (displaced_same m); auto|]. repeat split; auto; try lia.
  - apply F; lia.
  - apply F; lia.
  - unfold apart in *. lia.
  - unfold apart in *. lia.
Qed.

Theorem instrument_ok : forall l ts m lo hi, picks l ts -> bytes_ok m -> 0 <= lo -> lo + 24 * Z.of_nat (length ts) <= hi -> hi <= W64 ->
  Forall (can decode m lo hi) ts -> ForallOrdPairs separate ts ->
  exists m' next, instrument decode l m lo = Ok (m', next) /\ bytes_ok m' /\ lo <= next <= lo + 24 * Z.of_nat (length ts) /\
    (forall t, In t ts -> exists tr, lo <= tr /\ tr + t_n t + 5 <= next /\
       redirected decode m' (t_func t) (t_d t) (t_slot t) tr (t_n t) (t_ms t)) /\
    (forall x, x < lo \/ next <= x ->
       (forall t, In t ts -> (x < t_func t \/ t_func t + 5 <= x) /\ (x < t_slot t \/ t_slot t + 8 <= x)) -> m' x = m x).
Proof.
  intros l ts m lo hi Hp. revert m lo. induction Hp as [|y l ts Hk Hp IH|y l t ts E1 E2 E3 Hp IH]; intros m lo Hb Hlo Hhi H64 Hc Hs.
  - exists m, lo. cbn. repeat split; auto; try apply Hb; try lia; contradiction.
  - cbn [instrument]. rewrite Hk. apply IH; auto.
  - cbn [instrument]. rewrite E3.
    inversion Hc as [|? ? Hc1 Hc2]; subst. inversion Hs as [|? ? Hs1 Hs2]; subst.
    pose proof Hc1 as (A & B & C & D & E & F & G & H & I).
    pose proof (displaced_limit _ _ _ _ _ A) as (_ & Hn5).
    rewrite E2, E1. cbn [length] in *.
    assert (Hn19 : t_n t <= 19).
    { destruct A as (A1 & A2 & ms0 & x & A3 & A4). rewrite A3 in A1.
      assert (A0 : straight decode m (t_limit t) (t_func t + 0) (ms0 ++ [x]) (t_func t + t_n t)) by (rewrite Z.add_0_r; exact A1).
      destruct (prologue_spec decode DOK m (t_func t) (t_limit t) (t_n t) A2 ms0 x 5 0 A0 A4 ltac:(lia) ltac:(lia)) as (il & _ & _ & R & _).
      exact R. }
    destruct (F lo ltac:(lia) ltac:(lia)) as (F1 & F2). unfold apart in G, H, I.
    destruct (detour_ok decode DOK m (t_func t) (t_limit t) (t_d t) (t_slot t) lo (t_n t) (t_ms t) Hb A B C ltac:(lia) D) as (m1 & Ed & Hb1 & _ & Hr & Hout);
      [unfold apart; lia | unfold apart; lia | unfold apart; lia | exact E | exact F1 | exact F2 |].
    rewrite Ed. cbn [bind].
    assert (Keep : forall u, In u ts -> forall x, t_func u <= x < t_func u + t_n u -> m1 x = m x).
    { intros u Hu x Hx. rewrite Forall_forall in Hs1, Hc2. destruct (Hs1 u Hu) as (S1 & S2 & S3 & S4).
      destruct (Hc2 u Hu) as (U1 & _ & _ & _ & _ & _ & U2 & U3 & U4). unfold apart in *.
      apply Hout; lia. }
    destruct (IH m1 (lo + t_n t + 5) Hb1) as (m2 & next & Ei & Hb2 & Hnx & Hall & Hout2); try lia.
    { rewrite Forall_forall in *. intros u Hu. apply (can_same m m1 lo); auto; lia. }
    { exact Hs2. }
    exists m2, next. split; [exact Ei|]. split; [exact Hb2|]. split; [lia|]. split.
    + intros u [<-|Hu].
      * exists lo. split; [lia|]. split; [lia|]. apply (redirected_same m1); auto; try lia.
        -- intros x Hx. apply Hout2; [lia|]. intros u Hu. rewrite Forall_forall in Hs1, Hc2.
           destruct (Hs1 u Hu) as (S1 & S2 & S3 & S4). destruct (Hc2 u Hu) as (U1 & _ & _ & _ & _ & _ & U2 & U3 & U4).
           pose proof (displaced_limit _ _ _ _ _ U1). unfold apart in *. lia.
        -- intros x Hx. apply Hout2; [lia|]. intros u Hu. rewrite Forall_forall in Hs1, Hc2.
           destruct (Hs1 u Hu) as (S1 & S2 & S3 & S4). destruct (Hc2 u Hu) as (U1 & _ & _ & _ & _ & _ & U2 & U3 & U4).
           pose proof (displaced_limit _ _ _ _ _ U1). unfold apart in *. lia.
        -- intros x Hx. apply Hout2; [lia|]. intros u Hu. rewrite Forall_forall in Hc2.
           destruct (Hc2 u Hu) as (U1 & _ & _ & _ & _ & _ & U2 & U3 & U4).
           pose proof (displaced_limit _ _ _ _ _ U1). unfold apart in *. lia.
      * destruct (Hall u Hu) as (tr & T1 & T2 & T3). exists tr. split; [lia|]. split; [exact T2 | exact T3].
    + intros x Hx Hts. rewrite Hout2; [|lia|].
      * apply Hout; try (apply (Hts t); left; reflexivity). lia.
      * intros u Hu. apply Hts. right; exact Hu.
Qed.
End L.

(* _dl_debug_state *)
Lemma dl_state_ok m w f to : bytes_ok m -> 0 <= to < W64 -> f mod PAGE <= PAGE - DSTATE ->
  exists m', dl_state m w f to = Ok m' /\
    m' f = 0x48 /\ m' (f + 1) = 0xb8 /\ get8 m' (f + 2) = to /\ m' (f + 10) = 0xff /\ m' (f + 11) = 0xe0 /\
    (forall x, x < f \/ f + 12 <= x -> m' x = m x).
Proof.
  intros Hb Hto Hf. unfold dl_state.
  assert (Hw : forallb (fun k => ((RDOWN f <=? f + Z.of_nat k) && (f + Z.of_nat k <? RDOWN f + PAGE)) || w (f + Z.of_nat k)) (seq 0 (Z.to_nat DSTATE)) = true).
  { apply forallb_forall. intros k Hk. apply in_seq in Hk. unfold RDOWN, PAGE, DSTATE in *. 
    change (0 + Z.to_nat 12)%nat with 12%nat in Hk. apply orb_true_intro. left. apply andb_true_intro. split; lia. }
  cbv zeta. rewrite Hw. unfold apply_reloc. change (R_64 =? R_PC32) with false. change (R_64 =? R_64) with true. cbv iota.
  eexists. split; [reflexivity|].
  rewrite Z.add_0_r, get8_put, !Zmod_mod, (Z.mod_small to) by lia.
  repeat split.
  - do 2 (rewrite put_out by lia). pose proof (put_in m f 2 0xb848 0 ltac:(lia)) as G. rewrite Z.add_0_r in G. exact G.
  - do 2 (rewrite put_out by lia). rewrite put_in by lia. reflexivity.
  - rewrite put_out by lia. pose proof (put_in (put m f 2 0xb848) (f + 10) 2 0xe0ff 0 ltac:(lia)) as G. rewrite Z.add_0_r in G. exact G.
  - rewrite put_out by lia. replace (f + 11) with (f + 10 + 1) by lia. rewrite put_in by lia. reflexivity.
  - intros x Hx. rewrite !put_out by lia. reflexivity.
Qed.

(* the interpreter's name *)
Lemma put_str_out s : forall m a x, x < a \/ a + len s + 1 <= x -> put_str m a s x = m x.
Proof.
  induction s as [|c r IH]; intros m a x Hx; cbn [put_str].
  - apply put_out. change (len []) with 0 in Hx. lia.
  - rewrite len_cons in Hx. pose proof (len_nonneg r). rewrite IH by lia. apply put_out. lia.
Qed.
Lemma put_str_holds s : Forall (fun c => 0 <= c < 256) s -> forall m a, holds (put_str m a s) a s.
Proof.
  induction s as [|c r IH]; intros Hs m a.
  - split; [cbn; lia|]. cbn [length put_str]. rewrite put_in by lia. reflexivity.
  - inversion Hs as [|? ? Hc Hr]; subst. cbn [put_str]. destruct (IH Hr (put m a 1 c) (a + 1)) as (A & B). split.
    + intros [|k] Hk; cbn [nth].
      * rewrite put_str_out by lia. rewrite put_in by lia. change (256 ^ Z.of_nat 0) with 1. rewrite Z.div_1_r. apply Z.mod_small; lia.
      * rewrite <- (A k) by (cbn [length] in Hk; lia). f_equal. lia.
    + rewrite <- B. f_equal. cbn [length]. lia.
Qed.

Definition is_kind (k : pkind) (p : ph) : bool :=
  match k, p_kind p with Phdr, Phdr => true | Interp, Interp => true | Pother, Pother => true | _, _ => false end.
Definition only (k : pkind) (l : list ph) (p : ph) : Prop := List.filter (is_kind k) l = [p].

Lemma last_of_none f l d : (forall p, In p l -> f p = None) -> last_of f l d = d.
Proof. revert d. induction l as [|p r IH]; intros d H; cbn; [reflexivity|]. rewrite (H p (or_introl eq_refl)). apply IH. intros; apply H; right; auto. Qed.
Lemma filter_nil {A} (f : A -> bool) l : List.filter f l = [] -> forall x, In x l -> f x = false.
Proof. induction l as [|y r IH]; cbn; intros H x Hx; [contradiction|]. destruct (f y) eqn:E; [discriminate|]. destruct Hx as [<-|Hx]; auto. Qed.
Lemma last_of_only at_ l p d : only Phdr l p ->
  last_of (fun p => match p_kind p with Phdr => Some ((at_ - p_vaddr p) mod W64) | _ => None end) l d = Some ((at_ - p_vaddr p) mod W64).
Proof.
  unfold only. revert d. induction l as [|q r IH]; intros d H; cbn in H; [discriminate|]. cbn [last_of].
  unfold is_kind in H at 1. destruct (p_kind q) eqn:E.
  - injection H as -> Hr. rewrite last_of_none; [reflexivity|].
    intros z Hz. pose proof (filter_nil _ _ Hr z Hz) as F. unfold is_kind in F. destruct (p_kind z); auto; discriminate.
  - apply IH; exact H.
  - apply IH; exact H.
Qed.
Lemma find_interp_none base l d : List.filter (is_kind Interp) l = [] -> find_interp base l d = Ok d.
Proof.
  induction l as [|q r IH]; intros H; cbn in H |- *; [reflexivity|]. unfold is_kind in H at 1.
  destruct (p_kind q); try discriminate; apply IH; exact H.
Qed.
Lemma find_interp_only base l p d : only Interp l p ->
  find_interp base l d = if p_writable p then Ok ((base + p_vaddr p) mod W64, p_filesz p) else Abort.
Proof.
  unfold only. revert d. induction l as [|q r IH]; intros d H; cbn in H; [discriminate|]. cbn [find_interp].
  unfold is_kind in H at 1. destruct (p_kind q) eqn:E.
  - apply IH; exact H.
  - injection H as -> Hr. destruct (p_writable p); [|reflexivity]. apply find_interp_none; exact Hr.
  - apply IH; exact H.
Qed.
