(* C56: the metadata of a loaded file. *)
From Coq Require Import String Ascii.
From Verif Require Import Base Meta_model Meta_spec Meta_proof.

(* The names looked for are the right ones, and the ones under which the tools put the metadata. *)
Theorem meta_names_exact_partial base objname id :
  len base <= 4035 -> len base + len objname + 8 <= 4094 -> is_id id ->
  name_by_id base id = Ok (id_name base id) /\
  made_by_id base id = id_name base id /\
  (absolute objname ->
    name_by_path base objname = Ok (Some (path_name base objname)) /\
    made_by_path base objname = path_name base objname) /\
  (~ absolute objname -> name_by_path base objname = Ok None).
Proof.
  intros Hb Hp Hid. pose proof (len_nonneg base). pose proof (len_nonneg objname).
  split; [apply name_by_id_ok; assumption|]. split; [apply made_id; exact Hid|].
  split.
  - intros [r E]. rewrite E in *. change 47 with SLASH in *. split; [|apply made_path].
    rewrite name_by_path_cut by (unfold W32; lia).
    rewrite take_all; [reflexivity|]. rewrite !len_app. change (len SUFFIX) with 8. lia.
  - intros N. apply name_by_path_none. intros r E. apply N. exists r. exact E.
Qed.

(* Whatever the lengths, a name by path does not overrun its buffer. *)
Theorem meta_name_path_fits base objname :
  len base < W32 -> len objname < W32 ->
  exists q, name_by_path base objname = Ok q /\ forall s, q = Some s -> len s < 4096.
Proof.
  intros Hb Ho. destruct (absolute_dec objname) as [[r E]|N].
  - subst objname. change 47 with SLASH in *. rewrite name_by_path_cut by assumption.
    eexists. split; [reflexivity|]. intros s E. injection E as <-.
    rewrite len_take by lia. lia.
  - rewrite name_by_path_none; [|intros r E; apply N; exists r; exact E].
    eexists. split; [reflexivity|]. discriminate.
Qed.

(* Different files have different names. *)
Theorem meta_names_distinct base :
  (forall o1 o2, path_name base o1 = path_name base o2 -> o1 = o2) /\
  (forall id1 id2, is_id id1 -> is_id id2 -> id_name base id1 = id_name base id2 -> id1 = id2) /\
  (forall id o, is_id id -> id_name base id = path_name base o -> exists r, o = text "/.build-id/" ++ r).
Proof.
  split; [|split].
  - apply path_name_inj.
  - apply id_name_inj.
  - apply id_path_names.
Qed.

(* The file opened is the best there is, and nothing else stays open. *)
Theorem meta_find_exact_partial base fs newfd junk objname id built t :
  (forall t, 0 <= newfd t /\ forall e, In e t -> fst e <> newfd t) ->
  opens fs [] = None ->
  stats fs objname = Some built ->
  len base <= 4035 -> len base + len objname + 8 <= 4094 -> is_id id ->
  exists fd t',
    find_meta base fs newfd junk objname id t = Ok (fd, t') /\
    ((fd = -1 /\ t' = t /\ none_usable (opens fs) built base objname id) \/
     exists p, 0 <= fd /\ t' = (fd, p) :: t /\ best (opens fs) built base objname id p).
Proof.
  intros F E S Hb Hp Hid.
  destruct (find_meta_ok base fs newfd junk F E objname id built S Hb Hp Hid t) as (fd & t' & H & C).
  exists fd, t'. split; [exact H|]. destruct C as [C|(p & -> & C)]; [left; exact C|].
  right. exists p. split; [apply F|exact C].
Qed.

Lemma best_unique opens built base objname id p q :
  best opens built base objname id p -> best opens built base objname id q -> p = q.
Proof.
  intros (k & C & U & L) (j & D & V & M).
  destruct (Nat.lt_trichotomy k j) as [H|[H|H]].
  - exfalso. exact (M k p H C U).
  - subst j. destruct C as [(-> & _ & ->)|(-> & _ & ->)]; destruct D as [(J & _ & ->)|(J & _ & ->)];
      try discriminate J; reflexivity.
  - exfalso. exact (L j q H D V).
Qed.

Lemma suffix_spec (cn : str) : 8 <= len cn ->
  str_eqb SUFFIX (skipn (length cn - length SUFFIX) cn) = true <-> exists s, cn = s ++ text "-meta.so".
Proof.
  intros L. split.
  - intros H. apply str_eqb_eq in H. exists (firstn (length cn - length SUFFIX) cn).
    change (text "-meta.so") with SUFFIX. rewrite H at 2. symmetry. apply firstn_skipn.
  - intros [s ->]. change (text "-meta.so") with SUFFIX. apply str_eqb_eq.
    rewrite app_length. replace (length s + length SUFFIX - length SUFFIX)%nat with (length s) by lia.
    rewrite skipn_app. rewrite skipn_all2 by lia. rewrite Nat.sub_diag. reflexivity.
Qed.

(* Loading leaves no descriptor open, takes one reference to the right object if it can, and none
   otherwise; unloading gives it back. *)
Theorem meta_load_exact_partial base fs newfd junk real loads objname id built cn mem1 mem2 t r :
  (forall t, 0 <= newfd t /\ forall e, In e t -> fst e <> newfd t) ->
  opens fs [] = None ->
  stats fs objname = Some built ->
  len base <= 4035 -> len base + len objname + 8 <= 4094 -> is_id id ->
  8 <= len cn ->
  (forall p q, best (opens fs) built base objname id p -> real p = Some q -> r q = 0) ->
  let is_meta := cn = base \/ exists s, cn = s ++ text "-meta.so" in
  exists h r',
    load_meta base fs newfd junk real loads (Some cn) objname id mem1 mem2 t r = Ok (h, t, r') /\
    match h with
    | Some q =>
        ~ is_meta /\
        (exists p, best (opens fs) built base objname id p /\ real p = Some q) /\
        r' q = 1 /\ (forall q', q' <> q -> r' q' = r q') /\
        exists r'', unload_meta h r' = Ok r'' /\ forall q', r'' q' = r q'
    | None =>
        r' = r /\
        (~ is_meta -> mem1 = true -> mem2 = true ->
         forall p q, best (opens fs) built base objname id p -> real p = Some q -> loads q = false)
    end.
Proof.
  intros F E S Hb Hp Hid Lc Hr is_meta. unfold load_meta.
  change (len SUFFIX) with 8.
  destruct (str_eqb cn base) eqn:E1.
  { apply str_eqb_eq in E1. do 2 eexists. split; [reflexivity|]. split; [reflexivity|].
    intros N. exfalso. apply N. left. exact E1. }
  replace (len cn <? 8) with false by lia.
  destruct (str_eqb SUFFIX (skipn (length cn - length SUFFIX) cn)) eqn:E2.
  { apply suffix_spec in E2; [|exact Lc]. do 2 eexists. split; [reflexivity|]. split; [reflexivity|].
    intros N. exfalso. apply N. right. exact E2. }
  assert (NM : ~ is_meta).
  { intros [->|X]; [rewrite str_eqb_refl in E1; discriminate|].
    apply suffix_spec in X; [|exact Lc]. congruence. }
  destruct (find_meta_ok base fs newfd junk F E objname id built S Hb Hp Hid t) as (fd & t' & -> & C).
  cbn [bind]. destruct C as [(-> & -> & NU)|(p & -> & -> & B)].
  { rewrite Z.eqb_refl. do 2 eexists. split; [reflexivity|]. split; [reflexivity|].
    intros _ _ _ p q (k & C & U & _) _. exfalso. exact (NU k p C U). }
  destruct (F t) as [F1 F2].
  replace (newfd t =? -1) with false by lia.
  rewrite (close_new t (newfd t) p F2).
  destruct mem1; cbn [negb].
  2:{ do 2 eexists. split; [reflexivity|]. split; [reflexivity|]. intros _ X. discriminate X. }
  cbn [find fst]. rewrite Z.eqb_refl. cbn [snd].
  destruct (real p) as [q|] eqn:Er.
  2:{ do 2 eexists. split; [reflexivity|]. split; [reflexivity|].
      intros _ _ _ p' q' B' R'. rewrite (best_unique _ _ _ _ _ _ _ B' B) in R'. congruence. }
  destruct mem2; cbn [negb].
  2:{ do 2 eexists. split; [reflexivity|]. split; [reflexivity|]. intros _ _ X. discriminate X. }
  pose proof (Hr p q B Er) as R0. rewrite R0. change (0 <? 0) with false. cbn iota.
  destruct (loads q) eqn:El.
  - do 2 eexists. split; [reflexivity|]. split; [exact NM|]. split; [exists p; split; assumption|].
    assert (U : upd r q (0 + 1) q = 1) by (unfold upd; rewrite str_eqb_refl; reflexivity).
    split; [exact U|]. split.
    + intros q' N. unfold upd. rewrite str_eqb_neq by exact N. reflexivity.
    + unfold unload_meta. rewrite U. change (0 <? 1) with true. cbn iota.
      eexists. split; [reflexivity|]. intros q'. unfold upd.
      destruct (str_eqb q' q) eqn:Eq; [|reflexivity].
      apply str_eqb_eq in Eq. subst q'. rewrite R0. reflexivity.
  - do 2 eexists. split; [reflexivity|]. split; [reflexivity|].
    intros _ _ _ p' q' B' R'. rewrite (best_unique _ _ _ _ _ _ _ B' B) in R'. congruence.
Qed.

Print Assumptions meta_names_exact_partial.
Print Assumptions meta_name_path_fits.
Print Assumptions meta_names_distinct.
Print Assumptions meta_find_exact_partial.
Print Assumptions meta_load_exact_partial.

Module MtEx.
Definition base := of_string "/usr/lib/meta".
Definition obj := of_string "/usr/bin/prog".
Definition id1 : list Z := [161; 2; 3; 4; 5; 6; 7; 8; 9; 10; 11; 12; 13; 14; 15; 16; 17; 18; 19; 255].
Definition id0 : list Z := repeat 0 20.
Definition byid := of_string "/usr/lib/meta/.build-id/a1/02030405060708090a0b0c0d0e0f10111213ff-meta.so".
Definition bypath := of_string "/usr/lib/meta/usr/bin/prog-meta.so".

(* the tree has an out-of-date file under the build id and a good one under the path *)
Definition fs : fsys :=
  mkFs (fun p => if str_eqb p byid then Some (Some 5) else if str_eqb p bypath then Some (Some 20) else None)
       (fun p => if str_eqb p obj then Some 10 else None).
Fixpoint newfd (t : fdtab) : Z := match t with [] => 3 | e :: r => Z.max (fst e + 1) (newfd r) end.
Lemma newfd_fresh : forall t, 0 <= newfd t /\ forall e, In e t -> fst e <> newfd t.
Proof.
  assert (G : forall t, 0 <= newfd t /\ forall e, In e t -> fst e < newfd t).
  { induction t as [|a t [IH1 IH2]]; cbn [newfd]; [split; [lia|intros e []]|].
    split; [lia|]. intros e [->|He]; [lia|]. specialize (IH2 e He). lia. }
  intros t. destruct (G t) as [G1 G2]. split; [exact G1|]. intros e He. specialize (G2 e He). lia.
Qed.
Definition junk (_ : nat) : Z := 0.
Definition t0 : fdtab := [(7, of_string "/tmp/x")].

Lemma id1_ok : is_id id1.
Proof. split; [reflexivity|]. intros b. cbn [id1 In]. lia. Qed.

Example ex_names : name_by_id base id1 = Ok byid /\ name_by_path base obj = Ok (Some bypath).
Proof. split; vm_compute; reflexivity. Qed.
Example ex_names_spec : id_name base id1 = byid /\ path_name base obj = bypath.
Proof. split; vm_compute; reflexivity. Qed.

Example ex_find : find_meta base fs newfd junk obj id1 t0 = Ok (8, (8, bypath) :: t0).
Proof. vm_compute. reflexivity. Qed.
Example ex_find_meets : exists fd t',
    find_meta base fs newfd junk obj id1 t0 = Ok (fd, t') /\
    ((fd = -1 /\ t' = t0 /\ none_usable (opens fs) 10 base obj id1) \/
     exists p, 0 <= fd /\ t' = (fd, p) :: t0 /\ best (opens fs) 10 base obj id1 p).
Proof.
  apply meta_find_exact_partial.
  - exact newfd_fresh.
  - reflexivity.
  - reflexivity.
  - vm_compute. discriminate.
  - vm_compute. discriminate.
  - exact id1_ok.
Qed.

Definition real (p : str) : option str := Some p.
Definition loads (_ : str) : bool := true.
Definition r0 : refs := fun _ => 0.
Example ex_load : exists h r',
  load_meta base fs newfd junk real loads (Some obj) obj id1 true true t0 r0 = Ok (h, t0, r') /\
  h = Some bypath /\ r' bypath = 1 /\ r' byid = 0.
Proof. do 2 eexists. split; [reflexivity|]. repeat split; vm_compute; reflexivity. Qed.
Example ex_load_meets : exists h r',
  load_meta base fs newfd junk real loads (Some obj) obj id1 true true t0 r0 = Ok (h, t0, r') /\ h <> None.
Proof.
  destruct (meta_load_exact_partial base fs newfd junk real loads obj id1 10 obj true true t0 r0
    newfd_fresh) as (h & r' & H & C).
  - reflexivity.
  - reflexivity.
  - vm_compute. discriminate.
  - vm_compute. discriminate.
  - exact id1_ok.
  - vm_compute. discriminate.
  - reflexivity.
  - exists h, r'. split; [exact H|]. destruct h; [discriminate|].
    intros _. destruct C as [_ C]. exfalso.
    assert (X : loads bypath = false); [|discriminate X].
    apply (C) with (p := bypath); try reflexivity.
    + intros [X|[s X]].
      * apply str_eqb_eq in X. vm_compute in X. discriminate X.
      * assert (Y : exists s, obj = s ++ text "-meta.so") by (exists s; exact X).
        apply suffix_spec in Y; [vm_compute in Y; discriminate Y|vm_compute; discriminate].
    + exists 1%nat. split; [right; split; [reflexivity|]; split; [eexists; reflexivity|reflexivity]|].
      split; [exists 20; split; [reflexivity|lia]|].
      intros j q Hj [(_ & _ & ->)|(J & _)]; [|lia].
      intros (x & E & L). change (Some (Some 5) = Some (Some x)) in E. injection E as <-. lia.
Qed.
End MtEx.

(* The restrictions are needed. *)

(* Two files whose names are long look for the same metadata. *)
Theorem meta_name_long_refuted : exists base o1 o2 s,
  absolute o1 /\ absolute o2 /\ len o1 < 4096 /\ len o2 < 4096 /\ o1 <> o2 /\
  name_by_path base o1 = Ok (Some s) /\ name_by_path base o2 = Ok (Some s).
Proof.
  exists (of_string "/usr/lib/meta"), (47 :: repeat 97 4085 ++ [98]), (47 :: repeat 97 4085 ++ [99]).
  eexists. split; [eexists; reflexivity|]. split; [eexists; reflexivity|].
  split; [vm_compute; reflexivity|]. split; [vm_compute; reflexivity|]. split.
  - intros H. apply str_eqb_eq in H. vm_compute in H. discriminate H.
  - split; vm_compute; reflexivity.
Qed.

(* With a long META_BASE, building the name by build id overruns the buffer. *)
Theorem meta_base_long_refuted : exists base id,
  is_id id /\ len base < 4096 /\ name_by_id base id = UB.
Proof.
  exists (repeat 97 4050), MtEx.id1. split; [exact MtEx.id1_ok|]. split; vm_compute; reflexivity.
Qed.

(* If the loaded file cannot be examined, what is found depends on what was left in memory. *)
Theorem meta_no_stat_refuted : exists base fs newfd objname id t junk1 junk2 fd t1,
  stats fs objname = None /\
  find_meta base fs newfd junk1 objname id t = Ok (fd, t1) /\ fd <> -1 /\
  find_meta base fs newfd junk2 objname id t = Ok (-1, t).
Proof.
  exists MtEx.base, (mkFs (opens MtEx.fs) (fun _ => None)), MtEx.newfd, MtEx.obj, MtEx.id1, MtEx.t0,
    (fun _ => 0), (fun _ => 100). do 2 eexists.
  split; [reflexivity|]. split; [vm_compute; reflexivity|].
  split; [discriminate|]. vm_compute. reflexivity.
Qed.

(* A loaded file with a name of under eight bytes is read out of bounds. *)
Theorem meta_short_name_refuted : exists base fs newfd junk real loads objname id t r,
  load_meta base fs newfd junk real loads (Some objname) objname id true true t r = UB /\
  objname = of_string "/bin/ls".
Proof.
  exists MtEx.base, MtEx.fs, MtEx.newfd, MtEx.junk, MtEx.real, MtEx.loads,
    (of_string "/bin/ls"), MtEx.id1, MtEx.t0, MtEx.r0.
  split; reflexivity.
Qed.

(* Metadata already loaded (two files with one build id, say) is used without a reference: giving
   up the first use leaves the second with a handle to nothing, and unloading that is undefined. *)
Theorem meta_shared_refuted : exists base fs newfd junk real loads o1 o2 id t r p r1 r2 r3,
  o1 <> o2 /\ (forall q, r q = 0) /\
  load_meta base fs newfd junk real loads (Some o1) o1 id true true t r = Ok (Some p, t, r1) /\
  load_meta base fs newfd junk real loads (Some o2) o2 id true true t r1 = Ok (Some p, t, r2) /\
  unload_meta (Some p) r2 = Ok r3 /\ r3 p = 0 /\
  unload_meta (Some p) r3 = UB.
Proof.
  pose (fs := mkFs (fun p => if str_eqb p MtEx.byid then Some (Some 50) else None) (fun _ => Some 10)).
  exists MtEx.base, fs, MtEx.newfd, MtEx.junk, MtEx.real, MtEx.loads,
    (of_string "/opt/a.out"), (of_string "/opt/b.out"), MtEx.id1, MtEx.t0, MtEx.r0, MtEx.byid.
  do 3 eexists. split.
  - intros H. apply str_eqb_eq in H. vm_compute in H. discriminate H.
  - split; [reflexivity|]. split; [reflexivity|]. split; [reflexivity|]. split; [reflexivity|].
    split; vm_compute; reflexivity.
Qed.

(* A file that lies under the metadata directory is not recognised as metadata by that. *)
Theorem meta_under_base_refuted : exists base fs newfd junk real loads objname id t r p r1,
  (exists s, objname = base ++ text "/" ++ s) /\
  load_meta base fs newfd junk real loads (Some objname) objname id true true t r = Ok (Some p, t, r1).
Proof.
  pose (fs := mkFs (fun p => if str_eqb p MtEx.byid then Some (Some 50) else None) (fun _ => Some 10)).
  exists MtEx.base, fs, MtEx.newfd, MtEx.junk, MtEx.real, MtEx.loads,
    (of_string "/usr/lib/meta/usr/lib/libm.so"), MtEx.id1, MtEx.t0, MtEx.r0.
  do 2 eexists. split; [eexists; reflexivity|]. reflexivity.
Qed.

Print Assumptions meta_name_long_refuted.
Print Assumptions meta_base_long_refuted.
Print Assumptions meta_no_stat_refuted.
Print Assumptions meta_short_name_refuted.
Print Assumptions meta_shared_refuted.
Print Assumptions meta_under_base_refuted.
