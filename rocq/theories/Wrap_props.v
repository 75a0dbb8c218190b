(* C54: what allocations are attributed to. *)
From Verif Require Import Base Big_model Insert_model Wrap_model Wrap_spec Wrap_proof.

(* Whatever a thread does, if no jump leaves an allocation function: every chunk and every small
   object is recorded with the site of the outermost allocation function in progress, or with the
   caller if there is none, in the order things happen; and afterwards nothing is in progress. *)
Theorem wrap_sites_exact : forall dbg l w j,
  forallb tame l = true -> forallb proper l = true -> runs dbg l w_init = Ok (w, j) ->
  j = snd (happens [] l) /\
  map unsized (w_log w) = map (fun x => unsized (attributed x)) (fst (happens [] l)) /\
  t_site (w_t w) = 0 /\ t_fn (w_t w) = 0 /\ t_freeing (w_t w) = false /\ t_allocing (w_t w) = false.
Proof.
  intros dbg l w j T P R.
  destruct (outside_list dbg l (proj2 (Forall_forall _ _) (fun x _ => run_outside dbg x)) w_init w j eq_refl eq_refl T P R)
    as (J & (z & E) & L & _).
  split; [exact J|]. split; [rewrite L; cbn; unfold tmap; rewrite map_map; reflexivity|].
  rewrite E. cbn. auto.
Qed.

(* The sizes: of each chunk, what was asked for; of a small object, what the outermost function
   was asked for.  Missing: functions declared to leave their size set (wrap_stale_size_refuted);
   the object's own size if its function is not the outermost (wrap_nested_size_refuted); the
   size asked for of a chunk that is resized (wrap_resize_refuted). *)
Theorem wrap_sizes_partial : forall dbg l w j,
  forallb tame l = true -> forallb proper l = true -> forallb sizeless l = true -> runs dbg l w_init = Ok (w, j) ->
  w_log w = map attributed (fst (happens [] l)) /\ w_t w = t_init.
Proof.
  intros dbg l w j T P S R.
  destruct (outside_list dbg l (proj2 (Forall_forall _ _) (fun x _ => run_outside dbg x)) w_init w j eq_refl eq_refl T P R)
    as (_ & _ & _ & H).
  destruct (H S eq_refl) as (A & B). split; [exact B|exact A].
Qed.

(* No check fails if each small object is freed by the function that goes with one of the
   functions used before. *)
Theorem wrap_completes : forall dbg l, forallb tame l = true -> freed_after (fst (happens [] l)) ->
  exists w, runs dbg l w_init = Ok (w, snd (happens [] l)).
Proof.
  intros dbg l T F.
  destruct (runs_ok_list dbg l (proj2 (Forall_forall _ _) (fun x _ => run_ok dbg x)) [] w_init [] T) as (w & R & _).
  - intros _. split; [left; reflexivity|]. rewrite app_nil_r.
    apply (freed_able _ []); [intros c f p []|exact F].
  - exists w. exact R.
Qed.

Module WrEx.
(* A pool allocator: its allocation function, called from 100, gets a chunk for the pool through
   another allocation function, gives out an object, gives up a jump of its own; then a direct
   allocation; a free; and a wrapped function that resizes. *)
Definition prog : list act :=
  [ Sub 11 100 24 [Call 12 201 4096 false [Malloc 300 4096]; Catch [Malloc 301 8; Jump; Malloc 302 8]] 5000;
    Malloc 400 64;
    SubFree 11 5000 [Free []];
    Call 13 500 80 false [Realloc 600 96] ].
Definition after (dbg : bool) : world := match runs dbg prog w_init with Ok (w, _) => w | _ => w_init end.

Example ex_tame : forallb tame prog = true /\ forallb proper prog = true /\ forallb sizeless prog = true.
Proof. repeat split. Qed.
Example ex_run : forall dbg, runs dbg prog w_init = Ok (after dbg, false).
Proof. intros [|]; unfold after; destruct (runs _ prog w_init) as [[w j]| | |] eqn:E; vm_compute in E; inversion E; reflexivity. Qed.
Example ex_log : forall dbg, w_log (after dbg) =
  [EHeap 100 4096; EHeap 100 8; ESmall 5000 100 24; EHeap 400 64; EUnsmall 5000; EResize 500 80].
Proof. intros [|]; vm_compute; reflexivity. Qed.
Example ex_sites : forall dbg,
  map unsized (w_log (after dbg)) = map (fun x => unsized (attributed x)) (fst (happens [] prog)).
Proof.
  intros dbg. destruct ex_tame as (T & P & _).
  destruct (wrap_sites_exact dbg prog (after dbg) false T P (ex_run dbg)) as (_ & H & _). exact H.
Qed.
Example ex_sizes : forall dbg, w_log (after dbg) = map attributed (fst (happens [] prog)).
Proof.
  intros dbg. destruct ex_tame as (T & P & S).
  destruct (wrap_sizes_partial dbg prog (after dbg) false T P S (ex_run dbg)) as (H & _). exact H.
Qed.
Example ex_freed_after : freed_after (fst (happens [] prog)).
Proof. apply freedb_ok. reflexivity. Qed.
Example ex_completes : forall dbg, exists w, runs dbg prog w_init = Ok (w, false).
Proof. intros dbg. destruct ex_tame as (T & _). exact (wrap_completes dbg prog T ex_freed_after). Qed.

(* A jump out of an allocation function: the next direct allocation, from 400, is recorded as made
   by the function that was abandoned, from 100. *)
Definition jump : list act := [Catch [Call 11 100 24 false [Malloc 300 24; Jump]]; Malloc 400 64].
End WrEx.
Import WrEx.

Theorem wrap_jump_refuted : forall dbg, exists l w, forallb proper l = true /\
  runs dbg l w_init = Ok (w, false) /\
  map unsized (w_log w) <> map (fun x => unsized (attributed x)) (fst (happens [] l)) /\ t_site (w_t w) <> 0.
Proof.
  intros dbg. exists jump. eexists. split; [reflexivity|]. split; [reflexivity|]. split; discriminate.
Qed.

(* A small object made inside another allocation function is recorded with that function's size. *)
Theorem wrap_nested_size_refuted : forall dbg, exists f r s g r2 s2 p w,
  forallb tame [Call f r s false [Sub g r2 s2 [] p]] = true /\
  forallb proper [Call f r s false [Sub g r2 s2 [] p]] = true /\
  runs dbg [Call f r s false [Sub g r2 s2 [] p]] w_init = Ok (w, false) /\
  exists site size, In (ESmall p site size) (w_log w) /\ size <> s2.
Proof.
  intros [|]; exists 11, 100, 4096, 12, 200, 24, 5000; eexists; (split; [reflexivity|]); (split; [reflexivity|]);
    (split; [reflexivity|]); exists 100, 4096; (split; [left; reflexivity|discriminate]).
Qed.

(* A function declared to leave its size set makes the next resized chunk take that size. *)
Theorem wrap_stale_size_refuted : forall dbg, exists f r s c m w,
  forallb tame [Call f r s true []; Realloc c m] = true /\
  runs dbg [Call f r s true []; Realloc c m] w_init = Ok (w, false) /\
  w_log w = [EResize c s] /\ attributed ([], WResize c m) <> EResize c s.
Proof.
  intros dbg. exists 11, 100, 400, 200, 40. eexists. split; [reflexivity|]. split; [reflexivity|].
  split; [reflexivity|]. vm_compute. discriminate.
Qed.

(* A chunk resized outside an allocation function is recorded with a size other than asked for. *)
Theorem wrap_resize_refuted : forall dbg, exists c req w,
  runs dbg [Realloc c (chunk_size_with_trailer req)] w_init = Ok (w, false) /\ w_log w <> [EResize c req].
Proof.
  intros dbg. exists 200, 10. eexists. split; [reflexivity|]. vm_compute. discriminate.
Qed.

(* A small object's size is recorded modulo 2^32. *)
Theorem wrap_size_wraps_refuted : forall dbg, exists f r s p w,
  runs dbg [Sub f r s [] p] w_init = Ok (w, false) /\ 0 < s < W64 /\ w_log w = [ESmall p r 24] /\ s <> 24.
Proof.
  intros [|]; exists 11, 100, (2 ^ 32 + 24), 5000; eexists; (split; [reflexivity|]);
    (split; [split; reflexivity|]); (split; [vm_compute; reflexivity|discriminate]).
Qed.

(* Freeing an object with a function that is declared to go with another allocation function
   fails, if that one has not been used. *)
Theorem wrap_free_refuted : exists f r s p g, forallb tame [Sub f r s [] p; SubFree g p []] = true /\
  forallb proper [Sub f r s [] p; SubFree g p []] = true /\ runs true [Sub f r s [] p; SubFree g p []] w_init = Abort.
Proof. exists 11, 100, 24, 5000, 12. repeat split. Qed.

Print Assumptions wrap_sites_exact.
Print Assumptions wrap_sizes_partial.
Print Assumptions wrap_completes.
Print Assumptions wrap_jump_refuted.
Print Assumptions wrap_nested_size_refuted.
Print Assumptions wrap_stale_size_refuted.
Print Assumptions wrap_resize_refuted.
Print Assumptions wrap_size_wraps_refuted.
Print Assumptions wrap_free_refuted.
