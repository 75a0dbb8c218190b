(* Model of the wrappers generated around a program's allocation functions, which say what each
   allocation is attributed to: tools/stubgen.h:208-330 (make_caller_wrapper, make_free_wrapper,
   make_suballoc_wrapper, make_subfree_wrapper), 346-361 and 415-434 (the malloc hooks), and
   src/allocsites.c:24-28.  Definitions only.

   A program is what one thread does, as far as it allocates.  A wrapped function's body, i.e. the
   real function, may do anything a program does.  The variables' addresses are taken to be
   non-null (they are weak).  The hooks for libcrunch (pre_realcall and so on) are empty. *)
From Verif Require Import Base Big_model.

(* the thread-local variables *)
Record tls := mkT { t_site : Z; t_fn : Z; t_sz : Z; t_freeing : bool; t_allocing : bool }.

(* what the indexes are told: a heap chunk is inserted with a site and a requested size; so is
   one that was resized; a small object is inserted or removed *)
Inductive ev :=
| EHeap (site size : Z)
| EResize (site size : Z)
| ESmall (ptr site size : Z)
| EUnsmall (ptr : Z).

Inductive act :=
| Malloc (caller size : Z)                            (* the heap allocator returns a chunk *)
| Realloc (caller modified : Z)                       (* ... or resizes one; the enlarged size *)
| Call (fn ret size : Z) (keep : bool) (body : list act)   (* ALLOC_FNS; if [keep], ALLOCSZ_FNS *)
| Sub (fn ret size : Z) (body : list act) (ptr : Z)   (* SUBALLOC_FNS, and what it returns *)
| Free (body : list act)                              (* FREE_FNS *)
| SubFree (fn ptr : Z) (body : list act)              (* SUBFREE_FNS, for allocation function fn *)
| Catch (body : list act)                             (* where a non-local jump lands *)
| Jump.                                               (* longjmp, or an exception *)

(* the variables; the generated ..._alloclevel of each suballocation function; the events, newest
   last *)
Record world := mkWd { w_t : tls; w_lev : Z -> Z; w_log : list ev }.
Definition w_tls (w : world) (t : tls) : world := mkWd t (w_lev w) (w_log w).
Definition w_ev (w : world) (e : ev) : world := mkWd (w_t w) (w_lev w) (w_log w ++ [e]).
Definition w_setlev (w : world) (f v : Z) : world :=
  mkWd (w_t w) (fun g => if g =? f then v else w_lev w g) (w_log w).
Definition INSERT_SIZE : Z := 8.              (* sizeof (struct insert) *)

(* stubgen.h:216-228, before the call *)
Definition enter (t : tls) (fn ret size : Z) : tls * bool * bool :=
  if t_fn t =? 0 then
    let set := negb (t_allocing t) in
    (mkT (if t_site t =? 0 then ret else t_site t) fn size (t_freeing t) (if set then true else t_allocing t), true, set)
  else (t, false, false).
(* stubgen.h:234-242, after it *)
Definition leave (t : tls) (setting set keep : bool) : tls :=
  if setting then mkT 0 0 (if keep then t_sz t else 0) (t_freeing t) (if set then false else t_allocing t) else t.

(* __current_allocsite ? __current_allocsite : caller *)
Definition site_or (t : tls) (caller : Z) : Z := if t_site t =? 0 then caller else t_site t.

Section Run.
Variable dbg : bool.
Notation asrt := (asrt dbg).

(* [Ok (w, true)]: a jump is on its way out *)
Fixpoint run (a : act) (w : world) : res (world * bool) :=
  let fix runs (l : list act) (w : world) : res (world * bool) :=
    match l with
    | [] => Ok (w, false)
    | x :: r => do '(w1, j) <- run x w ; if (j : bool) then Ok (w1, true) else runs r w1
    end in
  match a with
  (* post_successful_alloc, stubgen.h:346-361 *)
  | Malloc caller size => Ok (w_ev w (EHeap (site_or (w_t w) caller) size), false)
  (* post_nonnull_nonzero_realloc, stubgen.h:415-434; generic_malloc_index.h:548, 567 *)
  | Realloc caller modified =>
      let size := if t_sz (w_t w) =? 0 then (modified - INSERT_SIZE) mod W64 else t_sz (w_t w) in
      Ok (w_ev w (EResize (site_or (w_t w) caller) size), false)
  (* make_caller_wrapper, stubgen.h:208-247 *)
  | Call fn ret size keep body =>
      let '(t, setting, set) := enter (w_t w) fn ret size in
      do '(w1, j) <- runs body (w_tls w t) ;
      if (j : bool) then Ok (w1, true) else Ok (w_tls w1 (leave (w_t w1) setting set keep), false)
  (* make_suballoc_wrapper, stubgen.h:307-319; __index_small_alloc's size is unsigned, its answer
     always 2 (generic_small.c:371) *)
  | Sub fn ret size body ptr =>
      let '(t, setting, set) := enter (w_t w) fn ret size in
      do '(w1, j) <- runs body (w_tls w t) ;
      if (j : bool) then Ok (w1, true) else
      let w2 := w_ev w1 (ESmall ptr (t_site (w_t w1)) (t_sz (w_t w1) mod W32)) in
      do _ <- asrt ((w_lev w2 fn =? 0) || (2 =? w_lev w2 fn)) ;
      let w3 := if w_lev w2 fn =? 0 then w_setlev w2 fn 2 else w2 in
      Ok (w_tls w3 (leave (w_t w3) setting set false), false)
  (* make_free_wrapper, stubgen.h:275-293 *)
  | Free body =>
      let top := negb (t_freeing (w_t w)) in
      let f (t : tls) (b : bool) := mkT (t_site t) (t_fn t) (t_sz t) b (t_allocing t) in
      do '(w1, j) <- runs body (if top then w_tls w (f (w_t w) true) else w) ;
      if (j : bool) then Ok (w1, true) else Ok (if top then w_tls w1 (f (w_t w1) false) else w1, false)
  (* make_subfree_wrapper, stubgen.h:321-329 *)
  | SubFree fn ptr body =>
      let top := negb (t_freeing (w_t w)) in
      let f (t : tls) (b : bool) := mkT (t_site t) (t_fn t) (t_sz t) b (t_allocing t) in
      let w0 := if top then w_tls w (f (w_t w) true) else w in
      do _ <- asrt (negb (w_lev w0 fn =? 0)) ;
      do '(w1, j) <- runs body (w_ev w0 (EUnsmall ptr)) ;
      if (j : bool) then Ok (w1, true) else Ok (if top then w_tls w1 (f (w_t w1) false) else w1, false)
  | Catch body => do '(w1, _) <- runs body w ; Ok (w1, false)
  | Jump => Ok (w, true)
  end.

Fixpoint runs (l : list act) (w : world) : res (world * bool) :=
  match l with
  | [] => Ok (w, false)
  | x :: r => do '(w1, j) <- run x w ; if (j : bool) then Ok (w1, true) else runs r w1
  end.
End Run.

(* at the start of a thread: everything zero (allocsites.c:24-28) *)
Definition t_init : tls := mkT 0 0 0 false false.
Definition w_init : world := mkWd t_init (fun _ => 0) [].
