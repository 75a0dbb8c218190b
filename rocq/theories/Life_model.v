(* Model of lifetime policies: src/lifetime_policies.c, the free hook of tools/stubgen.h and
   the policy bits of include/malloc-meta.h.  Definitions only.

   Objects are numbered; the lookup from an address to its object and metadata word
   (get_lifetime_insert_info, lifetime_policies.c:32-51) is taken to be exact for objects
   not yet released and to fail for others.  Slots are numbered storage locations holding a
   pointer; an object owns the slots that its type describes (see Copy_model.v for how they
   are enumerated).  Object numbers are not reused.

   The code updates the policy bits as [*lti |= ...] although lti points to a struct
   (malloc-meta.h:116); modelled as updating its lifetime_policies field, which has 4 bits.
   Locking and the "is initialised" tests are left out. *)
From Verif Require Import Base.

(* the observable history, newest first *)
Inductive event :=
| ENew (o : nat)                 (* an object comes into being *)
| EAttach (i : Z) (o : nat)      (* a policy is attached *)
| EDetach (i : Z) (o : nat)      (* a policy is detached *)
| EFree (o : nat)                (* free() is called on it *)
| ERelease (o : nat).            (* its storage is given back *)

Record obj := mkObj { o_live : bool; o_pol : Z; o_slots : list nat }.
Record gst := mkG {
  g_next : Z;                     (* __last_free_lifetime_policy_id, lifetime_policies.c:15 *)
  g_obj : nat -> obj;
  g_mem : nat -> option nat;      (* what each slot points to *)
  g_log : list event }.

Definition upd {A} (f : nat -> A) (n : nat) (v : A) : nat -> A := fun m => if Nat.eqb m n then v else f m.
Definition log_ (g : gst) (e : event) : gst := mkG (g_next g) (g_obj g) (g_mem g) (e :: g_log g).
Definition set_pol (g : gst) (o : nat) (p : Z) : gst :=
  mkG (g_next g) (upd (g_obj g) o (mkObj (o_live (g_obj g o)) p (o_slots (g_obj g o)))) (g_mem g) (g_log g).
Definition kill (g : gst) (o : nat) : gst :=
  mkG (g_next g) (upd (g_obj g) o (mkObj false (o_pol (g_obj g o)) (o_slots (g_obj g o)))) (g_mem g) (g_log g).
Definition store (g : gst) (s : nat) (v : option nat) : gst := mkG (g_next g) (g_obj g) (upd (g_mem g) s v) (g_log g).

(* int conversion of an unsigned *)
Definition as_int (x : Z) : Z := if x <? 2 ^ 31 then x else x - 2 ^ 32.

Section Life.
Variable LP : Z.                  (* LIFETIME_POLICIES, at most 4: malloc-meta.h:53-55 *)

(* __liballocs_register_gc_policy, lifetime_policies.c:18-30; the array has LP elements *)
Definition register (g : gst) : res (gst * Z) :=
  let id := as_int (g_next g) in
  let g' := mkG ((g_next g + 1) mod 2 ^ 32) (g_obj g) (g_mem g) (g_log g) in
  if id >? LP then Ok (g', -1)
  else if (0 <=? id) && (id <? LP) then Ok (g', id) else UB.

(* LIFETIME_POLICY_FLAG, malloc-meta.h:107: [0x1 << id] is undefined out of range *)
Definition flag (i : Z) : res Z := if (0 <=? i) && (i <? 31) then Ok (2 ^ i) else UB.

(* a new chunk: stubgen.h:355-360, [|=] on whatever the four bits held *)
Definition new_obj (g : gst) (o : nat) (slots : list nat) (stale : Z) : gst :=
  log_ (mkG (g_next g) (upd (g_obj g) o (mkObj true (Z.lor stale 1) slots)) (g_mem g) (g_log g)) (ENew o).

Variable dbg : bool.              (* assertions enabled *)
Variable U : Type.                (* the policies' own state *)
(* The callbacks.  addref updates the policy's state; delref also says whether the policy
   now detaches itself from the object (the only library call it makes). *)
Variable addref : U -> Z -> nat -> nat -> U.
Variable delref : U -> Z -> nat -> nat -> U * bool.
Definition world : Type := (U * gst)%type.

(* __liballocs_attach_lifetime_policy, lifetime_policies.c:53-59 *)
Definition attach (g : gst) (i : Z) (o : nat) : res gst :=
  if i <? 0 then (if dbg then Abort else if o_live (g_obj g o) then UB else Ok g)
  else if o_live (g_obj g o) then
    do f <- flag i ; Ok (log_ (set_pol g o (Z.lor (o_pol (g_obj g o)) f mod 16)) (EAttach i o))
  else Ok g.

(* __liballocs_detach_lifetime_policy, lifetime_policies.c:61-73; fr is the allocator's free *)
Definition detach_with (fr : world -> nat -> res world) (w : world) (i : Z) (o : nat) : res world :=
  let '(u, g) := w in
  if i <? 0 then (if dbg then Abort else if o_live (g_obj g o) then UB else Ok w)
  else if o_live (g_obj g o) then
    do f <- flag i ;
    let p := Z.ldiff (o_pol (g_obj g o)) f in
    let w' := (u, log_ (set_pol g o p) (EDetach i o)) in
    if p =? 0 then fr w' o else Ok w'
  else Ok w.

(* the policies' numbers, 1 .. LP-1: the loops of lifetime_policies.c:86 and 101 *)
Definition ids : list Z := map Z.of_nat (seq 1 (Z.to_nat (LP - 1))).

(* lifetime_policies.c:86-93: delref for each policy attached when the loop began.  An
   unregistered policy's callback is a null pointer. *)
Fixpoint del_loop (detach : world -> Z -> nat -> res world) (saved : Z) (o s : nat) (is_ : list Z) (w : world) : res world :=
  match is_ with
  | [] => Ok w
  | i :: r =>
      if Z.testbit saved i then
        if g_next (snd w) <=? i then UB else
        let '(u, b) := delref (fst w) i o s in
        do w' <- (if b then detach (u, snd w) i o else Ok (u, snd w)) ;
        del_loop detach saved o s r w'
      else del_loop detach saved o s r w
  end.

(* __notify_ptr_write's first half, lifetime_policies.c:79-94 *)
Definition notify_old (detach : world -> Z -> nat -> res world) (s : nat) (w : world) : res world :=
  match g_mem (snd w) s with
  | Some o =>
      let b := g_obj (snd w) o in
      if o_live b && negb (Z.ldiff (o_pol b) 1 =? 0) then del_loop detach (o_pol b) o s ids w else Ok w
  | None => Ok w
  end.

(* lifetime_policies.c:101-107 *)
Fixpoint add_loop (o s : nat) (is_ : list Z) (w : world) : res world :=
  match is_ with
  | [] => Ok w
  | i :: r =>
      if Z.testbit (o_pol (g_obj (snd w) o)) i then
        if g_next (snd w) <=? i then UB else add_loop o s r (addref (fst w) i o s, snd w)
      else add_loop o s r w
  end.
(* __notify_ptr_write's second half, lifetime_policies.c:96-108 *)
Definition notify_new (s : nat) (v : option nat) (w : world) : res world :=
  match v with
  | Some o =>
      let b := g_obj (snd w) o in
      if o_live b && negb (Z.ldiff (o_pol b) 1 =? 0) then add_loop o s ids w else Ok w
  | None => Ok w
  end.

Fixpoint each (f : nat -> world -> res world) (l : list nat) (w : world) : res world :=
  match l with [] => Ok w | s :: r => do w' <- f s w ; each f r w' end.

(* free() with the hook pre_nonnull_free, stubgen.h:371-388, and __notify_free,
   lifetime_policies.c:223-229.  Fuel bounds the nesting of frees within frees. *)
Fixpoint do_free (fuel : nat) (w : world) (o : nat) : res world :=
  match fuel with
  | O => Fuel
  | S k =>
      let '(u, g) := w in
      if negb (o_live (g_obj g o)) then UB else
      let p := Z.ldiff (o_pol (g_obj g o)) 1 in
      let g1 := log_ (set_pol g o p) (EFree o) in
      if negb (p =? 0) then Ok (u, g1) else
      do ' (u2, g2) <- each (notify_old (detach_with (do_free k))) (o_slots (g_obj g o)) (u, g1) ;
      if negb (o_live (g_obj g2 o)) then UB else Ok (u2, log_ (kill g2 o) (ERelease o))
  end.
Definition detach (fuel : nat) := detach_with (do_free fuel).

(* [*s = v] in instrumented code: __notify_ptr_write, then the store *)
Definition write (fuel : nat) (w : world) (s : nat) (v : option nat) : res world :=
  do w1 <- notify_old (detach fuel) s w ;
  do ' (u, g) <- notify_new s v w1 ;
  Ok (u, store g s v).

Inductive lop :=
| Register
| New (o : nat) (slots : list nat) (stale : Z)
| Attach (i : Z) (o : nat)
| Detach (i : Z) (o : nat)
| Free (o : nat)
| Write (s : nat) (v : option nat).

Definition lstep (fuel : nat) (w : world) (op : lop) : res world :=
  match op with
  | Register => do ' (g, _) <- register (snd w) ; Ok (fst w, g)
  | New o slots stale => Ok (fst w, new_obj (snd w) o slots stale)
  | Attach i o => do g <- attach (snd w) i o ; Ok (fst w, g)
  | Detach i o => detach fuel w i o
  | Free o => do_free fuel w o
  | Write s v => write fuel w s v
  end.
End Life.
