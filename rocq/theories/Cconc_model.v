(* Model of several threads using the memory-range cache at once: the code of Cache_model
   (include/liballocs_cil_inlines.h:250-446, src/cache.c) as its accesses to memory, one field at
   a time.  The cache is meant to be one for each thread but is one for all (src/cache.c:6-10), and
   nothing locks it.  The sanity checks, compiled in under DEBUG only, are left out.
   Definitions only. *)
From Verif Require Import Base Conc_model Cache_model.
From Coq Require Import NArith.

Section Code.
(* [n]: the capacity.  [fuel]: how far a walk of the recency list is followed. *)
Variables (n fuel : nat).
Notation P := (prog cache).

Definition rd {A} (f : cache -> A) : P A := Act (fun s => Ok (s, f s)) Ret.
Definition wr (f : cache -> cache) : P unit := Act (fun s => Ok (f s, tt)) Ret.
(* entries[i], which has 1 + n elements *)
Definition rdE {A} (i : nat) (f : entry -> A) : P A :=
  Act (fun s => if Nat.leb i n then Ok (s, f (c_ent s i)) else UB) Ret.
Definition wrE (i : nat) (g : entry -> entry) : P unit :=
  Act (fun s => if Nat.leb i n then Ok (mkC (c_valid s) (c_size s) (c_victim s) (c_head s) (c_tail s) (upd (c_ent s) i (g (c_ent s i))), tt) else UB) Ret.
Definition w_valid (v : N) : P unit := wr (fun s => mkC v (c_size s) (c_victim s) (c_head s) (c_tail s) (c_ent s)).
Definition w_victim (k : nat) : P unit := wr (fun s => mkC (c_valid s) (c_size s) k (c_head s) (c_tail s) (c_ent s)).
Definition w_head (k : nat) : P unit := wr (fun s => mkC (c_valid s) (c_size s) (c_victim s) k (c_tail s) (c_ent s)).
Definition w_tail (k : nat) : P unit := wr (fun s => mkC (c_valid s) (c_size s) (c_victim s) (c_head s) k (c_ent s)).
(* 1u << (i-1), which is undefined if i is 0 *)
Definition bit (i : nat) : P N := Act (fun s => if Nat.eqb i 0 then UB else Ok (s, N.of_nat (i - 1))) Ret.
Definition when (b : bool) (p : P unit) : P unit := if b then p else Ret tt.

(* 250-267 *)
Definition q_unlink (i : nat) : P unit :=
  pdo k <- bit i ;
  pdo v <- rd c_valid ; pdo _ <- w_valid (N.clearbit v k) ;
  pdo _ <- w_victim i ;
  pdo nx <- rdE i e_next ; pdo pv <- rdE i e_prev ;
  pdo _ <- when (negb (Nat.eqb pv 0)) (wrE pv (fun e => set_next e nx)) ;
  pdo _ <- when (negb (Nat.eqb nx 0)) (wrE nx (fun e => set_prev e pv)) ;
  pdo h <- rd c_head ; pdo _ <- when (Nat.eqb h i) (w_head nx) ;
  pdo t <- rd c_tail ; pdo _ <- when (Nat.eqb t i) (w_tail pv) ;
  pdo v <- rd c_valid ; w_valid (N.clearbit v k).

(* 269-286 *)
Definition q_push (i : nat) : P unit :=
  pdo _ <- wrE i (fun e => set_prev e 0) ;
  pdo h <- rd c_head ; pdo _ <- wrE i (fun e => set_next e h) ;
  pdo h <- rd c_head ;
  pdo _ <- when (negb (Nat.eqb h 0)) (pdo h <- rd c_head ; wrE h (fun e => set_prev e i)) ;
  pdo _ <- w_head i ;
  pdo t <- rd c_tail ; pdo _ <- when (Nat.eqb t 0) (w_tail i) ;
  pdo k <- bit i ; pdo v <- rd c_valid ; w_valid (N.setbit v k).

(* 288-302 *)
Definition q_bump_victim (i : nat) : P unit :=
  pdo k <- rd c_victim ;
  when (Nat.eqb k i && Nat.ltb 0 n) (w_victim (1 + Nat.modulo i n)).

(* 304-315 *)
Definition q_bump_mru (i : nat) : P unit :=
  pdo h <- rd c_head ;
  when (negb (Nat.eqb h i))
    (pdo k <- bit i ; pdo v <- rd c_valid ;
     pdo _ <- when (N.testbit v k) (q_unlink i) ; q_push i).

(* the fields of an entry other than its links and depth, read one by one (333-346, 376-385);
   simplified: a field mentioned several times in a test is read once, and the type is read even
   when it is not wanted *)
Definition q_fields (i : nat) : P rcd :=
  pdo t <- rdE i (fun e => r_type (e_rcd e)) ; pdo b <- rdE i (fun e => r_base (e_rcd e)) ;
  pdo l <- rdE i (fun e => r_limit (e_rcd e)) ; pdo p <- rdE i (fun e => r_period (e_rcd e)) ;
  Ret (mkR b l t p 0).
(* the loops at 322-354 and 365-393 *)
Fixpoint q_find (f : nat) (test : rcd -> bool) (i : nat) : P (option nat) :=
  match f with
  | O => Act (fun _ => Fuel) Ret
  | S f =>
    if Nat.eqb i 0 then Ret None else
    pdo k <- bit i ; pdo v <- rd c_valid ;
    pdo hit <- (if N.testbit v k then pdo r <- q_fields i ; Ret (test r) else Ret false) ;
    if hit : bool then Ret (Some i) else pdo j <- rdE i e_next ; q_find f test j
  end.
(* a lookup, and what its caller then reads through the pointer it gets (query.c:36, say) *)
Definition q_lookup (test : rcd -> bool) : P (option rcd) :=
  pdo h <- rd c_head ; pdo o <- q_find fuel test h ;
  match o with
  | None => Ret None
  | Some i =>
      pdo _ <- q_bump_mru i ;
      pdo r <- q_fields i ; pdo d <- rdE i (fun e => r_depth (e_rcd e)) ;
      Ret (Some (mkR (r_base r) (r_limit r) (r_type r) (r_period r) d))
  end.

(* 413-446 *)
Definition setr (e : entry) (r : rcd) : entry := mkE r (e_prev e) (e_next e).
Definition q_fill (r : rcd) : P (option rcd) :=
  pdo v <- rd c_valid ;
  let p := ffs_clear v in
  if Nat.ltb (S n) p then Act (fun _ => Abort) Ret else
  pdo pos <- (if Nat.eqb p (S n) then rd c_tail else Ret p) ;
  if Nat.eqb p (S n) && Nat.eqb pos 0 then Act (fun _ => Abort) Ret else
  pdo pv <- rdE pos e_prev ; pdo nx <- rdE pos e_next ;
  pdo _ <- wrE pos (fun e => let o := e_rcd e in setr e (mkR (r_base r) (r_limit o) (r_type o) (r_period o) (r_depth o))) ;
  pdo _ <- wrE pos (fun e => let o := e_rcd e in setr e (mkR (r_base o) (r_limit r) (r_type o) (r_period o) (r_depth o))) ;
  pdo _ <- wrE pos (fun e => let o := e_rcd e in setr e (mkR (r_base o) (r_limit o) (r_type r) (r_period o) (r_depth o))) ;
  pdo _ <- wrE pos (fun e => let o := e_rcd e in setr e (mkR (r_base o) (r_limit o) (r_type o) (r_period r) (r_depth o))) ;
  pdo _ <- wrE pos (fun e => let o := e_rcd e in setr e (mkR (r_base o) (r_limit o) (r_type o) (r_period o) (r_depth r))) ;
  pdo _ <- wrE pos (fun e => set_prev e pv) ; pdo _ <- wrE pos (fun e => set_next e nx) ;
  pdo _ <- q_bump_mru pos ; pdo _ <- q_bump_victim pos ; Ret None.

(* __liballocs_uncache_all, cache.c:13-33 *)
Fixpoint q_uncache (left i : nat) (p sz : Z) : P (option rcd) :=
  match left with
  | O => Ret None
  | S k =>
    pdo b <- bit i ; pdo v <- rd c_valid ;
    pdo _ <- when (N.testbit v b)
      (pdo x <- rdE i (fun e => r_base (e_rcd e)) ;
       when (p <=? x) (pdo y <- rdE i (fun e => r_base (e_rcd e)) ;
                       when (y <? p + sz) (pdo _ <- q_unlink i ; w_victim i))) ;
    q_uncache k (S i) p sz
  end.

Definition qbody (o : cop) : P (option rcd) :=
  match o with
  | Fill r => q_fill r
  | Look obj t per => q_lookup (hit_typed obj t per)
  | LookAny obj per => q_lookup (hit_untyped obj per)
  | Uncache p sz => q_uncache n 1 p sz
  end.
(* [held]: every call is inside one lock, as none is in the code *)
Definition qcode (held : bool) (o : cop) : P (option rcd) := if held then locked (qbody o) else qbody o.
End Code.
