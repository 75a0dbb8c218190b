(* What the memory-range cache is meant to be: a least-recently-used cache of records.
   Nothing here mentions slots, links, bit masks or the modelled functions (only the
   record and operation types of the interface). *)
From Verif Require Import Base.
From Verif Require Import Cache_model.
From Coq Require Import Permutation.

(* An address falls on an element boundary of a record. *)
Definition on_element (obj require_period : Z) (r : rcd) : Prop :=
  r_period r <> 0 /\ (require_period = 0 \/ r_period r = require_period) /\
  (r_period r | obj - r_base r).

Definition inside (obj : Z) (r : rcd) : Prop := r_base r <= obj < r_limit r.

(* The documented meaning of the two queries. *)
Definition answers (o : cop) (r : rcd) : Prop :=
  match o with
  | Look obj t per => r_type r = t /\ inside obj r /\ (obj = r_base r \/ on_element obj per r)
  | LookAny obj per => inside obj r /\ ((obj = r_base r /\ per = 0) \/ on_element obj per r)
  | _ => False
  end.

(* The invalidation interface drops the records that begin in the given range. *)
Definition invalidates (o : cop) (r : rcd) : Prop :=
  match o with
  | Uncache p sz => p <= r_base r < p + sz
  | _ => False
  end.

(* Abstract contents: each record carries the time of its last use. *)
Definition content := list (nat * rcd).

(* One step of a least-recently-used cache of capacity [n] at time [t]. *)
Inductive lru (n t : nat) : content -> cop -> content -> option rcd -> Prop :=
| lru_fill_room (k k' : content) r :
    (length k < n)%nat -> Permutation k' ((t, r) :: k) ->
    lru n t k (Fill r) k' None
| lru_fill_evict (k rest k' : content) v r :
    length k = n -> Permutation k (v :: rest) ->
    (forall x, In x rest -> (fst v < fst x)%nat) ->
    Permutation k' ((t, r) :: rest) ->
    lru n t k (Fill r) k' None
| lru_hit (k rest k' : content) o s r :
    Permutation k ((s, r) :: rest) -> answers o r ->
    (forall x, In x rest -> answers o (snd x) -> (fst x < s)%nat) ->
    Permutation k' ((t, r) :: rest) ->
    lru n t k o k' (Some r)
| lru_miss (k : content) o :
    (match o with Look _ _ _ | LookAny _ _ => True | _ => False end) ->
    (forall x, In x k -> ~ answers o (snd x)) ->
    lru n t k o k None
| lru_drop (k k' gone : content) p sz :
    Permutation k (gone ++ k') ->
    (forall x, In x gone -> invalidates (Uncache p sz) (snd x)) ->
    (forall x, In x k' -> ~ invalidates (Uncache p sz) (snd x)) ->
    lru n t k (Uncache p sz) k' None.

(* A whole history, starting at time [t]. *)
Inductive lru_run (n : nat) : nat -> content -> list cop -> content -> list (option rcd) -> Prop :=
| lru_nil t k : lru_run n t k [] k []
| lru_cons t k o k1 a h k2 outs :
    lru n t k o k1 a -> lru_run n (S t) k1 h k2 outs ->
    lru_run n t k (o :: h) k2 (a :: outs).

(* A record that some fill of [h] stored and that no later call invalidated. *)
Definition stored_fresh (h : list cop) (r : rcd) : Prop :=
  exists h1 h2, h = h1 ++ Fill r :: h2 /\ (forall o, In o h2 -> ~ invalidates o r).

(* The recency list of a cache is structurally sound: [l] lists the slots from most to
   least recently used. *)
Definition recency (c : cache) (l : list nat) : Prop :=
  NoDup l /\
  (length l <= c_size c)%nat /\
  (forall i, In i l <-> (1 <= i <= c_size c)%nat /\ valid c i = true) /\
  c_head c = hd 0%nat l /\
  c_tail c = last l 0%nat /\
  (forall k, (k < length l)%nat ->
     e_prev (c_ent c (nth k l 0%nat)) = match k with O => 0%nat | S j => nth j l 0%nat end /\
     e_next (c_ent c (nth k l 0%nat)) = nth (S k) l 0%nat).

(* ---- cached base queries ---- *)

(* The object of the world that holds an address. *)
Definition holds (w : list obj) (a : Z) (o : obj) : Prop :=
  In o w /\ o_base o <= a < o_base o + o_size o.

(* Events that keep the live objects pairwise disjoint and invalidate every freed
   cacheable object. *)
Definition allowed (w : list obj) (e : event) : Prop :=
  match e with
  | ECreate o => 0 < o_size o /\
      (forall x, In x w -> o_base o + o_size o <= o_base x \/ o_base x + o_size x <= o_base o)
  | EFree b u => 0 < u
  | EFreeSilent b => forall x, In x w -> o_base x = b -> o_cacheable x = false
  | EQuery _ => True
  | EOther (Fill r) => r_depth r <> 0
  | EOther _ => True
  end.

Inductive history (n : nat) : list event -> cache * list obj -> Prop :=
| hist_nil : history n [] (init_cache n, [])
| hist_snoc es cw e cw' a :
    history n es cw -> allowed (snd cw) e -> estep cw e = Ok (cw', a) ->
    history n (es ++ [e]) cw'.
