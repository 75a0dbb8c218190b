(* What programs that use alloca may do and rely on: independent of how chunks are indexed. *)
From Verif Require Import Base Alloca_model.

(* A chunk: the block [k_lo, k_hi) carved from the stack, the pointer the program was given, how
   many bytes it asked for and where. *)
Record chunk := mkK { k_lo : Z; k_hi : Z; k_ptr : Z; k_req : Z; k_site : Z }.
(* A frame: its counter, frame address, current stack pointer, and chunks, newest first *)
Record frame := mkF { g_ctr : Z; g_bp : Z; g_sp : Z; g_chunks : list chunk }.

(* the stack lies within [bot, top), and is at most 8GiB *)
Definition area (bot top : Z) : Prop := 2 ^ 20 <= bot /\ top <= 2 ^ 47 /\ top - bot <= 2 ^ 33.
Definition sp_of (top : Z) (G : list frame) : Z := match G with [] => top | g :: _ => g_sp g end.

Section Legal.
Variables bot top : Z.

(* frames are pushed below the stack pointer, with room for the counter *)
Definition can_enter (G : list frame) (ctr bp : Z) : Prop :=
  bp <= sp_of top G /\ bp mod 8 = 0 /\ ctr mod 8 = 0 /\ ctr + 8 <= bp /\ bot <= ctr.
(* the block is carved from just below, is word-aligned, and big enough *)
Definition can_alloca (g : frame) (lo req : Z) : Prop :=
  0 < req < 2 ^ 40 /\ lo mod 8 = 0 /\ bot <= lo /\ lo + alloca_size req <= g_sp g.
(* the program does not overwrite the library's words *)
Definition can_poke (G : list frame) (x : Z) : Prop :=
  x mod 8 = 0 /\ forall g, In g G -> x <> g_ctr g /\ forall c, In c (g_chunks g) -> x <> k_ptr c - 8 /\ x <> k_hi c - 8.
Definition can_leave (g : frame) (sp : Z) : Prop := bot <= sp <= g_sp g.

Definition small (c : chunk) : Prop := k_hi c - k_ptr c <= 131072.

Variable dbg : bool.
Inductive areach : ast -> list frame -> Prop :=
| A_init m : areach (mkS [] m) []
| A_enter s G ctr bp : areach s G -> can_enter G ctr bp -> areach (enter s ctr) (mkF ctr bp ctr [] :: G)
| A_alloca s g G lo req site s' p : areach s (g :: G) -> can_alloca g lo req ->
    do_alloca dbg s lo req site (g_ctr g) (g_bp g) = Ok (s', p) ->
    areach s' (mkF (g_ctr g) (g_bp g) lo (mkK lo (lo + alloca_size req) p req site :: g_chunks g) :: G)
| A_poke s G x v : areach s G -> can_poke G x -> areach (poke s x v) G
| A_leave s g G sp s' r : areach s (g :: G) -> can_leave g sp ->
    leave dbg s (g_ctr g) sp = Ok (s', r) -> areach s' G.
End Legal.
