(* A stack of active frames in memory, and what walking it should do, independently of the walk. *)
From Verif Require Import Base Frame_model Unw_model.

(* a frame: where it is executing, its stack pointer, and its base pointer *)
Record frame := mkFr { r_ip : Z; r_sp : Z; r_bp : Z }.

(* Code that keeps frame pointers: at its base pointer a frame has its caller's base pointer, and after
   that the address to return to, above which the caller's stack pointer is.  Frames have less than
   64 KB.  The outermost frame has a null base pointer, as the ABI has it. *)
Fixpoint stack_in (m : mem) (fs : list frame) : Prop :=
  match fs with
  | [] => False
  | f :: rest =>
      match rest with
      | [] => r_bp f = 0
      | g :: _ => r_sp f <= r_bp f < r_sp f + 65536 /\ r_bp f mod 8 = 0 /\
                  m (r_bp f) = Some (r_bp g) /\ m (r_bp f + 8) = Some (r_ip g) /\ r_sp g = r_bp f + 16 /\
                  268435456 <= r_sp f /\ r_sp g < TOP /\
                  stack_in m rest
      end
  end.

(* The callback is called for each frame from the innermost on, until it returns other than zero. *)
Fixpoint each {A} (cb : A -> Z -> Z -> Z -> A * Z) (l : list (Z * Z * Z)) (a : A) : A * Z :=
  match l with
  | [] => (a, 0)
  | (ip, sp, bp) :: rest => let '(a', r) := cb a ip sp bp in if r =? 0 then each cb rest a' else (a', r)
  end.

(* What the frames are reported as.  The outermost has no base pointer, and [b] stands for it. *)
Definition report (b : Z) (f : frame) : Z * Z * Z := (r_ip f, r_sp f, if r_bp f =? 0 then b else r_bp f).
