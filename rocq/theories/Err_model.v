(* Model of where messages go: src/err.c:11-28, debug_printf in src/liballocs_private.h:155-159.
   Definitions only. *)
From Verif Require Import Base.

Definition bytes := list Z.

(* An open stream which has not been flushed: what it will write, from where in the file.
   Simplified: a stream's messages fit its buffer, so they are written at exit; the C library
   then flushes streams from the last opened to the first. *)
Record stream := mkStream { pos : nat; buf : bytes }.
(* [file]: contents of the file named by LIBALLOCS_ERR; [open]: its open streams, last opened
   first; [errs]: what has gone to stderr *)
Record est := mkEst { file : bytes; open_ : list stream; errs : bytes }.

(* [env]: LIBALLOCS_ERR is set.  [limit]: how many streams on the file can be open; 0 if it
   cannot be opened at all.  [level]: __liballocs_debug_level. *)
Section Err.
Variables (env : bool) (limit : nat) (level : Z).

(* the part of fprintf which appends to the buffer: stream None is stderr, Some is the last opened *)
Definition put (s : est) (to_file : bool) (m : bytes) : est :=
  if to_file then
    match open_ s with
    | b :: l => mkEst (file s) (mkStream (pos b) (buf b ++ m) :: l) (errs s)
    | [] => s
    end
  else mkEst (file s) (open_ s) (errs s ++ m).

(* get_stream_err, err.c:12-28.  It opens the file anew, truncating it, at every call; if that
   fails it prints a message, for which it calls itself. *)
Fixpoint get_stream (fuel : nat) (s : est) (oops : bytes) : res (est * bool) :=
  match fuel with
  | O => Fuel
  | S f =>
    if negb env then Ok (s, false)
    else if (length (open_ s) <? limit)%nat then Ok (mkEst [] (mkStream 0 [] :: open_ s) (errs s), true)
    else if 0 <=? level then
      do '(s1, w) <- get_stream f s oops ;
      Ok (put s1 w oops, false)
    else Ok (s, false)
  end.

(* debug_printf(lvl, m) *)
Definition say (fuel : nat) (s : est) (oops : bytes) (lvl : Z) (m : bytes) : res est :=
  if lvl <=? level then
    do '(s1, w) <- get_stream fuel s oops ; Ok (put s1 w m)
  else Ok s.
Fixpoint says (fuel : nat) (s : est) (oops : bytes) (l : list (Z * bytes)) : res est :=
  match l with
  | [] => Ok s
  | (lvl, m) :: l => do s1 <- say fuel s oops lvl m ; says fuel s1 oops l
  end.
End Err.

(* write(2) of b at offset p *)
Definition write_at (f : bytes) (p : nat) (b : bytes) : bytes :=
  match b with
  | [] => f
  | _ => firstn p (f ++ repeat 0 p) ++ b ++ skipn (p + length b) f
  end.
(* at exit *)
Definition at_exit (s : est) : bytes := fold_left (fun f x => write_at f (pos x) (buf x)) (open_ s) (file s).
Definition e0 (f : bytes) : est := mkEst f [] [].
