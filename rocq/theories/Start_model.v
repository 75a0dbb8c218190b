(* The library's start-up: the initialisers of its parts, which call one
   another, are run as constructors in an order the linker picks, and may be
   entered again from the work they do themselves.
   Sources: src/init.c:44-140, src/allocators/mmap.c:966-1120,
   src/allocators/brk.c:196-217, src/allocators/static-file.c:64-115,
   src/allocators/static-segment.c:19-40, src/allocators/static-section.c:20-30,
   src/allocators/static-symbol.c:21-36, src/allocators/auxv.c:38-46,
   src/allocators/stack.c:31-57, src/allocators/stackframe.c:36-119,
   include/liballocs.h:229-241 *)
From Coq Require Import List Bool Arith.
Import ListNotations.

(* The parts that are initialised.  RuntFiles is librunt's own set-up of the
   file metadata; librunt is not in /repo, and is taken to guard its set-up
   with a flag as the others do. *)
Inductive comp : Set :=
  Global | Mmap | File | Segment | Section_ | Symbol | Auxv | RuntFiles | Brk | Stack | Frame.

(* The pieces of work done on the way; each is a call out of the initialisers
   that could in turn enter them again. *)
Inductive event : Set :=
| EIndex      (* mmap.c:995, the page index *)
| EScan       (* mmap.c:1098, the mappings that exist already *)
| EBrk        (* brk.c:209-213, the record of the heap below the break *)
| EFiles      (* mmap.c:1106, static-file.c:70, the files loaded already *)
| ETrap       (* mmap.c:1109, from here on system calls are seen *)
| EBrkCheck   (* mmap.c:1110, the break is read again *)
| EMeta       (* mmap.c:1113, the metadata of the files loaded already *)
| EBind       (* init.c:137-138, the library's own dynamic object for types *)
| EAux        (* auxv.c:44 *)
| EStack      (* stack.c:44-53 *)
| EFrame.     (* stackframe.c:47-115 *)

(* Calls from outside: an initialiser, as a constructor or otherwise, or
   __liballocs_ensure_init, which every query goes through. *)
Inductive call : Set := CInit (c : comp) | CEnsure.

Inductive act : Set := Call (k : call) | Ev (e : event) | Done (c : comp).

Definition comp_eqb (a b : comp) : bool :=
  match a, b with
  | Global, Global | Mmap, Mmap | File, File | Segment, Segment
  | Section_, Section_ | Symbol, Symbol | Auxv, Auxv | RuntFiles, RuntFiles
  | Brk, Brk | Stack, Stack | Frame, Frame => true
  | _, _ => false
  end.

(* The flags.  [touched] is `trying_to_initialize || initialized` (for the
   global initialiser and the auxv, `tried`), [inited] is `initialized`. *)
Record st := mk { touched : comp -> bool; inited : comp -> bool; trace : list event }.

Definition st0 : st := mk (fun _ => false) (fun _ => false) [].

Definition touch (c : comp) (s : st) : st :=
  mk (fun d => comp_eqb c d || touched s d) (inited s) (trace s).
Definition finish (c : comp) (s : st) : st :=
  mk (fun d => comp_eqb c d || touched s d) (fun d => comp_eqb c d || inited s d) (trace s).
Definition record (e : event) (s : st) : st :=
  mk (touched s) (inited s) (trace s ++ [e]).

(* The bodies.  The static-section initialiser does nothing
   (static-section.c:23-30).  In the mmap initialiser, the trap set-up is taken
   to succeed (init.c:132); the auxv's initialiser is called from the scan,
   when it meets the stack (auxv.c:114); the reading of the program headers,
   mmap.c:1003-1078, is in Exe_model. *)
Definition code (c : comp) : list act :=
  match c with
  | Global => [Call (CInit Mmap); Call (CInit File); Done Global]
  | Mmap => [Ev EIndex; Ev EScan; Call (CInit Auxv); Call (CInit Brk); Call (CInit RuntFiles);
             Ev ETrap; Ev EBrkCheck; Ev EMeta; Call (CInit Brk); Ev EBind;
             Call (CInit Global); Done Mmap]
  | File => [Call (CInit RuntFiles); Call (CInit Mmap); Call (CInit Auxv); Done File]
  | Segment => [Call (CInit File); Done Segment]
  | Section_ => [Done Section_]
  | Symbol => [Call (CInit Mmap); Call (CInit Segment); Call (CInit Section_); Done Symbol]
  | Auxv => [Ev EAux; Done Auxv]
  | RuntFiles => [Ev EFiles; Done RuntFiles]
  | Brk => [Ev EBrk; Done Brk]
  | Stack => [Ev EStack; Done Stack]
  | Frame => [Ev EFrame; Done Frame]
  end.

(* Whether the flag is set before the body: static-segment.c:33-34 sets it only
   after the static-file initialiser has returned. *)
Definition early (c : comp) : bool := match c with Segment => false | _ => true end.

(* An oracle says which calls come in during the n-th piece of work. *)
Definition oracle := nat -> list call.

(* Entering an initialiser: init.c:63-72 and the guards of the others. *)
Definition enter (c : comp) (s : st) : st * list act :=
  if touched s c then (s, [])
  else ((if early c then touch c s else s), code c).

(* One action: what it does to the flags, and what it runs.
   __liballocs_ensure_init asserts that __liballocs_global_init returned 0;
   that returns -1 when it has been tried and is not finished (init.c:67). *)
Definition act1 (o : oracle) (a : act) (s : st) : option (st * list act) :=
  match a with
  | Ev e => Some (record e s, map Call (o (length (trace s))))
  | Done c => Some (finish c s, [])
  | Call (CInit c) => Some (enter c s)
  | Call CEnsure =>
      if inited s Global then Some (s, [])
      else if touched s Global then None
      else Some (enter Global s)
  end.

(* Running a list of actions; the answer is false if an assertion failed, and
   carries the state reached. *)
Inductive ex (o : oracle) : list act -> st -> bool * st -> Prop :=
| x_nil s : ex o [] s (true, s)
| x_cons a l s s1 sub s2 r :
    act1 o a s = Some (s1, sub) -> ex o sub s1 (true, s2) -> ex o l s2 r ->
    ex o (a :: l) s r
| x_stop a l s s1 sub s2 :
    act1 o a s = Some (s1, sub) -> ex o sub s1 (false, s2) ->
    ex o (a :: l) s (false, s2)
| x_fail a l s : act1 o a s = None -> ex o (a :: l) s (false, s).

(* The same by computation; None is lack of fuel. *)
Fixpoint exec (fuel : nat) (o : oracle) (l : list act) (s : st) : option (bool * st) :=
  match fuel with
  | O => None
  | S fuel =>
      match l with
      | [] => Some (true, s)
      | a :: l =>
          match act1 o a s with
          | None => Some (false, s)
          | Some (s1, sub) =>
              match exec fuel o sub s1 with
              | Some (true, s2) => exec fuel o l s2
              | r => r
              end
          end
      end
  end.

(* A program's start: the calls that come in from outside, one after another. *)
Definition start (o : oracle) (l : list call) (r : bool * st) : Prop :=
  ex o (map Call l) st0 r.
