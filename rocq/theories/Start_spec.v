(* What is expected of start-up, in terms of the calls that come in and of the
   pieces of work done. *)
From Coq Require Import List Bool.
From Verif Require Import Start_model.
Import ListNotations.

(* The work that later work builds on, in the one order that is right: the
   index before anything is put in it, the mappings before what is nested in
   them, the files before the traps (which need their metadata), and the loads
   of further objects only after the traps. *)
Definition right_order : list event :=
  [EIndex; EScan; EBrk; EFiles; ETrap; EBrkCheck; EMeta; EBind].

(* The rest stands alone. *)
Definition alone (e : event) : bool :=
  match e with EAux | EStack | EFrame => true | _ => false end.

(* Calls that may come in at any time. *)
Definition free_call (k : call) : bool :=
  match k with
  | CInit Auxv | CInit Stack | CInit Frame | CInit Section_ => true
  | _ => false
  end.
Definition quiet_call (k : call) : bool :=
  match k with CInit Mmap => true | _ => free_call k end.
