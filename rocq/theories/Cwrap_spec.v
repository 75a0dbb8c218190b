(* Command lines by what their words are for, as the compiler's manual has it. *)
From Coq Require Import String Ascii.
From Verif Require Import Base Cwrap_model.
Open Scope string_scope.

Inductive word :=
| WSrc (f : string)        (* a source file *)
| WFlag (f : string)       (* an option of one word *)
| WPlace (o v : string)    (* an option of two words which stays in its place *)
| WVal (o v : string)      (* an option with a value, which may come anywhere *)
| WInc (v : string)        (* -I v *)
| WLib (f : string)        (* a word for the linker *)
| WOut (v : string)        (* -o v *)
| WC.                      (* -c *)
Definition render (w : word) : list string :=
  match w with
  | WSrc f => [f] | WFlag f => [f] | WPlace o v => [o; v] | WVal o v => [o; v]
  | WInc v => ["-I"; v] | WLib f => [f] | WOut v => ["-o"; v] | WC => ["-c"]
  end.
(* options of one word for the preprocessor, the compiler or the assembler: not one of those which
   take another word, stop early, list dependencies or are for the linker *)
Definition plain_flag (f : string) : Prop :=
  prefix "-" f = true /\
  oneof f ["-"; "--"; "-o"; "-I"; "-L"; "-shared"; "-G"; "-c"; "-h"; "-E"; "-S"; "-x"; "-include"; "-isystem"; "-idirafter"; "-imacros"; "-iprefix"; "-iquote";
           "-iwithprefix"; "-iwithprefixbefore"; "-param"; "--param"; "-M"; "-MM"; "-MG"; "-MP"; "-MD"; "-MMD"; "-MT"; "-MQ"; "-MF"; "-T"; "-u"; "-D"; "-U"; "-A"; "-z"; "-e"] = false /\
  existsb (fun p => prefix p f) ["-l"; "-L"; "-Wl"; "--help"; "--target-help"; "-Xlinker"; "-Xpreprocessor"; "-Xassembler"; "-mllvm"] = false.
Definition ok (w : word) : Prop :=
  match w with
  | WSrc f => prefix "-" f = false /\ guess f <> None
  | WFlag f => plain_flag f
  | WPlace o _ => In o ["-include"; "-isystem"; "-idirafter"; "-imacros"; "-iprefix"; "-iquote"; "-iwithprefix"; "-iwithprefixbefore"; "--param"]
  | WVal o _ => In o ["-MT"; "-MQ"; "-MF"]
  | WInc _ => True
  | WLib f => prefix "-l" f = true \/ (prefix "-L" f = true /\ f <> "-L") \/ prefix "-Wl" f = true
  | WOut v => v <> ""
  | WC => True
  end.
(* options with values are given one value each *)
Definition settled (ws : list word) : Prop :=
  (forall o v v', In (WVal o v) ws -> In (WVal o v') ws -> v = v') /\
  (forall v v', In (WOut v) ws -> In (WOut v') ws -> v = v').
(* what keeps its place *)
Definition placed (w : word) : list string :=
  match w with WSrc f => [f] | WPlace o v => [o; v] | _ => [] end.
(* directories to search for headers, in order; one given twice counts where it is first *)
Definition inc (w : word) : list string :=
  match w with WInc v => ["-I" ++ v] | WFlag f => if prefix "-I" f then [f] else [] | _ => [] end.
Fixpoint firsts (l : list string) : list string :=
  match l with [] => [] | x :: l => x :: filter (fun y => negb (y =? x)) (firsts l) end.
(* The command c does what a command line of these words with -c asks for: the sources and what goes
   with their places, in order; each option with its value; each flag; directories to search in the order given; and nothing else. *)
Definition compiles (ws : list word) (c : list string) : Prop :=
  exists ps ss, c = (flat_map (fun kv => [fst kv; snd kv]) ps ++ ss ++ flat_map placed ws ++ ["-c"])%list /\
    NoDup (map fst ps) /\ NoDup ss /\
    (forall k v, In (k, v) ps <-> In (WVal k v) ws \/ (k = "-o" /\ In (WOut v) ws)) /\
    (forall k, In k ss <-> In (WFlag k) ws \/ exists v, k = "-I" ++ v /\ In (WInc v) ws) /\
    filter (prefix "-I") ss = firsts (flat_map inc ws).
