(* Model of how the compiler wrapper reads its command line and makes the command that compiles,
   tools/compilerwrapper.py:61-113, 226-248, 250-286, 291-420, 563-612.  Definitions only.

   [None] is an exception, at which the wrapper stops.  Environment variables, the wrapped
   compiler's own further arguments (getCompilerCommand), linking, and compiling for a link (each
   source by itself, into a temporary file) are left out. *)
From Coq Require Import String Ascii.
From Verif Require Import Base.
Open Scope string_scope.

Definition DRIVER := 0%nat.
Definition PREPROCESS := 1%nat.
Definition COMPILE := 2%nat.
Definition ASSEMBLE := 3%nat.
Definition LINK := 4%nat.
Definition phases := list nat.
Definition has (p : nat) (ps : phases) : bool := existsb (Nat.eqb p) ps.

Definition oneof (a : string) (l : list string) : bool := existsb (String.eqb a) l.
(* os.path.splitext: [e] the extension so far, [n] whether the file's own name has begun *)
Fixpoint ext_from (e : string) (n : bool) (s : string) : string :=
  match s with
  | EmptyString => e
  | String c s =>
      if Ascii.eqb c "/" then ext_from "" false s
      else if Ascii.eqb c "." then (if n then ext_from "." true s else ext_from e false s)
      else ext_from (if e =? "" then "" else e ++ String c "") true s
  end.
Definition ext (s : string) : string := ext_from "" false s.
(* guessInputLanguageFromFilename, 61-96 *)
Definition guess (f : string) : option string :=
  let e := ext f in
  if e =? ".c" then Some "c"
  else if e =? ".h" then Some "c-header"
  else if e =? ".i" then Some "cpp-output"
  else if oneof e [".C"; ".cc"; ".cpp"; ".cxx"; "CPP"; "c++"; ".cp"] then Some "c++"
  else if oneof e [".H"; ".hh"; ".hpp"; ".hxx"; "HPP"; "h++"; ".hp"; ".tc"] then Some "c++-header"
  else if e =? ".ii" then Some "c++-cpp-output"
  else if e =? ".s" then Some "assembler"
  else if e =? ".S" then Some "assembler-with-cpp"
  else None.
(* phasesForInputLanguage, 98-113; the last case is an error *)
Definition phases_for (l : option string) : option phases :=
  match l with
  | None => Some [LINK]
  | Some l =>
      if oneof l ["c"; "c-header"; "c++"; "c++-header"] then Some [PREPROCESS; COMPILE; ASSEMBLE; LINK]
      else if oneof l ["cpp-output"; "c++-cpp-output"] then Some [COMPILE; ASSEMBLE; LINK]
      else if l =? "assembler" then Some [ASSEMBLE; LINK]
      else if l =? "assembler-with-cpp" then Some [PREPROCESS; ASSEMBLE; LINK]
      else None
  end.

(* what the chain of tests in classifyArguments, 306-414, makes of a word *)
Inductive kind :=
| KMarker                          (* --: reads an attribute that does not exist *)
| KFile
| KOut                             (* -o file *)
| KItem (ps : phases)              (* kept in its place *)
| KItem2 (ps : phases)             (* and the next word too *)
| KItemSkip (ps : phases)          (* and the next word is skipped *)
| KJoin (ps : phases) (pre : string)   (* joined with the next word into one option *)
| KOpt (ps : phases) (key : string)
| KOptV (ps : phases)              (* an option whose value is the next word *)
| KStop (en : option phases)       (* for the driver; sets the phases to do *)
| KLang.
Definition has_eq (s : string) : bool := existsb (Ascii.eqb "=") (list_ascii_of_string s).
Definition kindof (a : string) : kind :=
  if a =? "--" then KMarker
  else if (a =? "-") || negb (prefix "-" a) then KFile
  else if a =? "-o" then KOut
  else if prefix "-l" a then KItem [LINK]
  else if a =? "-I" then KJoin [PREPROCESS] "-I"
  else if prefix "-I" a then KOpt [PREPROCESS] a
  else if a =? "-L" then KItem2 [LINK]
  else if prefix "-L" a then KItem [LINK]
  else if oneof a ["-flto"; "-fno-lto"] then KOpt [COMPILE; LINK] a
  else if prefix "-f" a then KOpt [COMPILE] a
  else if prefix "-O" a then KOpt [COMPILE] a
  else if prefix "-std" a then KOpt [PREPROCESS; COMPILE] a
  else if prefix "-g" a then KOpt [COMPILE; ASSEMBLE; LINK] a
  else if oneof a ["-shared"; "-G"] then KOpt [LINK] "-shared"
  else if a =? "-c" then KStop (Some [PREPROCESS; COMPILE; ASSEMBLE])
  else if (a =? "-h") || prefix "--help" a || prefix "--target-help" a then KStop None
  else if a =? "-E" then KStop (Some [PREPROCESS])
  else if a =? "-S" then KStop (Some [PREPROCESS; COMPILE])
  else if a =? "-x" then KLang
  else if oneof a ["-include"; "-isystem"; "-idirafter"; "-imacros"; "-iprefix"; "-iquote"; "-iwithprefix"; "-iwithprefixbefore"] then KItem2 [PREPROCESS]
  else if oneof a ["-param"; "--param"] then KItem2 [COMPILE]
  else if oneof a ["-M"; "-MM"; "-MG"; "-MP"; "-MD"; "-MMD"] then KItemSkip [PREPROCESS]
  else if oneof a ["-MT"; "-MQ"; "-MF"] then KOptV [PREPROCESS]
  else if a =? "-T" then KOptV [LINK]
  else if a =? "-u" then KItem2 [LINK]
  else if prefix "-Wl" a then KOpt [LINK] a
  else if prefix "-Xlinker" a then KJoin [LINK] "-Wl,"
  else if prefix "-Wp" a then KOpt [PREPROCESS] a
  else if prefix "-Xpreprocessor" a then KJoin [PREPROCESS] "-Wp,"
  else if prefix "-Wa" a then KOpt [ASSEMBLE] a
  else if prefix "-Xassembler" a then KJoin [ASSEMBLE] "-Wa,"
  else if prefix "-mllvm" a then
    (if has_eq a then KOpt [LINK; PREPROCESS; COMPILE; ASSEMBLE] a else KOptV [LINK; PREPROCESS; COMPILE; ASSEMBLE])
  else KOpt [DRIVER; PREPROCESS; COMPILE; ASSEMBLE; LINK] a.

(* a dictionary: in order of first insertion *)
Definition dict := list (string * option string).
Fixpoint dset (k : string) (v : option string) (d : dict) : dict :=
  match d with
  | [] => [(k, v)]
  | (k', v') :: d => if k' =? k then (k, v) :: d else (k', v') :: dset k v d
  end.
Inductive item := ISrc (f lang : string) | IStr (s : string).
Record cst := mkC { c_en : phases; c_items : list (phases * item); c_opts : nat -> dict; c_lang : option string; c_out : option string }.
(* argItem, 226-237 *)
Definition add_item (ps : phases) (i : item) (s : cst) : cst :=
  mkC (c_en s) (c_items s ++ [(ps, i)]) (c_opts s) (c_lang s) (c_out s).
(* argOption, 239-248 *)
Definition add_opt (ps : phases) (k : string) (v : option string) (s : cst) : cst :=
  mkC (c_en s) (c_items s) (fun p => if has p ps then dset k v (c_opts s p) else c_opts s p) (c_lang s) (c_out s).
Definition set_en (en : option phases) (s : cst) : cst :=
  mkC (match en with Some e => e | None => c_en s end) (c_items s) (c_opts s) (c_lang s) (c_out s).
(* classifyArguments, 291-414, after the program's name *)
Fixpoint classify (s : cst) (args : list string) : option cst :=
  match args with
  | [] => Some s
  | a :: rest =>
      match kindof a with
      | KMarker => None
      | KFile =>
          let l := match c_lang s with None => guess a | l => l end in
          match phases_for l with
          | None => None
          | Some ps => classify (add_item ps (match l with Some l => ISrc a l | None => IStr a end) s) rest
          end
      | KItem ps => classify (add_item ps (IStr a) s) rest
      | KItemSkip ps =>
          let s := add_item ps (IStr a) s in
          match rest with [] => Some s | _ :: rest => classify s rest end
      | KOpt ps k => classify (add_opt ps k None s) rest
      | KStop en => classify (set_en en (add_item [DRIVER] (IStr a) s)) rest
      | k =>
          match rest with
          | [] => None
          | v :: rest =>
              match k with
              | KOut => let s := add_opt [DRIVER] "-o" (Some v) s in
                        classify (mkC (c_en s) (c_items s) (c_opts s) (c_lang s) (Some v)) rest
              | KItem2 ps => classify (add_item ps (IStr v) (add_item ps (IStr a) s)) rest
              | KJoin ps pre => classify (add_opt ps (pre ++ v) None s) rest
              | KOptV ps => classify (add_opt ps a (Some v) s) rest
              | _ => classify (mkC (c_en s) (c_items s) (c_opts s) (if v =? "none" then None else Some v) (c_out s)) rest
              end
          end
      end
  end.
Definition maxp (ps : phases) : nat := fold_right Nat.max 0%nat ps.
(* the end of it, 415-417 *)
Definition finish (s : cst) : cst :=
  match c_out s with
  | Some o => if o =? "" then s else add_opt [maxp (c_en s)] "-o" (Some o) s
  | None => s
  end.
Definition start : cst := mkC [PREPROCESS; COMPILE; ASSEMBLE; LINK] [] (fun _ => []) None None.
(* optionsForPhases, 250-251: phases in increasing order *)
Definition options_for (ps : phases) (s : cst) : dict :=
  fold_left (fun d kv => dset (fst kv) (snd kv) d) (flat_map (c_opts s) ps) [].
(* flatOptions, 262-265 *)
Definition flat_opts (d : dict) : list string :=
  flat_map (fun kv => match snd kv with Some v => [fst kv; v] | None => [] end) d ++
  flat_map (fun kv => match snd kv with Some _ => [] | None => [fst kv] end) d.
(* itemsForPhases, 267-274: the names are those before the first phase, here the preprocessor's *)
Definition items_for (ps : phases) (s : cst) : list item :=
  flat_map (fun x => if existsb (fun p => has p ps) (fst x) then [snd x] else []) (c_items s).
(* flatItems, 276-286; a language that cannot be guessed is no string, and cannot be put in a command *)
Fixpoint flat_items (l : list item) : option (list string) :=
  match l with
  | [] => Some []
  | IStr x :: l => match flat_items l with Some r => Some (x :: r) | None => None end
  | ISrc x lang :: l =>
      match guess x, flat_items l with
      | Some g, Some r => Some ((if g =? lang then [x] else ["-x"; g; x; "-x"; "none"]) ++ r)
      | _, _ => None
      end
  end%list.
Definition lookup (k : string) (d : dict) : option (option string) :=
  match find (fun kv => fst kv =? k) d with Some kv => Some (snd kv) | None => None end.
Definition without (k : string) (d : dict) : dict := filter (fun kv => negb (fst kv =? k)) d.
(* optionToStopAfterPhase, 563-570 *)
Definition stop_at (p : nat) : string := if Nat.eqb p PREPROCESS then "-E" else if Nat.eqb p COMPILE then "-S" else "-c".
(* runPhasesBeforeLink, 572-612, where the last phase is not linking *)
Inductive outcome :=
| Raises                       (* stops with an exception *)
| Links                        (* goes on to link; not modelled *)
| Idle                         (* no source to compile *)
| Runs (args : list string).   (* the compiler is run, with these arguments *)
Definition command (args : list string) : outcome :=
  match classify start args with
  | None => Raises
  | Some s =>
      let s := finish s in
      let ps := c_en s in
      if has LINK ps then Links else
      if existsb (fun x => match snd x with ISrc _ _ => true | _ => false end) (c_items s) then
        let o := without "-o" (options_for ps s) in
        let o := match lookup "-o" (options_for [maxp ps] s) with Some v => o ++ [("-o", v)] | None => o end in
        match flat_items (items_for ps s) with
        | None => Raises
        | Some its => Runs (flat_opts o ++ its ++ [stop_at (maxp ps)])
        end
      else Idle
  end%list.
