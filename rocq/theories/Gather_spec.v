(* What should come of a disassembly and a list of source-level sites. *)
From Verif Require Import Base Meta_model Allocsites_model Gather_model.

(* A disassembly, as objdump makes it with source lines: before each run of instructions,
   perhaps the function's name, perhaps file and line, and then perhaps source lines. *)
Record insn := mkIn { n_addr : Z; n_len : Z; n_call : bool }.
Record block := mkB { b_dots : bool; b_fun : bool; b_loc : option (str * Z); b_src : list cls; b_ins : list insn }.
Record section := mkSec { sec_blank : bool; sec_blocks : list block }.
Record listing := mkL { l_blanks : nat; l_secs : list section }.

Definition show_block (b : block) : list cls :=
  (if b_dots b then [CDots] else []) ++ (if b_fun b then [CFun] else []) ++
  (match b_loc b with Some (f, n) => [CFile f n] | None => [] end) ++ b_src b ++
  map (fun i => CIns (n_addr i) (n_call i)) (b_ins b).
Definition show_section (s : section) : list cls :=
  (if sec_blank s then [CBlank] else []) ++ CSection :: flat_map show_block (sec_blocks s).
Definition show (l : listing) : list cls :=
  CHeader :: repeat CBlank (l_blanks l) ++ flat_map show_section (l_secs l).

(* Source lines are any text but what looks like an instruction, a heading or three dots; the first one, if no function's
   name was given, does not end in "():".  They come with file and line only.  Each run has an
   instruction. *)
Definition source_text (c : cls) : Prop :=
  match c with CBlank | CText | CFile _ _ | CFun => True | _ => False end.
Definition wf_block (b : block) : Prop :=
  Forall source_text (b_src b) /\ b_ins b <> [] /\
  (b_loc b = None -> b_src b = []) /\
  (b_fun b = false -> hd CText (b_src b) <> CFun).
Definition wf_listing (l : listing) : Prop :=
  Forall (fun s => Forall wf_block (sec_blocks s)) (l_secs l).

(* The calls, in order, with the source lines shown for them: those of the latest block with file
   and line, unless a function of unknown file has begun since. *)
Definition loc_after (cur : option (str * Z * Z)) (b : block) : option (str * Z * Z) :=
  match b_loc b with
  | Some (f, n) => Some (f, n, n + Z.max 1 (Z.of_nat (length (b_src b))))
  | None => if b_fun b then None else cur
  end.
Definition call_at (cur : option (str * Z * Z)) (i : insn) : list obj :=
  if n_call i then
    [match cur with
     | Some (f, lo, hi) => mkO (n_addr i + n_len i) f lo hi
     | None => mkO (n_addr i + n_len i) question 0 1
     end]
  else [].
Fixpoint calls_blocks (cur : option (str * Z * Z)) (bs : list block) : list obj :=
  match bs with
  | [] => []
  | b :: r => let cur' := loc_after cur b in flat_map (call_at cur') (b_ins b) ++ calls_blocks cur' r
  end.
Definition calls (l : listing) : list obj := flat_map (fun s => calls_blocks None (sec_blocks s)) (l_secs l).

(* All instructions; each call is followed by another instruction, where it returns. *)
Definition all_ins (l : listing) : list insn := flat_map (fun s => flat_map b_ins (sec_blocks s)) (l_secs l).
Fixpoint followed (l : list insn) : Prop :=
  match l with
  | [] => True
  | i :: r => (n_call i = true -> exists j r', r = j :: r' /\ n_addr j = n_addr i + n_len i) /\ followed r
  end.

(* The source-level site belonging to a call: the first on the lines shown for it. *)
Definition on_lines (o : obj) (s : src) : Prop := s_file s = o_file o /\ o_lo o <= s_line s < o_hi o.
Definition first_on (ss : list src) (o : obj) (m : option src) : Prop :=
  match m with
  | None => forall s, In s ss -> ~ on_lines o s
  | Some s => exists a b, ss = a ++ s :: b /\ on_lines o s /\ (forall x, In x a -> ~ on_lines o x)
  end.
(* sources in the order of file names' bytes, then of lines *)
Definition before (a b : src) : Prop :=
  str_cmp (s_file a) (s_file b) = Lt \/ (s_file a = s_file b /\ s_line a <= s_line b).
Definition in_order (ss : list src) : Prop := ForallOrdPairs before ss.
Definition short (n : Z) : Prop := 0 <= n < 1000000.
