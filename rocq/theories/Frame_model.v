(* Model of stack-frame lookup: src/allocators/stackframe.c:173-401, and of the frame tables it
   consults, as tools/frametypes2.cpp:198-236, 289-306, 485-548, 652-698 generates them.  Definitions only. *)
From Verif Require Import Base Allocsites_model.

(* ---- the tables ---- *)
(* A local variable held in the frame over some range of program counters: its offset from the
   frame base, and its size.  Elements not at a fixed offset are dropped beforehand
   (local_elements_by_stack_offset, frametypes2.cpp:289-306). *)
Record elem := mkElem { e_off : Z; e_size : Z }.
(* a range of program counters [v_lo, v_hi) of one function with its elements, in the order of
   set<frame_element>; and a function *)
Record ival := mkIval { v_lo : Z; v_hi : Z; v_elems : list elem }.
Definition subp := list ival.

(* the structure type of a frame (write_uniqtype_open_composite, frametypes2.cpp:541-549): its size,
   and its members *)
Record ftype := mkFT { t_maxoff : Z; t_members : list elem }.
(* struct frame_allocsite_entry: { offset_from_frame_base, { allocsite_vaddr, uniqtype } } *)
Record fentry := mkFE { x_vaddr : Z; x_off : Z; x_type : ftype }.

(* get_frame_offset, frametypes2.cpp:198-236, without the narrowing to unsigned *)
Definition min_off (i : subp) : option Z :=
  fold_right (fun e m => match m with None => Some (e_off e) | Some x => Some (Z.min (e_off e) x) end) None (flat_map v_elems i).
Definition frame_offset (i : subp) : Z :=
  match min_off i with Some m => if m <? 0 then rup (- m) 8 else 0 | None => 0 end.

(* multimap insertion: by offset, equal offsets in order of insertion *)
Fixpoint by_off_insert (e : elem) (l : list elem) : list elem :=
  match l with
  | [] => [e]
  | d :: t => if e_off e <? e_off d then e :: l else d :: by_off_insert e t
  end.
Definition by_off (l : list elem) : list elem := fold_left (fun acc e => by_off_insert e acc) l [].

(* frametypes2.cpp:532-549 and, for the members, 554-605; without the narrowing to unsigned.
   Sharing one type between ranges with equal layouts (499-530) is not modelled. *)
Definition ftype_of (fo : Z) (es : list elem) : ftype :=
  let l := by_off es in
  let e := match l with [] => 0 | _ => let d := last l (mkElem 0 0) in e_off d + e_size d end in
  mkFT ((if e <? 0 then 0 else e) + fo) (map (fun d => mkElem (e_off d + fo) (e_size d)) l).

(* the table: frametypes2.cpp:651-698.  Ranges without elements have no entry (662-669). *)
Definition entries (i : subp) : list fentry :=
  map (fun v => mkFE (v_lo v) (frame_offset i) (ftype_of (frame_offset i) (v_elems v)))
      (filter (fun v => match v_elems v with [] => false | _ => true end) i).
Fixpoint ins_sorted (e : fentry) (l : list fentry) : list fentry :=
  match l with
  | [] => [e]
  | d :: t => if x_vaddr e <=? x_vaddr d then e :: l else d :: ins_sorted e t
  end.
Definition table (p : list subp) : list fentry := fold_right ins_sorted [] (flat_map entries p).

(* ---- looking up a program counter ---- *)
(* a loaded file: the range of its file allocation, its load address, its table *)
Record ffile := mkFF { ff_lo : Z; ff_hi : Z; ff_base : Z; ff_tab : list fentry }.
(* pc_to_frame_uniqtype, stackframe.c:373-401 *)
Definition pc_lookup (tab : list fentry) (v : Z) : option fentry :=
  match bsearch_leq (map x_vaddr tab) v with
  | Some k => nth_error tab k
  | None => None
  end.
Definition pc_to_frame (fs : list ffile) (pc : Z) : option (ftype * Z) :=
  match find (fun f => (ff_lo f <=? pc) && (pc <? ff_hi f)) fs with
  | Some f => match pc_lookup (ff_tab f) (pc - ff_base f) with
              | Some e => Some (x_type e, x_off e)
              | None => None
              end
  | None => None
  end.

(* ---- the walk ---- *)
(* what the unwinder says of each active frame, innermost first: ip, sp and, perhaps, bp *)
Record uframe := mkU { u_ip : Z; u_sp : Z; u_bp : option Z }.
(* how unw_step ends after the outermost frame: 0, -UNW_EBADREG, or another error *)
Inductive ustep := StepEnd | StepBadReg | StepError.
Definition TOP : Z := 140737488355328.  (* BEGINNING_OF_STACK, i.e. MAXIMUM_USER_ADDRESS, 2^47 *)

Inductive fans :=
| Found (base size ip : Z) (t : ftype)
| StepFailure | ReachedHigher | ReachedTop.

Section Walk.
Variable desc : Z -> option (ftype * Z).  (* pc_to_frame_uniqtype *)
Variable main_bp : Z.                     (* __liballocs_main_bp *)
Variable ends : ustep.
Variable obj : Z.

(* get_info's loop, stackframe.c:209-354.  [bp] keeps its value if the unwinder does not supply
   one.  The unused cursors, and the search for the file (Big_model), are left out. *)
Fixpoint walk (fs : list uframe) (bp : Z) (above_main : bool) : fans :=
  match fs with
  | [] => StepFailure
  | f :: rest =>
      let bp' := match u_bp f with Some b => b | None => bp end in
      let am := above_main || (match u_bp f with Some b => main_bp <=? b | None => false end) || (main_bp <=? u_sp f) in
      (* the caller's sp, and its bp if usable *)
      let higher :=
        match rest with
        | g :: _ => Some (u_sp g, match u_bp g with Some b => if bp' <=? b then Some b else None | None => None end)
        | [] => match ends with
                | StepEnd => Some (TOP, Some TOP)
                | StepBadReg => if am then Some (TOP, Some TOP) else None
                | StepError => None
                end
        end in
      match higher with
      | None => StepFailure
      | Some (hsp, hbp) =>
          let next := if hsp =? TOP then ReachedTop else walk rest bp' am in
          if match hbp with Some b => b <? obj | None => false end then next else
          match desc (u_ip f) with
          | None => next
          | Some (t, o) =>
              let base := hsp - o in
              if (base <=? obj) && (obj <? base + t_maxoff t) then Found base (t_maxoff t) (u_ip f) t
              else if obj <? base then ReachedHigher
              else next
          end
      end
  end.
Definition stack_info (fs : list uframe) : fans := walk fs 0 false.
End Walk.
