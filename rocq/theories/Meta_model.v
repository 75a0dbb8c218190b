(* Model of how the metadata file of a loaded file is named, found and loaded:
   src/meta-dso.c:20-164, src/meta-dso-util.c:67-156, src/allocators/static-file.c:226-231 and 566,
   and of where the tools put it, tools/Makefile.meta:163-184.  Definitions only.

   A string is the list of its bytes, without the terminator.  unsigned is 32 bits. *)
From Coq Require Import String Ascii.
From Verif Require Import Base.

Definition str := list Z.
Definition of_string (s : string) : str :=
  map (fun a => Z.of_N (N_of_ascii a)) (list_ascii_of_string s).
Definition SLASH : Z := 47.
Definition SUFFIX : str := of_string "-meta.so".           (* META_OBJ_SUFFIX, liballocs_private.h:178 *)
Definition INFIX : str := of_string "/.build-id/".         (* BUILD_ID_INFIX, meta-dso.c:74 *)
Definition BUFFER : Z := 4096.                             (* PATH_BUFFER_SIZE, meta-dso.c:34 *)

Fixpoint str_eqb (a b : str) : bool :=
  match a, b with
  | [], [] => true
  | x :: a', y :: b' => (x =? y) && str_eqb a' b'
  | _, _ => false
  end.

(* the first [n] bytes *)
Fixpoint take (n : Z) (s : str) : str :=
  match s with [] => [] | c :: r => if n <=? 0 then [] else c :: take (n - 1) r end.
Definition len (s : str) : Z := Z.of_nat (length s).

(* strncat to a buffer of [BUFFER] bytes that holds [s]: appends at most [n] bytes, and a terminator *)
Definition strncat (s src : str) (n : Z) : res str :=
  let t := s ++ take n src in
  if len t + 1 <=? BUFFER then Ok t else UB.

(* snprintf at the end of [s]: at most [n] bytes with the terminator *)
Definition snprintf_end (s text : str) (n : Z) : res str :=
  if n =? 0 then Ok s
  else let t := s ++ take (n - 1) text in
       if len t + 1 <=? BUFFER then Ok t else UB.

(* bytes_left -= (bytes_left < l) ? bytes_left : l *)
Definition less (left l : Z) : Z := (left - (if left <? l then left else l)) mod W32.

(* meta_libfile_name_by_path, meta-dso.c:36-61; None: a null pointer, the buffer untouched *)
Definition name_by_path (base objname : str) : res (option str) :=
  match objname with
  | [] => Ok None
  | c :: _ =>
      if negb (c =? SLASH) then Ok None
      else
        let base_len := len base mod W32 in
        let left0 := BUFFER - 1 - 1 in
        do s1 <- strncat [] base left0 ;
        let left1 := less left0 base_len in
        let file_name_len := len objname mod W32 in
        do s2 <- strncat s1 objname left1 ;
        let left2 := less left1 file_name_len in
        do s3 <- strncat s2 SUFFIX left2 ;
        Ok (Some s3)
  end.

(* %02hhx *)
Definition hex_digit (d : Z) : Z := if d <? 10 then 48 + d else 87 + d.
Definition hh (b : Z) : str := [hex_digit (b mod 256 / 16); hex_digit (b mod 256 mod 16)].
(* the formatted id, meta-dso.c:79-88 *)
Definition hex_id (id : list Z) : str :=
  match id with [] => [] | b :: r => hh b ++ [SLASH] ++ flat_map hh r end.

(* meta_libfile_name_by_build_id, meta-dso.c:62-96 *)
Definition name_by_id (base : str) (id : list Z) : res str :=
  let base_len := len base mod W32 in
  let left0 := BUFFER - 1 - 1 in
  do s1 <- strncat [] base left0 ;
  let left1 := less left0 base_len in
  do s2 <- strncat s1 INFIX left1 ;
  let left2 := less left1 (len INFIX) in
  do s3 <- snprintf_end s2 (hex_id id) left2 ;
  let left3 := (left2 - 40) mod W32 in
  strncat s3 SUFFIX left3.

(* Where the tools put it, Makefile.meta:180-184 and 163-177, the latter given the hex string that
   read_build_id (debug-funcs.sh) prints: the first two digits, then the rest. *)
Definition made_by_path (base objname : str) : str := base ++ [SLASH] ++ tl objname ++ SUFFIX.
Definition made_by_id (base : str) (id : list Z) : str :=
  let hex := flat_map hh id in
  base ++ of_string "/.build-id/" ++ firstn 2 hex ++ [SLASH] ++ skipn 2 hex ++ SUFFIX.

(* What the process sees of the file system.  [opens p]: None if p cannot be opened for reading;
   Some None if it can but cannot be examined; Some (Some t) with its modification time. *)
Record fsys := mkFs { opens : str -> option (option Z); stats : str -> option Z }.

(* Open descriptors: number, file. *)
Definition fdtab := list (Z * str).
Definition close (t : fdtab) (fd : Z) : fdtab := filter (fun e => negb (fst e =? fd)) t.

Section Find.
Variable base : str.
Variable fs : fsys.
Variable newfd : fdtab -> Z.         (* the number the kernel gives next *)
Variable junk : nat -> Z.            (* an uninitialised st_mtime, at each turn of the loop *)

(* the loop of find_and_open_meta_libfile, meta-dso.c:122-163.  The answer is -1 or a descriptor. *)
Fixpoint try_each (i : nat) (cs : list str) (objname : str) (t : fdtab) : Z * fdtab :=
  match cs with
  | [] => (-1, t)
  | c :: r =>
      match opens fs c with
      | None => try_each (S i) r objname t
      | Some m =>
          let fd := newfd t in
          let t1 := (fd, c) :: t in
          match m with
          | None => try_each (S i) r objname (close t1 fd)
          | Some mt =>
              let bt := match stats fs objname with Some b => b | None => junk i end in
              if mt <? bt then try_each (S i) r objname (close t1 fd)
              else (fd, t1)
          end
      end
  end.

(* find_and_open_meta_libfile, meta-dso.c:101-164.  The buffers start empty. *)
Definition have_id (id : list Z) : bool := negb (forallb (fun b => b =? 0) id).
Definition find_meta (objname : str) (id : list Z) (t : fdtab) : res (Z * fdtab) :=
  do by_id <- (if have_id id then name_by_id base id else Ok []) ;
  do p <- name_by_path base objname ;
  let by_path := match p with Some s => s | None => [] end in
  Ok (try_each 0 (if have_id id then [by_id; by_path] else [by_path]) objname t).

(* What the dynamic linker counts: for each object (by its real path) the references held. *)
Variable real : str -> option str.   (* realpath_quick of /proc/self/fd/n, by the file opened *)
Variable loads : str -> bool.        (* whether dlopen can load the object *)
Definition refs := str -> Z.
Definition upd (r : refs) (p : str) (v : Z) : refs := fun q => if str_eqb q p then v else r q.

(* load_and_init_all_metadata_for_one_object, meta-dso-util.c:67-156.  [mem1], [mem2]: asprintf and
   __private_strndup find memory.  The answer is args->out_handle, named by its path.  Hooks
   (libcrunch's) and messages are left out. *)
Definition load_meta (canon : option str) (objname : str) (id : list Z) (mem1 mem2 : bool)
    (t : fdtab) (r : refs) : res (option str * fdtab * refs) :=
  match canon with
  | None => Ok (None, t, r)
  | Some cn =>
      if str_eqb cn base then Ok (None, t, r)
      else if len cn <? len SUFFIX then UB
      else if str_eqb SUFFIX (skipn (length cn - length SUFFIX) cn) then Ok (None, t, r)
      else
        do '(fd, t1) <- find_meta objname id t ;
        if fd =? -1 then Ok (None, t1, r)
        else if negb mem1 then Ok (None, close t1 fd, r)
        else
          match List.find (fun e => fst e =? fd) t1 with
          | None => Ok (None, close t1 fd, r)
          | Some e =>
              match real (snd e) with
              | None => Ok (None, close t1 fd, r)
              | Some p =>
                  if negb mem2 then Ok (None, close t1 fd, r)
                  else
                    if 0 <? r p then
                      (* RTLD_NOLOAD finds it: a reference is taken and dropped *)
                      let r1 := upd r p (r p + 1) in
                      Ok (Some p, close t1 fd, upd r1 p (r1 p - 1))
                    else if loads p then Ok (Some p, close t1 fd, upd r p (r p + 1))
                    else Ok (None, close t1 fd, r)
              end
          end
  end.

(* dlclose at unloading, static-file.c:566; of an object not loaded it is undefined *)
Definition unload_meta (h : option str) (r : refs) : res refs :=
  match h with
  | None => UB
  | Some p => if 0 <? r p then Ok (upd r p (r p - 1)) else UB
  end.
End Find.
