(* The wrappers of signal and sigaction, the printing of numbers on the way to
   an abort, and the test for being first in the link map.
   Sources: src/preload.c:333-347 and 403-443, src/ifunc.c:28-73 *)
From Coq Require Import ZArith List Bool.
Import ListNotations.
Local Open Scope Z_scope.

Definition SIGILL : Z := 4.
Definition SIG_ERR : Z := -1.
Definition EINVAL : Z := 22.
Definition ENOTSUP : Z := 95.

(* A process's signal state: the handler of each signal (a handler with its
   flags and mask is one number), whether SIGILL is blocked, and errno. *)
Record proc := mkproc { disp : Z -> Z; blocked : bool; errno : Z }.

(* The C library's own functions, which the wrappers call.  Not code of the
   repository: what POSIX says, with the numbers of Linux and of glibc, which
   keeps 32 and 33 for itself. *)
Definition valid_sig (n : Z) : bool := (1 <=? n) && (n <=? 64) && negb (n =? 32) && negb (n =? 33).
Definition fixed_sig (n : Z) : bool := (n =? 9) || (n =? 19).
Definition set_disp (n h : Z) (p : proc) : proc :=
  mkproc (fun m => if m =? n then h else disp p m) (blocked p) (errno p).
Definition set_errno (e : Z) (p : proc) : proc := mkproc (disp p) (blocked p) e.

(* answer, and the old handler if it is told *)
Definition c_sigaction (n : Z) (act : option Z) (p : proc) : (Z * option Z) * proc :=
  if negb (valid_sig n) then ((-1, None), set_errno EINVAL p)
  else match act with
       | None => ((0, Some (disp p n)), p)
       | Some h => if fixed_sig n then ((-1, None), set_errno EINVAL p)
                   else ((0, Some (disp p n)), set_disp n h p)
       end.
Definition c_signal (n h : Z) (p : proc) : Z * proc :=
  if (h =? SIG_ERR) || negb (valid_sig n) || fixed_sig n then (SIG_ERR, set_errno EINVAL p)
  else (disp p n, set_disp n h p).

(* preload.c:403-422.  The pointer to the C library's function is taken to have
   been found. *)
Definition w_signal (n h : Z) (p : proc) : Z * proc :=
  if n =? SIGILL then (SIG_ERR, set_errno ENOTSUP p) else c_signal n h p.

(* preload.c:424-443 *)
Definition w_sigaction (n : Z) (act : option Z) (p : proc) : (Z * option Z) * proc :=
  match act with
  | Some _ => if n =? SIGILL then c_sigaction SIGILL None p else c_sigaction n act p
  | None => c_sigaction n act p
  end.

(* What a program may call.  Bsd is bsd_signal, sysv_signal or sigset, which the
   C library also has and preload.c does not wrap; Block is sigprocmask or
   pthread_sigmask, likewise. *)
Inductive sop : Set :=
| Signal (n h : Z) | Sigaction (n : Z) (act : option Z)
| Bsd (n h : Z) | Block (b : bool).

Definition ans := (Z * option Z)%type.

Definition w_step (o : sop) (p : proc) : ans * proc :=
  match o with
  | Signal n h => let '(r, p) := w_signal n h p in ((r, None), p)
  | Sigaction n a => w_sigaction n a p
  | Bsd n h => let '(r, p) := c_signal n h p in ((r, None), p)
  | Block b => ((0, None), mkproc (disp p) b (errno p))
  end.

Fixpoint w_run (l : list sop) (p : proc) : list ans * proc :=
  match l with
  | [] => ([], p)
  | o :: l => let '(a, p) := w_step o p in let '(r, p) := w_run l p in (a :: r, p)
  end.

(* A trapped instruction raises SIGILL: the kernel kills the process if the
   signal is blocked, and runs its handler otherwise. *)
Definition trap (p : proc) : option Z := if blocked p then None else Some (disp p SIGILL).

(* preload.c:333-347: the ten divisions, and whether a digit has been written *)
Fixpoint decint_from (k : nat) (v : Z) (written : bool) : list Z :=
  match k with
  | O => [48 + Z.rem v 10]
  | S k' =>
      let a := 48 + Z.rem (Z.quot v (10 ^ Z.of_nat k)) 10 in
      if negb (a =? 48) || written then a :: decint_from k' v true else decint_from k' v false
  end.
Definition decint (v : Z) : list Z := decint_from 9 v false.

(* ifunc.c: names as strings of bytes; basename is the C library's (GNU's) *)
Fixpoint basename (s : list Z) : list Z :=
  match s with
  | [] => []
  | c :: r => if existsb (Z.eqb 47) r then basename r else if c =? 47 then r else s
  end.

Fixpoint str_eqb (a b : list Z) : bool :=
  match a, b with
  | [], [] => true
  | x :: a, y :: b => (x =? y) && str_eqb a b
  | _, _ => false
  end.

(* "liballocs_preload.so" and "linux-vdso.so.1" *)
Definition SONAME : list Z :=
  [108;105;98;97;108;108;111;99;115;95;112;114;101;108;111;97;100;46;115;111].
Definition VDSO : list Z := [108;105;110;117;120;45;118;100;115;111;46;115;111;46;49].

Fixpoint first_name (l : list (list Z)) : option (list Z) :=
  match l with
  | [] => None
  | n :: l => if str_eqb n [] then first_name l else if str_eqb n VDSO then first_name l else Some n
  end.

(* The answer is kept (checked_position); None is the abort. *)
Definition check_position (cache : option bool) (map_ : list (list Z)) : option (bool * option bool) :=
  match cache with
  | Some b => Some (b, cache)
  | None =>
      match first_name map_ with
      | None => None
      | Some n => let b := str_eqb (basename n) SONAME in Some (b, Some b)
      end
  end.

Fixpoint check_all (cache : option bool) (maps : list (list (list Z))) : option (list bool) :=
  match maps with
  | [] => Some []
  | m :: maps =>
      match check_position cache m with
      | None => None
      | Some (b, cache) => match check_all cache maps with Some r => Some (b :: r) | None => None end
      end
  end.
