(* What the metadata file of a loaded file should be. *)
From Coq Require Import String Ascii.
From Verif Require Import Base.

Definition text (s : string) : list Z := map (fun a => Z.of_N (N_of_ascii a)) (list_ascii_of_string s).
Definition digit (d : Z) : Z := nth (Z.to_nat d) (text "0123456789abcdef") 0.
Definition hex2 (b : Z) : list Z := [digit (b / 16); digit (b mod 16)].

(* the two names *)
Definition path_name (base objname : list Z) : list Z := base ++ objname ++ text "-meta.so".
Definition id_name (base id : list Z) : list Z :=
  base ++ text "/.build-id/" ++ hex2 (hd 0 id) ++ text "/" ++ concat (map hex2 (tl id)) ++ text "-meta.so".

(* a build id: twenty bytes *)
Definition is_id (id : list Z) : Prop := length id = 20%nat /\ forall b, In b id -> 0 <= b < 256.
Definition no_id (id : list Z) : Prop := forall b, In b id -> b = 0.
Definition absolute (s : list Z) : Prop := exists r, s = 47 :: r.

(* the candidates, in order of preference *)
Definition candidate (base objname id : list Z) (k : nat) (p : list Z) : Prop :=
  (k = 0%nat /\ ~ no_id id /\ p = id_name base id) \/
  (k = 1%nat /\ absolute objname /\ p = path_name base objname).

Section Best.
Variables (opens : list Z -> option (option Z)) (built : Z).
(* readable, and not older than the file it describes *)
Definition usable (p : list Z) : Prop := exists t, opens p = Some (Some t) /\ built <= t.
Definition best (base objname id p : list Z) : Prop :=
  exists k, candidate base objname id k p /\ usable p /\
    forall j q, (j < k)%nat -> candidate base objname id j q -> ~ usable q.
Definition none_usable (base objname id : list Z) : Prop :=
  forall k q, candidate base objname id k q -> ~ usable q.
End Best.
