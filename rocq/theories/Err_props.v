(* C73: where messages go. *)
From Verif Require Import Base Err_model.

Definition wanted (level : Z) (l : list (Z * bytes)) : list bytes := map snd (filter (fun x => fst x <=? level) l).

(* With LIBALLOCS_ERR unset every message at or below the debug level reaches stderr, whole and
   in order, and no other does. *)
Theorem err_stderr : forall limit level fuel oops l s, (0 < fuel)%nat ->
  exists s', says false limit level fuel s oops l = Ok s' /\ errs s' = errs s ++ concat (wanted level l) /\ file s' = file s /\ open_ s' = open_ s.
Proof.
  intros limit level [|fuel] oops l s Hf; [lia|]. clear Hf. revert s. induction l as [|[lvl m] l IH]; intro s; cbn [says].
  - exists s. cbn. rewrite app_nil_r. auto.
  - unfold say, wanted. cbn [filter fst map]. destruct (lvl <=? level) eqn:E; cbn [get_stream negb bind map snd concat].
    + destruct (IH (put s false m)) as (s' & -> & E1 & E2 & E3). exists s'. split; [reflexivity|]. cbn [put errs file open_] in *. rewrite E1, <- app_assoc. auto.
    + apply IH.
Qed.

(* If the file cannot be opened, or as many streams are open on it as can be, then printing a
   message never returns, however deep the stack. *)
Lemma get_stream_loops limit level fuel s oops : 0 <= level -> (limit <= length (open_ s))%nat -> get_stream true limit level fuel s oops = Fuel.
Proof.
  intros L H. induction fuel as [|fuel IH]; [reflexivity|]. cbn [get_stream negb]. destruct (Nat.ltb_spec (length (open_ s)) limit); [lia|].
  destruct (Z.leb_spec 0 level); [|lia]. rewrite IH. reflexivity.
Qed.
Theorem err_loops : forall limit level s oops lvl m, 0 <= level -> lvl <= level -> (limit <= length (open_ s))%nat ->
  forall fuel, say true limit level fuel s oops lvl m = Fuel.
Proof.
  intros limit level s oops lvl m L Hl H fuel. unfold say. destruct (Z.leb_spec lvl level); [|lia]. rewrite get_stream_loops by assumption. reflexivity.
Qed.

(* while streams can still be opened: each message has a stream of its own *)
Lemma says_open limit level fuel oops : (0 < fuel)%nat -> forall l s, (length (open_ s) + length (wanted level l) <= limit)%nat ->
  exists s', says true limit level fuel s oops l = Ok s' /\
    open_ s' = rev (map (mkStream 0) (wanted level l)) ++ open_ s /\ file s' = (match wanted level l with [] => file s | _ => [] end) /\ errs s' = errs s.
Proof.
  intros Hf l. destruct fuel as [|fuel]; [lia|]. clear Hf. induction l as [|[lvl m] l IH]; intros s H; cbn [says].
  - exists s. auto.
  - unfold say, wanted in *. cbn [filter fst] in *. destruct (lvl <=? level) eqn:E.
    + cbn [map snd length] in H. cbn [get_stream negb]. destruct (Nat.ltb_spec (length (open_ s)) limit); [|lia]. cbn [bind].
      unfold put at 1. cbn [open_ file errs pos buf app].
      destruct (IH (mkEst [] (mkStream 0 m :: open_ s) (errs s))) as (s' & E1 & E2 & E3 & E4); [cbn [open_ length]; lia|].
      exists s'. split; [exact E1|]. cbn [map snd rev open_ file errs] in *. rewrite E2, <- app_assoc. split; [reflexivity|]. split; [|exact E4].
      rewrite E3. destruct (map snd _); reflexivity.
    + cbn [bind]. apply IH. exact H.
Qed.

(* so after as many messages as streams can be opened, the next never returns *)
Theorem err_exhausted : forall limit level f oops l lvl m fuel, 0 <= level -> (0 < fuel)%nat -> lvl <= level -> length (wanted level l) = limit ->
  (exists s, says true limit level fuel (e0 f) oops l = Ok s) /\ forall n, says true limit level n (e0 f) oops (l ++ [(lvl, m)]) = Fuel.
Proof.
  intros limit level f oops l lvl m fuel L Hf Hl E.
  split; [destruct (says_open limit level fuel oops Hf l (e0 f) ltac:(cbn; lia)) as (s' & X & _); eauto|].
  intro n. assert (A : forall l1 l2 s, says true limit level n s oops (l1 ++ l2) = (do s1 <- says true limit level n s oops l1 ; says true limit level n s1 oops l2)).
  { induction l1 as [|[v x] l1 IH]; intros l2 s; cbn [says app]; [reflexivity|]. destruct (say true limit level n s oops v x); cbn [bind]; auto. }
  rewrite A. destruct n as [|n].
  - assert (Z0 : forall l s, says true limit level 0 s oops l = Fuel \/ says true limit level 0 s oops l = Ok s).
    { clear. induction l as [|[v x] l IH]; intro s; cbn [says]; [auto|]. unfold say. destruct (v <=? level); cbn; auto. }
    destruct (Z0 l (e0 f)) as [-> | ->]; [reflexivity|]. cbn [bind says]. unfold say. destruct (Z.leb_spec lvl level); [reflexivity|lia].
  - destruct (says_open limit level (S n) oops ltac:(lia) l (e0 f) ltac:(cbn; lia)) as (s' & -> & E2 & _). cbn [bind says].
    rewrite err_loops; [reflexivity|exact L|exact Hl|]. rewrite E2, app_nil_r, rev_length, map_length. lia.
Qed.

(* A message that is the only one is what the file holds at exit.
   Full statement: at exit the file holds all the messages, one after another.  Missing: false
   of two or more (err_longest, err_lost_refuted). *)
Theorem err_one_partial : forall limit level fuel f oops l m, (0 < limit)%nat -> (0 < fuel)%nat -> wanted level l = [m] ->
  exists s, says true limit level fuel (e0 f) oops l = Ok s /\ at_exit s = m.
Proof.
  intros limit level fuel f oops l m HL Hf W. destruct (says_open limit level fuel oops Hf l (e0 f)) as (s' & E & E2 & E3 & _); [rewrite W; cbn; lia|].
  exists s'. split; [exact E|]. unfold at_exit. rewrite E2, E3, W. cbn. unfold write_at. destruct m; [reflexivity|]. cbn. rewrite app_nil_r. reflexivity.
Qed.

Lemma write_len f b : length (write_at f 0 b) = Nat.max (length f) (length b).
Proof. unfold write_at. destruct b as [|x b]; [cbn; lia|]. cbn [firstn Nat.add]. rewrite !app_length, skipn_length. cbn [length]. lia. Qed.
Lemma fold_len l : forall f, length (fold_left (fun f x => write_at f (pos x) (buf x)) (map (mkStream 0) l) f) = fold_left Nat.max (map (@length Z) l) (length f).
Proof. induction l as [|m l IH]; intro f; cbn [map fold_left]; [reflexivity|]. rewrite IH. cbn [pos buf]. rewrite write_len. reflexivity. Qed.
Lemma fold_max_le l n k : (n <= k)%nat -> (forall x, In x l -> (x <= k)%nat) -> (fold_left Nat.max l n <= k)%nat.
Proof. revert n. induction l as [|x l IH]; intros n Hn H; cbn; [exact Hn|]. apply IH; [specialize (H x (or_introl eq_refl)); lia|intros y Hy; apply H; right; exact Hy]. Qed.
(* However many messages there are, the file at exit is no longer than the longest of them, and
   begins with the first. *)
Theorem err_longest : forall limit level fuel f oops l m0 ms, (0 < fuel)%nat -> wanted level l = m0 :: ms -> (length (m0 :: ms) <= limit)%nat ->
  exists s, says true limit level fuel (e0 f) oops l = Ok s /\ firstn (length m0) (at_exit s) = m0 /\
    forall k, (forall m, In m (m0 :: ms) -> (length m <= k)%nat) -> (length (at_exit s) <= k)%nat.
Proof.
  intros limit level fuel f oops l m0 ms Hf W HL. destruct (says_open limit level fuel oops Hf l (e0 f)) as (s' & E & E2 & E3 & _); [rewrite W; cbn in *; lia|].
  exists s'. split; [exact E|]. unfold at_exit. rewrite E2, E3, W. rewrite app_nil_r. cbn [file]. split.
  - cbn [map rev]. rewrite fold_left_app. cbn [fold_left pos buf]. unfold write_at at 1. destruct m0 as [|x m0]; [reflexivity|]. cbn [firstn app length]. f_equal.
    rewrite firstn_app, Nat.sub_diag, firstn_all, firstn_O. apply app_nil_r.
  - intros k H. rewrite <- map_rev, fold_len. apply fold_max_le; [cbn; lia|]. intros x Hx. apply in_map_iff in Hx. destruct Hx as (m & <- & Hm). apply H. apply in_rev. exact Hm.
Qed.

Module ErEx.
(* messages "could not open x for writing\n" and so on, abbreviated *)
Definition m1 : bytes := [97; 98; 99; 10]. Definition m2 : bytes := [100; 101; 102; 103; 104; 10]. Definition oops : bytes := [33; 10].
Example err_stderr_ex : wanted 1 [(0, m1); (2, m2); (1, m1)] = [m1; m1] /\
  match says false 5 1 3 (e0 []) oops [(0, m1); (2, m2); (1, m1)] with Ok s => errs s = m1 ++ m1 | _ => False end.
Proof. vm_compute. auto. Qed.
Example err_one_ex : wanted 0 [(1, m2); (0, m1); (4, m2)] = [m1] /\
  match says true 5 0 3 (e0 m2) oops [(1, m2); (0, m1); (4, m2)] with Ok s => at_exit s = m1 | _ => False end.
Proof. vm_compute. auto. Qed.
Example err_longest_ex : wanted 0 [(0, m1); (0, m2)] = [m1; m2].
Proof. reflexivity. Qed.
Example err_loops_ex : 0 <= 0 /\ (0 <= length (open_ (e0 m1)))%nat.
Proof. split; [discriminate|cbn; lia]. Qed.
Example err_exhausted_ex : length (wanted 0 [(0, m1); (3, m1); (0, m2)]) = 2%nat.
Proof. reflexivity. Qed.
(* Two messages: at exit the file holds neither "m1 m2" nor the second message at all. *)
Theorem err_lost_refuted : exists level limit l, wanted level l = [m1; m2] /\
  match says true limit level 3 (e0 []) oops l with Ok s => at_exit s = m1 ++ [104; 10] /\ at_exit s <> m1 ++ m2 | _ => False end.
Proof. exists 0, 1000%nat, [(0, m1); (0, m2)]. vm_compute. split; [reflexivity|]. split; [reflexivity|discriminate]. Qed.
End ErEx.
Print Assumptions err_stderr.
Print Assumptions err_loops.
Print Assumptions err_exhausted.
Print Assumptions err_one_partial.
Print Assumptions err_longest.
Print Assumptions ErEx.err_lost_refuted.
