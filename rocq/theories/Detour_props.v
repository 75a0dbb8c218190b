(* Theorems about redirecting functions, renaming the interpreter and taking over the debugger's
   hook, with an example of each. *)
From Coq Require Import String.
From Verif Require Import Base Meta_model Meta_proof Detour_model Detour_spec Detour_proof Detour_list.

(* Whatever decoder finds what is there: a function whose first five bytes lie in whole
   instructions, near enough to its replacement, to the trampoline and to what those instructions
   refer to, is redirected.  A call now reaches the replacement; a call through the slot executes
   instructions with the same meaning as those displaced and goes on to the first not displaced.
   No other byte changes. *)
Theorem detour_exact decode m func limit dfunc slot tramp n ms :
  decoder_ok decode -> bytes_ok m -> displaced decode m limit func ms n ->
  0 <= func -> func + n < W64 -> 0 <= tramp < W64 -> 0 <= dfunc < W64 ->
  apart func n tramp (n + 5) -> apart slot 8 func n -> apart slot 8 tramp (n + 5) ->
  near (func + 5) dfunc -> near (tramp + n + 5) (func + n) -> in_reach tramp ms ->
  exists m', detour decode m func limit dfunc slot tramp = Ok (m', tramp + n + 5) /\ bytes_ok m' /\ n <= 19 /\
    redirected decode m' func dfunc slot tramp n ms /\
    (forall x, (x < func \/ func + 5 <= x) -> (x < slot \/ slot + 8 <= x) -> (x < tramp \/ tramp + n + 5 <= x) -> m' x = m x).
Proof. intros D. apply detour_ok. exact D. Qed.
Print Assumptions detour_exact.

(* Over a whole symbol table: each function named is redirected and stays so, whatever the
   number of them, by way of at most twenty-four bytes of the buffer each. *)
Theorem instrument_exact decode l ts m lo hi :
  decoder_ok decode -> picks l ts -> bytes_ok m -> 0 <= lo -> lo + 24 * Z.of_nat (List.length ts) <= hi -> hi <= W64 ->
  Forall (can decode m lo hi) ts -> ForallOrdPairs separate ts ->
  exists m' next, instrument decode l m lo = Ok (m', next) /\ bytes_ok m' /\ lo <= next <= lo + 24 * Z.of_nat (List.length ts) /\
    (forall t, In t ts -> exists tr, lo <= tr /\ tr + t_n t + 5 <= next /\
       redirected decode m' (t_func t) (t_d t) (t_slot t) tr (t_n t) (t_ms t)) /\
    (forall x, x < lo \/ next <= x ->
       (forall t, In t ts -> (x < t_func t \/ t_func t + 5 <= x) /\ (x < t_slot t \/ t_slot t + 8 <= x)) -> m' x = m x).
Proof. intros D. apply instrument_ok. exact D. Qed.
Print Assumptions instrument_exact.

(* The debugger's hook, if its first twelve bytes are in one page: a load of the new hook's address and a
   jump to it, and no other byte changes. *)
Theorem dl_state_exact m w f to : bytes_ok m -> 0 <= to < W64 -> f mod PAGE <= PAGE - 12 ->
  exists m', dl_state m w f to = Ok m' /\
    m' f = 0x48 /\ m' (f + 1) = 0xb8 /\ get8 m' (f + 2) = to /\ m' (f + 10) = 0xff /\ m' (f + 11) = 0xe0 /\
    (forall x, x < f \/ f + 12 <= x -> m' x = m x).
Proof. apply dl_state_ok. Qed.
Print Assumptions dl_state_exact.

(* The interpreter's name, in a program with one header of each kind and that name writable, is
   replaced where it is, if there is room; else the program is not started. *)
Theorem fix_path_exact m at_ l path h i :
  at_ <> 0 -> only Phdr l h -> only Interp l i -> Forall (fun c => 0 <= c < 256) path ->
  let a := (at_ - p_vaddr h + p_vaddr i) mod W64 in
  a <> 0 ->
  (p_writable i = true -> len path + 1 <= p_filesz i ->
     exists m', fix_path m at_ l path = Ok m' /\ holds m' a path /\
       (forall x, x < a \/ a + p_filesz i <= x -> m' x = m x)) /\
  (p_writable i = false \/ p_filesz i < len path + 1 -> fix_path m at_ l path = Abort).
Proof.
  intros Hat Hh Hi Hp a Ha. unfold fix_path. replace (at_ =? 0) with false by lia.
  rewrite (last_of_only at_ l h None Hh), (find_interp_only _ l i (0, 0) Hi).
  rewrite Zplus_mod_idemp_l. fold a. split.
  - intros Hw Hf. rewrite Hw. cbn [bind]. replace (a =? 0) with false by lia.
    replace (p_filesz i <? len path + 1) with false by lia. eexists. split; [reflexivity|]. split.
    + apply put_str_holds; exact Hp.
    + intros x Hx. apply put_str_out. lia.
  - intros H. destruct (p_writable i) eqn:E; cbn [bind]; [|reflexivity]. replace (a =? 0) with false by lia.
    replace (p_filesz i <? len path + 1) with true; [reflexivity|]. destruct H as [H|H]; [discriminate | lia].
Qed.
Print Assumptions fix_path_exact.

(* A program without either header, or whose headers were not passed, is refused. *)
Theorem fix_path_refuses m at_ l path :
  at_ = 0 \/ List.filter (is_kind Phdr) l = [] \/ List.filter (is_kind Interp) l = [] ->
  fix_path m at_ l path = Abort.
Proof.
  intros H. unfold fix_path. destruct (at_ =? 0) eqn:E; [reflexivity|]. destruct H as [H|[H|H]]; [lia| |].
  - rewrite last_of_none; [reflexivity|]. intros p Hp. pose proof (filter_nil _ _ H p Hp) as F. unfold is_kind in F.
    destruct (p_kind p); auto; discriminate.
  - destruct (last_of _ l None) as [b|]; [|reflexivity]. rewrite find_interp_none by exact H. reflexivity.
Qed.
Print Assumptions fix_path_refuses.

Module DtEx.
  (* a decoder of a few instructions: push, nop; jmp; lea from the instruction pointer *)
  Definition no : field := mkF 0 0.
  Definition fit (p limit : Z) (i : insn) : insn := if p + i_len i <=? limit then i else mkI 0 no no.
  Definition toy (m : mem) (p limit : Z) : insn :=
    if (m p =? 0x90) || (m p =? 0x55) || (m p =? 0x53) then fit p limit (mkI 1 no no)
    else if m p =? 0xe9 then fit p limit (mkI 5 (mkF 1 R_PC32) no)
    else if (m p =? 0x48) && (m (p + 1) =? 0x8d) && (m (p + 2) =? 0x05) then fit p limit (mkI 7 (mkF 3 R_PC32) no)
    else mkI 0 no no.
  Lemma toy_ok : decoder_ok toy.
  Proof.
    split.
    - intros m p limit i.
      assert (H : i = mkI 0 no no \/ p + i_len i <= limit /\ (i = mkI 1 no no \/ i = mkI 5 (mkF 1 R_PC32) no \/ i = mkI 7 (mkF 3 R_PC32) no)).
      { subst i. unfold toy, fit. cbn [i_len].
        destruct ((m p =? 0x90) || (m p =? 0x55) || (m p =? 0x53)); [destruct (p + 1 <=? limit) eqn:E; [right; cbn [i_len]; split; [lia|auto] | auto]|].
        destruct (m p =? 0xe9); [destruct (p + 5 <=? limit) eqn:E; [right; cbn [i_len]; split; [lia|auto] | auto]|].
        destruct ((m p =? 0x48) && (m (p + 1) =? 0x8d) && (m (p + 2) =? 0x05)); [destruct (p + 7 <=? limit) eqn:E; [right; cbn [i_len]; split; [lia|auto] | auto]|].
        auto. }
      destruct H as [->|(L & [H|[H|H]])]; [left; reflexivity| | |]; right; rewrite H in *; cbn [i_len] in *;
        (split; [lia|]; split; [lia|]; split; [|cbn; intros f g E; discriminate]); cbn; intros f F; try contradiction;
        destruct F as [<-|[]]; unfold field_ok, known, fsize; cbn; repeat split; auto; lia.
    - intros m p limit m' p' limit' i Hl Hfit Hk. subst i. revert Hl Hfit Hk. unfold toy, fit. cbn [i_len].
      destruct ((m p =? 0x90) || (m p =? 0x55) || (m p =? 0x53)) eqn:B1.
      { destruct (p + 1 <=? limit); cbn [i_len]; intros Hl Hfit Hk; [|lia].
        pose proof (Hk 0 ltac:(lia) eq_refl) as K0. rewrite !Z.add_0_r in K0. rewrite K0, B1.
        replace (p' + 1 <=? limit') with true by lia. reflexivity. }
      destruct (m p =? 0xe9) eqn:B2.
      { destruct (p + 5 <=? limit); cbn [i_len]; intros Hl Hfit Hk; [|lia].
        pose proof (Hk 0 ltac:(lia) eq_refl) as K0. rewrite !Z.add_0_r in K0. rewrite K0, B1, B2.
        replace (p' + 5 <=? limit') with true by lia. reflexivity. }
      destruct ((m p =? 0x48) && (m (p + 1) =? 0x8d) && (m (p + 2) =? 0x05)) eqn:B3.
      { destruct (p + 7 <=? limit); cbn [i_len]; intros Hl Hfit Hk; [|lia].
        pose proof (Hk 0 ltac:(lia) eq_refl) as K0. pose proof (Hk 1 ltac:(lia) eq_refl) as K1. pose proof (Hk 2 ltac:(lia) eq_refl) as K2.
        rewrite !Z.add_0_r in K0. rewrite K0, K1, K2, B1, B2, B3.
        replace (p' + 7 <=? limit') with true by lia. reflexivity. }
      cbn [i_len]. lia.
  Qed.

  Fixpoint bytes (a : Z) (l : list Z) (m : mem) : mem :=
    match l with [] => m | b :: r => bytes (a + 1) r (fun x => if x =? a then b else m x) end.
  (* malloc pushes twice and takes an address; free takes an address behind it *)
  Definition m0 : mem :=
    bytes 0x400000 [0x55; 0x53; 0x48; 0x8d; 0x05; 0x10; 0x20; 0; 0; 0x90]
      (bytes 0x400800 [0x48; 0x8d; 0x05; 0xf0; 0xff; 0xff; 0xff; 0x55] (fun _ => 0)).
  Definition ms1 : list meaning :=
    [means m0 0x400000 (toy m0 0x400000 0x400040); means m0 0x400001 (toy m0 0x400001 0x400040); means m0 0x400002 (toy m0 0x400002 0x400040)].
  Definition ms2 : list meaning := [means m0 0x400800 (toy m0 0x400800 0x400808)].
  Definition t1 := mkTg 0x400000 0x400040 0x700000 0x500000 9 ms1.
  Definition t2 := mkTg 0x400800 0x400808 0x700100 0x500008 7 ms2.
  Definition syms : list lsym := [mkLs 0x400000 64 (Some (0x700000, 0x500000)); mkLs 0x400100 8 None; mkLs 0x400800 8 (Some (0x700100, 0x500008))].
  Lemma bytes0 : bytes_ok m0.
  Proof. intros x. unfold m0. cbn [bytes]. repeat match goal with |- context [if ?b then _ else _] => destruct b end; lia. Qed.
  Lemma picks0 : picks syms [t1; t2].
  Proof. apply p_take; try reflexivity. apply p_skip; [reflexivity|]. apply p_take; try reflexivity. apply p_nil. Qed.
  Lemma disp1 : displaced toy m0 0x400040 0x400000 ms1 9.
  Proof.
    split.
    - unfold ms1. repeat (apply s_insn; [vm_compute; reflexivity|]; match goal with |- straight _ _ _ ?p _ _ => let p' := eval vm_compute in p in change p with p' end). apply s_done.
    - split; [lia|]. exists [means m0 0x400000 (toy m0 0x400000 0x400040); means m0 0x400001 (toy m0 0x400001 0x400040)], (means m0 0x400002 (toy m0 0x400002 0x400040)).
      split; [reflexivity|]. vm_compute. reflexivity.
  Qed.
  Lemma disp2 : displaced toy m0 0x400808 0x400800 ms2 7.
  Proof.
    split.
    - unfold ms2. repeat (apply s_insn; [vm_compute; reflexivity|]; match goal with |- straight _ _ _ ?p _ _ => let p' := eval vm_compute in p in change p with p' end). apply s_done.
    - split; [lia|]. exists [], (means m0 0x400800 (toy m0 0x400800 0x400808)). split; [reflexivity|]. vm_compute. reflexivity.
  Qed.
  Definition refs1 : map m_refs ms1 = [[]; []; [(mkF 3 R_PC32, 0x402015)]] /\ map (fun x => List.length (m_bytes x)) ms1 = [1; 1; 7]%nat.
  Proof. vm_compute. split; reflexivity. Qed.
  Definition refs2 : map m_refs ms2 = [[(mkF 3 R_PC32, 0x4007f3)]].
  Proof. vm_compute. reflexivity. Qed.
  Lemma near_by a b : - 2 ^ 31 <= b - a < 2 ^ 31 -> near a b.
  Proof. intros H. exists (b - a). split; [exact H|]. f_equal. lia. Qed.
  Lemma reach1 tr : 0x600000 <= tr <= 0x601000 -> in_reach tr ms1.
  Proof.
    intros H. unfold ms1. apply r_cons; [intros f v Hf; vm_compute in Hf; contradiction|].
    apply r_cons; [intros f v Hf; vm_compute in Hf; contradiction|].
    apply r_cons; [|apply r_nil]. intros f v Hf _. vm_compute in Hf. destruct Hf as [E|[]]. injection E as <- <-.
    match goal with |- near (?a + ?b + ?c + ?d) _ => let b' := eval vm_compute in b in let c' := eval vm_compute in c in change b with b'; change c with c' end.
    cbn [f_off]. apply near_by. lia.
  Qed.
  Lemma reach2 tr : 0x600000 <= tr <= 0x601000 -> in_reach tr ms2.
  Proof.
    intros H. unfold ms2.
    apply r_cons; [|apply r_nil]. intros f v Hf _. vm_compute in Hf. destruct Hf as [E|[]]. injection E as <- <-.
    cbn [f_off]. apply near_by. lia.
  Qed.
  Lemma can1 : can toy m0 0x600000 0x601000 t1.
  Proof.
    unfold can, t1; cbn [t_func t_limit t_d t_slot t_n t_ms]. split; [exact disp1|]. unfold apart, W64. repeat split; try lia.
    - apply near_by; lia.
    - apply near_by; lia.
    - apply reach1; lia.
  Qed.
  Lemma can2 : can toy m0 0x600000 0x601000 t2.
  Proof.
    unfold can, t2; cbn [t_func t_limit t_d t_slot t_n t_ms]. split; [exact disp2|]. unfold apart, W64. repeat split; try lia.
    - apply near_by; lia.
    - apply near_by; lia.
    - apply reach2; lia.
  Qed.
  Lemma sep : ForallOrdPairs separate [t1; t2].
  Proof.
    apply FOP_cons; [|apply FOP_cons; [apply Forall_nil | apply FOP_nil]].
    apply Forall_cons; [|apply Forall_nil]. unfold separate, apart, t1, t2; cbn [t_func t_limit t_d t_slot t_n t_ms]. lia.
  Qed.
  (* detour_exact's hypotheses hold, and this is what the processor finds *)
  Example detour_here :
    (exists m', detour toy m0 0x400000 0x400040 0x700000 0x500000 0x600000 = Ok (m', 0x60000e) /\
       redirected toy m' 0x400000 0x700000 0x500000 0x600000 9 ms1) /\
    match detour toy m0 0x400000 0x400040 0x700000 0x500000 0x600000 with
    | Ok (m', _) => map m' [0x400000; 0x400001; 0x400002; 0x400003; 0x400004] = [0xe9; 0xfb; 0xff; 0x2f; 0] /\
        get8 m' 0x500000 = 0x600000 /\ refers m' 0x600005 R_PC32 = 0x402015 /\ m' 0x600009 = 0xe9
    | _ => False
    end.
  Proof.
    split.
    - destruct (detour_exact toy m0 0x400000 0x400040 0x700000 0x500000 0x600000 9 ms1 toy_ok bytes0 disp1) as (m' & E & _ & _ & R & _);
        try (unfold apart, W64; lia); try (apply near_by; lia); [apply reach1; lia|].
      exists m'. split; [exact E | exact R].
    - vm_compute. repeat split.
  Qed.
  Example instrument_here :
    exists m' next, instrument toy syms m0 0x600000 = Ok (m', next) /\
      (exists tr, redirected toy m' 0x400000 0x700000 0x500000 tr 9 ms1) /\
      (exists tr, redirected toy m' 0x400800 0x700100 0x500008 tr 7 ms2).
  Proof.
    destruct (instrument_exact toy syms [t1; t2] m0 0x600000 0x601000 toy_ok picks0 bytes0) as (m' & next & E & _ & _ & R & _); try (unfold W64; cbn [List.length]; lia).
    { apply Forall_cons; [exact can1|]. apply Forall_cons; [exact can2 | apply Forall_nil]. }
    { exact sep. }
    exists m', next. split; [exact E|]. split.
    - destruct (R t1 (or_introl eq_refl)) as (tr & _ & _ & H). exists tr. exact H.
    - destruct (R t2 (or_intror (or_introl eq_refl))) as (tr & _ & _ & H). exists tr. exact H.
  Qed.
  Example dl_state_here :
    match dl_state m0 (fun _ => false) 0x400ff4 0x7f0000001234 with
    | Ok m' => get8 m' 0x400ff6 = 0x7f0000001234 /\ m' 0x400fff = 0xe0 /\ m' 0x401000 = 0
    | _ => False
    end.
  Proof. vm_compute. repeat split. Qed.
  Definition hs : list ph := [mkPh Phdr 64 0x200 false; mkPh Interp 0x318 28 true; mkPh Pother 0 0x1000 false].
  Example fix_path_here :
    only Phdr hs (mkPh Phdr 64 0x200 false) /\ only Interp hs (mkPh Interp 0x318 28 true) /\
    match fix_path m0 0x555000000040 hs (of_string "/lib64/ld-linux-x86-64.so.2"%string) with
    | Ok m' => m' 0x555000000318 = 47 /\ m' 0x555000000332 = 50 /\ m' 0x555000000333 = 0
    | _ => False
    end /\
    fix_path m0 0x555000000040 hs (of_string "/usr/lib64/ld-linux-x86-64.so.2"%string) = Abort /\
    fix_path m0 0x555000000040 [mkPh Pother 0 0 true] (of_string "/x"%string) = Abort.
  Proof. vm_compute. repeat split. Qed.
End DtEx.
