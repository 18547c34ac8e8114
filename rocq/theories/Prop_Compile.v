(** Property C47: a compiled program computes what its source says. *)
From Coq Require Import ZArith Bool String List Lia.
From Verif Require Import M31 Instr Isa Machine Vm Mir MirSem MirLegal MirLegalFacts Cg CgLink CgSpec CgRun CgCheck CgVm CgWhole.
Import ListNotations.
Open Scope Z_scope.

(** ** C47: compiled programs *)

(** [fs] is a module of MIR functions and [p] the program the compiler makes of it.  Call
    function number [c], named [fn], with arguments [args] of its parameter types.  If the
    MIR semantics ([mir_call]: at most [d] nested calls, [F] blocks per call) gives results
    [rets], then running the program's entry point [fn] on the virtual machine, with the
    arguments' cells in the frame, ends and leaves the cells of [rets]: for every segment
    length [k], given enough fuel.

    The hypothesis [checked] is a decidable condition on the module and the code generated
    for it, the part that is missing from the full property: values are felts, bools and
    u32s, and no value needed later is overwritten (see C42 for modules where it is).
    [fits_memory]: the program, and [FS] cells for each nested call, fit into memory. *)
Theorem C47_results_partial : forall fs p FS lives F d c fn f ps rs args rets,
  compile fs = COk p -> (forall fn f, In (fn, f) fs -> ids_below f) -> checked fs FS lives = true -> 0 < FS ->
  nth_error fs c = Some (fn, f) -> types_of f (f_params f) = Some ps -> types_of f (f_rets f) = Some rs ->
  typed ps args -> fits_memory p FS d (sizes ps + sizes rs) ->
  mir_call fs F d c args = ROk (rets, tt) ->
  exists N, forall fuel sfuel k, (N <= fuel)%nat -> (N <= sfuel)%nat -> 1 <= k ->
    run_program fuel sfuel k p fn (flat_map vcells args) (sizes rs) = Some (map Some (flat_map vcells rets)).
Proof.
  intros fs p FS lives F d c fn f ps rs args rets H1 H2 H3 H4 H5 H6 H7 H8 H9 H.
  destruct (compiled_runs fs p FS lives F d c fn f ps rs args H1 H2 H3 H4 H5 H6 H7 H8 H9) as (a & _ & R).
  rewrite H in R. apply R.
Qed.
Print Assumptions C47_results_partial.

(** If the MIR semantics says that the call fails (a failed assertion, a division by zero,
    a cast out of range), the virtual machine stops with an error. *)
Theorem C47_failures_partial : forall fs p FS lives F d c fn f ps rs args,
  compile fs = COk p -> (forall fn f, In (fn, f) fs -> ids_below f) -> checked fs FS lives = true -> 0 < FS ->
  nth_error fs c = Some (fn, f) -> types_of f (f_params f) = Some ps -> types_of f (f_rets f) = Some rs ->
  typed ps args -> fits_memory p FS d (sizes ps + sizes rs) ->
  mir_call fs F d c args = RTrap ->
  exists a N, find_entry fn (p_entries p) = Some a /\
    forall fuel sfuel k, (N <= fuel)%nat -> (N <= sfuel)%nat -> 1 <= k ->
    exists v e, run_from_entrypoint fuel sfuel k (Vm.load (image p)) a (sizes ps + sizes rs + 2) (flat_map vcells args) (sizes rs) = (v, LErr e).
Proof.
  intros fs p FS lives F d c fn f ps rs args H1 H2 H3 H4 H5 H6 H7 H8 H9 H.
  destruct (compiled_runs fs p FS lives F d c fn f ps rs args H1 H2 H3 H4 H5 H6 H7 H8 H9) as (a & A & R).
  rewrite H in R. destruct R as (N & R). exists a, N. auto.
Qed.
Print Assumptions C47_failures_partial.

(** A module with a recursive function, a loop, calls, and two results. *)
Definition u32s (bs : list nat) : nat -> option ty := fun v => if memb v bs then Some TBool else Some TU32.
Definition fact : func := Func
  [Block [IBinary U32Eq 2 (Op 0) (Lit (LInt 0))] (TIf (Op 2) 1 2) [];
   Block [] (TReturn [Lit (LInt 1)]) [0%nat];
   Block [IBinary U32Sub 3 (Op 0) (Lit (LInt 1)); ICall [4%nat] 0 [Op 3] [TU32]; IBinary U32Mul 5 (Op 0) (Op 4)] (TReturn [Op 5]) [0%nat]]
  0 [0%nat] [1%nat] 6 (u32s [2%nat]).
Definition upto : func := Func
  [Block [IAssign 2 (Lit (LInt 0)) TU32; IAssign 3 (Lit (LInt 0)) TU32] (TJump 1) [];
   Block [IBinary U32GreaterEqual 4 (Op 2) (Op 0)] (TIf (Op 4) 3 2) [0%nat; 2%nat];
   Block [IBinary U32Add 6 (Op 2) (Lit (LInt 1)); IBinary U32Add 5 (Op 3) (Op 6); IAssign 2 (Op 6) TU32; IAssign 3 (Op 5) TU32] (TJump 1) [1%nat];
   Block [] (TReturn [Op 3]) [1%nat]]
  0 [0%nat] [1%nat] 7 (u32s [4%nat]).
Definition both : func := Func
  [Block [ICall [3%nat] 0 [Op 0] [TU32]; ICall [4%nat] 1 [Op 0] [TU32]; IBinary U32Div 5 (Op 3) (Op 4)]
     (TReturn [Op 5; Op 3]) []]
  0 [0%nat] [1%nat; 2%nat] 6 (u32s []).
Definition demo : funcs := [("fact", fact); ("upto", upto); ("both", both)]%string.

Lemma demo_ids : forall fn f, In (fn, f) demo -> ids_below f.
Proof.
  intros fn f H. repeat (destruct H as [H|H]; [injection H as _ <-|]); [| | |destruct H];
  (split; [intros b Hb; cbn in Hb; repeat (destruct Hb as [<-|Hb]; [split;
     [intros i Hi; cbn in Hi; repeat (destruct Hi as [<-|Hi]; [intros v Hv; cbn in Hv |- *; lia|]); destruct Hi|intros v Hv; cbn in Hv |- *; lia]|]); destruct Hb
   |intros v Hv; cbn in Hv |- *; lia]).
Qed.
Lemma demo_checked : checked demo 32 (find_lives demo) = true.
Proof. vm_compute. reflexivity. Qed.
Lemma demo_compiles : exists p, compile demo = COk p /\ VmMem.zlen (flat_map pwords (image p)) = 46 /\ p_entries p = [("fact", 0); ("upto", 13); ("both", 33)]%string.
Proof. eexists. split; [vm_compute; reflexivity|]. split; vm_compute; reflexivity. Qed.
(** The hypotheses of C47 hold of it: for 5 the results are 120 / 15 and 120; for 0 the
    division fails. *)
Example C47_case : exists p, compile demo = COk p /\ fits_memory p 32 20 6 /\
  mir_call demo 20 20 2 [VU32 5] = ROk ([VU32 8; VU32 120], tt) /\ mir_call demo 20 20 2 [VU32 0] = RTrap /\
  run_program 500 500 100 p "both" [5; 0] 4 = Some [Some 8; Some 0; Some 120; Some 0].
Proof.
  destruct demo_compiles as (p & E & L & _). exists p. split; [exact E|]. split; [unfold fits_memory, ADDRS; rewrite L; lia|].
  split; [vm_compute; reflexivity|]. split; [vm_compute; reflexivity|].
  assert (K : match compile demo with COk p => run_program 500 500 100 p "both" [5; 0] 4 | _ => None end = Some [Some 8; Some 0; Some 120; Some 0])
    by (vm_compute; reflexivity). rewrite E in K. exact K.
Qed.

(** With C47, what the machine computes follows from the source: the compiled [fact]
    returns the factorial modulo 2^32 of every number for which the stack has room. *)
Fixpoint factorial (n : nat) : Z := match n with O => 1 | S k => Z.of_nat n * factorial k end.
Lemma u32b_yes : forall z, 0 <= z < B32 -> u32b z = true.
Proof. intros z H. unfold u32b. apply andb_true_iff. split; [apply Z.leb_le|apply Z.ltb_lt]; apply H. Qed.
Lemma fact_step : forall (W : world unit) z r, 0 < z < B32 -> 0 <= r < B32 ->
  w_call W 0 [VU32 (z - 1)] tt = ROk ([VU32 r], tt) -> call_fn W fact 2 [VU32 z] tt = ROk ([VU32 ((z * r) mod B32)], tt).
Proof.
  intros W z r Hz Hr H. pose proof (u32b_yes z ltac:(lia)) as U. pose proof (u32b_yes (z - 1) ltac:(lia)) as U1. pose proof (u32b_yes r Hr) as Ur.
  assert (Um : u32b ((z * r) mod B32) = true) by (apply u32b_yes, Z.mod_pos_bound; reflexivity).
  assert (E0 : (z =? 0) = false) by (apply Z.eqb_neq; lia).
  assert (Es : (z - 1) mod B32 = z - 1) by (apply Z.mod_small; lia).

  assert (X1 : forall e s, e 0%nat = Some (VU32 z) -> MirSem.exec W (f_types fact) e s (IBinary U32Eq 2 (Op 0) (Lit (LInt 0))) = ROk (upd e 2 (VBool false), s)).
  { intros e s He. unfold MirSem.exec, effect, eval_bin, eval_opnd. cbn [op_type eval_as]. rewrite He. cbn [shape]. rewrite U. cbn [of_opt rbind lit_as].
    change (0 mod B32) with 0. cbn [of_opt rbind sem_bin]. rewrite E0. reflexivity. }
  assert (X2 : forall e s, e 0%nat = Some (VU32 z) -> MirSem.exec W (f_types fact) e s (IBinary U32Sub 3 (Op 0) (Lit (LInt 1))) = ROk (upd e 3 (VU32 (z - 1)), s)).
  { intros e s He. unfold MirSem.exec, effect, eval_bin, eval_opnd. cbn [op_type eval_as]. rewrite He. cbn [shape]. rewrite U. cbn [of_opt rbind lit_as].
    change (1 mod B32) with 1. cbn [of_opt rbind sem_bin]. rewrite Es. reflexivity. }
  assert (X3 : forall e, e 3%nat = Some (VU32 (z - 1)) -> MirSem.exec W (f_types fact) e tt (ICall [4%nat] 0 [Op 3] [TU32]) = ROk (upd e 4 (VU32 r), tt)).
  { intros e He. unfold MirSem.exec, effect. cbn [eval_list eval_as]. rewrite He. cbn [shape]. rewrite U1. cbn [of_opt rbind]. rewrite H. reflexivity. }
  assert (X4 : forall e s, e 0%nat = Some (VU32 z) -> e 4%nat = Some (VU32 r) -> MirSem.exec W (f_types fact) e s (IBinary U32Mul 5 (Op 0) (Op 4)) = ROk (upd e 5 (VU32 ((z * r) mod B32)), s)).
  { intros e s He Hf. unfold MirSem.exec, effect, eval_bin, eval_opnd. cbn [op_type eval_as]. rewrite He, Hf. cbn [shape]. rewrite U, Ur. reflexivity. }
  unfold call_fn. cbn [bind_all f_params fact]. cbn [MirSem.run f_blocks fact f_entry nth_error b_instrs span_phi fst snd enter omap bind_all map of_opt rbind b_term].
  cbn [exec_list]. rewrite X1 by reflexivity. cbn [rbind fst snd exec_term truth upd Nat.eqb of_opt nth_error b_instrs span_phi enter omap bind_all map exec_list b_term].
  rewrite X2 by reflexivity. cbn [rbind fst snd]. rewrite X3 by reflexivity. cbn [rbind fst snd]. rewrite X4 by reflexivity. cbn [rbind fst snd exec_term map f_types fact f_rets u32s memb existsb Nat.eqb orb of_opt omap eval_list eval_as upd shape].
  rewrite Um. reflexivity.
Qed.
Lemma fact_mir : forall n d, Z.of_nat n < B32 -> (n < d)%nat -> mir_call demo 2 d 0 [VU32 (Z.of_nat n)] = ROk ([VU32 (factorial n mod B32)], tt).
Proof.
  induction n as [|n IH]; intros d Hn Hd.
  - destruct d as [|d]; [lia|]. reflexivity.
  - destruct d as [|d]; [lia|]. specialize (IH d ltac:(lia) ltac:(lia)). unfold mir_call in *. cbn [module_world w_call nth_error demo].
    rewrite (fact_step _ (Z.of_nat (S n)) (factorial n mod B32)); [|lia|apply Z.mod_pos_bound; reflexivity|].
    + do 4 f_equal. cbn [factorial]. rewrite Z.mul_mod_idemp_r by discriminate. reflexivity.
    + rewrite <- IH. do 3 f_equal. lia.
Qed.
Theorem C47_factorial : exists p, compile demo = COk p /\ forall n, Z.of_nat n <= 8000000 ->
  exists N, forall fuel sfuel k, (N <= fuel)%nat -> (N <= sfuel)%nat -> 1 <= k ->
    run_program fuel sfuel k p "fact" [Z.of_nat n mod B16; Z.of_nat n / B16] 2 =
      Some [Some (factorial n mod B32 mod B16); Some (factorial n mod B32 / B16)].
Proof.
  destruct demo_compiles as (p & E & L & _). exists p. split; [exact E|]. intros n Hn.
  assert (Hb : Z.of_nat n < B32) by (unfold B32; lia).
  apply (C47_results_partial demo p 32 (find_lives demo) 2 (S n) 0 "fact" fact [TU32] [TU32] [VU32 (Z.of_nat n)] [VU32 (factorial n mod B32)] E demo_ids demo_checked eq_refl eq_refl eq_refl eq_refl).
  - cbn [typed scalar shape]. rewrite u32b_yes by lia. auto.
  - unfold fits_memory. rewrite L. change (sizes [TU32]) with 2. unfold ADDRS. lia.
  - apply fact_mir; lia.
Qed.
Print Assumptions C47_factorial.
