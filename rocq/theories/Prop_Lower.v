(** Properties of the lowering of source programs to MIR. *)
From Coq Require Import ZArith Bool String List Permutation.
From Verif Require Import M31 Isa Mir MirSem MirSsa MirSsaFacts CgRun Src SrcSem SrcCheck SrcFacts Lower LowerSpec LowerFun Prop_Source.
Import ListNotations.
Open Scope Z_scope.

(** C51: the MIR of a module that passes semantic analysis computes what the source says.
    For every call with arguments of the declared types: if the source function returns, its
    MIR returns the same value, given enough fuel (blocks per call); if the source fails, so
    does the MIR.  Conditions: no u32 is negated, and in the generated functions every id that
    is used is defined ([clean], a check on the output).  Both are needed: see the refutations
    below.  Missing: tuples, structs, arrays, pointers, constants. *)
Theorem C51_results_partial :
  forall fs ms, module_ok fs = true -> module_no_neg fs = true ->
    lowered fs ms -> Forall (fun m => clean (snd m) = true) ms ->
  forall F n k f args r, nth_error fs k = Some f -> Forall2 fits (s_params f) args ->
    src_call fs F n k args = ROk r ->
    fit_ret (s_ret f) r /\
    exists M, forall F', (M <= F')%nat -> mir_call ms F' n k args = ROk (outs r, tt).
Proof.
  intros fs ms OK NN LW CL F n k f args r K A R.
  pose proof (module_sim fs ms OK NN LW CL F n k (s_params f) (s_ret f) args) as H. rewrite R in H.
  apply H; auto. rewrite nth_error_map, K. reflexivity.
Qed.
Print Assumptions C51_results_partial.
Theorem C51_failures_partial :
  forall fs ms, module_ok fs = true -> module_no_neg fs = true ->
    lowered fs ms -> Forall (fun m => clean (snd m) = true) ms ->
  forall F n k f args, nth_error fs k = Some f -> Forall2 fits (s_params f) args ->
    src_call fs F n k args = RTrap ->
    exists M, forall F', (M <= F')%nat -> mir_call ms F' n k args = RTrap.
Proof.
  intros fs ms OK NN LW CL F n k f args K A R.
  pose proof (module_sim fs ms OK NN LW CL F n k (s_params f) (s_ret f) args) as H. rewrite R in H.
  apply H; auto. rewrite nth_error_map, K. reflexivity.
Qed.
Print Assumptions C51_failures_partial.

(** A recursive function with a loop, and one with assertions, [break] and [continue]:
    [fn g(n: felt) -> felt { let s = 0; let i = 0; loop { i = i + 1; if i == 3 { continue; }
     s = s + i; if i == n { break; } } assert s != 7; return s; }] *)
Definition seqs (l : list stmt) : stmt := fold_right SSeq SSkip l.
Definition sum_to : sfun :=
  Sfun (fun _ => TFelt) [TFelt] (Some TFelt)
    (seqs [SLet 1 (ELit 0 TFelt); SLet 2 (ELit 0 TFelt);
           SLoop (seqs [SAssign 2 (EBin SAdd (EVar 2) (ELit 1 TFelt));
                        SIf1 (EBin SEq (EVar 2) (ELit 3 TFelt)) (seqs [SContinue]);
                        SAssign 1 (EBin SAdd (EVar 1) (EVar 2));
                        SIf1 (EBin SEq (EVar 2) (EVar 0)) (seqs [SBreak])]);
           SAssert (EBin SNeq (EVar 1) (ELit 7 TFelt));
           SReturn (Some (EVar 1))]).
Definition lower_all (fs : list sfun) : list (string * func) :=
  map (fun f => match lower_fun (fun l => l) (map sig_of fs) f with
                | Some g => (""%string, g) | None => (""%string, Func [] 0 [] [] 0 (fun _ => None)) end) fs.
Example C51_case :
  module_ok [fib; sum_to] = true /\ module_no_neg [fib; sum_to] = true /\
  lowered [fib; sum_to] (lower_all [fib; sum_to]) /\
  Forall (fun m => clean (snd m) = true) (lower_all [fib; sum_to]) /\
  src_call [fib; sum_to] 50 10 0 [VU32 6] = ROk (Some (VU32 8)) /\
  src_call [fib; sum_to] 50 10 1 [VFelt 5] = ROk (Some (VFelt 12)) /\
  src_call [fib; sum_to] 50 10 1 [VFelt 4] = RTrap /\
  mir_call (lower_all [fib; sum_to]) 50 10 0 [VU32 6] = ROk ([VU32 8], tt) /\
  mir_call (lower_all [fib; sum_to]) 50 10 1 [VFelt 5] = ROk ([VFelt 12], tt) /\
  mir_call (lower_all [fib; sum_to]) 50 10 1 [VFelt 4] = RTrap.
Proof.
  split; [vm_compute; reflexivity|]. split; [vm_compute; reflexivity|]. split.
  - repeat constructor; exists (fun l => l); (split; [intros; apply Permutation_refl|vm_compute; reflexivity]).
  - split; [repeat constructor; vm_compute; reflexivity|]. repeat split; vm_compute; reflexivity.
Qed.

(** Without the check on the output the claim is false.  When a phi turns out to be trivial
    its id is replaced in the instructions, but not in the tables of current definitions:
    a phi built later can use the id that no longer exists.

    [fn f(n: felt) -> felt { let i = 0; while i != 10 { if i == n { break; } i = i + 1; }
     return n; }] *)
Definition stale : sfun :=
  Sfun (fun _ => TFelt) [TFelt] (Some TFelt)
    (seqs [SLet 1 (ELit 0 TFelt);
           SWhile (EBin SNeq (EVar 1) (ELit 10 TFelt))
             (seqs [SIf1 (EBin SEq (EVar 1) (EVar 0)) (seqs [SBreak]);
                    SAssign 1 (EBin SAdd (EVar 1) (ELit 1 TFelt))]);
           SReturn (Some (EVar 0))]).
Theorem C51_removed_phi_refuted :
  ~ (forall fs ms, module_ok fs = true -> module_no_neg fs = true -> lowered fs ms ->
     forall F n k f args r, nth_error fs k = Some f -> Forall2 fits (s_params f) args ->
       src_call fs F n k args = ROk r ->
       exists F', mir_call ms F' n k args = ROk (outs r, tt)).
Proof.
  intros H. destruct (H [stale] (lower_all [stale]) eq_refl eq_refl) with (F := 20%nat) (n := 1%nat) (k := 0%nat)
    (f := stale) (args := [VFelt 0]) (r := Some (VFelt 0)) as (F' & R).
  - repeat constructor. exists (fun l => l). split; [intros; apply Permutation_refl|vm_compute; reflexivity].
  - reflexivity.
  - repeat constructor.
  - vm_compute. reflexivity.
  - do 6 (destruct F' as [|F']; [vm_compute in R; discriminate R|]). vm_compute in R. discriminate R.
Qed.
Print Assumptions C51_removed_phi_refuted.

(** Nor does it hold with negated u32s: the type checker accepts [-x] for a u32, and lowering
    emits the felt negation. *)
Definition negate : sfun :=
  Sfun (fun _ => TU32) [TU32] (Some TU32) (seqs [SReturn (Some (EUn Neg (EVar 0)))]).
Theorem C51_negation_refuted :
  ~ (forall fs ms, module_ok fs = true -> lowered fs ms -> Forall (fun m => clean (snd m) = true) ms ->
     forall F n k f args r, nth_error fs k = Some f -> Forall2 fits (s_params f) args ->
       src_call fs F n k args = ROk r ->
       exists F', mir_call ms F' n k args = ROk (outs r, tt)).
Proof.
  intros H. destruct (H [negate] (lower_all [negate]) eq_refl) with (F := 20%nat) (n := 1%nat) (k := 0%nat)
    (f := negate) (args := [VU32 1]) (r := Some (VU32 4294967295)) as (F' & R).
  - repeat constructor. exists (fun l => l). split; [intros; apply Permutation_refl|vm_compute; reflexivity].
  - repeat constructor.
  - reflexivity.
  - repeat constructor.
  - vm_compute. reflexivity.
  - do 2 (destruct F' as [|F']; [vm_compute in R; discriminate R|]). vm_compute in R. discriminate R.
Qed.
Print Assumptions C51_negation_refuted.

(** C52: lowering produces static single assignment form.  Every id is defined at most once,
    in the parameters and all instructions, for every accepted function and every order of the
    compiler's hash maps.  Missing because false: every use has a definition. *)
Theorem C52_single_definition_partial :
  forall ord sg f g, (forall l, Permutation (ord l) l) -> sfun_ok sg f = true ->
    lower_fun ord sg f = Some g -> single_def g.
Proof. intros ord sg f g OP OK L. exact (lower_single ord sg f g OP OK L). Qed.
Print Assumptions C52_single_definition_partial.
Example C52_case : exists g, lower_fun (fun l => l) (map sig_of [fib; sum_to]) sum_to = Some g /\
  sfun_ok (map sig_of [fib; sum_to]) sum_to = true /\ length (all_dests g) = 9%nat.
Proof.
  destruct (lower_fun (fun l => l) (map sig_of [fib; sum_to]) sum_to) as [g|] eqn:E; [|vm_compute in E; discriminate E].
  exists g. split; [reflexivity|]. split; [reflexivity|]. vm_compute in E. injection E as <-. reflexivity.
Qed.
Theorem C52_every_use_defined_refuted :
  ~ (forall ord sg f g, (forall l, Permutation (ord l) l) -> sfun_ok sg f = true ->
       lower_fun ord sg f = Some g -> forall i, In i (used g) -> In i (defined g)).
Proof.
  intros H. destruct (lower_fun (fun l => l) [sig_of stale] stale) as [g|] eqn:E; [|vm_compute in E; discriminate E].
  assert (K : mem_nat 4 (defined g) = true).
  { apply mem_nat_iff. apply (H (fun l => l) [sig_of stale] stale g (fun l => Permutation_refl l) eq_refl E).
    apply mem_nat_iff. vm_compute in E. injection E as <-. reflexivity. }
  vm_compute in E. injection E as <-. discriminate K.
Qed.
Print Assumptions C52_every_use_defined_refuted.
