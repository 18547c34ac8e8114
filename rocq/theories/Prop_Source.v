(** Properties of source programs and of the checks the compiler runs on them. *)
From Coq Require Import ZArith Bool String List.
From Verif Require Import M31 Isa Mir MirSem Src SrcSem SrcCheck SrcFacts.
Import ListNotations.
Open Scope Z_scope.

(** C48: statements that get the "unreachable" warning are never executed.  Deleting all of
    them changes nothing, whatever the rest of the program and its inputs: same result, same
    failures, same number of steps. *)
Theorem C48_unreachable_code_never_runs :
  forall call n s depth body,
    sexec call n s (prune depth body) = sexec call n s body.
Proof. intros. apply prune_same. Qed.
Print Assumptions C48_unreachable_code_never_runs.

(** In particular control never reaches the point behind a statement that ends its path. *)
Theorem C48_terminating_statement_is_never_passed :
  forall call n s depth c s',
    terminates depth c = true -> sexec call n s c <> ROk (ONext s').
Proof. intros call n s depth c s'. exact (terminates_never_next call n depth s c s'). Qed.
Print Assumptions C48_terminating_statement_is_never_passed.

(** [loop { x = x + 1; if x == n { return x; x = 7; } continue; } x = 8;] has two statements
    that are reported, and only those. *)
Definition count_to_n : stmt :=
  SSeq (SLoop (SSeq (SAssign 1 (EBin SAdd (EVar 1) (ELit 1 TFelt)))
              (SSeq (SIf1 (EBin SEq (EVar 1) (EVar 0))
                          (SSeq (SReturn (Some (EVar 1))) (SSeq (SAssign 1 (ELit 7 TFelt)) SSkip)))
              (SSeq SContinue SSkip))))
  (SSeq (SAssign 1 (ELit 8 TFelt)) SSkip).
Example C48_case :
  prune 0 count_to_n =
  SSeq (SLoop (SSeq (SAssign 1 (EBin SAdd (EVar 1) (ELit 1 TFelt)))
              (SSeq (SIf1 (EBin SEq (EVar 1) (EVar 0)) (SSeq (SReturn (Some (EVar 1))) SSkip))
              (SSeq SContinue SSkip))))
  SSkip
  /\ sexec (fun _ _ => RStuck) 40 (fun x => nth_error [VFelt 3; VFelt 0] x) count_to_n
     = ROk (ORet (Some (VFelt 3))).
Proof. split; reflexivity. Qed.

(** C49: every function that passes semantic analysis ends by returning.  False: the
    missing-return check ignores that [break] leaves a [loop].

    [fn f(c: bool) -> felt { loop { if c { break; } return 1; } }] is accepted, but with
    [c = true] control runs off the end of the function. *)
Definition falls_off : sfun :=
  Sfun (fun _ => TBool) [TBool] (Some TFelt)
    (SSeq (SLoop (SSeq (SIf1 (EVar 0) (SSeq SBreak SSkip))
                 (SSeq (SReturn (Some (ELit 1 TFelt))) SSkip))) SSkip).
Theorem C49_accepted_functions_return_refuted :
  ~ (forall fs, module_ok fs = true -> forall F n f args s,
       In f fs -> Forall2 fits (s_params f) args ->
       sexec (src_call fs F n) F (init args) (s_body f) <> ROk (ONext s)).
Proof.
  intros H. apply (H [falls_off] eq_refl 10%nat 1%nat falls_off [VBool true] (init [VBool true])).
  - left. reflexivity.
  - repeat constructor.
  - reflexivity.
Qed.
Print Assumptions C49_accepted_functions_return_refuted.

(** What does hold: a function that passes the control-flow checks, none of whose [loop]s
    has a [break] of its own, ends only by [return].  Missing for C49: [loop]s left by [break]. *)
Theorem C49_accepted_functions_return_partial :
  forall f, loops_ok 0 (s_body f) = true -> provides_return (s_body f) = true ->
    loops_unbroken (s_body f) = true ->
    forall call n s o, sexec call n s (s_body f) = ROk o -> exists v, o = ORet v.
Proof.
  intros f L R U call n s o H. pose proof (loops_ok_stays _ _ _ _ _ L H) as ST.
  destruct o; try destruct ST; [|eauto]. destruct (provides_never_next _ _ _ _ _ R U H).
Qed.
Print Assumptions C49_accepted_functions_return_partial.

(** C50: modules that pass semantic analysis have no undefined behaviour: no use of an
    undeclared or uninitialised variable, no ill-typed operation or call, and results of the
    declared type.  (For modules as in C49_partial: the refutation of C49 is one of C50 too.) *)
Theorem C50_checked_modules_are_defined_partial :
  forall fs, module_ok fs = true -> forallb (fun f => loops_unbroken (s_body f)) fs = true ->
  forall F n k f args, nth_error fs k = Some f -> Forall2 fits (s_params f) args ->
    match src_call fs F n k args with
    | ROk v => fit_ret (s_ret f) v
    | RStuck => False
    | RTrap | RFuel => True
    end.
Proof.
  intros fs OK U F n k f args K A.
  refine (src_call_fits fs F n U OK k (s_params f) (s_ret f) args _ A).
  rewrite nth_error_map, K. reflexivity.
Qed.
Print Assumptions C50_checked_modules_are_defined_partial.
Theorem C50_checked_modules_are_defined_refuted :
  ~ (forall fs, module_ok fs = true -> forall F n k f args, nth_error fs k = Some f ->
       Forall2 fits (s_params f) args -> src_call fs F n k args <> RStuck).
Proof.
  intros H. apply (H [falls_off] eq_refl 10%nat 1%nat 0%nat falls_off [VBool true]).
  - reflexivity.
  - repeat constructor.
  - reflexivity.
Qed.
Print Assumptions C50_checked_modules_are_defined_refuted.

(** [fn fib(n: u32) -> u32 { if n < 2 { return n; } let s: u32 = 0; for (let i: u32 = 1; i <= 2;
    i = i + 1) { s = s + fib(n - i); } return s; }] satisfies the hypotheses, and means what
    it should. *)
Definition fib : sfun :=
  Sfun (fun _ => TU32) [TU32] (Some TU32)
    (SSeq (SIf1 (EBin SLt (EVar 0) (ELit 2 TU32)) (SSeq (SReturn (Some (EVar 0))) SSkip))
    (SSeq (SLet 1 (ELit 0 TU32))
    (SSeq (SFor (SLet 2 (ELit 1 TU32)) (EBin SLe (EVar 2) (ELit 2 TU32))
                (SAssign 2 (EBin SAdd (EVar 2) (ELit 1 TU32)))
                (SSeq (SAssign 1 (EBin SAdd (EVar 1) (ECall 0 (ECons (EBin SSub (EVar 0) (EVar 2)) ENil)))) SSkip))
    (SSeq (SReturn (Some (EVar 1))) SSkip)))).
Example C50_case :
  module_ok [fib] = true /\ forallb (fun f => loops_unbroken (s_body f)) [fib] = true
  /\ src_call [fib] 20 10 0 [VU32 9] = ROk (Some (VU32 34)).
Proof. repeat split; vm_compute; reflexivity. Qed.
