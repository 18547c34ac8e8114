(** Property C87: a declaration of the user decides what its name means. *)
From Coq Require Import ZArith NArith Bool String List Lia.
From Verif Require Import Mir Src Lower Syn Typing.
Import ListNotations.
Open Scope string_scope.
Open Scope list_scope.
Open Scope nat_scope.

(** ** Specification *)
(** A variable has the type it was declared with, wherever it is used and whatever is expected there. *)
Definition variables_as_declared (allowed : string -> Prop) : Prop := forall G h o c x t n, allowed x ->
  find G x = Some (EnVar t n) -> sty G h o c (Syn.EId x) = t.
(** A call has the type of the result of the declared function. *)
Definition results_as_declared (allowed : string -> Prop) : Prop := forall G h o c f args k ps r, allowed f ->
  find G f = Some (EnFn k ps r) -> sty G h o c (Syn.ECall (Syn.EId f) args) = r.
(** An accepted call has one argument for each parameter of the declared function, each of the type of the
    parameter or of a type that is not known. *)
Definition calls_as_declared (allowed : string -> Prop) : Prop := forall G h f args k ps r, allowed f ->
  find G f = Some (EnFn k ps r) -> check G h (Syn.ECall (Syn.EId f) args) = true ->
  Forall2 (fun a p => check G h a = true /\
    let t := sty G h (OArg (Some p)) (Some p) a in t = p \/ t = YErr \/ p = YErr) args ps.
(** Only functions can be called. *)
Definition only_functions_called (allowed : string -> Prop) : Prop := forall G h f args, allowed f ->
  check G h (Syn.ECall (Syn.EId f) args) = true -> exists k ps r, find G f = Some (EnFn k ps r).
Definition other (x : string) : Prop := x <> "assert".
Definition any (_ : string) : Prop := True.

Lemma other_spec x : other x -> is_assert x = false.
Proof. intros O. apply String.eqb_neq. exact O. Qed.
Lemma same a b : yty_eqb a b = true -> a = b. Proof. destruct a, b; (reflexivity || discriminate). Qed.

Theorem C87_variables_partial : variables_as_declared other.
Proof. intros G h o c x t n O F. cbn [sty]. rewrite (other_spec _ O), F. reflexivity. Qed.
Print Assumptions C87_variables_partial.
Theorem C87_results_partial : results_as_declared other.
Proof. intros G h o c f args k ps r O F. cbn [sty]. rewrite (other_spec _ O), F. reflexivity. Qed.
Print Assumptions C87_results_partial.
Theorem C87_calls_partial : calls_as_declared other.
Proof.
  intros G h f args k ps r O F H. cbn [check] in H. rewrite (other_spec _ O), F in H. apply andb_true_iff in H. destruct H as [L H].
  apply Nat.eqb_eq in L. clear F. revert ps L H. induction args as [|a args IH]; intros [|p ps] L H; try discriminate L; [constructor|].
  apply andb_true_iff in H. destruct H as [H Hr]. apply andb_true_iff in H. destruct H as [Ha Hc]. constructor.
  - split; [exact Ha|]. cbv zeta. unfold compatible in Hc. apply orb_true_iff in Hc. destruct Hc as [Hc|Hc]; [|right; right; exact (same _ _ Hc)].
    apply orb_true_iff in Hc. destruct Hc as [Hc|Hc]; [left|right; left]; exact (same _ _ Hc).
  - apply IH; [injection L as L; exact L|exact Hr].
Qed.
Print Assumptions C87_calls_partial.
Theorem C87_functions_partial : only_functions_called other.
Proof.
  intros G h f args O H. cbn [check] in H. rewrite (other_spec _ O) in H. destruct (find G f) as [[t n|k ps r]|]; try discriminate H.
  exists k, ps, r. reflexivity.
Qed.
Print Assumptions C87_functions_partial.

(** fn double(x: felt) -> felt and a variable n: felt. *)
Example C87_sample : let G := [("n", EnVar YFelt 0); ("double", EnFn 0 [YFelt] YFelt)] in
  let e := Syn.ECall (Syn.EId "double") [Syn.EId "n"] in
  check G None e = true /\ sty G None ONone None e = YFelt /\ check G None (Syn.ECall (Syn.EId "n") []) = false /\
  check G None (Syn.ECall (Syn.EId "double") [Syn.EBool true]) = false.
Proof. repeat split. Qed.

(** fn f(assert: felt) -> felt { return assert; }: the parameter is taken for the built-in name and has the type (). *)
Theorem C87_variables_refuted : ~ variables_as_declared any.
Proof. intros D. discriminate (D [("assert", EnVar YFelt 0)] None ONone None "assert" YFelt 0 I eq_refl). Qed.
Print Assumptions C87_variables_refuted.
(** fn assert(x: bool) -> felt: its calls have the type (). *)
Theorem C87_results_refuted : ~ results_as_declared any.
Proof. intros D. discriminate (D [("assert", EnFn 0 [YBool] YFelt)] None ONone None "assert" [Syn.EBool true] 0 [YBool] YFelt I eq_refl). Qed.
Print Assumptions C87_results_refuted.
(** fn assert(a: felt, b: felt): assert(true) is accepted. *)
Theorem C87_calls_refuted : ~ calls_as_declared any.
Proof.
  intros D. specialize (D [("assert", EnFn 0 [YFelt; YFelt] YUnit)] None "assert" [Syn.EBool true] 0 [YFelt; YFelt] YUnit I eq_refl eq_refl).
  inversion D as [|a p l m _ D' E1 E2]. inversion D'.
Qed.
Print Assumptions C87_calls_refuted.
(** A variable named assert can be called. *)
Theorem C87_functions_refuted : ~ only_functions_called any.
Proof.
  intros D. destruct (D [("assert", EnVar YFelt 0)] None "assert" [Syn.EBool true] I eq_refl) as (k & ps & r & E). discriminate E.
Qed.
Print Assumptions C87_functions_refuted.
