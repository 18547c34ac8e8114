(** Property C80: array accesses stay within the array. *)
From Coq Require Import ZArith NArith String List Bool Lia.
From Verif Require Import Syn Compat IndexCheck M31 Mir MirSem Cg CgLink CgRun Pipe PipeSource Prop_Pipe.
Import ListNotations.
Open Scope string_scope.
Open Scope list_scope.

(** ** C80: what is checked *)
(** The value of an index that is written as a number. *)
Inductive means : expr -> N -> Prop :=
| means_lit v s : means (ELit v s) v
| means_par e v : means e v -> means (EPar e) v.
(** An accepted access to an array with such an index is one to an element of it. *)
Definition inside (allowed : expr -> Prop) : Prop := forall e size it i v, allowed i -> means i v ->
  check_index (FixedArray e size) it i = [] -> (v < size)%N.

(** Exactly the accesses to elements, with a felt as index, are accepted if the index is a
    number without parentheses. *)
Theorem C80_literals : forall e size it v s,
  check_index (FixedArray e size) it (ELit v s) = [] <-> it = Felt /\ (v < size)%N.
Proof.
  intros e size it v s. cbn [check_index]. split.
  - intros H. apply app_eq_nil in H. destruct H as [A B]. destruct it; try discriminate A. split; [reflexivity|].
    destruct (N.leb_spec size v) as [L|L]; [discriminate B|exact L].
  - intros [-> L]. cbn. apply N.leb_gt in L. rewrite L. reflexivity.
Qed.
Print Assumptions C80_literals.
Theorem C80_inside_partial : inside (fun i => exists v s, i = ELit v s).
Proof. intros e size it i v (w & s & ->) M C. inversion M; subst. apply C80_literals in C. apply C. Qed.
Print Assumptions C80_inside_partial.
(** Only arrays, pointers and expressions with an error can be indexed, arrays and pointers only with felts. *)
Theorem C80_indexable : forall t it i, check_index t it i = [] ->
  t = Error \/ it = Felt /\ ((exists e size, t = FixedArray e size) \/ exists e, t = Pointer e).
Proof.
  intros t it i C. destruct t; cbn [check_index] in C; try discriminate C; [right|right|left; reflexivity].
  - split; [destruct it; try discriminate C; reflexivity|]. right. eexists. reflexivity.
  - apply app_eq_nil in C. destruct C as [A _]. split; [destruct it; try discriminate A; reflexivity|]. left. eexists. eexists. reflexivity.
Qed.
Print Assumptions C80_indexable.
Example C80_sample : check_index (FixedArray U32 3) Felt (ELit 2 None) = []
  /\ check_index (FixedArray U32 3) Felt (ELit 3 None) = [IndexOutOfBounds 3 3]
  /\ check_index (FixedArray U32 3) U32 (ELit 0 None) = [InvalidIndexType] /\ check_index (Pointer Felt) Felt (EId "i") = [].
Proof. repeat split. Qed.

(** ** C80: refutation *)
Open Scope Z_scope.
(** fn f() -> felt { let a = [1, 2]; let b = [7, 8]; a[(k)] = 9; return b[0]; } *)
Definition arrays (k : Z) : funcs :=
  [("f", Func [Block [IMakeArray 0 [Lit (LInt 1); Lit (LInt 2)] TFelt false; IMakeArray 1 [Lit (LInt 7); Lit (LInt 8)] TFelt false;
                      IStore (Place 0 [PIdx (Lit (LInt k))]) (Lit (LInt 9)) TFelt; ILoad 2 (Place 1 [PIdx (Lit (LInt 0))]) TFelt] (TReturn [Op 2]) []]
          0 [] [2%nat] 3 (fun v => match v with 2 => Some TFelt | _ => Some (TArr TFelt 2) end)%nat)].
Definition result (one : func -> option func) (k : Z) : option (list (option Z)) :=
  match optimize one (arrays k) with Some m => run_program 1000 1000 1000 (prog_of m) "f" [] 1 | None => None end.
(** A number in parentheses is not checked, and nothing is checked when the program runs:
    without optimizations a[(2)] = 9 changes b[0]; with a[(1)] it is unchanged. *)
Theorem C80_other_array_refuted : ~ inside (fun _ => True) /\
  check_index (FixedArray Felt 2) Felt (EPar (ELit 2 None)) = [] /\
  result (no_opt some_hashes) 1 = Some [Some 7] /\ result (standard some_hashes) 1 = Some [Some 7] /\
  result (no_opt some_hashes) 2 = Some [Some 9].
Proof.
  split; [|split; [reflexivity|split; [|split]; vm_compute; reflexivity]].
  intros H. specialize (H Felt 2%N Felt (EPar (ELit 2 None)) 2%N I (means_par _ _ (means_lit _ _)) eq_refl). lia.
Qed.
Print Assumptions C80_other_array_refuted.
