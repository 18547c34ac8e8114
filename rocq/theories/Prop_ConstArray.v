(** Property C81: constants keep their values. *)
From Coq Require Import ZArith NArith String List Bool Lia.
From Verif Require Import Syn Compat ConstArray M31 Mir MirSem Cg CgLink CgRun Pipe PipeSource Prop_Pipe.
Import ListNotations.
Open Scope string_scope.
Open Scope list_scope.

(** ** C81: where constant arrays are kept from being shared *)
(** An expression that is the name of a constant array, maybe in parentheses. *)
Inductive stands_for (r : resolution) : expr -> string -> Prop :=
| stands_local x e n : local r x = Some (Definition_of true (FixedArray e n)) -> stands_for r (EId x) x
| stands_imported x e n : with_imports r x = Some (Definition_of true (FixedArray e n)) -> stands_for r (EId x) x
| stands_par e x : stands_for r e x -> stands_for r (EPar e) x.
(** The places from which an array can be reached later under another name. *)
Definition takes_arrays (p : use_place) : Prop :=
  match p with
  | Argument t | StructField t | Returned t => exists e n, t = FixedArray e n
  | TupleElement | LetValue => True
  end.
(** No accepted expression gives another name to a constant array. *)
Definition guarded (allowed : use_place -> Prop) : Prop := forall r p e x,
  allowed p -> takes_arrays p -> stands_for r e x -> check_use r p e <> [].

Lemma const_array_spec : forall r e x, const_array r e = Some x <-> stands_for r e x.
Proof.
  intros r. assert (D : forall d, const_array_def d = true <-> exists e n, d = Some (Definition_of true (FixedArray e n))).
  { intros [[[|] [ ]]|]; split; intros H; try discriminate H; try (destruct H as (? & ? & H); discriminate H); try reflexivity.
    eexists. eexists. reflexivity. }
  intros e. induction e; intros y; try (split; [intros H; discriminate H|intros H; inversion H]).
  - cbn [const_array]. destruct (const_array_def (local r x)) eqn:L.
    { split; [intros [= <-]; apply D in L; destruct L as (e & n & L); eapply stands_local; exact L|].
      intros H. inversion H; reflexivity. }
    destruct (const_array_def (with_imports r x)) eqn:I.
    { split; [intros [= <-]; apply D in I; destruct I as (e & n & I); eapply stands_imported; exact I|].
      intros H. inversion H; reflexivity. }
    split; [intros H; discriminate H|]. intros H. inversion H as [? e n E|? e n E|]; subst; exfalso.
    + rewrite E in L. discriminate L.
    + rewrite E in I. discriminate I.
  - cbn [const_array]. rewrite IHe. split; [apply stands_par|]. intros H. inversion H. assumption.
Qed.
(** Reports are about constant arrays, under their names. *)
Theorem C81_reported : forall r p e x, In x (check_use r p e) -> takes_arrays p /\ stands_for r e x.
Proof.
  intros r p e x H. assert (R : In x (match const_array r e with Some x => [x] | None => [] end) -> stands_for r e x).
  { destruct (const_array r e) eqn:C; [intros [->|[]]; apply const_array_spec; exact C|intros []]. }
  destruct p as [t|t|t| |]; try (destruct t; try contradiction H); try contradiction H;
    (split; [cbn; try exact I; eexists; eexists; reflexivity|apply R; exact H]).
Qed.
Print Assumptions C81_reported.
(** Arguments, fields, returned expressions and elements of tuples are guarded. *)
Theorem C81_guarded_partial : guarded (fun p => p <> LetValue).
Proof.
  intros r p e x A T S. apply const_array_spec in S. unfold check_use. rewrite S.
  destruct p; cbn in T; try (destruct T as (? & ? & ->)); try discriminate. contradiction A. reflexivity.
Qed.
Print Assumptions C81_guarded_partial.
(** const A = [1, 2]; *)
Definition sample : resolution :=
  Resolution (fun x => if String.eqb x "A" then Some (Definition_of true (FixedArray Felt 2)) else None) (fun _ => None).
Example C81_sample : stands_for sample (EPar (EId "A")) "A"
  /\ check_use sample (Argument (FixedArray Felt 2)) (EPar (EId "A")) = ["A"]
  /\ check_use sample TupleElement (EId "A") = ["A"] /\ check_use sample TupleElement (EId "B") = []
  /\ check_use sample (Argument Felt) (EIdx (EId "A") (ELit 0 None)) = [].
Proof. split; [apply const_array_spec; reflexivity|]. repeat split. Qed.

(** ** C81: refutation *)
Open Scope Z_scope.
(** fn f(i: felt) -> felt { let a = A; a[i] = 9; return A[i]; } with A lowered at both uses to a
    constant array (mir/src/lowering/expr.rs 188-207, builder.rs 765-791), or, for comparison, to an array that is
    not constant, as for [1, 2] in place of A. *)
Definition alias (konst : bool) : funcs :=
  [("f", Func [Block [IMakeArray 1 [Lit (LInt 1); Lit (LInt 2)] TFelt konst; IStore (Place 1 [PIdx (Op 0)]) (Lit (LInt 9)) TFelt;
                      IMakeArray 2 [Lit (LInt 1); Lit (LInt 2)] TFelt konst; ILoad 3 (Place 2 [PIdx (Op 0)]) TFelt] (TReturn [Op 3]) []]
          0 [0%nat] [3%nat] 4 (fun v => match v with 0 | 3 => Some TFelt | _ => Some (TArr TFelt 2) end)%nat)].
Definition result (one : func -> option func) (konst : bool) (i : Z) : option (list (option Z)) :=
  match optimize one (alias konst) with Some m => run_program 1000 1000 1000 (prog_of m) "f" [i] 1 | None => None end.
(** The value of a let statement is not guarded, and both uses of A are the same cells of the
    program's data: A[0] is 9 after the store, with and without optimizations. *)
Theorem C81_changed_constant_refuted : ~ guarded (fun _ => True) /\
  check_use sample LetValue (EId "A") = [] /\
  result (no_opt some_hashes) false 0 = Some [Some 1] /\ result (standard some_hashes) false 0 = Some [Some 1] /\
  result (no_opt some_hashes) true 0 = Some [Some 9] /\ result (standard some_hashes) true 0 = Some [Some 9] /\
  result (standard some_hashes) true 1 = Some [Some 9].
Proof.
  split; [|split; [reflexivity|repeat split; vm_compute; reflexivity]].
  intros G. apply (G sample LetValue (EId "A") "A"%string); [exact I|exact I| |reflexivity].
  apply const_array_spec. reflexivity.
Qed.
Print Assumptions C81_changed_constant_refuted.
