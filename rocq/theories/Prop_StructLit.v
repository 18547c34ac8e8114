(** Property C76: a struct literal gives each field one value. *)
From Coq Require Import ZArith String List Bool Lia Permutation.
From Verif Require Import M31 Mir MirSem MirSroa Cg CgLink CgRun Pipe PipeSource Prop_Pipe StructLit.
Import ListNotations.
Open Scope string_scope.
Open Scope list_scope.
Open Scope Z_scope.

(** ** Lemmas *)
Lemma mentions_in x l : mentions x l = true <-> In x l.
Proof. unfold mentions. rewrite existsb_exists. split; [intros (y & Y & E); apply String.eqb_eq in E; subst; exact Y|intros H; exists x; split; [exact H|apply String.eqb_refl]]. Qed.
Lemma not_mentions x l : negb (mentions x l) = true <-> ~ In x l.
Proof. rewrite negb_true_iff, <- mentions_in. destruct (mentions x l); split; congruence. Qed.
Lemma find_field_in {A} (x : string) : forall (l : list (string * A)) v, NoDup (map fst l) -> In (x, v) l -> find_field x l = Some v.
Proof.
  induction l as [|[y w] l IH]; intros v N H; [destruct H|]. inversion N as [|? ? N1 N2]; subst. cbn [find_field]. destruct H as [H|H].
  - injection H as -> ->. rewrite String.eqb_refl. reflexivity.
  - destruct (String.eqb_spec x y) as [->|D]; [|apply IH; assumption]. exfalso. apply N1. apply (in_map fst) in H. exact H.
Qed.

(** ** C76: the check of struct literals *)
(** Exactly the fields without value and the names that are no fields are reported. *)
Theorem C76_reported : forall fields given x,
  (In (MissingField x) (check_fields fields given) <-> In x fields /\ ~ In x given) /\
  (In (UnknownField x) (check_fields fields given) <-> In x given /\ ~ In x fields).
Proof.
  intros fields given x. unfold check_fields. rewrite !in_app_iff, !in_map_iff. split; split.
  - intros [(y & E & H)|(y & E & H)]; [|discriminate E]. injection E as <-. apply filter_In in H. rewrite not_mentions in H. exact H.
  - intros H. left. exists x. split; [reflexivity|]. apply filter_In. rewrite not_mentions. exact H.
  - intros [(y & E & H)|(y & E & H)]; [discriminate E|]. injection E as <-. apply filter_In in H. rewrite not_mentions in H. exact H.
  - intros H. right. exists x. split; [reflexivity|]. apply filter_In. rewrite not_mentions. exact H.
Qed.
Print Assumptions C76_reported.

(** An accepted literal that names no field twice gives each field exactly one value, and that is the one
    the optimizer takes for it, in the order of the declaration. *)
Theorem C76_one_value_partial : forall (fts : list (string * ty)) (fs : list (string * value)),
  check_fields (map fst fts) (map fst fs) = [] -> NoDup (map fst fts) -> NoDup (map fst fs) ->
  Permutation (map fst fts) (map fst fs) /\
  exists vs, from_fields fs fts = Some vs /\ length vs = length fts /\
    forall k n t, nth_error fts k = Some (n, t) -> exists v, nth_error vs k = Some v /\ forall w, In (n, w) fs <-> w = v.
Proof.
  intros fts fs C N1 N2.
  assert (M : forall x, In x (map fst fts) <-> In x (map fst fs)).
  { intros x. destruct (C76_reported (map fst fts) (map fst fs) x) as [A B]. rewrite C in A, B. cbn in A, B. split; intros H.
    - destruct (in_dec string_dec x (map fst fs)) as [I|I]; [exact I|]. exfalso. apply A. split; assumption.
    - destruct (in_dec string_dec x (map fst fts)) as [I|I]; [exact I|]. exfalso. apply B. split; assumption. }
  split; [apply NoDup_Permutation; assumption|].
  assert (G : forall l, (forall x, In x (map fst l) -> In x (map fst fs)) -> exists vs, from_fields fs l = Some vs /\ length vs = length l /\
    forall k n t, nth_error l k = Some (n, t) -> exists v, nth_error vs k = Some v /\ forall w, In (n, w) fs <-> w = v).
  { induction l as [|[n t] l IH]; intros S.
    - exists []. split; [reflexivity|]. split; [reflexivity|]. intros [|k] n t H; discriminate H.
    - destruct IH as (vs & E & L & P); [intros x X; apply S; right; exact X|].
      assert (X : In n (map fst fs)) by (apply S; left; reflexivity). apply in_map_iff in X. destruct X as ([n' v] & En & I). cbn in En. subst n'.
      exists (v :: vs). unfold from_fields in *. cbn [omap fst]. rewrite (find_field_in n fs v N2 I), E. split; [reflexivity|]. split; [cbn; f_equal; exact L|].
      intros [|k] m u H; [|apply (P k m u H)]. injection H as <- <-. exists v. split; [reflexivity|]. intros w. split; [|intros ->; exact I].
      intros W. apply (find_field_in n fs w N2) in W. rewrite (find_field_in n fs v N2 I) in W. injection W as ->. reflexivity. }
  apply G. intros x X. apply M, X.
Qed.
Print Assumptions C76_one_value_partial.

(** ** C76: refutation *)
(** struct P { x: felt }  fn f() -> felt { let p = P { x: 1, x: 2 }; return p.x; }
    passes the check; without optimizations it returns 2, with optimizations 1. *)
Definition box : ty := TStruct "P" [("x", TFelt)].
Definition given_twice : list (string * value) := [("x", Lit (LInt 1)); ("x", Lit (LInt 2))].
Definition twice_module : funcs :=
  [("f", Func [Block [IMakeStruct 0 given_twice box; IExtractField 1 (Op 0) "x" TFelt] (TReturn [Op 1]) []]
          0 [] [1%nat] 2 (fun v => match v with 0 => Some box | _ => Some TFelt end)%nat)].
Definition pipeline (one : func -> option func) : program := match optimize one twice_module with Some m => prog_of m | None => Prog [] [] [] end.
Theorem C76_given_twice_refuted : check_fields ["x"] (map fst given_twice) = [] /\
  run_program 1000 1000 1000 (pipeline (no_opt some_hashes)) "f" [] 1 = Some [Some 2] /\
  run_program 1000 1000 1000 (pipeline (standard some_hashes)) "f" [] 1 = Some [Some 1].
Proof. split; [reflexivity|]. split; vm_compute; reflexivity. Qed.
Print Assumptions C76_given_twice_refuted.

(** *** Example *)
Example C76_sample : let fts := [("x", TFelt); ("y", TU32)] in let fs := [("y", Op 3); ("x", Lit (LInt 7))] in
  check_fields (map fst fts) (map fst fs) = [] /\ from_fields fs fts = Some [Lit (LInt 7); Op 3] /\
  check_fields (map fst fts) ["x"; "z"] = [MissingField "y"; UnknownField "z"].
Proof. split; [reflexivity|]. split; reflexivity. Qed.
