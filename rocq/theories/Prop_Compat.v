(** Property C77: values go only where their type is expected. *)
From Coq Require Import NArith String List Bool Lia Arith.
From Verif Require Import Compat.
Import ListNotations.

(** ** Specification *)
(** A type without unknown or erroneous part. *)
Inductive known : stype -> Prop :=
| known_felt : known Felt
| known_bool : known Bool
| known_u32 : known U32
| known_struct i : known (Struct i)
| known_function i : known (Function i)
| known_tuple l : Forall known l -> known (Tuple l)
| known_pointer e : known e -> known (Pointer e)
| known_array e n : known e -> known (FixedArray e n).

(** One type is the other, except that an unknown or erroneous part stands for any type. *)
Inductive agrees : stype -> stype -> Prop :=
| agrees_same t : agrees t t
| agrees_actual a b : a = Unknown \/ a = Error -> agrees a b
| agrees_expected a b : b = Unknown \/ b = Error -> agrees a b
| agrees_tuple l m : Forall2 agrees l m -> agrees (Tuple l) (Tuple m)
| agrees_pointer a b : agrees a b -> agrees (Pointer a) (Pointer b)
| agrees_array a b n : agrees a b -> agrees (FixedArray a n) (FixedArray b n).

(** ** Lemmas *)
Section ind.
Variable Q : stype -> Prop.
Hypothesis (Hf : Q Felt) (Hb : Q Bool) (Hu : Q U32) (Hs : forall i, Q (Struct i)) (Hfn : forall i, Q (Function i))
  (Ht : forall l, Forall Q l -> Q (Tuple l)) (Hp : forall e, Q e -> Q (Pointer e)) (Ha : forall e n, Q e -> Q (FixedArray e n))
  (Hk : Q Unknown) (He : Q Error).
Fixpoint stype_all (t : stype) : Q t :=
  match t with
  | Felt => Hf | Bool => Hb | U32 => Hu | Struct i => Hs i | Function i => Hfn i
  | Tuple l => Ht l ((fix go l : Forall Q l := match l with [] => Forall_nil _ | a :: l => Forall_cons _ (stype_all a) (go l) end) l)
  | Pointer e => Hp e (stype_all e)
  | FixedArray e n => Ha e n (stype_all e)
  | Unknown => Hk | Error => He
  end.
End ind.

Lemma same_eq : forall a b, same a b = true <-> a = b.
Proof.
  induction a using stype_all; destruct b; cbn [same]; split; intros E; try discriminate E; try reflexivity;
    try (apply Nat.eqb_eq in E; subst; reflexivity); try (injection E as ->; apply Nat.eqb_refl).
  - f_equal. revert l0 E. induction H as [|a l Ha Hl IH]; intros [|b m] E; try discriminate E; [reflexivity|].
    apply andb_true_iff in E. destruct E as [E1 E2]. f_equal; [apply Ha, E1|apply IH, E2].
  - injection E as <-. induction H as [|a l Ha Hl IH]; [reflexivity|]. apply andb_true_iff. split; [apply Ha; reflexivity|exact IH].
  - f_equal. apply IHa, E.
  - injection E as <-. apply IHa. reflexivity.
  - apply andb_true_iff in E. destruct E as [E1 E2]. apply N.eqb_eq in E2. subst. f_equal. apply IHa, E1.
  - injection E as <- <-. apply andb_true_iff. split; [apply IHa; reflexivity|apply N.eqb_refl].
Qed.
Lemma same_refl a : same a a = true.
Proof. apply same_eq. reflexivity. Qed.

(** ** C77: when types are compatible *)
(** The compiler's test is agreement up to unknown and erroneous parts. *)
Theorem C77_compatible : forall actual expected, compatible actual expected = true <-> agrees actual expected.
Proof.
  intros a b. split.
  - revert b. induction a using stype_all; intros b C; cbn [compatible] in C; apply orb_true_iff in C; destruct C as [C|C];
      try (apply same_eq in C; subst; apply agrees_same); destruct b; try discriminate C;
      try (apply agrees_actual; tauto); try (apply agrees_expected; tauto).
    + apply agrees_tuple. apply andb_true_iff in C. destruct C as [L C]. revert l0 L C.
      induction H as [|a l Ha Hl IH]; intros [|b m] L C; try discriminate L; constructor.
      * apply andb_true_iff in C. apply Ha, C.
      * apply andb_true_iff in C. apply IH; [exact L|apply C].
    + apply agrees_pointer, IHa, C.
    + apply andb_true_iff in C. destruct C as [N C]. apply N.eqb_eq in N. subst. apply agrees_array, IHa, C.
  - revert b. induction a using stype_all; intros b A; inversion A; subst;
      try (match goal with H : _ \/ _ |- _ => destruct H as [H|H]; try discriminate H; subst end);
      try (unfold compatible; fold compatible; rewrite same_refl; reflexivity);
      try (cbn [compatible]; apply orb_true_iff; right; destruct b; reflexivity);
      try (cbn [compatible]; apply orb_true_iff; right; reflexivity).
    + cbn [compatible]. apply orb_true_iff. right.
      match goal with H : Forall2 _ _ _ |- _ => rename H into F end.
      apply andb_true_iff. clear A. induction F as [|x y l m Hxy F IH]; [split; reflexivity|]. inversion H as [|? ? Hx Hl]; subst.
      destruct (IH Hl) as [L C]. split; [exact L|]. apply andb_true_iff. split; [apply Hx, Hxy|exact C].
    + cbn [compatible]. apply orb_true_iff. right. apply IHa. assumption.
    + cbn [compatible]. apply orb_true_iff. right. apply andb_true_iff. split; [apply N.eqb_refl|apply IHa; assumption].
Qed.
Print Assumptions C77_compatible.

(** Between known types it is equality: no value changes its type by being passed, assigned
    or returned. *)
Theorem C77_known : forall actual expected, known actual -> known expected ->
  (compatible actual expected = true <-> actual = expected).
Proof.
  intros a b Ka Kb. rewrite C77_compatible. split; [|intros ->; apply agrees_same].
  revert b Ka Kb. induction a using stype_all; intros b Ka Kb A; inversion A; subst;
    try reflexivity; try (match goal with H : _ \/ _ |- _ => destruct H as [H|H]; subst end);
    try discriminate; try (inversion Ka; fail); try (inversion Kb; fail).
  - f_equal. match goal with H : Forall2 _ _ _ |- _ => rename H into F end. inversion Ka as [| | | | |? Kl| |]; subst. inversion Kb as [| | | | |? Km| |]; subst.
    clear A Ka Kb. induction F as [|x y l m Hxy F IH]; [reflexivity|]. inversion H; inversion Kl; inversion Km; subst. f_equal; auto.
  - f_equal. inversion Ka; inversion Kb; subst. apply IHa; assumption.
  - f_equal. inversion Ka; inversion Kb; subst. apply IHa; assumption.
Qed.
Print Assumptions C77_known.

Example C77_known_sample : let t := Tuple [Felt; FixedArray (Struct 3) 4; Pointer U32] in
  known t /\ compatible t t = true /\ compatible t (Tuple [Felt; FixedArray (Struct 3) 5; Pointer U32]) = false
  /\ compatible Felt U32 = false /\ compatible (Tuple [Felt]) (Tuple [Felt; Felt]) = false
  /\ compatible (Tuple [Error; Felt]) (Tuple [U32; Felt]) = true.
Proof.
  split; [|repeat split]. constructor. constructor; [constructor|]. constructor; [constructor; constructor|]. constructor; [constructor; constructor|constructor].
Qed.

(** ** C77: calls *)
Lemma check_args_in : forall args params k r, In r (check_args k args params) <->
  exists i a p, r = WrongType (k + i) /\ nth_error args i = Some a /\ nth_error params i = Some p /\ ~ agrees a p.
Proof.
  induction args as [|a args IH]; intros [|p params] k r; cbn [check_args].
  - split; [intros []|intros ([|i] & a & p & _ & E & _); discriminate E].
  - split; [intros []|intros ([|i] & a & q & _ & E & _); discriminate E].
  - split; [intros []|intros ([|i] & b & q & _ & _ & E & _); discriminate E].
  - rewrite in_app_iff, IH. split.
    + intros [H|(i & b & q & E & Ea & Ep & N)].
      * destruct (compatible a p) eqn:C; [destruct H|]. destruct H as [H|[]]. exists 0, a, p. rewrite Nat.add_0_r.
        split; [congruence|]. split; [reflexivity|]. split; [reflexivity|]. rewrite <- C77_compatible. congruence.
      * exists (S i), b, q. rewrite Nat.add_succ_r. split; [exact E|]. split; [exact Ea|]. split; assumption.
    + intros ([|i] & b & q & E & Ea & Ep & N).
      * left. cbn in Ea, Ep. injection Ea as ->. injection Ep as ->. rewrite <- C77_compatible in N. destruct (compatible b q); [destruct N; reflexivity|].
        left. rewrite Nat.add_0_r in E. congruence.
      * right. exists i, b, q. rewrite Nat.add_succ_r in E. split; [exact E|]. split; [exact Ea|]. split; assumption.
Qed.

(** A call is reported for a wrong number of arguments, or for exactly the arguments that do
    not agree with their parameter. *)
Theorem C77_call : forall params args r, In r (check_call params args) <->
  (length args <> length params /\ r = WrongCount (length params) (length args)) \/
  (length args = length params /\ exists i a p, r = WrongType i /\ nth_error args i = Some a /\ nth_error params i = Some p /\ ~ agrees a p).
Proof.
  intros params args r. unfold check_call. destruct (Nat.eqb_spec (length args) (length params)) as [E|E].
  - rewrite check_args_in. cbn [plus]. split; [intros H; right; split; assumption|intros [[N _]|[_ H]]; [contradiction|exact H]].
  - cbn [In]. split; [intros [H|[]]; left; split; [exact E|congruence]|intros [[_ ->]|[N _]]; [left; reflexivity|contradiction]].
Qed.
Print Assumptions C77_call.

(** With known types an accepted call has the arguments its function declares. *)
Theorem C77_accepted : forall params args, Forall known params -> Forall known args ->
  (check_call params args = [] <-> args = params).
Proof.
  assert (G : forall args params k, length args = length params -> Forall known params -> Forall known args ->
    (check_args k args params = [] <-> args = params)).
  { induction args as [|a args IH]; intros [|p params] k L Kp Ka; try discriminate L; cbn [check_args]; [split; reflexivity|].
    inversion Kp; inversion Ka; subst. destruct (compatible a p) eqn:C.
    - apply C77_known in C; [|assumption|assumption]. subst. cbn [app]. rewrite IH; [|now injection L|assumption|assumption].
      split; [intros ->; reflexivity|intros X; injection X as ->; reflexivity].
    - split; [discriminate|]. intros X. injection X as -> ->. exfalso. assert (compatible p p = true); [|congruence]. apply C77_known; auto. }
  intros params args Kp Ka. unfold check_call. destruct (Nat.eqb_spec (length args) (length params)) as [E|E].
  - apply G; assumption.
  - split; [discriminate|intros ->; contradiction].
Qed.
Print Assumptions C77_accepted.
Example C77_call_sample : check_call [Felt; U32; Bool] [Felt; Felt; Bool] = [WrongType 1]
  /\ check_call [Felt; U32] [Felt] = [WrongCount 2 1] /\ check_call [Felt; Tuple [U32]] [Felt; Tuple [U32]] = [].
Proof. repeat split. Qed.

(** ** C77: assert *)
(** The arguments an accepted [assert] is given are one truth value, and it is computed. *)
Definition asserts_one (allowed : list stype -> Prop) : Prop := forall args, Forall known args -> allowed args ->
  check_assert args = [] -> args = [Bool] /\ lowered_assert args = Some args.
(** Missing: any other number of arguments, where it fails. *)
Theorem C77_assert_partial : asserts_one (fun args => length args = 1).
Proof.
  intros [|a [|b args]] K L C; try discriminate L. inversion K as [|? ? Ka _]; subst.
  destruct a; try discriminate C; [split; reflexivity|inversion Ka|inversion Ka].
Qed.
Print Assumptions C77_assert_partial.
Example C77_assert_sample : check_assert [Bool] = [] /\ check_assert [Felt] = [NotBool].
Proof. split; reflexivity. Qed.
(** [assert()] is accepted, and lowering it fails. *)
Theorem C77_no_condition_refuted : ~ asserts_one (fun args => length args <= 1).
Proof. intros H. destruct (H [] (Forall_nil _) (le_S _ _ (le_n _)) eq_refl) as [E _]. discriminate E. Qed.
Print Assumptions C77_no_condition_refuted.
(** [assert(a == b, f())] is accepted, and [f] is never called. *)
Theorem C77_more_arguments_refuted : ~ asserts_one (fun args => length args >= 1) /\
  check_assert [Bool; Felt] = [] /\ lowered_assert [Bool; Felt] = Some [Bool].
Proof.
  split; [|split; reflexivity]. intros H. destruct (H [Bool; Felt]) as [E _]; [|cbn; lia|reflexivity|discriminate E].
  constructor; [constructor|]. constructor; constructor.
Qed.
Print Assumptions C77_more_arguments_refuted.
