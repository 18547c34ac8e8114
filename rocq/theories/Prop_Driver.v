(** Property C85: a project with errors gives no program, and no report is lost. *)
From Coq Require Import Arith String List Bool Sorted Lia.
From Verif Require Import Driver.
Import ListNotations.
Open Scope list_scope.

(** ** Specification *)
(** The reports about a project: those of the parser, of the builder of the index and of all validators. *)
Definition reported (failed : option (list diagnostic)) (ms : list checked_module) (d : diagnostic) : Prop :=
  (exists ds, failed = Some ds /\ In d ds) \/
  exists m, In m ms /\ (In d (m_parse m) \/ In d (m_index m) \/ exists v, In v (m_validators m) /\ In d v).
Definition an_error (d : diagnostic) : Prop := d_severity d = SevError.
(** The parser, and the builder where it fails, report errors only. *)
Definition failures_are_errors (failed : option (list diagnostic)) (ms : list checked_module) : Prop :=
  (forall m d, In m ms -> In d (m_parse m) -> an_error d) /\
  (forall ds, failed = Some ds -> exists d, In d ds /\ an_error d).

(** ** Lemmas *)
Lemma severity_spec a b : severity_eqb a b = true <-> a = b.
Proof. destruct a, b; cbn; split; intros H; try reflexivity; discriminate H. Qed.
Lemma is_error_spec d : is_error d = true <-> an_error d.
Proof. apply severity_spec. Qed.
Lemma diagnostic_spec a b : diagnostic_eqb a b = true <-> a = b.
Proof.
  unfold diagnostic_eqb. rewrite !andb_true_iff, severity_spec, !Nat.eqb_eq, !String.eqb_eq. destruct a, b; cbn. split.
  - intros (((((-> & ->) & ->) & ->) & ->) & ->). reflexivity.
  - intros [= -> -> -> -> -> ->]. auto 10.
Qed.
Lemma insert_in d x l : In x (insert_diag d l) <-> x = d \/ In x l.
Proof.
  induction l as [|a l IH]; cbn [insert_diag]; [cbn; intuition auto|]. destruct (diag_leb d a); cbn; [intuition auto|].
  rewrite IH. intuition auto.
Qed.
Lemma sort_in x l : In x (sort_diags l) <-> In x l.
Proof. induction l as [|a l IH]; [reflexivity|]. cbn [sort_diags fold_right]. rewrite insert_in. fold (sort_diags l). rewrite IH. cbn. intuition auto. Qed.
Lemma dedup_from_in x : forall l d, In x (d :: dedup_from d l) <-> In x (d :: l).
Proof.
  induction l as [|a l IH]; intros d; [reflexivity|]. cbn [dedup_from]. destruct (diagnostic_eqb d a) eqn:E.
  - apply diagnostic_spec in E. subst a. rewrite IH. cbn. intuition auto.
  - specialize (IH a). cbn in *. intuition auto.
Qed.
Lemma dedup_in x l : In x (dedup l) <-> In x l.
Proof. destruct l as [|a l]; [reflexivity|apply dedup_from_in]. Qed.
Lemma validate_all_in m d : In d (validate_all m) <-> In d (m_index m) \/ exists v, In v (m_validators m) /\ In d v.
Proof. unfold validate_all. rewrite dedup_in, sort_in, in_app_iff, in_concat. reflexivity. Qed.

(** ** C85: the reports of a module *)
(** Nothing is lost and nothing is added by sorting and by taking out repetitions. *)
Theorem C85_all_reports : forall m d,
  In d (validate_all m) <-> In d (m_index m) \/ exists v, In v (m_validators m) /\ In d v.
Proof. exact validate_all_in. Qed.
Print Assumptions C85_all_reports.
Definition before (a b : diagnostic) : Prop := d_start a <= d_start b.
Lemma leb_before a b : diag_leb a b = true -> before a b.
Proof. unfold diag_leb, before. destruct (Nat.compare_spec (d_start a) (d_start b)); intros X; try lia; discriminate X. Qed.
Lemma leb_after a b : diag_leb a b = false -> before b a.
Proof. unfold diag_leb, before. destruct (Nat.compare_spec (d_start a) (d_start b)); intros X; try lia; discriminate X. Qed.
Lemma before_trans a b c : before a b -> before b c -> before a c.
Proof. unfold before. lia. Qed.
Lemma insert_sorted d l : StronglySorted before l -> StronglySorted before (insert_diag d l).
Proof.
  induction l as [|a l IH]; intros S; cbn [insert_diag]; [constructor; constructor|].
  inversion S as [|? ? S' F]; subst. destruct (diag_leb d a) eqn:E.
  - apply leb_before in E. constructor; [exact S|]. constructor; [exact E|].
    eapply Forall_impl; [|exact F]. intros x. apply before_trans. exact E.
  - apply leb_after in E. constructor; [apply IH; exact S'|]. apply Forall_forall. intros x X. apply insert_in in X.
    destruct X as [->|X]; [exact E|]. rewrite Forall_forall in F. apply F. exact X.
Qed.
Lemma sort_sorted l : StronglySorted before (sort_diags l).
Proof. induction l as [|a l IH]; [constructor|apply insert_sorted; exact IH]. Qed.
Lemma dedup_from_sorted : forall l d, StronglySorted before (d :: l) -> StronglySorted before (d :: dedup_from d l).
Proof.
  induction l as [|a l IH]; intros d S; [exact S|]. inversion S as [|? ? S' F]; subst. inversion S' as [|? ? S'' F']; subst.
  cbn [dedup_from]. destruct (diagnostic_eqb d a).
  - apply IH. constructor; [exact S''|]. inversion F; assumption.
  - constructor; [apply IH; exact S'|]. apply Forall_forall. intros x X. apply (dedup_from_in x l a) in X.
    rewrite Forall_forall in F. apply F. exact X.
Qed.
(** They come in the order of the places they are about. *)
Theorem C85_ordered : forall m, StronglySorted before (validate_all m).
Proof.
  intros m. unfold validate_all. pose proof (sort_sorted (m_index m ++ concat (m_validators m))) as S.
  destruct (sort_diags _); [constructor|apply dedup_from_sorted; exact S].
Qed.
Print Assumptions C85_ordered.
(** No report comes twice. *)
Definition once (allowed : checked_module -> Prop) : Prop := forall m, allowed m -> NoDup (validate_all m).
(** So it is where all reports that start at one place are the same report. *)
Theorem C85_once_partial : once (fun m => forall a b, In a (validate_all m) -> In b (validate_all m) -> d_start a = d_start b -> a = b).
Proof.
  intros m H. assert (K : forall l, (forall a b, In a l -> In b l -> d_start a = d_start b -> a = b) -> StronglySorted before l -> NoDup (dedup l)).
  { intros [|d l] U S; [constructor|]. cbn [dedup]. revert d U S. induction l as [|a l IH]; intros d U S; [constructor; [intros []|constructor]|].
    inversion S as [|? ? S' F]; subst. inversion S' as [|? ? S'' F']; subst. cbn [dedup_from]. destruct (diagnostic_eqb d a) eqn:E.
    - apply diagnostic_spec in E. subst a. apply IH; [|exact S']. intros a b A B. apply U; right; assumption.
    - constructor; [|apply IH; [intros x y X Y; apply U; right; assumption|exact S']].
      intros X. apply (dedup_from_in d l a) in X. assert (Q : d = a).
      { apply U; [left; reflexivity|right; left; reflexivity|]. rewrite Forall_forall in F.
        assert (B1 := F a (or_introl eq_refl)). unfold before in B1. destruct X as [->|X]; [reflexivity|].
        rewrite Forall_forall in F'. assert (B2 := F' d X). unfold before in B2. lia. }
      subst a. rewrite (proj2 (diagnostic_spec d d) eq_refl) in E. discriminate E. }
  unfold validate_all in *. apply K; [|apply sort_sorted]. intros a b A B. apply H; apply dedup_in; assumption.
Qed.
Print Assumptions C85_once_partial.

(** ** C85: the verdict *)
Lemma filter_nil (A : Type) (f : A -> bool) l : filter f l = [] <-> forall x, In x l -> f x = false.
Proof.
  induction l as [|a l IH]; cbn [filter]; [split; [intros _ x []|reflexivity]|]. destruct (f a) eqn:E.
  - split; [intros H; discriminate H|]. intros H. rewrite (H a (or_introl eq_refl)) in E. discriminate E.
  - rewrite IH. split; [intros H x [<-|X]; [exact E|apply H; exact X]|intros H x X; apply H; right; exact X].
Qed.
Lemma validated : forall failed ms, failures_are_errors failed ms ->
  (forall d, In d (validate_project failed ms) -> reported failed ms d) /\
  ((forall d, In d (validate_project failed ms) -> ~ an_error d) -> forall d, reported failed ms d -> In d (validate_project failed ms)).
Proof.
  intros failed ms [A B]. unfold validate_project. destruct (flat_map m_parse ms) as [|p ps] eqn:Pe.
  - assert (N : forall m d, In m ms -> ~ In d (m_parse m)).
    { intros m d I D. assert (X : In d (flat_map m_parse ms)) by (apply in_flat_map; exists m; split; assumption). rewrite Pe in X. exact X. }
    destruct failed as [ds|].
    + split; [intros d D; left; exists ds; split; [reflexivity|exact D]|]. intros H. destruct (B ds eq_refl) as (d & D & E). destruct (H d D E).
    + split.
      * intros d D. apply in_flat_map in D. destruct D as (m & I & D). apply validate_all_in in D. right. exists m. split; [exact I|]. right. exact D.
      * intros _ d [(ds & X & _)|(m & I & [D|D])]; [discriminate X|destruct (N m d I D)|]. apply in_flat_map. exists m. split; [exact I|].
        apply validate_all_in. exact D.
  - rewrite <- Pe. split.
    + intros d D. apply in_flat_map in D. destruct D as (m & I & D). right. exists m. split; [exact I|]. left. exact D.
    + intros H. exfalso. assert (X : In p (flat_map m_parse ms)) by (rewrite Pe; left; reflexivity).
      apply (H p X). apply in_flat_map in X. destruct X as (m & I & D). exact (A m p I D).
Qed.
(** A program comes out only if there is no error among all the reports about the project; then every report is
    in the output. *)
Theorem C85_compiled : forall (P E : Type) unread (g : P + E) failed ms p ws, failures_are_errors failed ms ->
  compile_project unread g failed ms = Compiled p ws ->
  unread = [] /\ g = inl p /\ (forall d, reported failed ms d -> ~ an_error d) /\ (forall d, In d ws <-> reported failed ms d).
Proof.
  intros P E unread g failed ms p ws A H. unfold compile_project in H. destruct unread as [|u us]; [|discriminate H].
  unfold after_validation in H. destruct (filter is_error (validate_project failed ms)) as [|e es] eqn:F; [|discriminate H].
  destruct g as [q|e]; [|discriminate H]. injection H as -> <-. rewrite filter_nil in F.
  assert (N : forall d, In d (validate_project failed ms) -> ~ an_error d).
  { intros d D X. apply is_error_spec in X. rewrite (F d D) in X. discriminate X. }
  destruct (validated failed ms A) as [V1 V2]. split; [reflexivity|]. split; [reflexivity|]. split.
  - intros d D. apply N. apply V2; assumption.
  - intros d. rewrite filter_In. split; [intros [D _]; apply V1; exact D|]. intros D. pose proof (V2 N d D) as X. split; [exact X|].
    rewrite (F d X). reflexivity.
Qed.
Print Assumptions C85_compiled.
(** A refused project has an error, and what is shown are reported errors. *)
Theorem C85_refused : forall (P E : Type) unread (g : P + E) failed ms es, failures_are_errors failed ms ->
  compile_project unread g failed ms = SemanticErrors es ->
  es <> [] /\ forall d, In d es -> an_error d /\ reported failed ms d.
Proof.
  intros P E unread g failed ms es A H. unfold compile_project in H. destruct unread; [|discriminate H].
  unfold after_validation in H. destruct (filter is_error (validate_project failed ms)) as [|e r] eqn:F; [destruct g; discriminate H|].
  injection H as <-. split; [discriminate|]. intros d D. rewrite <- F in D. apply filter_In in D. destruct D as [D X].
  split; [apply is_error_spec; exact X|]. apply (validated failed ms A). exact D.
Qed.
Print Assumptions C85_refused.
(** The two entry points agree on one file that parses. *)
Theorem C85_entry_points : forall (P E : Type) (g : P + E) failed m, m_parse m = [] ->
  compile_file g failed m = compile_project [] g failed [m].
Proof. intros P E g failed m H. unfold compile_file, compile_project. rewrite H. reflexivity. Qed.
Print Assumptions C85_entry_points.

(** So the same holds for a single file. *)
Theorem C85_file : forall (P E : Type) (g : P + E) failed m p ws, failures_are_errors failed [m] ->
  compile_file g failed m = Compiled p ws ->
  (forall d, reported failed [m] d -> ~ an_error d) /\ (forall d, In d ws <-> reported failed [m] d).
Proof.
  intros P E g failed m p ws A H. assert (Q : m_parse m = []) by (unfold compile_file in H; destruct (m_parse m); [reflexivity|discriminate H]).
  rewrite (C85_entry_points P E g failed m Q) in H. destruct (C85_compiled _ _ _ _ _ _ _ _ A H) as (_ & _ & X). exact X.
Qed.
Print Assumptions C85_file.

(** ** C85: examples and refutation *)
Definition diag (s : severity) (c a : nat) : diagnostic := Diagnostic s c "x" "main.cm" a (a + 1).
Definition two : checked_module := Checked [] [diag SevWarning 1 7] [[diag SevWarning 2 3]; [diag SevWarning 1 7]].
Definition bad : checked_module := Checked [] [] [[diag SevWarning 2 3]; [diag SevError 4 9]].
Example C85_sample : failures_are_errors None [two] /\ validate_all two = [diag SevWarning 2 3; diag SevWarning 1 7] /\
  compile_project (P := nat) (E := nat) [] (inl 5) None [two] = Compiled 5 [diag SevWarning 2 3; diag SevWarning 1 7] /\
  compile_project (P := nat) (E := nat) [] (inl 5) None [two; bad] = SemanticErrors [diag SevError 4 9] /\
  compile_file (P := nat) (E := nat) (inl 5) None bad = SemanticErrors [diag SevError 4 9].
Proof. split; [|repeat split]. split; [intros m d [<-|[]] []|intros ds H; discriminate H]. Qed.
(** The order does not compare the codes, and only neighbours are compared: one report can come twice if another
    with the same place and message is between. *)
Theorem C85_once_refuted : ~ once (fun _ => True).
Proof.
  intros O. pose proof (O (Checked [] [] [[diag SevError 1 0]; [diag SevError 2 0]; [diag SevError 1 0]]) I) as N.
  cbv in N. inversion N as [|? ? X _]; subst. apply X. right. left. reflexivity.
Qed.
Print Assumptions C85_once_refuted.
