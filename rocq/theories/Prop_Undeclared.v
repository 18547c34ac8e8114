(** Property C86: names that are not declared are reported, once, where they are first used. *)
From Coq Require Import String List Bool Lia.
From Verif Require Import Undeclared.
Import ListNotations.
Open Scope string_scope.
Open Scope list_scope.

(** ** Specification *)
(** No definition is found for the use, in any way. *)
Definition no_definition (u : usage) : Prop := u_resolved u = false /\ u_local u = false /\ u_imported u = false.
(** [u] is the first use of its name in [us] for which there is no definition. *)
Definition first_use (us : list usage) (u : usage) : Prop :=
  exists l r, us = l ++ u :: r /\ no_definition u /\ forall v, In v l -> u_name v = u_name u -> ~ no_definition v.
(** All used names are declared. *)
Definition all_declared (allowed : usage -> Prop) : Prop := forall values types u, check_undeclared values types = [] ->
  In u values -> allowed u -> ~ no_definition u.

Lemma seen_spec x l : existsb (String.eqb x) l = true <-> In x l.
Proof.
  rewrite existsb_exists. split; [intros (y & I & E); apply String.eqb_eq in E; subst; exact I|].
  intros I. exists x. split; [exact I|apply String.eqb_refl].
Qed.
Lemma names_spec : forall us seen x p, In (x, p) (undeclared_names seen us) <->
  x <> "assert" /\ ~ In x seen /\ exists u, first_use us u /\ u_name u = x /\ u_place u = p.
Proof.
  induction us as [|u us IH]; intros seen x p; cbn [undeclared_names].
  - split; [intros []|]. intros (_ & _ & v & (l & r & E & _) & _). destruct l; discriminate E.
  - assert (Skip : ~ no_definition u \/ u_name u <> x -> ((exists v, first_use us v /\ u_name v = x /\ u_place v = p) <->
      (exists v, first_use (u :: us) v /\ u_name v = x /\ u_place v = p))).
    { intros D. split.
      - intros (v & (l & r & E & N & F) & X & P). exists v. split; [|split; assumption]. exists (u :: l), r. split; [rewrite E; reflexivity|].
        split; [exact N|]. intros w [<-|I] Q; [destruct D as [D|D]; [exact D|congruence]|apply F; assumption].
      - intros (v & (l & r & E & N & F) & X & P). exists v. split; [|split; assumption].
        destruct l as [|w l]; injection E as <- ->; [destruct D as [D|D]; [destruct (D N)|congruence]|].
        exists l, r. split; [reflexivity|]. split; [exact N|]. intros y I. apply F. right. exact I. }
    destruct (u_resolved u) eqn:R. { rewrite IH, Skip; [reflexivity|]. left. intros (A & _). congruence. }
    destruct (u_local u) eqn:L. { rewrite IH, Skip; [reflexivity|]. left. intros (_ & A & _). congruence. }
    destruct (u_imported u) eqn:M. { rewrite IH, Skip; [reflexivity|]. left. intros (_ & _ & A). congruence. }
    assert (Nd : no_definition u) by (repeat split; assumption).
    unfold builtin. destruct (String.eqb_spec (u_name u) "assert") as [B|B].
    { rewrite IH. split; intros (A & C & D); (split; [exact A|split; [exact C|]]); apply Skip; try exact D; right; congruence. }
    destruct (existsb (String.eqb (u_name u)) seen) eqn:S.
    { apply seen_spec in S. rewrite IH. split; intros (A & C & D); (split; [exact A|split; [exact C|]]); apply Skip; try exact D; right; intros <-; exact (C S). }
    assert (S' : ~ In (u_name u) seen) by (intros I; apply seen_spec in I; congruence).
    cbn [In]. rewrite IH. split.
    + intros [[= <- <-]|(A & C & D)].
      * split; [exact B|]. split; [exact S'|]. exists u. split; [|split; reflexivity]. exists [], us. split; [reflexivity|]. split; [exact Nd|intros v []].
      * split; [exact A|]. split; [intros I; apply C; right; exact I|]. apply Skip; [|exact D]. right. intros Q. apply C. left. exact Q.
    + intros (A & C & D). destruct (string_dec (u_name u) x) as [Q|Q].
      * left. destruct D as (v & (l & r & E & N & F) & X & P). destruct l as [|w l]; injection E as <- E; [congruence|].
        destruct (F u (or_introl eq_refl)); [congruence|exact Nd].
      * right. split; [exact A|]. split; [intros [I|I]; [exact (Q I)|exact (C I)]|]. apply Skip; [right; exact Q|exact D].
Qed.
(** Exactly the names without a definition, except the built-in one, are reported, where they are first used. *)
Theorem C86_values : forall us x p, In (x, p) (undeclared_names [] us) <->
  x <> "assert" /\ exists u, first_use us u /\ u_name u = x /\ u_place u = p.
Proof. intros us x p. rewrite names_spec. cbn. intuition auto. Qed.
Print Assumptions C86_values.
(** Each of them once. *)
Theorem C86_once : forall us, NoDup (map fst (undeclared_names [] us)).
Proof.
  intros us. generalize (@nil string). induction us as [|u us IH]; intros seen; cbn [undeclared_names]; [constructor|].
  destruct (u_resolved u); [apply IH|]. destruct (if u_local u then true else u_imported u); [apply IH|].
  destruct (builtin (u_name u)); [apply IH|]. destruct (existsb (String.eqb (u_name u)) seen); [apply IH|]. cbn [map fst]. constructor; [|apply IH].
  intros I. apply in_map_iff in I. destruct I as ([x p] & E & I). cbn in E. subst x. apply names_spec in I. destruct I as (_ & C & _).
  apply C. left. reflexivity.
Qed.
Print Assumptions C86_once.
(** Types: every use without a definition is reported; a type is looked up with imports only if the builder did not find it. *)
Theorem C86_types : forall us x p, In (x, p) (undeclared_types us) <->
  exists u, In u us /\ u_resolved u = false /\ u_imported u = false /\ u_name u = x /\ u_place u = p.
Proof.
  intros us x p. unfold undeclared_types. rewrite in_flat_map. split.
  - intros (u & I & D). destruct (u_resolved u) eqn:R; [destruct D|]. destruct (u_imported u) eqn:M; [destruct D|].
    destruct D as [[= <- <-]|[]]. exists u. auto.
  - intros (u & I & R & M & <- & <-). exists u. split; [exact I|]. rewrite R, M. left. reflexivity.
Qed.
Print Assumptions C86_types.
(** In an accepted file every used name but the built-in one has a definition. *)
Theorem C86_declared_partial : all_declared (fun u => u_name u <> "assert").
Proof.
  intros values types u H I A N. unfold check_undeclared in H. apply app_eq_nil in H. destruct H as [H _].
  assert (X : exists v, first_use values v /\ u_name v = u_name u).
  { clear H. induction values as [|w values IH]; [contradiction I|].
    assert (Dec : (no_definition w /\ u_name w = u_name u) \/ ~ (no_definition w /\ u_name w = u_name u)).
    { unfold no_definition. destruct (u_resolved w), (u_local w), (u_imported w), (string_dec (u_name w) (u_name u));
        (left; repeat split; assumption || reflexivity) || (right; intros [(? & ? & ?) ?]; congruence). }
    destruct Dec as [[D E]|D].
    - exists w. split; [|exact E]. exists [], values. split; [reflexivity|]. split; [exact D|intros y []].
    - destruct I as [->|I]; [destruct D; split; [exact N|reflexivity]|]. destruct (IH I) as (v & (l & r & -> & Nv & F) & Ev).
      exists v. split; [|exact Ev]. exists (w :: l), r. split; [reflexivity|]. split; [exact Nv|].
      intros y [<-|J] Q; [intros Z; apply D; split; [exact Z|congruence]|apply F; assumption]. }
  destruct X as (v & F & E). assert (Y : In (u_name u, u_place v) (undeclared_names [] values)).
  { apply C86_values. split; [exact A|]. exists v. auto. }
  rewrite H in Y. exact Y.
Qed.
Print Assumptions C86_declared_partial.
(** In an accepted file every used type is found, by the builder or with the imports. *)
Theorem C86_types_declared : forall values types u, check_undeclared values types = [] -> In u types ->
  u_resolved u = true \/ u_imported u = true.
Proof.
  intros values types u H I. unfold check_undeclared in H. apply app_eq_nil in H. destruct H as [_ H].
  destruct (u_resolved u) eqn:R; [left; reflexivity|]. destruct (u_imported u) eqn:M; [right; reflexivity|].
  assert (Y : In (u_name u, u_place u) (undeclared_types types)) by (apply C86_types; exists u; auto). rewrite H in Y. destruct Y.
Qed.
Print Assumptions C86_types_declared.

Definition missing (x : string) (p : nat) : usage := Usage x p false false false.
Example C86_sample : let us := [missing "x" 3; Usage "y" 5 true false false; missing "z" 7; missing "x" 9; missing "assert" 11] in
  undeclared_names [] us = [("x", 3); ("z", 7)] /\ first_use us (missing "x" 3) /\
  check_undeclared [Usage "y" 5 true false false] [missing "T" 1; missing "T" 2] = [("T", 1); ("T", 2)].
Proof.
  cbv zeta. split; [reflexivity|]. split; [|reflexivity]. eexists [], _. split; [reflexivity|]. split; [repeat split|intros v []].
Qed.
(** let f = assert; passes this check although there is no such value: the built-in name is allowed everywhere, not
    only in calls. *)
Theorem C86_builtin_refuted : ~ all_declared (fun _ => True).
Proof.
  intros D. apply (D [missing "assert" 0] [] (missing "assert" 0) eq_refl (or_introl eq_refl) I). repeat split.
Qed.
Print Assumptions C86_builtin_refuted.
