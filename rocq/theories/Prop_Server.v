(** Property C64: the language server shows the diagnostics of the texts as they are. *)
From Coq Require Import Bool Arith String List Permutation.
From Verif Require Import Server ServerSpec ServerRun.
Import ListNotations.
Open Scope string_scope.
Open Scope list_scope.

(** ** C64: an editor shows what the compiler reports

    [check] is the compiler: what it reports for a module, given the texts of all modules, in
    whatever order.  [mname] gives the module name of a path in a project. *)

(** A calm history ([calm_step]: one project, loaded again and again with the same readable
    files; its files are opened again with the text they have, and changed when the project
    and the waiting requests refer to their latest opening; no swap of the database), with
    any order of edits, timers, requests and loads and any other files opened and changed:
    nothing panics, and when nothing is left to do every file of the project is shown with
    what the compiler reports.  Missing for the full claim: see the refutations below. *)
Theorem C64_shown_partial : forall check mname root paths,
  (forall l l' m, NoDup (map fst l) -> Permutation l l' -> check l m = check l' m) ->
  NoDup paths -> (forall p q, In p paths -> In q paths -> mname root p = mname root q -> p = q) ->
  forall es, calm check mname root paths es start ->
  exists s, history check mname es start = Some s /\
    ((exists disk, In (ELoad root disk) es) -> idle s ->
     forall p, In p paths -> exists r, get p (shown s) = Some r /\ reports check mname root paths (documents es) p r).
Proof.
  intros check mname root paths Inv ND Nd. exact (shows_current check mname root paths ND Nd Inv).
Qed.
Print Assumptions C64_shown_partial.

(** A compiler that reports the text of a module as its error, and another error if some
    module is broken. *)
Definition report (l : list (string * string)) (m : string) : list string :=
  (match get m l with Some t => [t] | None => [] end)
  ++ (if existsb (fun e => String.eqb (snd e) "broken") l then ["a module is broken"] else []).
Definition name (root p : string) : string := p.

Lemma report_order : forall l l' m, NoDup (map fst l) -> Permutation l l' -> report l m = report l' m.
Proof.
  intros l l' m ND P. unfold report.
  assert (G : get m l = get m l').
  { induction P as [| [x a] l l' P IH | [x a] [y b] l | l l' l'' P1 IH1 P2 IH2].
    - reflexivity.
    - cbn. inversion ND; subst. now rewrite IH.
    - cbn. destruct (String.eqb_spec y m) as [-> | ]; destruct (String.eqb_spec x m) as [-> | ]; auto.
      inversion ND as [| ? ? N _]; subst. destruct N. now left.
    - rewrite IH1 by exact ND. apply IH2. eapply Permutation_NoDup; [apply Permutation_map, P1 | exact ND]. }
  rewrite G. f_equal.
  assert (E : existsb (fun e : string * string => String.eqb (snd e) "broken") l = existsb (fun e => String.eqb (snd e) "broken") l').
  { clear ND G. induction P; cbn; auto; [now rewrite IHP | | congruence].
    destruct (String.eqb (snd y) "broken"), (String.eqb (snd x) "broken"); reflexivity. }
  now rewrite E.
Qed.

(** A calm history: two files, one of them opened; edits while requests wait; the file is
    closed, opened again and changed; a file outside the project. *)
Definition disk : list (string * option string) := [("main", Some "m"); ("lib", Some "l")].
Definition day : list event :=
  [EOpen "main" "m1"; EServe; ELoad "R" disk; EChange "main" "m2"; EServe; EChange "main" "m3"; EOpen "other" "o";
   ETimer "main"; EChange "lib" "broken"; EServe; EServe; ETimer "lib"; EOpen "main" "m3"; EServe; ELoad "R" disk; EServe; EServe;
   EChange "main" "m4"; EChange "other" "p"; ETimer "other"; EServe; ETimer "main"; EServe].

Lemma calm_cons check mname root paths e r s s' : step check mname e s = Some s' -> calm_step root paths e s ->
  calm check mname root paths r s' -> calm check mname root paths (e :: r) s.
Proof. intros E C K. cbn. rewrite E. auto. Qed.
Ltac calm_event :=
  cbn [calm_step current sources texts crates];
  match goal with
  | |- True => exact I
  | |- _ /\ _ => split; [reflexivity | split; [reflexivity | intros ? ? [E | [E | []]]; injection E as <- <-; discriminate]]
  | |- In _ _ -> _ <> _ -> _ =>
    first [ intros [E | [E | []]] _; discriminate E
          | intros _ X; exfalso; apply X; reflexivity
          | intros _ _; eexists; split; reflexivity ]
  | |- In _ _ -> _ =>
    first [ intros [E | [E | []]]; discriminate E
          | intros _ c r fs [E | E] N; cbn in E;
            [ repeat (destruct E as [E | E]; [first [discriminate E | injection E as <-] |]); try contradiction
            | injection E as <- ]; cbn in N; first [discriminate N | injection N as <- <-]; reflexivity ]
  end.
Example day_calm : calm report name "R" ["main"; "lib"] day start.
Proof.
  unfold day, start.
  repeat (eapply calm_cons; [vm_compute; reflexivity | calm_event |]).
  exact I.
Qed.
Example day_end : exists s, history report name day start = Some s /\ idle s
  /\ shown s = [("main", ["m4"; "a module is broken"]); ("lib", ["broken"; "a module is broken"]); ("other", [])].
Proof. eexists. split; [vm_compute; reflexivity|]. split; [split; reflexivity | reflexivity]. Qed.

(** The full claim fails.  A second project is not diagnosed before the next edit: opening a
    file is no new revision, so the server repeats what it knows about the first project. *)
Definition second : list event :=
  [EOpen "a" "x"; ELoad "A" [("a", Some "x")]; EServe; EServe; EOpen "b" "y"; ELoad "B" [("b", Some "y")]; EServe; EServe].
(** A file that is opened again with another text (closed without saving, say) keeps the old
    diagnostics. *)
Definition reopened : list event :=
  [EOpen "a" "x"; ELoad "A" [("a", Some "y")]; EServe; EServe; EOpen "a" "y"; ELoad "A" [("a", Some "y")]; EServe; EServe].
(** A file that is opened again and changed before its project is loaded again. *)
Definition early : list event :=
  [EOpen "a" "x"; ELoad "A" [("a", Some "x")]; EServe; EServe; EOpen "a" "x"; EServe; EChange "a" "y"; ETimer "a"; EServe;
   ELoad "A" [("a", Some "x")]; EServe].
(** After a swap of the database revisions start again, and edits are not diagnosed until
    they pass the old revision. *)
Definition swapped : list event :=
  [EOpen "a" "x"; ELoad "A" [("a", Some "x")]; EServe; EServe; EChange "a" "y"; ETimer "a"; EServe; ESnapshot; ESwap;
   EChange "a" "z"; ETimer "a"; EServe].
(** After a swap the server changes another file than the one the user edits. *)
Definition mixed : list event :=
  [EOpen "a" "x"; ELoad "A" [("a", Some "x"); ("b", Some "y")]; EServe; EServe; ESnapshot; ESwap;
   EChange "a" "z"; ETimer "a"; EServe].
(** An edit while the swap is prepared is lost. *)
Definition lost : list event :=
  [EOpen "a" "x"; ELoad "A" [("a", Some "x")]; EServe; EServe; ESnapshot; EChange "a" "y"; ESwap; ETimer "a"; EServe].

Definition shown_of (es : list event) (p : string) : option (list string) :=
  match history report name es start with Some s => get p (shown s) | None => None end.
Example second_shown : shown_of second "b" = Some [] /\ documents second "b" = Some "y".
Proof. split; vm_compute; reflexivity. Qed.
Example reopened_shown : shown_of reopened "a" = Some ["x"] /\ documents reopened "a" = Some "y".
Proof. split; vm_compute; reflexivity. Qed.
Example early_shown : shown_of early "a" = Some ["x"] /\ documents early "a" = Some "y".
Proof. split; vm_compute; reflexivity. Qed.
Example swapped_shown : shown_of swapped "a" = Some ["y"] /\ documents swapped "a" = Some "z".
Proof. split; vm_compute; reflexivity. Qed.
Example mixed_shown : shown_of mixed "a" = Some ["x"] /\ shown_of mixed "b" = Some ["z"]
  /\ documents mixed "a" = Some "z" /\ documents mixed "b" = Some "y".
Proof. repeat split; vm_compute; reflexivity. Qed.
Example lost_shown : shown_of lost "a" = Some ["x"] /\ documents lost "a" = Some "y".
Proof. repeat split; vm_compute; reflexivity. Qed.

(** In each of them the file is in one project, which is always loaded with the same files,
    and every opened file's project is loaded afterwards. *)
Ltac member H := repeat (destruct H as [H | H]; [try discriminate H |]); try contradiction.
Ltac refute es rt dk p Ok :=
  let H := fresh "H" in intros H; unfold shows in H;
  let s := eval vm_compute in (history report name es start) in
  match s with
  | Some ?s0 =>
    destruct (H es s0 rt dk p) as (r & G & l & F & E);
    [ Ok | vm_compute; reflexivity | split; reflexivity
    | cbn; repeat apply conj; try exact Logic.I; do 2 eexists; (split; [repeat first [left; reflexivity | right] | cbn; auto])
    | split; [cbn; tauto | split; [cbn; tauto |]]; intros rt' dk' I; cbn in I; member I;
      injection I as <- <-; split; intros X; first [reflexivity | discriminate X | cbn in X; member X]
    | vm_compute in G; injection G as <-;
      repeat match goal with F : Forall2 _ (_ :: _) _ |- _ => inversion F as [| ? [? ?] ? ? [? ?] ?]; clear F; subst; cbn [fst snd] in *
                        | F : Forall2 _ (map _ _) _ |- _ => cbn [map fst] in F
                        | F : Forall2 _ [] _ |- _ => inversion F; clear F; subst end;
      repeat match goal with D : documents _ _ = Some _ |- _ => vm_compute in D; injection D as <- end;
      subst; vm_compute in E; discriminate E ]
  end.

Ltac absent := let I := fresh in intros I; cbn in I; member I.
Ltac one := let I := fresh in let J := fresh in intros ? ? ? ? I J; cbn in I, J; member I; member J;
  injection I as <- <-; injection J as <- <-; split; reflexivity.
Ltac opens_once := unfold opened_once; cbn [flat_map opened app];
  repeat (apply NoDup_cons; [let I := fresh in intros I; cbn in I; member I |]); apply NoDup_nil.
Ltac as_is :=
  let E := fresh in intros es1 p t es2 E;
  repeat (destruct es1 as [| ? es1];
          [first [discriminate E | injection E as <- <- _; first [now left | now right]] | injection E as <- E]);
  try (destruct es1; discriminate E).

Theorem C64_second_project_refuted : ~ shows report name (fun es => no_swap es /\ opened_once es).
Proof. refute second "B" [("b", Some "y")] "b" ltac:(split; [absent | opens_once]). Qed.
Print Assumptions C64_second_project_refuted.
Theorem C64_reopened_refuted : ~ shows report name (fun es => no_swap es /\ one_project es /\ no_change es).
Proof. refute reopened "A" [("a", Some "y")] "a" ltac:(split; [absent | split; [one | intros ? ?; absent]]). Qed.
Print Assumptions C64_reopened_refuted.
Theorem C64_early_change_refuted : ~ shows report name (fun es => no_swap es /\ one_project es /\ opened_as_is es).
Proof. refute early "A" [("a", Some "x")] "a" ltac:(split; [absent | split; [one | as_is]]). Qed.
Print Assumptions C64_early_change_refuted.
Theorem C64_swap_refuted : ~ shows report name (fun es => one_project es /\ opened_once es).
Proof. refute swapped "A" [("a", Some "x")] "a" ltac:(split; [one | opens_once]). Qed.
Print Assumptions C64_swap_refuted.
Theorem C64_swap_other_file_refuted : ~ shows report name (fun es => one_project es /\ opened_once es).
Proof. refute mixed "A" [("a", Some "x"); ("b", Some "y")] "b" ltac:(split; [one | opens_once]). Qed.
Print Assumptions C64_swap_other_file_refuted.
Theorem C64_swap_lost_edit_refuted : ~ shows report name (fun es => one_project es /\ opened_once es).
Proof. refute lost "A" [("a", Some "x")] "a" ltac:(split; [one | opens_once]). Qed.
Print Assumptions C64_swap_lost_edit_refuted.
