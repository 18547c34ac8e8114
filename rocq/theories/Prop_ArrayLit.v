(** Property C82: accepted array literals are arrays of the elements they list. *)
From Coq Require Import NArith String List Bool Lia.
From Verif Require Import Syn Compat ArrayLit.
Import ListNotations.
Open Scope string_scope.
Open Scope list_scope.

(** ** C82: literals *)
(** The elements agree with the type of the first. *)
Definition agree (typed : typing) (t : stype) (es : list expr) : Prop :=
  forall e, In e (tl es) -> compatible (typed (Some t) e) t = true.
(** [t] is the type of arrays of exactly these elements. *)
Definition array_of (typed : typing) (context : option stype) (es : list expr) (t : stype) : Prop :=
  exists first rest e, es = first :: rest /\ t = FixedArray e (N.of_nat (length es)) /\
    e = typed (element_of context) first /\ agree typed e es.
(** Accepted literals have such a type, and so can be lowered. *)
Definition sound (allowed : typing -> option stype -> list expr -> Prop) : Prop := forall typed annotation context es,
  allowed typed context es -> check_literal typed es = [] -> array_of typed context es (literal_type typed annotation context es).

(** The written form of an array. *)
Definition written_array (e : expr) : Prop := (exists es, e = EArr es) \/ exists a n, e = ERep a n.
Lemma array_literal_spec : forall e, array_literal e = false <-> ~ written_array e.
Proof.
  intros e. split.
  - intros H [(es & ->)|(a & n & ->)]; discriminate H.
  - intros H. destruct e; try reflexivity; contradiction H; [left; eexists; reflexivity|right; eexists; eexists; reflexivity].
Qed.
Lemma mismatches_spec : forall typed t es i,
  mismatches typed t i es = [] <-> forall e, In e es -> compatible (typed (Some t) e) t = true.
Proof.
  intros typed t es. induction es as [|a es IH]; intros i; cbn [mismatches].
  - split; [intros _ e []|reflexivity].
  - destruct (compatible (typed (Some t) a) t) eqn:C; cbn [app].
    + rewrite IH. split; [intros H e [<-|I]; [exact C|apply H; exact I]|intros H e I; apply H; right; exact I].
    + split; [intros H; discriminate H|]. intros H. rewrite (H a (or_introl eq_refl)) in C. discriminate C.
Qed.
(** What is accepted: at least one element, none of them a literal of an array, all of one type. *)
Theorem C82_accepted : forall typed es, check_literal typed es = [] <->
  exists first, hd_error es = Some first /\ (forall e, In e es -> ~ written_array e) /\ agree typed (typed None first) es.
Proof.
  intros typed es. destruct es as [|a es]; cbn [check_literal hd_error].
  - split; [intros H; discriminate H|intros (f & H & _); discriminate H].
  - destruct (existsb array_literal (a :: es)) eqn:X.
    + split; [intros H; discriminate H|]. intros (f & _ & H & _). apply existsb_exists in X. destruct X as (e & I & E).
      rewrite (proj2 (array_literal_spec e) (H e I)) in E. discriminate E.
    + rewrite mismatches_spec. split.
      * intros H. exists a. split; [reflexivity|]. split; [|exact H]. intros e I. apply array_literal_spec. destruct (array_literal e) eqn:E; [|reflexivity].
        rewrite <- X. symmetry. apply existsb_exists. exists e. split; assumption.
      * intros (f & [= <-] & _ & H). exact H.
Qed.
Print Assumptions C82_accepted.
(** The reports for elements: the positions of those that do not agree with the first. *)
Theorem C82_positions : forall typed first rest i, In (ElementMismatch i) (check_literal typed (first :: rest)) ->
  exists e, nth_error (first :: rest) i = Some e /\ compatible (typed (Some (typed None first)) e) (typed None first) = false.
Proof.
  intros typed first rest i H. cbn [check_literal] in H.
  destruct (existsb array_literal (first :: rest)); [destruct H as [H|[]]; discriminate H|].
  assert (G : forall es k, In (ElementMismatch i) (mismatches typed (typed None first) k es) ->
    exists j e, i = k + j /\ nth_error es j = Some e /\ compatible (typed (Some (typed None first)) e) (typed None first) = false).
  { intros es. induction es as [|a es IH]; intros k I; [contradiction I|]. cbn [mismatches] in I. apply in_app_or in I.
    destruct I as [I|I].
    - destruct (compatible (typed (Some (typed None first)) a) (typed None first)) eqn:C; [contradiction I|].
      destruct I as [[= <-]|[]]. exists 0, a. split; [lia|]. split; [reflexivity|exact C].
    - destruct (IH _ I) as (j & e & -> & N & C). exists (S j), e. split; [lia|]. split; assumption. }
  destruct (G _ _ H) as (j & e & -> & N & C). exists e. split; assumption.
Qed.
Print Assumptions C82_positions.
(** Where the expected type makes no difference for the first element, and so in particular where none
    is expected, accepted literals are typed. *)
Theorem C82_typed_partial : sound (fun typed context es =>
  forall first, hd_error es = Some first -> typed (element_of context) first = typed None first).
Proof.
  intros typed annotation context es A C. apply C82_accepted in C. destruct C as (f & H & _ & G). specialize (A f H).
  destruct es as [|a es]; [discriminate H|]. injection H as ->. exists f, es, (typed None f). cbn [literal_type]. rewrite A.
  assert (F : forallb (fun e => compatible (typed (Some (typed None f)) e) (typed None f)) es = true)
    by (apply forallb_forall; exact G).
  rewrite F. repeat split. exact G.
Qed.
Print Assumptions C82_typed_partial.
(** Whatever is expected, a literal that has the type of an array lists that many elements of that type. *)
Theorem C82_lowered : forall typed annotation context es e n, literal_type typed annotation context es = FixedArray e n ->
  n = N.of_nat (length es) /\ (es <> [] -> array_of typed context es (FixedArray e n)).
Proof.
  intros typed annotation context es e n H. destruct es as [|a es]; cbn [literal_type] in H.
  - split; [|intros X; contradiction X; reflexivity].
    destruct (element_of context); [injection H as _ <-; reflexivity|].
    destruct annotation as [[| | | | | |x [|p]| | |]|]; try discriminate H. injection H as _ <-. reflexivity.
  - destruct (forallb _ es) eqn:F; [|discriminate H]. injection H as <- <-. split; [reflexivity|]. intros _.
    exists a, es, (typed (element_of context) a). repeat split. intros x I. cbn [tl] in I. rewrite forallb_forall in F. apply F. exact I.
Qed.
Print Assumptions C82_lowered.

(** Repeated elements: accepted if the element is not the literal of an array and agrees with the annotation. *)
Theorem C82_repeated : forall typed annotation e, check_repeat typed annotation e = [] <->
  ~ written_array e /\ forall t, annotation = Some t -> compatible (typed (Some t) e) t = true.
Proof.
  intros typed annotation e. unfold check_repeat. rewrite <- array_literal_spec. destruct (array_literal e).
  - split; [intros H; discriminate H|intros [H _]; discriminate H].
  - destruct annotation as [t|].
    + destruct (compatible (typed (Some t) e) t) eqn:C.
      * split; [intros _; split; [reflexivity|intros u [= <-]; exact C]|reflexivity].
      * split; [intros H; discriminate H|]. intros [_ H]. rewrite (H t eq_refl) in C. discriminate C.
    + split; [intros _; split; [reflexivity|intros t H; discriminate H]|reflexivity].
Qed.
Print Assumptions C82_repeated.

Definition names (x : string) : stype := if String.eqb x "x" then Felt else U32.
Example C82_sample :
  check_literal (simple_typing names) [EId "x"; ELit 1 None] = [] /\
  literal_type (simple_typing names) None None [EId "x"; ELit 1 None] = FixedArray Felt 2 /\
  check_literal (simple_typing names) [EId "y"; ELit 1 None; EId "x"] = [ElementMismatch 2] /\
  literal_type (simple_typing names) None (Some (FixedArray U32 2)) [ELit 1 None; EId "y"] = FixedArray U32 2 /\
  check_literal (simple_typing names) [EArr [EId "x"]] = [NestedArray] /\ check_literal (simple_typing names) [] = [EmptyArray] /\
  check_repeat (simple_typing names) (Some U32) (ELit 1 None) = [] /\ check_repeat (simple_typing names) (Some U32) (EId "x") = [ElementMismatch 0].
Proof. repeat split. Qed.

(** ** C82: refutations *)
(** fn g(a: [u32; 2]); with x: felt, the call g([1, x]) is accepted: the elements agree when nothing is
    expected, with the type of the parameter they do not, and the type with an error that the
    literal has then is compatible with the parameter.  It cannot be lowered. *)
Theorem C82_expected_refuted : ~ sound (fun _ _ _ => True) /\
  let es := [ELit 1 None; EId "x"] in let t := literal_type (simple_typing names) None (Some (FixedArray U32 2)) es in
  check_literal (simple_typing names) es = [] /\ check_args 0 [t] [FixedArray U32 2] = [] /\ lowered_element t = None.
Proof.
  split; [|repeat split].
  intros S. destruct (S (simple_typing names) None (Some (FixedArray U32 2)) [ELit 1 None; EId "x"] I eq_refl) as (f & r & e & _ & H & _).
  discriminate H.
Qed.
Print Assumptions C82_expected_refuted.
(** "Empty arrays are not allowed" and "Nested arrays are not supported yet" hold for the written form
    only: [x; 0] and [([x]), ([x])] are accepted. *)
Theorem C82_forms_refuted :
  ~ (forall typed annotation context e n, check_repeat typed annotation e = [] -> repeat_type typed context e n <> FixedArray (typed (element_of context) e) 0) /\
  ~ (forall typed es e n, check_literal typed es = [] -> literal_type typed None None es = FixedArray e n -> forall a m, e <> FixedArray a m).
Proof.
  split; intros H.
  - apply (H (simple_typing names) None None (EId "x") 0%N eq_refl). reflexivity.
  - exact (H (simple_typing names) [EPar (EArr [EId "x"]); EPar (EArr [EId "x"])] _ _ eq_refl eq_refl Felt 1%N eq_refl).
Qed.
Print Assumptions C82_forms_refuted.
