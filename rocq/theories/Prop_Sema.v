(** Property C58: names refer to what lexical scoping says. *)
From Coq Require Import NArith Bool String List Arith Lia.
From Verif Require Import Syn ParseFacts ParseStmt FmtFacts Sema SemaSpec SemaFacts.
Import ListNotations.
Open Scope list_scope.

(** In every file the compiler connects each mentioned variable, constant, parameter and
    function, in order, with the declaration that lexical scoping gives it, and with none if
    there is none. *)
Theorem C58_names_are_lexical : forall m, ix_uses (build m) = in_exprs (names_in_file m).
Proof. intro m. exact (st_uses _ _ _ (build_walk m)). Qed.
(** The same for the names of types, outside struct literals. *)
Theorem C58_types_are_lexical : forall m, ix_tys (build m) = in_types (names_in_file m).
Proof. intro m. exact (st_tys _ _ _ (build_walk m)). Qed.
(** Its definitions are the declarations of the file, with the same numbers. *)
Theorem C58_declarations : forall m,
  map d_name (ix_defs (build m)) = map fst (declared (names_in_file m)).
Proof.
  intro m. pose proof (st_defs _ _ _ (build_walk m)) as H. cbn in H. apply (f_equal (map fst)) in H.
  rewrite map_map in H. exact H.
Qed.
Lemma nth_combine_seq {A} (l : list A) : forall k i (a : A),
  In (i, a) (combine (seq k (length l)) l) <-> k <= i /\ nth_error l (i - k) = Some a.
Proof.
  induction l as [|b l IH]; intros k i a; cbn [length seq combine].
  - split; [intros []|intros (_ & E)]. destruct (i - k); discriminate E.
  - cbn [In]. rewrite IH. split.
    + intros [E|(L & E)].
      * injection E as -> ->. split; [lia|]. rewrite Nat.sub_diag. reflexivity.
      * split; [lia|]. replace (i - k) with (S (i - S k)) by lia. exact E.
    + intros (L & E). destruct (Nat.eq_dec i k) as [->|N].
      * left. rewrite Nat.sub_diag in E. injection E as ->. reflexivity.
      * right. split; [lia|]. replace (i - k) with (S (i - S k)) in E by lia. exact E.
Qed.
(** A declaration is reported as unused exactly if it is not a function or a struct, its name
    does not begin with an underscore, and no name that is mentioned as a variable, a function
    or a type refers to it. *)
Theorem C58_unused_exactly : forall m i,
  In i (unused (build m)) <->
  exists x, nth_error (declared (names_in_file m)) i = Some (x, true) /\ starts_underscore x = false /\
    forall y, ~ In (y, Some i) (in_exprs (names_in_file m) ++ in_types (names_in_file m)).
Proof.
  intros m i. pose proof (build_walk m) as St. pose proof (st_defs _ _ _ St) as D. cbn in D.
  pose proof (st_used _ _ _ St i) as U. cbn in U. unfold unused. rewrite in_map_iff.
  assert (X : existsb (Nat.eqb i) (ix_used (build m)) = false <->
    forall y, ~ In (y, Some i) (in_exprs (names_in_file m) ++ in_types (names_in_file m))).
  { rewrite <- Bool.not_true_iff_false, existsb_exists. split.
    - intros N y I. apply N. exists i. rewrite Nat.eqb_refl. split; [|reflexivity]. apply U. eauto.
    - intros N (j & I & E). apply Nat.eqb_eq in E as <-. apply U in I as [[]|(y & I)]. exact (N y I). }
  rewrite <- D. split.
  - intros ((j & d) & <- & I). apply filter_In in I as (I & W). cbn [fst snd] in *.
    apply nth_combine_seq in I as (_ & I). rewrite Nat.sub_0_r in I. unfold warned in W.
    apply andb_prop in W as (W & W3). apply andb_prop in W as (W1 & W2).
    exists (d_name d). split; [|split].
    + rewrite nth_error_map, I. cbn. unfold warns. now rewrite W1.
    + now apply negb_true_iff.
    + apply X. now apply negb_true_iff.
  - intros (x & E & Un & N). rewrite nth_error_map in E. destruct (nth_error (ix_defs (build m)) i) as [d|] eqn:Ed; [|discriminate E].
    cbn in E. injection E as <- W. exists (i, d). split; [reflexivity|]. apply filter_In. split.
    + apply nth_combine_seq. rewrite Nat.sub_0_r. split; [lia|exact Ed].
    + cbn [fst snd]. unfold warned, warns in *. rewrite W, Un. apply X in N. now rewrite N.
Qed.

(** Lexical scoping itself says what it should: a name refers to a declaration of that name,
    and a declaration inside a block, branch or loop is forgotten behind it. *)
Definition good (ds : list (string * bool)) (r : env) (n : nat) : Prop :=
  length ds = n /\ Forall (fun p => nth_error (map fst ds) (snd p) = Some (fst p)) r.
Lemma refers_good ds r n x d : good ds r n -> refers r x = Some d -> nth_error (map fst ds) d = Some x.
Proof.
  intros (_ & G). induction G as [|(y & e) r H _ IH]; cbn; [discriminate|].
  destruct (String.eqb_spec y x) as [->|]; [|exact IH]. intro E. injection E as <-. exact H.
Qed.
Lemma good_mono ds more r n : good ds r n -> good (ds ++ more) r (n + length more).
Proof.
  intros (L & G). split; [rewrite app_length; lia|]. eapply Forall_impl; [|exact G]. cbv beta. intros (y & e) H.
  rewrite map_app, nth_error_app1; [exact H|]. apply nth_error_Some. cbn in *. now rewrite H.
Qed.
Definition named (ds : list (string * bool)) (l : list (string * option nat)) : Prop :=
  forall x d, In (x, Some d) l -> nth_error (map fst ds) d = Some x.
Definition wgood (w : env -> nat -> walk) : Prop :=
  forall ds r n, good ds r n -> let '(f, r', n') := w r n in
  good (ds ++ declared f) r' n' /\ named (ds ++ declared f) (in_exprs f ++ in_types f ++ in_lits f).
Lemma named_mono ds more l : named ds l -> named (ds ++ more) l.
Proof.
  intros H x d I. specialize (H x d I). rewrite map_app, nth_error_app1; [exact H|]. apply nth_error_Some. now rewrite H.
Qed.
Lemma wgood_next w1 w2 : wgood w1 -> wgood w2 -> wgood (fun r n => next (w1 r n) w2).
Proof.
  intros H K ds r n G. specialize (H ds r n G). unfold next. destruct (w1 r n) as ((f & r1) & n1). destruct H as (G1 & N1).
  specialize (K _ r1 n1 G1). destruct (w2 r1 n1) as ((g & r2) & n2). destruct K as (G2 & N2). cbn. rewrite app_assoc.
  split; [exact G2|]. apply (named_mono _ (declared g)) in N1. intros x d I. rewrite !in_app_iff in I.
  destruct I as [[I|I]|[[I|I]|[I|I]]]; [apply N1|apply N2|apply N1|apply N2|apply N1|apply N2]; rewrite !in_app_iff; auto.
Qed.
Lemma wgood_nothing : wgood (fun r n => plain nothing r n).
Proof. intros ds r n G. cbn. rewrite app_nil_r. split; [exact G|intros x d []]. Qed.
Lemma wgood_look f : (forall r, exists a b c, f r = Found (look r a) (look r b) (look r c) []) -> wgood (fun r n => plain (f r) r n).
Proof.
  intros H ds r n G. destruct (H r) as (a & b & c & ->). cbn. rewrite app_nil_r. split; [exact G|].
  intros x d I. rewrite !in_app_iff in I. unfold look in I. rewrite !in_map_iff in I.
  apply (refers_good ds r n x d G). destruct I as [(y & E & _)|[(y & E & _)|(y & E & _)]]; injection E as -> E; exact E.
Qed.
Lemma wgood_all {A} (w : A -> env -> nat -> walk) l : Forall (fun a => wgood (w a)) l -> wgood (all w l).
Proof. induction 1 as [|a l H _ IH]; [exact wgood_nothing|]. exact (wgood_next (w a) (all w l) H IH). Qed.
Lemma wgood_scoped w : wgood w -> wgood (fun r n => scoped r (w r n)).
Proof.
  intros H ds r n G. specialize (H ds r n G). unfold scoped. destruct (w r n) as ((f & r1) & n1). destruct H as (G1 & N1).
  split; [|exact N1]. pose proof (good_mono ds (declared f) r n G) as M. destruct G1 as (L & _). destruct M as (_ & M).
  split; assumption.
Qed.
Lemma wgood_declares b x : wgood (declares b x).
Proof.
  intros ds r n G. cbn. pose proof (good_mono ds [(x, b)] r n G) as (L & M). split; [|intros y d []].
  split; [rewrite L; cbn; lia|]. constructor; [|exact M]. cbn. rewrite map_app, nth_error_app2; rewrite map_length; destruct G as (-> & _); [|lia].
  now rewrite Nat.sub_diag.
Qed.
Lemma wgood_e e : wgood (fun r n => plain (found_e r e) r n).
Proof. apply wgood_look. intro r. now exists (names_e e), (types_e e), (built_e e). Qed.
Lemma wgood_t t : wgood (fun r n => plain (found_t r t) r n).
Proof. apply wgood_look. intro r. exists [], (match t with Some t => names_t t | None => [] end), []. destruct t; reflexivity. Qed.
Lemma wgood_ee l e : wgood (fun r n => plain (both (found_e r l) (found_e r e)) r n).
Proof. exact (wgood_next _ _ (wgood_e l) (wgood_e e)). Qed.
Lemma wgood_ds b xs : wgood (all (declares b) xs).
Proof. apply wgood_all, Forall_forall. intros x _. apply wgood_declares. Qed.
Lemma wgood_s s : wgood (walk_s s).
Proof.
  induction s as [p t e|c|l r|o|c a b IHa IHb|e|l IH|b IH|c b IH|i c st b IHi IHst IHb| |] using stmt_ind3.
  - exact (wgood_next _ _ (wgood_next _ _ (wgood_e e) (wgood_t t)) (wgood_ds true (pnames p))).
  - exact (wgood_next _ _ (wgood_e (c_val c)) (wgood_declares true (c_name c))).
  - apply wgood_ee.
  - destruct o as [e|]; [exact (wgood_e e)|exact wgood_nothing].
  - destruct b as [b|].
    + exact (wgood_next _ _ (wgood_e c) (wgood_next _ _ (wgood_scoped _ IHa) (wgood_scoped _ (IHb b eq_refl)))).
    + exact (wgood_next _ _ (wgood_e c) (wgood_next _ _ (wgood_scoped _ IHa) wgood_nothing)).
  - exact (wgood_e e).
  - exact (wgood_scoped _ (wgood_all walk_s l IH)).
  - exact (wgood_scoped _ IH).
  - exact (wgood_next _ _ (wgood_e c) (wgood_scoped _ IH)).
  - exact (wgood_scoped _ (wgood_next _ _ IHi (wgood_next _ _ (wgood_e c) (wgood_next _ _ IHb IHst)))).
  - exact wgood_nothing.
  - exact wgood_nothing.
Qed.
Lemma wgood_item i : wgood (walk_item i).
Proof.
  destruct i as [f|s|c|u].
  - assert (Ps : wgood (all walk_param (f_params f))).
    { apply wgood_all, Forall_forall. intros p _. exact (wgood_next _ _ (wgood_t (Some (snd p))) (wgood_declares true (fst p))). }
    assert (B : wgood (all walk_s (f_body f))). { apply wgood_all, Forall_forall. intros s _. apply wgood_s. }
    exact (wgood_scoped _ (wgood_next _ _ (wgood_t (Some (f_ret f))) (wgood_next _ _ Ps B))).
  - apply wgood_all, Forall_forall. intros p _. exact (wgood_t (Some (snd p))).
  - exact (wgood_next _ _ (wgood_e (c_val c)) (wgood_declares true (c_name c))).
  - exact wgood_nothing.
Qed.
Lemma wgood_globals i : wgood (globals i).
Proof.
  destruct i as [f|s|c|u]; cbn [globals]; try apply wgood_declares; try exact wgood_nothing.
  unfold globals. destruct (u_path u); [exact wgood_nothing|]. apply wgood_ds.
Qed.
(** A name is only ever connected with a declaration of that name. *)
Theorem C58_same_name : forall m x d,
  In (x, Some d) (ix_uses (build m) ++ ix_tys (build m)) -> exists df, nth_error (ix_defs (build m)) d = Some df /\ d_name df = x.
Proof.
  intros m x d I. rewrite C58_names_are_lexical, C58_types_are_lexical in I. pose proof (C58_declarations m) as D.
  assert (G : wgood (all globals m)) by (apply wgood_all, Forall_forall; intros i _; apply wgood_globals).
  assert (V : wgood (all walk_item m)) by (apply wgood_all, Forall_forall; intros i _; apply wgood_item).
  assert (G0 : good [] [] 0) by (split; [reflexivity|constructor]).
  pose proof (wgood_next _ _ G V [] [] 0 G0) as H. unfold names_in_file, walk_file in *.
  destruct (next (all globals m [] 0) (all walk_item m)) as ((f & r) & n). destruct H as (_ & N). cbn in N.
  specialize (N x d). rewrite <- D, nth_error_map in N.
  destruct (nth_error (ix_defs (build m)) d) as [df|]; [|discriminate N; rewrite !in_app_iff in *; tauto].
  exists df. split; [reflexivity|]. cbn in N. assert (Some (d_name df) = Some x) as E; [|injection E as E; exact E].
  apply N. rewrite !in_app_iff in *. tauto.
Qed.

(** ** Examples *)
Definition num n := ELit n None.
Definition felt_t := TyName NFelt.
(** A file with a use before the declaration, shadowing in a block and in sequence, and an
    unused parameter:
<<
    fn main(unused: felt) -> felt {
        let x = 1;
        let x = x + g(2);
        { let x = 3; let y = x; g(y); }
        return x;
    }
    fn g(x: felt) -> felt { return x; }
>> *)
Definition shadowing : module :=
  [ IFn (Fdef "main" [("unused"%string, felt_t)] felt_t
      [ SLet (PId "x") None (num 1);
        SLet (PId "x") None (EBin BAdd (EId "x") (ECall (EId "g") [num 2]));
        SBlock [ SLet (PId "x") None (num 3); SLet (PId "y") None (EId "x"); SExpr (ECall (EId "g") [EId "y"]) ];
        SReturn (Some (EId "x")) ]);
    IFn (Fdef "g" [("x"%string, felt_t)] felt_t [SReturn (Some (EId "x"))]) ].
(** 0: main, 1: g, 2: unused, 3, 4: the two [x], 5: the [x] of the block, 6: y, 7: the parameter of g. *)
Example C58_shadowing :
  ix_uses (build shadowing)
  = [("x", Some 3); ("g", Some 1); ("x", Some 5); ("g", Some 1); ("y", Some 6); ("x", Some 4); ("x", Some 7)]%string
  /\ unused (build shadowing) = [2].
Proof. split; reflexivity. Qed.

(** "A declaration that is mentioned is not reported as unused" is false: the name of a struct
    literal is looked up in the innermost scope only, and is not recorded as a use.
<<
    use shapes::Point;
    fn origin() -> felt { let p = Point { x: 0 }; return p.x; }
>> *)
Definition imported_struct : module :=
  [ IUse (Use ["shapes"%string] (USingle "Point"));
    IFn (Fdef "origin" [] felt_t
      [ SLet (PId "p") None (EStruct "Point" [("x"%string, num 0)]); SReturn (Some (EMem (EId "p") "x")) ]) ].
Theorem C58_mentioned_is_used_refuted :
  exists m i x, In (x, Some i) (in_lits (names_in_file m)) /\ In i (unused (build m)).
Proof. exists imported_struct, 0, "Point"%string. split; cbn; auto. Qed.
(** So the struct a literal builds is not connected with its declaration. *)
Theorem C58_struct_literals_are_lexical_refuted :
  exists m, ix_lits (build m) <> in_lits (names_in_file m).
Proof. exists imported_struct. discriminate. Qed.
(** What holds is that the same structs are named. *)
Theorem C58_struct_literals_partial : forall m,
  map fst (ix_lits (build m)) = map fst (in_lits (names_in_file m)).
Proof. intro m. exact (st_lits _ _ _ (build_walk m)). Qed.

Print Assumptions C58_names_are_lexical.
Print Assumptions C58_types_are_lexical.
Print Assumptions C58_declarations.
Print Assumptions C58_unused_exactly.
Print Assumptions C58_same_name.
Print Assumptions C58_mentioned_is_used_refuted.
Print Assumptions C58_struct_literals_are_lexical_refuted.
Print Assumptions C58_struct_literals_partial.
