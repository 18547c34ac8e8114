(** Property C63: imports between modules. *)
From Coq Require Import Bool NArith String List Permutation.
From Verif Require Import Syn Imports ImportsSpec ImportsFacts ImportsCrate.
Import ListNotations.
Open Scope string_scope.

(** ** C63: modules import each other without cycles, and an imported name is one item

    A project is a hash map of modules: names are distinct, the order is arbitrary. *)

(** The search for cyclic imports always ends and never panics.  What it reports is a cycle;
    if it reports nothing there is none. *)
Theorem C63_cycles : forall c, NoDup (map fst c) ->
  exists r, detect_import_cycle (import_graph c) = Done r /\
    match r with
    | Some l => import_cycle c l
    | None => forall a, ~ depends c a a
    end.
Proof.
  intros c ND. pose proof (detect_ok (import_graph c)) as H.
  destruct (detect_import_cycle (import_graph c)) as [[l |] | |]; try contradiction; eexists; (split; [reflexivity|]).
  - destruct H as (a & mid & -> & W & N). exists a, mid. split; [reflexivity|]. split; [now apply walk_chain | exact N].
  - intros a D. apply (H a). now apply reach_depends.
Qed.
Print Assumptions C63_cycles.

(** The report does not depend on the order of the hash map. *)
Theorem C63_cycles_order_independent : forall c c', Permutation c c' -> NoDup (map fst c) ->
  detect_import_cycle (import_graph c) = detect_import_cycle (import_graph c').
Proof. exact detect_perm. Qed.
Print Assumptions C63_cycles_order_independent.

(** Without a cycle, modules are analysed after the modules they import, each of them once,
    in whatever order the hash map gives them. *)
Theorem C63_imports_first : forall c c', Permutation c c' -> NoDup (map fst c) ->
  detect_import_cycle (import_graph c) = Done None ->
  exists t, topological_sort (import_graph c') = Done t /\ NoDup t /\ imports_first c t
    /\ forall a, In a (map fst c) -> In a t.
Proof.
  intros c c' P ND D.
  assert (ND' : NoDup (map fst c')) by (eapply Permutation_NoDup; [apply Permutation_map, P | exact ND]).
  rewrite (detect_perm c c' P ND) in D. pose proof (detect_ok (import_graph c')) as A. rewrite D in A.
  destruct (topo_sorted (import_graph c') A) as (t & T & N & Pl & K).
  exists t. split; [exact T|]. split; [exact N|]. split.
  - intros before a after E b I. apply (Pl before a after E).
    apply (edge_imports c' _ _ ND'). destruct I as (m & u & Im & R). exists m, u. split; [| exact R].
    eapply Permutation_in; eauto.
  - intros a Ia. apply K. rewrite graph_keys. eapply Permutation_in; [apply Permutation_map, P | exact Ia].
Qed.
Print Assumptions C63_imports_first.

(** Without a cycle and without an unresolved import, every name of a module is an item of
    the project, and that item is where the type checker takes its type from: following
    imports ends. *)
Theorem C63_imports_resolve : forall c, NoDup (map fst c) ->
  detect_import_cycle (import_graph c) = Done None ->
  (forall a m, In (a, m) c -> check_imports c m = []) ->
  forall a m it x, In (a, m) c -> In it m -> In x (introduces it) -> (forall u, it = IUse u -> u_path u <> []) ->
  exists i d n b j e target, latest m x = Some (i, d)
    /\ (forall fuel, n <= fuel -> type_source fuel c a x i d = Done (Some (b, j, e)))
    /\ item_of e = Some target /\ stands_for c a x b target.
Proof.
  intros c ND D Ck. apply (resolves c ND); [| exact Ck].
  destruct (C63_cycles c ND) as (r & E & H). rewrite D in E. injection E as <-. exact H.
Qed.
Print Assumptions C63_imports_resolve.

(** With no name introduced twice in a module, a name is only one item. *)
Theorem C63_one_meaning : forall c, NoDup (map fst c) -> (forall a m, In (a, m) c -> names_once m) ->
  forall a x b d, stands_for c a x b d -> forall b' d', stands_for c a x b' d' -> b' = b /\ d' = d.
Proof. exact stands_for_det. Qed.
Print Assumptions C63_one_meaning.

(** A call that the lowering accepts calls the function the name stands for: its identifier
    is the one under which the body of that function is lowered, whatever the order in which
    modules got their identifiers. *)
Theorem C63_calls : forall c order, Permutation order c -> NoDup (map fst c) ->
  (forall a m, In (a, m) c -> names_once m) ->
  forall a m x i d k, In (a, m) c -> latest m x = Some (i, d) -> resolve_callee c order a x i d = Some k ->
  exists b f, stands_for c a x b (IFn f) /\ nth_error (lowered order) k = Some (Some (b, f)).
Proof.
  intros c order P ND N1 a m x i d k Im L. exact (callee_sound c order P ND N1 a m x i d k Im (latest_nth _ _ _ _ L)).
Qed.
Print Assumptions C63_calls.

(** And it accepts a function of the module itself, or one imported from the module that
    contains it.  Missing for the full claim: names imported through a third module. *)
Theorem C63_calls_lowered_partial : forall c order, Permutation order c -> NoDup (map fst c) ->
  (forall a m, In (a, m) c -> names_once m) ->
  forall a m i d b mb f, In (a, m) c -> latest m (f_name f) = Some (i, d) ->
  In (b, mb) c -> In (IFn f) mb -> stands_for c a (f_name f) b (IFn f) -> a = b \/ d = RUse b ->
  exists k, resolve_callee c order a (f_name f) i d = Some k.
Proof.
  intros c order P ND N1 a m i d b mb f Im L Ib If St Dir.
  exact (callee_complete c order P ND N1 a m (f_name f) i d b mb f Im (latest_nth _ _ _ _ L) Ib If eq_refl St Dir).
Qed.
Print Assumptions C63_calls_lowered_partial.

Definition fn (x : string) : fdef := Fdef x [] (TyName NFelt) [SReturn (Some (ELit 1%N None))].
Definition calls (x y : string) : fdef := Fdef x [] (TyName NFelt) [SReturn (Some (ECall (EId y) []))].
Definition from (p : list string) (x : string) : item := IUse (Use p (USingle x)).

(** Four modules; [main] imports from two, one of which imports from the other. *)
Definition tree : crate :=
  [("main", [from ["geo"] "area"; from ["geo"; "math"] "mul"; IFn (calls "main" "area")]);
   ("geo", [IUse (Use ["geo"; "math"] (UList ["mul"; "add"])); IFn (calls "area" "mul")]);
   ("geo::math", [IFn (fn "mul"); IFn (fn "add")]);
   ("alone", [IStruct (Sdef "P" [("x", TyName NFelt)])])].

Lemma tree_names : NoDup (map fst tree).
Proof. repeat constructor; cbn; intuition discriminate. Qed.
Lemma tree_once : forall a m, In (a, m) tree -> names_once m.
Proof.
  intros a m [H | [H | [H | [H | []]]]]; injection H as <- <-; unfold names_once; cbn;
    repeat constructor; cbn; intuition discriminate.
Qed.

Example tree_no_cycle : detect_import_cycle (import_graph tree) = Done None.
Proof. reflexivity. Qed.
Example tree_sorted : topological_sort (import_graph tree) = Done ["geo::math"; "geo"; "main"; "alone"].
Proof. reflexivity. Qed.
Example tree_checked : forall a m, In (a, m) tree -> check_imports tree m = [].
Proof. intros a m [H | [H | [H | [H | []]]]]; injection H as <- <-; reflexivity. Qed.
(** [mul] in [main] and in [geo] is the function of [geo::math]. *)
Example tree_mul : type_source 9 tree "main" "mul" 1 (RUse "geo::math") = Done (Some ("geo::math", 0, RFun (fn "mul")))
  /\ resolve_callee tree (rev tree) "main" "mul" 1 (RUse "geo::math") = Some 0
  /\ resolve_callee tree (rev tree) "geo" "mul" 0 (RUse "geo::math") = Some 0
  /\ nth_error (lowered (rev tree)) 0 = Some (Some ("geo::math", fn "mul")).
Proof. repeat split. Qed.

(** A cycle that does not go through the first module, with a module that is not there. *)
Definition ring : crate :=
  [("z", [from ["x"] "f"]); ("x", [from ["y"] "f"; from ["gone"] "g"]); ("a", [from ["z"] "f"]); ("y", [from ["z"] "f"])].
Example ring_found : detect_import_cycle (import_graph ring) = Done (Some ["z"; "x"; "y"; "z"]).
Proof. reflexivity. Qed.
Example self_import : detect_import_cycle (import_graph [("m", [from ["m"] "f"; IFn (fn "f")])]) = Done (Some ["m"; "m"]).
Proof. reflexivity. Qed.

(** The full claim fails: every function that can be called according to the checks can be
    lowered.  [top] imports [f] from [mid], which imports it from [low]: no cycle, no
    unresolved import, no name twice, the type checker finds [f]; the lowering does not,
    whatever the order of the modules. *)
Definition relay : crate :=
  [("low", [IFn (fn "f")]); ("mid", [from ["low"] "f"]); ("top", [from ["mid"] "f"; IFn (calls "main" "f")])].
Theorem C63_calls_lowered_refuted :
  ~ (forall c order, Permutation order c -> NoDup (map fst c) -> (forall a m, In (a, m) c -> names_once m) ->
     detect_import_cycle (import_graph c) = Done None -> (forall a m, In (a, m) c -> check_imports c m = []) ->
     forall a m x i d n b j f, In (a, m) c -> latest m x = Some (i, d) ->
     type_source n c a x i d = Done (Some (b, j, RFun f)) ->
     exists k, resolve_callee c order a x i d = Some k).
Proof.
  intros H.
  destruct (H relay relay (Permutation_refl _)) with (a := "top") (m := [from ["mid"] "f"; IFn (calls "main" "f")])
    (x := "f") (i := 0) (d := RUse "mid") (n := 9) (b := "low") (j := 0) (f := fn "f") as [k E].
  - repeat constructor; cbn; intuition discriminate.
  - intros a m [E | [E | [E | []]]]; injection E as <- <-; unfold names_once; cbn; repeat constructor; cbn; intuition discriminate.
  - reflexivity.
  - intros a m [E | [E | [E | []]]]; injection E as <- <-; reflexivity.
  - cbn. tauto.
  - reflexivity.
  - reflexivity.
  - discriminate E.
Qed.
Print Assumptions C63_calls_lowered_refuted.

(** A constant of the module itself is replaced by its value.  Missing for the full claim: imported
    constants. *)
Theorem C63_constants_lowered_partial : forall m x i d k, names_once m -> In (IConst k) m -> c_name k = x ->
  latest m x = Some (i, d) -> lower_identifier d = Some k.
Proof.
  intros m x i d k N1 Ik Ex L. apply latest_in in L.
  assert (Ik' : In x (introduces (IConst k))) by (left; exact Ex).
  destruct (item_of d) as [it|] eqn:E.
  - destruct (root_item m x d it L E) as (Ii & _ & Ix). rewrite (nodup_flat _ _ N1 _ _ _ Ii Ik Ix Ik') in E. destruct d; try discriminate E. now injection E as ->.
  - destruct d; try discriminate E. apply root_use in L as (u & Iu & _ & _ & Ix). discriminate (nodup_flat _ _ N1 _ _ _ Iu Ik Ix Ik').
Qed.
Print Assumptions C63_constants_lowered_partial.
(** An imported constant passes all checks, has a type, and cannot be used: the compiler panics. *)
Definition limit : cdef := Cdef "LIMIT" None (ELit 3%N None).
Definition shares : crate :=
  [("cfg", [IConst limit]);
   ("main", [from ["cfg"] "LIMIT"; IFn (Fdef "main" [] (TyName NFelt) [SReturn (Some (EId "LIMIT"))])])].
Theorem C63_constants_lowered_refuted :
  ~ (forall c, NoDup (map fst c) -> (forall a m, In (a, m) c -> names_once m) ->
     detect_import_cycle (import_graph c) = Done None -> (forall a m, In (a, m) c -> check_imports c m = []) ->
     forall a m x i d n b j k, In (a, m) c -> latest m x = Some (i, d) ->
     type_source n c a x i d = Done (Some (b, j, RConst k)) -> lower_identifier d = Some k).
Proof.
  intros H. specialize (H shares).
  assert (X : lower_identifier (RUse "cfg") = Some limit); [|discriminate X].
  apply H with (a := "main") (m := [from ["cfg"] "LIMIT"; IFn (Fdef "main" [] (TyName NFelt) [SReturn (Some (EId "LIMIT"))])])
    (x := "LIMIT") (i := 0) (n := 9) (b := "cfg") (j := 0).
  - repeat constructor; cbn; intuition discriminate.
  - intros a m [E | [E | []]]; injection E as <- <-; unfold names_once; cbn; repeat constructor; cbn; intuition discriminate.
  - reflexivity.
  - intros a m [E | [E | []]]; injection E as <- <-; reflexivity.
  - cbn. tauto.
  - reflexivity.
  - reflexivity.
Qed.
Print Assumptions C63_constants_lowered_refuted.
(** No imported constant can be used, in any project. *)
Theorem C63_imported_constants_panic : forall c a m u x k b, NoDup (map fst c) -> (forall a m, In (a, m) c -> names_once m) ->
  In (a, m) c -> In (IUse u) m -> In x (introduces (IUse u)) -> stands_for c a x b (IConst k) ->
  forall i d, latest m x = Some (i, d) -> lower_identifier d = None.
Proof.
  intros c a m u x k b ND N1 Im Iu Ix _ i d L. apply latest_in in L. destruct d as [f|s|k'|fr]; try reflexivity.
  destruct (root_item m x (RConst k') (IConst k') L eq_refl) as (Ii & _ & Ix'). discriminate (nodup_flat _ _ (N1 _ _ Im) _ _ _ Iu Ii Ix Ix').
Qed.
Print Assumptions C63_imported_constants_panic.
(** The hypotheses of the last theorem are met. *)
Example shares_stands : stands_for shares "main" "LIMIT" "cfg" (IConst limit).
Proof.
  apply (sf_use _ "main" [from ["cfg"] "LIMIT"; IFn (Fdef "main" [] (TyName NFelt) [SReturn (Some (EId "LIMIT"))])] (Use ["cfg"] (USingle "LIMIT"))).
  - cbn. tauto.
  - left. reflexivity.
  - discriminate.
  - left. reflexivity.
  - apply (sf_item _ _ [IConst limit]); [left; reflexivity|left; reflexivity|discriminate|left; reflexivity].
Qed.
