(** Property C67: files and modules of a project. *)
From Coq Require Import Bool Ascii String List.
From Verif Require Import Imports ImportsFacts Project ProjectSpec ProjectFacts.
Import ListNotations.
Open Scope string_scope.

(** ** C67: the module [a::b] is the file [src/a/b.cm]

    [walk] are the files below the source directory of a project in [folder], [read] gives
    their texts. *)

(** For a project whose entry point is directly in [src], with or without [src/] in the
    manifest, and with no colon in the name of a file or directory: every module that an import
    can name is the file it should be, with the text of that file, and there is no module
    without a file.  Missing for the full claim: see the refutations below. *)
Theorem C67_modules_partial : forall folder e entry walk read,
  entry = [e ++ ".cm"] \/ entry = ["src"; e ++ ".cm"] -> e <> "" ->
  (forall p, In p walk -> exists rel, p = (folder ++ ["src"] ++ rel)%list /\ rel <> [] /\ Forall (fun s => ~ has_char ":"%char s) rel) ->
  In (entry_point folder entry) walk -> (forall p, In p walk -> read p <> None) ->
  exists mods, crate_from_project (entry_point folder entry) read walk = Some (mods, e)
    /\ forall m, m <> [] -> Forall plain m ->
       (In (module_file folder m) walk -> get (joined m) mods = read (module_file folder m))
       /\ (~ In (module_file folder m) walk -> get (joined m) mods = None).
Proof.
  intros folder e entry walk read En Ne B I R. rewrite (root_entry folder e entry En) in *.
  apply modules_found; auto. intros p Ip. destruct (B p Ip) as (rel & -> & H). exists rel. split; [now rewrite app_assoc | exact H].
Qed.
Print Assumptions C67_modules_partial.

(** Distinct files of such a project are distinct modules. *)
Theorem C67_names_differ_partial : forall folder e walk p q, e <> "" ->
  (forall p, In p walk -> exists rel, p = (folder ++ ["src"] ++ rel)%list /\ rel <> [] /\ Forall (fun s => ~ has_char ":"%char s) rel) ->
  In (entry_point folder [e ++ ".cm"]) walk ->
  In p (source_files (entry_point folder [e ++ ".cm"]) walk) -> In q (source_files (entry_point folder [e ++ ".cm"]) walk) ->
  module_name (entry_point folder [e ++ ".cm"]) p = module_name (entry_point folder [e ++ ".cm"]) q -> p = q.
Proof.
  intros folder e walk p q Ne B I. rewrite (root_entry folder e _ (or_introl eq_refl)) in *.
  assert (B' : forall p, In p walk -> exists rel, p = ((folder ++ ["src"]) ++ rel)%list /\ rel <> [] /\ Forall (fun s => ~ has_char ":"%char s) rel).
  { intros x Ix. destruct (B x Ix) as (rel & -> & H). exists rel. split; [now rewrite app_assoc | exact H]. }
  destruct (source_list folder e walk I Ne) as [E _]. rewrite E. intros Ip Iq. unfold module_name.
  destruct (source_file folder e walk B' p Ip) as (d & x & _ & _ & _ & Np). destruct (source_file folder e walk B' q Iq) as (d' & x' & _ & _ & _ & Nq).
  intros H. apply (source_once folder e walk B'); auto. rewrite Np, Nq in *. exact H.
Qed.
Print Assumptions C67_names_differ_partial.

(** A project with nested modules and a file that is no module. *)
Definition files : list path :=
  [["home"; "p"; "src"; "main.cm"]; ["home"; "p"; "src"; "geo.cm"]; ["home"; "p"; "src"; "geo"; "math.cm"];
   ["home"; "p"; "src"; "geo"; "notes.txt"]; ["home"; "p"; "src"; "geo"; "math.old.cm"]].
Definition contents (p : path) : option string := Some (String.concat "/" p).
Example files_below : forall p, In p files -> exists rel, p = (["home"; "p"] ++ ["src"] ++ rel)%list /\ rel <> []
  /\ Forall (fun s => ~ has_char ":"%char s) rel.
Proof.
  intros p I. cbn in I. repeat (destruct I as [<- | I]; [eexists; split; [reflexivity | split; [discriminate |]];
    repeat constructor; cbn; intuition discriminate |]). destruct I.
Qed.
Example files_loaded : crate_from_project (entry_point ["home"; "p"] ["main.cm"]) contents files =
  Some ([("geo::math.old", "home/p/src/geo/math.old.cm"); ("geo::math", "home/p/src/geo/math.cm"); ("geo", "home/p/src/geo.cm");
         ("main", "home/p/src/main.cm")], "main").
Proof. reflexivity. Qed.
Example nearest_manifest : find_project_manifest (fun d => match d with ["home"; "p"] | ["home"] => true | _ => false end)
  ["home"; "p"; "src"; "geo"] = Some ["home"; "p"].
Proof. reflexivity. Qed.

(** The full claim fails.  With the entry point in a directory below [src], the project
    consists of the entry point alone. *)
Theorem C67_nested_entry_refuted : ~ (forall folder entry walk read,
  (forall p, In p walk -> exists rel, p = (folder ++ ["src"] ++ rel)%list /\ rel <> [] /\ Forall plain (removelast rel)) ->
  In (entry_point folder entry) walk -> (forall p, In p walk -> read p <> None) ->
  exists mods main, crate_from_project (entry_point folder entry) read walk = Some (mods, main)
    /\ forall m, m <> [] -> Forall plain m -> In (module_file folder m) walk -> get (joined m) mods = read (module_file folder m)).
Proof.
  intros H. destruct (H ["home"] ["app"; "main.cm"] [["home"; "src"; "app"; "main.cm"]; ["home"; "src"; "lib.cm"]] contents)
    as (mods & main & E & G).
  - intros p [<- | [<- | []]]; eexists; (split; [reflexivity | split; [discriminate |]]); cbn; repeat constructor; cbn;
      try discriminate; intuition discriminate.
  - now left.
  - discriminate.
  - vm_compute in E. injection E as <- <-. specialize (G ["lib"] ltac:(discriminate)).
    assert (P : Forall plain ["lib"]) by (repeat constructor; cbn; try discriminate; intuition discriminate).
    specialize (G P (or_intror (or_introl eq_refl))). vm_compute in G. discriminate G.
Qed.
Print Assumptions C67_nested_entry_refuted.
(** A name with colons hides a module of a subdirectory. *)
Theorem C67_colon_refuted : ~ (forall folder e walk p q, e <> "" ->
  In p (source_files (entry_point folder [e ++ ".cm"]) walk) -> In q (source_files (entry_point folder [e ++ ".cm"]) walk) ->
  module_name (entry_point folder [e ++ ".cm"]) p = module_name (entry_point folder [e ++ ".cm"]) q -> p = q).
Proof.
  intros H. specialize (H ["p"] "main" [["p"; "src"; "a"; "b.cm"]; ["p"; "src"; "a::b.cm"]] ["p"; "src"; "a"; "b.cm"] ["p"; "src"; "a::b.cm"]
    ltac:(discriminate) (or_introl eq_refl) (or_intror (or_introl eq_refl)) eq_refl). discriminate H.
Qed.
Print Assumptions C67_colon_refuted.
