(** What a user expects of the layout of a project. *)
From Coq Require Import Ascii String List.
From Verif Require Import Project Imports.
Import ListNotations.
Open Scope string_scope.

(** The file for the module that is imported as [use m1::...::mk::name], in a project in
    [folder]. *)
Fixpoint file_of (m : list string) : path :=
  match m with
  | [] => []
  | [x] => [x ++ ".cm"]
  | d :: r => d :: file_of r
  end.
Definition module_file (folder : path) (m : list string) : path := (folder ++ ["src"] ++ file_of m)%list.

(** A name as it can be written in an import: no colon and no slash, not empty, no dot. *)
Fixpoint has_char (c : ascii) (s : string) : Prop :=
  match s with EmptyString => False | String d r => d = c \/ has_char c r end.
Definition plain (s : string) : Prop := s <> "" /\ ~ has_char ":"%char s /\ ~ has_char "."%char s.
