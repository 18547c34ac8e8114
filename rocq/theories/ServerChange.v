(** The contents of one change notification in the language server. *)
From Coq Require Import String List.
From Verif Require Import Server.
Import ListNotations.

(** /repo/crates/cairo-m-ls/src/backend.rs 700-735, [did_change]: the server announces full
    contents (628), so each entry of a notification is a whole text; it takes the first
    ([into_iter().next()]).  What it then does with the text is [EChange] of [Server]. *)
Definition notified (p : string) (contents : list string) : list event :=
  match contents with
  | [] => []
  | t :: _ => [EChange p t]
  end.
