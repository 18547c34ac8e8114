(** Property C64: after a change notification the server has the text of the editor. *)
From Coq Require Import Arith Lia String List.
From Verif Require Import Server ServerChange.
Import ListNotations.
Open Scope string_scope.
Open Scope list_scope.

(** ** C64: what a notification does

    The protocol applies the entries of a notification one after the other; with full
    contents the text of the editor is the last of them, or the old one if there is none. *)
Definition editor_text (old : string) (contents : list string) : string := last contents old.

(** The text the server has for a path. *)
Definition server_text (s : server) (p : string) : option string :=
  match get p (sources s) with Some i => nth_error (texts s) i | None => None end.

(** Every document the server has has the editor's text after a notification, and every
    other document keeps the text it had. *)
Definition follows (allowed : list string -> Prop) : Prop :=
  forall check mname s p old contents, server_text s p = Some old -> allowed contents ->
  exists s', history check mname (notified p contents) s = Some s'
    /\ server_text s' p = Some (editor_text old contents)
    /\ forall q, get q (sources s) <> get p (sources s) -> server_text s' q = server_text s q.

Lemma update_same t : forall l i, i < length l -> nth_error (update i t l) i = Some t.
Proof. induction l as [| a l IH]; intros [| i] H; cbn in *; try lia; auto. apply IH. lia. Qed.
Lemma update_other t : forall l i j, j <> i -> nth_error (update i t l) j = nth_error l j.
Proof. induction l as [| a l IH]; intros [| i] [| j] H; cbn; auto; try lia. Qed.

(** It does for notifications of at most one content.  Missing: several contents, where it
    fails (below). *)
Theorem C64_notified_partial : follows (fun contents => length contents <= 1).
Proof.
  intros check mname s p old contents T L. unfold server_text in T.
  destruct (get p (sources s)) as [i|] eqn:G; [| discriminate].
  destruct contents as [| t [| u r]]; cbn in L; [| | lia].
  - exists s. split; [reflexivity|]. split; [| reflexivity]. unfold server_text. now rewrite G.
  - assert (I : i < length (texts s)) by (apply nth_error_Some; congruence).
    cbn [notified history step]. rewrite G. apply Nat.ltb_lt in I. rewrite I. apply Nat.ltb_lt in I.
    eexists. split; [reflexivity|]. unfold server_text; cbn [sources texts editor_text last]. rewrite G. split.
    + now apply update_same.
    + intros q N. destruct (get q (sources s)) as [j|]; auto. apply update_other. congruence.
Qed.
Print Assumptions C64_notified_partial.

Definition opened : server := Server 1 ["x"; "b"] [] [("a", 0); ("b", 1)] [] [] (Tracker [] [] None) [] [] [] None.
Example opened_reached : exists s, history (fun _ _ => []) (fun _ p => p) [EOpen "a" "x"; EOpen "b" "b"; EServe; EServe] start = Some s
  /\ server_text s "a" = Some "x" /\ server_text s "b" = Some "b" /\ get "a" (sources s) <> get "b" (sources s).
Proof. eexists. split; [vm_compute; reflexivity|]. split; [reflexivity|]. split; [reflexivity | discriminate]. Qed.
Example opened_changed : exists s, history (fun _ _ => []) (fun _ p => p) (notified "a" ["y"]) opened = Some s
  /\ server_text s "a" = Some "y" /\ server_text s "b" = Some "b".
Proof. eexists. split; [vm_compute; reflexivity|]. split; reflexivity. Qed.

(** An editor that puts two contents in one notification: the server keeps the first, which
    the second has replaced. *)
Theorem C64_several_contents_refuted : ~ follows (fun _ => True).
Proof.
  intros F. destruct (F (fun _ _ => []) (fun _ p => p) opened "a" "x" ["y"; "z"] eq_refl I) as [s [E [T _]]].
  vm_compute in E. injection E as <-. vm_compute in T. discriminate.
Qed.
Print Assumptions C64_several_contents_refuted.
