(** Properties C65 and C66: positions and edits exchanged with an editor. *)
From Coq Require Import Bool Arith NArith String Ascii List.
From Verif Require Import Lex Syn Parse Fmt Position PositionSpec PositionFacts.
Import ListNotations.
Open Scope list_scope.

(** ** C65: positions mean the same place to the editor and to the server

    A place in a text is between two characters: the text is [pre ++ post] and the byte offset
    of the place is [bytes pre]. *)

(** The two conversions are inverse to each other, for every text and place. *)
Theorem C65_round_trip : forall pre post,
  position_to_offset (pre ++ post) (offset_to_position (pre ++ post) (bytes pre)) = bytes pre.
Proof.
  intros pre post. unfold offset_to_position, position_to_offset.
  rewrite (to_position_walk pre post 0 0 0 : to_position 0 (pre ++ post) (bytes pre) 0 0 = _). apply (to_offset_walk pre post 0 0 0).
Qed.
Print Assumptions C65_round_trip.

(** The position that is sent for a place is the one the protocol defines, and the editor finds
    the same place there; if every carriage return before it is followed by a line feed, and its line
    up to it has no character beyond the basic plane.  Missing: other texts, see below. *)
Theorem C65_sent_partial : forall pre post, no_bare_cr pre -> Forall short (last_line pre []) ->
  offset_to_position (pre ++ post) (bytes pre) = position_of pre
  /\ after (offset_to_position (pre ++ post) (bytes pre)) (pre ++ post) = post.
Proof.
  intros pre post H S. unfold offset_to_position. rewrite (to_position_walk pre post 0 0 0 : to_position 0 (pre ++ post) (bytes pre) 0 0 = _), (walk_position pre H S).
  split; [reflexivity | now apply after_position].
Qed.
Print Assumptions C65_sent_partial.

(** A received position is the place the editor means, under the same conditions. *)
Theorem C65_received_partial : forall pre post, no_bare_cr pre -> Forall short (last_line pre []) ->
  position_to_offset (pre ++ post) (position_of pre) = bytes pre.
Proof.
  intros pre post H S. rewrite <- (proj1 (C65_sent_partial pre post H S)). apply C65_round_trip.
Qed.
Print Assumptions C65_received_partial.

Fixpoint codes (s : string) : text := match s with EmptyString => [] | String c r => N_of_ascii c :: codes r end.
Definition smile : N := 128512%N.
(** Two lines, the first with a character beyond the basic plane, both ended by CR LF. *)
Definition sample : text := codes "let a = 1; // " ++ [smile; CR; LF] ++ codes "let " ++ [233%N; CR; LF].
Example sample_ok : no_bare_cr (firstn 21 sample) /\ Forall short (last_line (firstn 21 sample) [])
  /\ offset_to_position sample (bytes (firstn 21 sample)) = (1, 4) /\ bytes (firstn 21 sample) = 24.
Proof.
  split; [|split; [|split; reflexivity]].
  - cbn. repeat split; try discriminate. intros _. eexists. reflexivity.
  - apply short_all. reflexivity.
Qed.

(** Without the conditions the claim fails.  Behind a character beyond the basic plane the server is one
    off; the editor underlines, or asks about, another place. *)
Theorem C65_wide_refuted : ~ (forall pre post, no_bare_cr pre ->
  after (offset_to_position (pre ++ post) (bytes pre)) (pre ++ post) = post).
Proof.
  intros H. specialize (H (codes "//" ++ [smile; smile]) (codes "x") ltac:(cbn; repeat split; discriminate)).
  vm_compute in H. discriminate H.
Qed.
Print Assumptions C65_wide_refuted.
(** A carriage return alone ends a line for the editor, not for the server. *)
Theorem C65_bare_cr_refuted : ~ (forall pre post, Forall short pre ->
  after (offset_to_position (pre ++ post) (bytes pre)) (pre ++ post) = post).
Proof.
  intros H. specialize (H (codes "a" ++ [CR] ++ codes "b") (codes "c") ltac:(apply short_all; reflexivity)).
  vm_compute in H. discriminate H.
Qed.
Print Assumptions C65_bare_cr_refuted.
(** A position behind the end of a line is the end of that line; the server takes the end of
    the text. *)
Theorem C65_beyond_refuted : ~ (forall t p, no_bare_cr t -> Forall short t ->
  position_to_offset t p = bytes (before p t)).
Proof.
  intros H. specialize (H (codes "a" ++ [LF] ++ codes "bc") (0, 5) ltac:(cbn; repeat split; discriminate) ltac:(apply short_all; reflexivity)).
  vm_compute in H. discriminate H.
Qed.
Print Assumptions C65_beyond_refuted.

(** ** C66: formatting in the editor gives the formatted text

    [new] is what the formatter returns for the document [t]. *)

(** The edit replaces the whole document, if the document does not end with a line feed. *)
Theorem C66_formatted_partial : forall t new, no_bare_cr t -> (forall t0, t <> t0 ++ [LF]) ->
  edited (format_edit t new) t = new.
Proof. exact format_open. Qed.
Print Assumptions C66_formatted_partial.

Example open_document : edited (format_edit sample (codes "x")) sample <> codes "x"
  /\ edited (format_edit (firstn 22 sample) (codes "x")) (firstn 22 sample) = codes "x".
Proof. split; [vm_compute; discriminate | reflexivity]. Qed.

(** A document that ends with a line end keeps it, behind the formatted text: the claim fails for every
    such document. *)
Theorem C66_line_end_kept : forall t new nl, no_bare_cr t -> nl = [LF] \/ nl = [CR; LF] ->
  edited (format_edit (t ++ nl) new) (t ++ nl) = new ++ nl.
Proof. exact format_closed. Qed.
Print Assumptions C66_line_end_kept.
Theorem C66_formatted_refuted : ~ (forall t new, no_bare_cr t -> edited (format_edit t new) t = new).
Proof.
  intros H. specialize (H (codes "x" ++ [LF]) (codes "x" ++ [LF]) ltac:(cbn; repeat split; discriminate)).
  vm_compute in H. discriminate H.
Qed.
Print Assumptions C66_formatted_refuted.
(** However often one formats a document that ends with a line end, it has one line end more than the
    formatter returns. *)
Fixpoint again (n : nat) (formatter : text -> text) (t : text) : text :=
  match n with O => t | S n => let u := again n formatter t in edited (format_edit u (formatter u)) u end.
Theorem C66_settles_refuted : forall formatter t, no_bare_cr t ->
  formatter (t ++ [LF]) = t ++ [LF] -> formatter (t ++ [LF; LF]) = t ++ [LF] ->
  forall n, again (S n) formatter (t ++ [LF]) = t ++ [LF; LF].
Proof.
  intros formatter t H F1 F2. assert (E : (t ++ [LF]) ++ [LF] = t ++ [LF; LF]) by (rewrite <- app_assoc; reflexivity).
  induction n as [| n IH].
  - cbn [again]. rewrite F1, format_closed; auto.
  - cbn [again] in *. rewrite IH, F2, <- E. rewrite format_closed; auto. now apply no_bare_lf.
Qed.
Print Assumptions C66_settles_refuted.

(** Such a document, with the formatter of C56: it is formatted, with or without an empty line. *)
Example formatted_document :
  let s := ("fn f() {" ++ String newline ("    return;" ++ String newline "}"))%string in
  let formatted u := option_map (format_module 100 4 (Cm [] (fun _ => Icm [] [] (fun _ => ([], []))))) (parse_file u) in
  no_bare_cr (codes s)
  /\ formatted (s ++ String newline "")%string = Some (s ++ String newline "")%string
  /\ formatted (s ++ String newline (String newline ""))%string = Some (s ++ String newline "")%string.
Proof. split; [cbn; repeat split; discriminate | split; vm_compute; reflexivity]. Qed.
