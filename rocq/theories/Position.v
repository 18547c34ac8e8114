(** Positions in a text: what the language server sends to an editor and receives from it.

    Models crates/cairo-m-ls/src/backend.rs 475-495 (offset_to_position, and the same function
    in diagnostics/controller.rs 414-435), 508-536 (position_to_offset) and 1103-1153
    (formatting).  A text is the list of its Unicode scalar values; a Rust string is its
    UTF-8 encoding, and a byte offset between two characters is the length of the encoding of
    what is before it.  Simplification: positions are not truncated to 32 bits. *)
From Coq Require Import Bool Arith NArith List.
Import ListNotations.

Definition text := list N.
Definition LF : N := 10%N.
Definition CR : N := 13%N.

(** [char::len_utf8]. *)
Definition utf8_len (c : N) : nat :=
  if (c <? 128)%N then 1 else if (c <? 2048)%N then 2 else if (c <? 65536)%N then 3 else 4.
(** [str::len]. *)
Fixpoint bytes (t : text) : nat := match t with [] => 0 | c :: r => utf8_len c + bytes r end.

(** backend.rs 475-495: the loop over [char_indices]; [i] is the offset of the character. *)
Fixpoint to_position (i : nat) (t : text) (offset line character : nat) : nat * nat :=
  match t with
  | [] => (line, character)
  | c :: r =>
    if Nat.leb offset i then (line, character)
    else if N.eqb c LF then to_position (i + utf8_len c) r offset (S line) 0
    else to_position (i + utf8_len c) r offset line (S character)
  end.
Definition offset_to_position (t : text) (offset : nat) : nat * nat := to_position 0 t offset 0 0.

(** 508-536; [len] is [source.len()]. *)
Fixpoint to_offset (i len : nat) (t : text) (p : nat * nat) (line character : nat) : nat :=
  match t with
  | [] => len
  | c :: r =>
    if Nat.eqb line (fst p) && Nat.eqb character (snd p) then i
    else if N.eqb c LF then
      if Nat.ltb (fst p) (S line) then len else to_offset (i + utf8_len c) len r p (S line) 0
    else to_offset (i + utf8_len c) len r p line (S character)
  end.
Definition position_to_offset (t : text) (p : nat * nat) : nat := to_offset 0 (bytes t) t p 0 0.

(** [str::lines]: pieces that end with a line feed, without it and without a carriage return
    before it; there is no piece after a line feed at the end. *)
Fixpoint split_lines (t cur : text) : list text :=
  match t with
  | [] => match cur with [] => [] | _ => [cur] end
  | c :: r =>
    if N.eqb c LF then
      (match rev cur with c' :: b => if N.eqb c' CR then rev b else cur | [] => [] end) :: split_lines r []
    else split_lines r (cur ++ [c])
  end.
Definition lines (t : text) : list text := split_lines t [].

(** backend.rs 1129-1152: the edit that formatting returns: start, end and new text. *)
Definition format_edit (t new : text) : (nat * nat) * (nat * nat) * text :=
  ((0, 0), (Nat.pred (length (lines t)), bytes (last (lines t) [])), new).
