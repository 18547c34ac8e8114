(** Positions as the Language Server Protocol defines them (3.17, Position and Range): lines
    end with LF, CR or CR LF; a character offset counts UTF-16 code units; one beyond the end
    of a line is the end of the line. *)
From Coq Require Import Bool Arith NArith List.
From Verif Require Import Position.
Import ListNotations.

Definition utf16_len (c : N) : nat := if (c <? 65536)%N then 1 else 2.
Definition ends_line (c : N) : bool := N.eqb c LF || N.eqb c CR.

(** What follows the position in a line and in a text. *)
Fixpoint cut_line (character : nat) (t : text) : text :=
  match character, t with
  | 0, _ | _, [] => t
  | S _, c :: r => if ends_line c then t else cut_line (character - utf16_len c) r
  end.
Fixpoint cut (line character : nat) (t : text) : text :=
  match line with
  | 0 => cut_line character t
  | S k =>
    match t with
    | [] => []
    | c :: r =>
      if N.eqb c LF then cut k character r
      else if N.eqb c CR then
        match r with
        | c' :: r' => if N.eqb c' LF then cut k character r' else cut k character r
        | [] => cut k character r
        end
      else cut line character r
    end
  end.
Definition after (p : nat * nat) (t : text) : text := cut (fst p) (snd p) t.
Definition before (p : nat * nat) (t : text) : text := firstn (length t - length (after p t)) t.

(** The text after an edit. *)
Definition edited (e : (nat * nat) * (nat * nat) * text) (t : text) : text :=
  match e with (s, f, new) => before s t ++ new ++ after f t end.

(** Every CR is followed by LF. *)
Fixpoint no_bare_cr (t : text) : Prop :=
  match t with
  | [] => True
  | c :: r => (c = CR -> exists r', r = LF :: r') /\ no_bare_cr r
  end.
(** The part of a text after its last LF. *)
Fixpoint last_line (t cur : text) : text :=
  match t with [] => cur | c :: r => if N.eqb c LF then last_line r [] else last_line r (cur ++ [c]) end.
(** Characters that are one UTF-16 code unit. *)
Definition short (c : N) : Prop := (c < 65536)%N.

(** The position of what follows a text. *)
Fixpoint position_from (t : text) (line units : nat) : nat * nat :=
  match t with
  | [] => (line, units)
  | c :: r =>
    if N.eqb c LF then position_from r (S line) 0
    else if N.eqb c CR then
      match r with
      | c' :: r' => if N.eqb c' LF then position_from r' (S line) 0 else position_from r (S line) 0
      | [] => position_from r (S line) 0
      end
    else position_from r line (units + utf16_len c)
  end.
Definition position_of (t : text) : nat * nat := position_from t 0 0.
