(** What comments are and where they stand, independently of the formatter. *)
From Coq Require Import String Ascii List Arith.
From Verif Require Import Comments.
Import ListNotations.

(** Two slashes next to each other. *)
Definition two_slashes (l : text) : Prop := exists a b, l = a ++ slash :: slash :: b.
(** The comment of a line is what follows the first two slashes, with them. *)
Definition line_comment (l : text) (k : nat) (x : text) : Prop :=
  exists a, l = a ++ x /\ k = length a /\ (exists b, x = slash :: slash :: b) /\ ~ two_slashes (a ++ [slash]).
(** The comments of a text that consists of the lines [ls], the first of which starts at [pos]. *)
Inductive comments_of : list text -> nat -> list comment -> Prop :=
| co_none pos : comments_of [] pos []
| co_plain l ls pos cs : ~ two_slashes l -> comments_of ls (pos + length l + 1) cs -> comments_of (l :: ls) pos cs
| co_comment l ls pos cs k x : line_comment l k x -> comments_of ls (pos + length l + 1) cs ->
    comments_of (l :: ls) pos (Comment (Span (pos + k) (pos + length l)) x :: cs).

Fixpoint join (ls : list text) : text :=
  match ls with [] => [] | [l] => l | l :: r => l ++ nl :: join r end.

(** A text of blanks and comments only: lines of blanks with or without a comment behind them. *)
Definition blanks (l : text) : Prop := Forall (fun c => c = " "%char \/ c = Ascii.ascii_of_nat 9 \/ c = cr) l.
Definition nothing_but_comments (t : text) : Prop :=
  exists ls, t = join ls /\ Forall (fun l => ~ In nl l /\ (blanks l \/ exists a b, blanks a /\ l = a ++ slash :: slash :: b)) ls.
(** The places at which a node takes a comment. *)
Definition before_node (t : text) (c n : span) : Prop := s_start c < s_start n /\ nothing_but_comments (slice t (s_end c) (s_start n)).
Definition behind_node (t : text) (c n : span) : Prop := s_start n <= s_start c /\ s_end n <= s_start c /\ line_ends (slice t (s_end n) (s_start c)) <= 1.
