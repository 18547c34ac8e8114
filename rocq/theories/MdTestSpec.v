(** What the tests of a Markdown document are. *)
From Coq Require Import String List Bool Arith.
From Verif Require Import MdTest.
Import ListNotations.
Local Open Scope string_scope.

(** A document is headings, code blocks and other text. *)
Inductive part : Type :=
  | Heading (level : nat) (title : string)
  | Cairo (code : string) | Rust (code : string) | Toml (code : string)
  | OtherBlock (lang code : string) | Paragraph (texts : list string).
(** Its events. *)
Definition block_events (lang code : string) : list event := [Fence lang; Txt code; BlockEnd].
Definition part_events (p : part) : list event :=
  match p with
  | Heading l t => [Head l; Txt t; HeadEnd]
  | Cairo c => block_events "cairo-m" c
  | Rust c => block_events "rust" c
  | Toml c => block_events "toml" c
  | OtherBlock l c => block_events l c
  | Paragraph ts => [Other] ++ map Txt ts ++ [Other]
  end.
Definition events (d : list part) : list event := flat_map part_events d.
(** Other blocks are in other languages. *)
Definition named (d : list part) : Prop :=
  Forall (fun p => match p with OtherBlock l _ => l <> "cairo-m" /\ l <> "rust" /\ l <> "toml" | _ => True end) d.

(** The section a test is in: the titles of the headings above it, outermost first. *)
Definition section : Type := string * string * string.
Definition under (l : nat) (t : string) (h : section) : section :=
  let '(a, b, c) := h in
  match l with 1 => (t, "", "") | 2 => (a, t, "") | 3 => (a, b, t) | _ => h end.
Definition title (h : section) : string :=
  let '(a, b, c) := h in
  if a =? "" then "Orphaned Test (no heading)"
  else if b =? "" then a else a ++ " - " ++ b ++ (if c =? "" then "" else " - " ++ c).
(** The Rust code of a test is what follows it, before the next test or heading. *)
Fixpoint rust_after (d : list part) : option string :=
  match d with
  | [] => None
  | Heading _ _ :: _ | Cairo _ :: _ => None
  | Rust c :: r => match rust_after r with Some x => Some x | None => Some c end
  | _ :: r => rust_after r
  end.

Section Spec.
  Variables (C M : Type) (parse : string -> string * M) (toml : string -> option C).
  (** The tests: section, code, Rust code, and the last configuration before the test. *)
  Record raw : Type := Raw { r_title : string; r_code : string; r_rust : option string; r_config : option C }.
  Fixpoint expected (h : section) (g : option C) (d : list part) : list raw :=
    match d with
    | [] => []
    | Heading l t :: r => expected (under l t h) g r
    | Cairo c :: r => Raw (title h) c (rust_after r) g :: expected h g r
    | Toml c :: r => expected h (toml c) r
    | _ :: r => expected h g r
    end.
  (** Tests of the same section are numbered from the second on. *)
  Definition number (before : list raw) (t : raw) : string :=
    let n := S (length (filter (fun x => r_title x =? r_title t) before)) in
    if Nat.eqb n 1 then r_title t else r_title t ++ " " ++ decimal n.
  Fixpoint numbered (before l : list raw) : list (test C M) :=
    match l with
    | [] => []
    | t :: r => Test C M (number before t) (fst (parse (r_code t))) (r_rust t) (snd (parse (r_code t))) (r_config t) :: numbered (before ++ [t]) r
    end.
  Definition configs_ok (d : list part) : Prop := Forall (fun p => match p with Toml c => toml c <> None | _ => True end) d.
  Definition tests_of (d : list part) : list (test C M) := numbered [] (expected ("", "", "") None d).
End Spec.

(** Rust code comes behind a test of its section, and configurations come before the tests. *)
Fixpoint in_order (test : bool) (d : list part) : bool :=
  match d with
  | [] => true
  | Heading _ _ :: r => in_order false r
  | Cairo _ :: r => in_order true r
  | Rust _ :: r => test && in_order test r
  | Toml _ :: r => negb test && in_order test r
  | _ :: r => in_order test r
  end.
