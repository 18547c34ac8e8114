(** The list of exercises on the screen: tutorials/cairomlings/src/list/scroll_state.rs.
    [None] is the overflow of [n_rows - 1]. *)
From Coq Require Import List Bool Arith.
Import ListNotations.
Open Scope nat_scope.

(** 1-8: [ScrollState]. *)
Record scroll : Set := Scroll { rows : nat; shown : nat; selected : option nat; offset : nat; padding : nat; max_padding : nat }.
(** 11-20: [new]. *)
Definition new_scroll (n : nat) (sel : option nat) (mp : nat) : scroll :=
  Scroll n 0 sel (match sel with Some s => s - mp | None => 0 end) 0 mp.
(** 27-42: [update_offset]. *)
Definition update_offset (s : scroll) : scroll :=
  match selected s with
  | None => s
  | Some sel =>
    let min_offset := (sel + padding s) - (shown s - 1) in
    let max_offset := sel - padding s in
    let global_max := rows s - shown s in
    Scroll (rows s) (shown s) (selected s) (Nat.min (Nat.min (Nat.max (offset s) min_offset) max_offset) global_max) (padding s) (max_padding s)
  end.
(** 49-52: [set_selected]. *)
Definition set_selected (sel : nat) (s : scroll) : scroll :=
  update_offset (Scroll (rows s) (shown s) (Some sel) (offset s) (padding s) (max_padding s)).
(** [n_rows - 1] *)
Definition last_row (s : scroll) : option nat := match rows s with 0 => None | S k => Some k end.
(** 54-58: [select_next]. *)
Definition select_next (s : scroll) : option scroll :=
  match selected s with
  | None => Some s
  | Some sel => match last_row s with None => None | Some l => Some (set_selected (Nat.min (sel + 1) l) s) end
  end.
(** 60-64: [select_previous]. *)
Definition select_previous (s : scroll) : scroll :=
  match selected s with None => s | Some sel => set_selected (sel - 1) s end.
(** 66-70: [select_first]. *)
Definition select_first (s : scroll) : scroll := if 0 <? rows s then set_selected 0 s else s.
(** 72-76: [select_last]. *)
Definition select_last (s : scroll) : scroll := if 0 <? rows s then set_selected (rows s - 1) s else s.
(** 78-87: [set_n_rows]. *)
Definition set_n_rows (n : nat) (s : scroll) : scroll :=
  match n with
  | 0 => Scroll 0 (shown s) None (offset s) (padding s) (max_padding s)
  | S k => set_selected (match selected s with Some sel => Nat.min sel k | None => 0 end)
             (Scroll n (shown s) (selected s) (offset s) (padding s) (max_padding s))
  end.
(** 90-92, 99-103: [update_scroll_padding], [set_max_n_rows_to_display]. *)
Definition set_shown (m : nat) (s : scroll) : scroll :=
  update_offset (Scroll (rows s) m (selected s) (offset s) (Nat.min (m / 4) (max_padding s)) (max_padding s)).

(** list.rs 57-105: what the user does, as far as it reaches the list; list/state.rs 287-304: a filter or a reset gives
    a number of rows; 378-403: a search selects a row that there is. *)
Inductive input : Set := Next | Previous | First | Last | Rows (n : nat) | Resize (m : nat) | Found (i : nat).
Definition react (i : input) (s : scroll) : option scroll :=
  match i with
  | Next => select_next s
  | Previous => Some (select_previous s)
  | First => Some (select_first s)
  | Last => Some (select_last s)
  | Rows n => Some (set_n_rows n s)
  | Resize m => Some (set_shown m s)
  | Found k => Some (if k <? rows s then set_selected k s else s)
  end.
Fixpoint session (is : list input) (s : scroll) : option scroll :=
  match is with [] => Some s | i :: is => match react i s with Some s => session is s | None => None end end.
(** list/state.rs 79, 95-118: the list as it is opened. *)
Definition opened (n sel m : nat) : scroll := set_shown m (new_scroll n (Some sel) 5).
