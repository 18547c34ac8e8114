(** The progress of a learner and its file: tutorials/cairomlings/src/app_state.rs.
    Simplifications: the counter is not bounded by the range of u16; a file is its bytes; the terminal and the
    exercise files are left out. *)
From Coq Require Import Ascii String List Bool Arith.
Import ListNotations.
Open Scope nat_scope.
Open Scope list_scope.

Definition bytes := list ascii.
Definition newline : ascii := "010"%char.
(** app_state.rs 574: [STATE_FILE_HEADER]. *)
Definition header : bytes := list_ascii_of_string "DON'T EDIT THIS FILE!" ++ [newline; newline].
Definition bytes_eqb (a b : bytes) : bool := if list_eq_dec ascii_dec a b then true else false.
(** exercise.rs: an exercise, as far as the file is concerned: its name and whether it is done. *)
Definition exercise := (bytes * bool)%type.
(** 52-64: [AppState]. *)
Record progress : Set := App { current : nat; exercises : list exercise; n_done : nat }.

(** 235-246: the contents [write] gives to the file. *)
Definition written (a : progress) : bytes :=
  header ++ fst (nth (current a) (exercises a) ([], false)) ++ [newline] ++
  flat_map (fun e : exercise => if snd e then newline :: fst e else []) (exercises a).

(** [split(|c| *c == b'\n')] *)
Fixpoint split_lines (s : bytes) : list bytes :=
  match s with
  | [] => [[]]
  | c :: s => if ascii_dec c newline then [] :: split_lines s
              else match split_lines s with l :: r => (c :: l) :: r | [] => [[c]] end
  end.
(** 151-156: the lines up to the first empty one. *)
Fixpoint until_empty (ls : list bytes) : list bytes :=
  match ls with [] => [] | [] :: _ => [] | l :: ls => l :: until_empty ls end.
(** 158-167: the loop over the exercises; the last one with the name becomes the current one. *)
Fixpoint mark (done : list bytes) (cur : bytes) (ind : nat) (names : list bytes) (a : progress) : progress :=
  match names with
  | [] => a
  | n :: names =>
    let d := existsb (bytes_eqb n) done in
    mark done cur (S ind) names
      (App (if bytes_eqb n cur then ind else current a) (exercises a ++ [(n, d)]) (if d then S (n_done a) else n_done a))
  end.
Definition fresh (names : list bytes) : progress := App 0 (map (fun n => (n, false)) names) 0.
(** 130-186: the state after a start; the flag is [StateFileStatus::Read]. *)
Definition load (names : list bytes) (file : bytes) : progress * bool :=
  match skipn 2 (split_lines file) with
  | cur :: _ :: done =>
    match cur with [] => (fresh names, false) | _ => (mark (until_empty done) cur 0 names (App 0 [] 0), true) end
  | _ => (fresh names, false)
  end.

(** 289-307: [set_status]; [None] is the error for a bad index, or the counter going below zero. *)
Fixpoint set_nth (i : nat) (d : bool) (l : list exercise) : list exercise :=
  match l, i with [], _ => [] | (n, _) :: l, 0 => (n, d) :: l | e :: l, S i => e :: set_nth i d l end.
Definition set_status (i : nat) (d : bool) (a : progress) : option (progress * bool) :=
  match nth_error (exercises a) i with
  | None => None
  | Some e =>
    if Bool.eqb (snd e) d then Some (a, false)
    else if d then Some (App (current a) (set_nth i d (exercises a)) (S (n_done a)), true)
    else match n_done a with 0 => None | S k => Some (App (current a) (set_nth i d (exercises a)) k, true) end
  end.
(** [position(|exercise| !exercise.done)] *)
Fixpoint first_pending (l : list exercise) : option nat :=
  match l with [] => None | (_, false) :: _ => Some 0 | _ :: l => option_map S (first_pending l) end.
(** 369-386: [next_pending_exercise_ind]. *)
Definition next_pending (a : progress) : option nat :=
  match option_map (Nat.add (S (current a))) (first_pending (skipn (S (current a)) (exercises a))) with
  | Some i => Some i
  | None => first_pending (firstn (current a) (exercises a))
  end.
(** 248-256: [rewind], [set_len(0)], [write_all]: what the file may hold when the program is stopped in between. *)
Inductive interrupted (old new : bytes) : bytes -> Prop :=
| Before : interrupted old new old
| Within k : interrupted old new (firstn k new).
