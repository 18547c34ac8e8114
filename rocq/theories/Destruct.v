(** Tuple patterns in [let]: crates/compiler/semantic/src/validation/type_validator.rs and
    crates/compiler/mir/src/lowering/stmt.rs. *)
From Coq Require Import NArith String List Bool Arith.
From Verif Require Import Syn Mir.
Import ListNotations.
Open Scope list_scope.

Inductive mismatch : Set := WrongLength (pattern value : nat) | NoTuple.
(** type_validator.rs 1606-1614 and 1620-1632. *)
Definition check_length (ps : list pat) (ts : list ty) : list mismatch :=
  if Nat.eqb (length ts) (length ps) then [] else [WrongLength (length ps) (length ts)].
(** type_validator.rs 1617-1646: a pattern inside the pattern. *)
Definition check_nested (pt : pat * ty) : list mismatch :=
  match pt with
  | (PTuple ps, TTuple ts) => check_length ps ts
  | (PTuple _, _) => [NoTuple]
  | (PId _, _) => []
  end.
(** type_validator.rs 1555-1687 [check_let_statement_types], for a value of type [t] and
    without annotation. *)
Definition check_let (p : pat) (t : ty) : list mismatch :=
  match p, t with
  | PId _, _ => []
  | PTuple ps, TTuple ts => check_length ps ts ++ flat_map check_nested (combine ps ts)
  | PTuple _, _ => [NoTuple]
  end.

(** stmt.rs 793-818 and 846-870: the elements from position [k]; [i] is the value of the
    tuple, [n] the next fresh number; [None] is an error. *)
Definition lower_elems (lower : pat -> nat -> ty -> nat -> option (list minstr * list (string * nat) * nat))
  (i : nat) (ts : list ty) : list pat -> nat -> nat -> option (list minstr * list (string * nat) * nat) :=
  fix go ps k n :=
    match ps with
    | [] => Some ([], [], n)
    | p :: r =>
      match nth_error ts k with
      | None => None
      | Some t =>
        match lower p n t (S n) with
        | None => None
        | Some (is, bs, n1) =>
          match go r (S k) n1 with
          | None => None
          | Some (js, cs, n2) => Some (IExtractTuple n (Op i) k t :: is ++ js, bs ++ cs, n2)
          end
        end
      end
    end.
(** stmt.rs 762-874 [lower_pattern], [lower_pattern_with_type]: the instructions, the value
    each name is bound to, and the next fresh number. *)
Fixpoint lower_pat (p : pat) (i : nat) (t : ty) (n : nat) : option (list minstr * list (string * nat) * nat) :=
  match p with
  | PId x => Some ([], [(x, i)], n)
  | PTuple ps =>
    match t with
    | TTuple ts => lower_elems lower_pat i ts ps 0 n
    | _ => None
    end
  end.
