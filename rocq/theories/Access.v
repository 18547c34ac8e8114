(** Reading parts of variables, [x.f] and [x.0]: crates/compiler/semantic/src/type_resolution.rs,
    validation/type_validator.rs and crates/compiler/mir/src/lowering/expr.rs. *)
From Coq Require Import NArith String List Bool.
From Verif Require Import Syn Mir MirSem.
Import ListNotations.
Open Scope list_scope.

Section access.
(** The type of a name, [None] for the type with an error, and its number in the intermediate representation. *)
Variable name_type : string -> option ty.
Variable name_value : string -> nat.

(** type_resolution.rs 597-618 (members), 760-770 (tuple indices), 470-475 (parentheses); [None] is
    the type with an error.  Other expressions are not part of this model. *)
Fixpoint access_type (e : expr) : option ty :=
  match e with
  | EId x => name_type x
  | EMem o f => match access_type o with Some (TStruct _ fts) => find_field f fts | _ => None end
  | ETupIdx o i => match access_type o with Some (TTuple ts) => nth_error ts (N.to_nat i) | _ => None end
  | EPar o => access_type o
  | _ => None
  end.
Inductive access_report : Set := NoSuchField (f : string) | NotAStruct | TupleIndexOutOfBounds (i : N) | NotATuple.
(** type_validator.rs 689-738 [check_member_access_types]. *)
Definition check_member (t : option ty) (f : string) : list access_report :=
  match t with
  | Some (TStruct _ fts) => if existsb (fun p => String.eqb (fst p) f) fts then [] else [NoSuchField f]
  | None => []
  | Some _ => [NotAStruct]
  end.
(** type_validator.rs 986-1034 [check_tuple_index_types]. *)
Definition check_tuple_index (t : option ty) (i : N) : list access_report :=
  match t with
  | Some (TTuple ts) => if Nat.leb (length ts) (N.to_nat i) then [TupleIndexOutOfBounds i] else []
  | None => []
  | Some _ => [NotATuple]
  end.
(** type_validator.rs 65-67: every expression is checked, so also those within. *)
Fixpoint check_access (e : expr) : list access_report :=
  match e with
  | EMem o f => check_access o ++ check_member (access_type o) f
  | ETupIdx o i => check_access o ++ check_tuple_index (access_type o) i
  | EPar o => check_access o
  | _ => []
  end.
(** lowering/expr.rs 317-353 [lower_member_access], 474-512 [lower_tuple_index], for values that are not
    in memory; the instructions, the value and the next fresh number. *)
Fixpoint lower_access (n : nat) (e : expr) : option (list minstr * nat * nat) :=
  match e with
  | EId x => Some ([], name_value x, n)
  | EMem o f =>
    match lower_access n o, access_type e with
    | Some (is, v, k), Some t => Some (is ++ [IExtractField k (Op v) f t], k, S k)
    | _, _ => None
    end
  | ETupIdx o i =>
    match lower_access n o, access_type o with
    | Some (is, v, k), Some (TTuple ts) =>
      match nth_error ts (N.to_nat i) with
      | Some t => Some (is ++ [IExtractTuple k (Op v) (N.to_nat i) t], k, S k)
      | None => None
      end
    | _, _ => None
    end
  | EPar o => lower_access n o
  | _ => None
  end.
End access.
