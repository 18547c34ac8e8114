(** Constant arrays, which are read-only data and are passed by pointer:
    crates/compiler/semantic/src/validation/type_validator.rs. *)
From Coq Require Import String List.
From Verif Require Import Syn Compat.
Import ListNotations.

(** What a name resolves to: whether the definition is a [const], and its type. *)
Record definition : Set := Definition_of { is_const : bool; def_type : stype }.
(** [resolve_name_at_position] and [resolve_name_with_imports_at_position] at the expression, which are given. *)
Record resolution : Set := Resolution { local : string -> option definition; with_imports : string -> option definition }.
Definition const_array_def (d : option definition) : bool :=
  match d with Some (Definition_of true (FixedArray _ _)) => true | _ => false end.
(** type_validator.rs 105-158 [expr_resolves_to_const_array] (the span of the definition is left out). *)
Fixpoint const_array (r : resolution) (e : expr) : option string :=
  match e with
  | EId x => if const_array_def (local r x) then Some x else if const_array_def (with_imports r x) then Some x else None
  | EPar e => const_array r e
  | _ => None
  end.

(** The places in which an expression is used, with the type that is expected there. *)
Inductive use_place : Set :=
| Argument (parameter : stype) | StructField (field : stype) | Returned (result : stype) | TupleElement | LetValue.
(** The [ConstArrayByPointer] reports for an expression: type_validator.rs 632-656 (arguments), 1135-1160 (struct
    fields), 2055-2080 (returned expressions) and 369-391 (elements of tuples); the check of a let
    statement has no such rule. *)
Definition check_use (r : resolution) (p : use_place) (e : expr) : list string :=
  let report := match const_array r e with Some x => [x] | None => [] end in
  match p with
  | Argument (FixedArray _ _) => report
  | StructField (FixedArray _ _) => report
  | Returned (FixedArray _ _) => report
  | TupleElement => report
  | _ => []
  end.
