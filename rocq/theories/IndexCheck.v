(** The check of [a[i]]: crates/compiler/semantic/src/validation/type_validator.rs. *)
From Coq Require Import NArith List.
From Verif Require Import Syn Compat.
Import ListNotations.

Inductive index_report : Set := InvalidIndexType | IndexOutOfBounds (i size : N) | TupleIndexed | NotIndexable.
Definition felt_index (t : stype) : list index_report := match t with Felt => [] | _ => [InvalidIndexType] end.
(** type_validator.rs 741-848 [check_index_access_types]: [t] is the type of the indexed
    expression, [it] that of the index [i].  Literals are below 2^64, so [as usize] keeps them. *)
Definition check_index (t it : stype) (i : expr) : list index_report :=
  match t with
  | FixedArray _ size =>
    felt_index it ++
    match i with
    | ELit v _ => if N.leb size v then [IndexOutOfBounds v size] else []
    | _ => []
    end
  | Pointer _ => felt_index it
  | Tuple _ => [TupleIndexed]
  | Error => []
  | _ => [NotIndexable]
  end.
