(** Names that are not declared: crates/compiler/semantic/src/validation/scope_check.rs. *)
From Coq Require Import String List Bool.
Import ListNotations.

(** A use of a name: whether the builder of the index found its definition, and whether the two lookups
    ([resolve_name_at_position], [resolve_name_with_imports_at_position], the subject of C58 and C63) find one. *)
Record usage : Set := Usage { u_name : string; u_place : nat; u_resolved : bool; u_local : bool; u_imported : bool }.
(** builtins.rs 8-14 [is_builtin_function_name]. *)
Definition builtin (x : string) : bool := String.eqb x "assert".
(** scope_check.rs 148-189: the loop over the uses of values, with the set [seen] of the names reported so far. *)
Fixpoint undeclared_names (seen : list string) (us : list usage) : list (string * nat) :=
  match us with
  | [] => []
  | u :: us =>
    if u_resolved u then undeclared_names seen us else
    if (if u_local u then true else u_imported u) then undeclared_names seen us else
    if builtin (u_name u) then undeclared_names seen us else
    if existsb (String.eqb (u_name u)) seen then undeclared_names seen us
    else (u_name u, u_place u) :: undeclared_names (u_name u :: seen) us
  end.
(** scope_check.rs 191-213: the loop over the uses of types. *)
Definition undeclared_types (us : list usage) : list (string * nat) :=
  flat_map (fun u => if u_resolved u then [] else if u_imported u then [] else [(u_name u, u_place u)]) us.
(** scope_check.rs 140-214 [check_undeclared_variables_global]. *)
Definition check_undeclared (values types : list usage) : list (string * nat) := undeclared_names [] values ++ undeclared_types types.
