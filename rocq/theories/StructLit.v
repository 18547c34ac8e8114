(** The check of the fields of a struct literal:
    crates/compiler/semantic/src/validation/type_validator.rs. *)
From Coq Require Import String List Bool.
Import ListNotations.

Inductive complaint : Set := MissingField (x : string) | UnknownField (x : string).
Definition mentions (x : string) (l : list string) : bool := existsb (String.eqb x) l.
(** type_validator.rs 1073-1181 [check_struct_literal_types]: [fields] are the names of the struct's
    fields, [given] those of the literal.  The types of the values are left out. *)
Definition check_fields (fields given : list string) : list complaint :=
  map MissingField (filter (fun x => negb (mentions x given)) fields) ++
  map UnknownField (filter (fun x => negb (mentions x fields)) given).
