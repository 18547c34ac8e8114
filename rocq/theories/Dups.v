(** The checks for names that are declared twice:
    crates/compiler/semantic/src/{semantic_errors,validation/structural_validator,validation/shared}.rs. *)
From Coq Require Import String List Bool Arith.
From Verif Require Import Syn.
Import ListNotations.
Open Scope nat_scope.

(** The loops over a hash set [seen] in shared.rs 25-36, 60-74, 91-101 and semantic_errors.rs 52-66. *)
Fixpoint dups (l seen : list string) : list string :=
  match l with
  | [] => []
  | x :: r => if existsb (String.eqb x) seen then x :: dups r seen else dups r (x :: seen)
  end.

(** What is reported: the diagnostic with the name in its message, and whose parameter or field it is. *)
Inductive report : Set :=
| DuplicateDefinition (x : string)
| DuplicateParameter (f x : string)
| DuplicateStructField (s x : string)
| DuplicatePatternIdentifier (f x : string).

(** semantic_errors.rs 37-50. *)
Definition item_names (i : item) : list string :=
  match i with
  | IFn f => [f_name f] | IStruct s => [s_name s] | IConst c => [c_name c]
  | IUse u => match u_items u with USingle x => [x] | UList xs => xs end
  end.
Definition duplicate_top_level_items (m : module) : list report := map DuplicateDefinition (dups (flat_map item_names m) []).

(** shared.rs 12-37. *)
Definition check_duplicate_parameter_names (f : fdef) : list report :=
  if length (f_params f) <? 2 then [] else map (DuplicateParameter (f_name f)) (dups (map fst (f_params f)) []).
(** shared.rs 78-104. *)
Definition check_duplicate_struct_fields (s : sdef) : list report := map (DuplicateStructField (s_name s)) (dups (map fst (s_fields s)) []).
(** shared.rs 46-57 [collect_identifiers]. *)
Fixpoint collect_identifiers (p : pat) : list string :=
  match p with PId x => [x] | PTuple ps => flat_map collect_identifiers ps end.
(** structural_validator.rs 121-156 [check_patterns_in_statements], shared.rs 40-75; a list of one
    statement for a single one. *)
Fixpoint patterns (s : stmt) : list string :=
  match s with
  | SLet p _ _ => dups (collect_identifiers p) []
  | SBlock l => flat_map patterns l
  | SIf _ a b => patterns a ++ match b with Some b => patterns b | None => [] end
  | SLoop b => patterns b
  | SWhile _ b => patterns b
  | _ => []
  end.
Definition check_patterns (i : item) : list report :=
  match i with IFn f => map (DuplicatePatternIdentifier (f_name f)) (flat_map patterns (f_body f)) | _ => [] end.

(** structural_validator.rs 79-101: the first function or struct of a name. *)
Definition find_function (m : module) (x : string) : option fdef :=
  match find (fun i => match i with IFn f => String.eqb (f_name f) x | _ => false end) m with Some (IFn f) => Some f | _ => None end.
Definition find_struct (m : module) (x : string) : option sdef :=
  match find (fun i => match i with IStruct s => String.eqb (s_name s) x | _ => false end) m with Some (IStruct s) => Some s | _ => None end.
(** structural_validator.rs 45-65: the definitions of functions and structs are those of the items. *)
Definition check_definition (m : module) (i : item) : list report :=
  match i with
  | IFn f => match find_function m (f_name f) with Some g => check_duplicate_parameter_names g | None => [] end
  | IStruct s => match find_struct m (s_name s) with Some g => check_duplicate_struct_fields g | None => [] end
  | _ => []
  end.
(** validator.rs 114-145: what is reported about names declared twice.  Sorting and dropping of equal
    diagnostics are left out. *)
Definition check (m : module) : list report :=
  duplicate_top_level_items m ++ flat_map (check_definition m) m ++ flat_map check_patterns m.
