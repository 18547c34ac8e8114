(** From reports to the verdict of the compiler: crates/compiler/src/lib.rs, semantic/src/db.rs,
    semantic/src/validation/validator.rs and diagnostics/src/diagnostics.rs. *)
From Coq Require Import Arith String List Bool.
Import ListNotations.

(** diagnostics.rs 13-24, 45-50 ([Hint] and [Info] are one here; the related places are left out). *)
Inductive severity : Set := SevError | SevWarning | SevInfo.
Record diagnostic : Set := Diagnostic {
  d_severity : severity; d_code : nat; d_message : string; d_file : string; d_start : nat; d_end : nat }.
Definition severity_eqb (a b : severity) : bool :=
  match a, b with SevError, SevError | SevWarning, SevWarning | SevInfo, SevInfo => true | _, _ => false end.
(** The derived [PartialEq]. *)
Definition diagnostic_eqb (a b : diagnostic) : bool :=
  severity_eqb (d_severity a) (d_severity b) && Nat.eqb (d_code a) (d_code b) && String.eqb (d_message a) (d_message b) &&
  String.eqb (d_file a) (d_file b) && Nat.eqb (d_start a) (d_start b) && Nat.eqb (d_end a) (d_end b).
Definition is_error (d : diagnostic) : bool := severity_eqb (d_severity d) SevError.

(** validator.rs 131-137: the comparison by start, end and message. *)
Definition diag_leb (a b : diagnostic) : bool :=
  match Nat.compare (d_start a) (d_start b) with
  | Lt => true
  | Gt => false
  | Eq => match Nat.compare (d_end a) (d_end b) with
          | Lt => true
          | Gt => false
          | Eq => String.leb (d_message a) (d_message b)
          end
  end.
(** [sort_by], a stable sort. *)
Fixpoint insert_diag (d : diagnostic) (l : list diagnostic) : list diagnostic :=
  match l with
  | [] => [d]
  | x :: r => if diag_leb d x then d :: l else x :: insert_diag d r
  end.
Definition sort_diags (l : list diagnostic) : list diagnostic := fold_right insert_diag [] l.
(** [Vec::dedup]: of neighbours that are equal the first is kept. *)
Fixpoint dedup_from (d : diagnostic) (l : list diagnostic) : list diagnostic :=
  match l with
  | [] => []
  | x :: r => if diagnostic_eqb d x then dedup_from d r else x :: dedup_from x r
  end.
Definition dedup (l : list diagnostic) : list diagnostic :=
  match l with [] => [] | x :: r => x :: dedup_from x r end.

(** A module: the reports of the index builder and of each validator. *)
Record checked_module : Set := Checked { m_parse : list diagnostic; m_index : list diagnostic; m_validators : list (list diagnostic) }.
(** validator.rs 108-141 [validate_all]. *)
Definition validate_all (m : checked_module) : list diagnostic := dedup (sort_diags (m_index m ++ concat (m_validators m))).
(** db.rs 64-99 [project_validate_semantics], for modules in the order of their names; [failed] are the reports with which
    the index of the project cannot be built ([None] if it can). *)
Definition validate_project (failed : option (list diagnostic)) (ms : list checked_module) : list diagnostic :=
  match flat_map m_parse ms with
  | [] => match failed with Some ds => ds | None => flat_map validate_all ms end
  | ds => ds
  end.

Inductive verdict (P E : Type) : Type :=
| Compiled (p : P) (warnings : list diagnostic) | ParseErrors (ds : list diagnostic)
| SemanticErrors (ds : list diagnostic) | CodeGenerationFailed (e : E).
Arguments Compiled {P E}.
Arguments ParseErrors {P E}.
Arguments SemanticErrors {P E}.
Arguments CodeGenerationFailed {P E}.
(** src/lib.rs 113-135 and 155-177: the part both entry points share. *)
Definition after_validation {P E : Type} (generated : P + E) (ds : list diagnostic) : verdict P E :=
  match filter is_error ds with
  | [] => match generated with
          | inl p => Compiled p (filter (fun d => negb (is_error d)) ds)
          | inr e => CodeGenerationFailed e
          end
  | errors => SemanticErrors errors
  end.
(** src/lib.rs 90-135 [compile_from_file]. *)
Definition compile_file {P E : Type} (generated : P + E) (failed : option (list diagnostic)) (m : checked_module) : verdict P E :=
  match m_parse m with
  | [] => after_validation generated (validate_project failed [m])
  | ds => ParseErrors ds
  end.
(** src/lib.rs 141-177 [compile_project]; [unread] are the errors of files that cannot be read (db.rs 133-190). *)
Definition compile_project {P E : Type} (unread : list diagnostic) (generated : P + E) (failed : option (list diagnostic))
  (ms : list checked_module) : verdict P E :=
  match unread with
  | [] => after_validation generated (validate_project failed ms)
  | ds => ParseErrors (filter is_error ds)
  end.
