(** The type checks of statements: crates/compiler/semantic/src/validation/type_validator.rs. *)
From Coq Require Import NArith String List Bool.
From Verif Require Import Syn Compat.
Import ListNotations.

(** The types of expressions, when the given type is expected, and what type expressions resolve to.
    Simplification: both are known by the text and not by the place in it. *)
Record types : Type := Types { typed : option stype -> expr -> stype; resolved : ty -> stype }.
Inductive stmt_report : Set :=
| NestedArrayType | LetMismatch (x : string) | ConstMismatch (x : string) | ConditionNotBool
| MissingReturnValue | ReturnMismatch.

(** type_validator.rs 194-222 [check_for_nested_arrays]. *)
Fixpoint nested_arrays (t : ty) : list stmt_report :=
  match t with
  | TyArr (TyArr _ _) _ => [NestedArrayType]
  | TyTuple ts => flat_map nested_arrays ts
  | _ => []
  end.
Definition condition (g : types) (c : expr) : list stmt_report :=
  if compatible (typed g (Some Bool) c) Bool then [] else [ConditionNotBool].
(** type_validator.rs 1417-1454: constants within functions. *)
Definition check_const (g : types) (c : cdef) : list stmt_report :=
  match c_ty c with
  | Some t => if compatible (typed g (Some (resolved g t)) (c_val c)) (resolved g t) then [] else [ConstMismatch (c_name c)]
  | None => []
  end.
(** type_validator.rs 1347-1552 [check_statement_type] with 1555-1599 (let), 1974-2053 (return) and
    2086-2124 (if), in a function with the result type [ret].  Left out here: tuple patterns (Destruct), assignments
    (Compat, AssignPath), the rule for constant arrays (ConstArray) and the checks of expressions, which are made
    for all expressions of the file.  A result type [Unknown] (a panic) does not occur. *)
Fixpoint check_stmt (g : types) (ret : stype) (s : stmt) : list stmt_report :=
  match s with
  | SLet p t e =>
    match t with
    | None => []
    | Some t =>
      nested_arrays t ++
      match p with
      | PId x => if compatible (typed g None e) (resolved g t) then [] else [LetMismatch x]
      | PTuple _ => []
      end
    end
  | SConst c => check_const g c
  | SReturn None => match ret with Tuple [] => [] | _ => [MissingReturnValue] end
  | SReturn (Some e) => if compatible (typed g None e) ret then [] else [ReturnMismatch]
  | SIf c a b => condition g c ++ check_stmt g ret a ++ match b with Some b => check_stmt g ret b | None => [] end
  | SBlock l => flat_map (check_stmt g ret) l
  | SLoop b => check_stmt g ret b
  | SWhile c b => condition g c ++ check_stmt g ret b
  | SFor i c st b => check_stmt g ret i ++ condition g c ++ check_stmt g ret b ++ check_stmt g ret st
  | SAssign _ _ | SExpr _ | SBreak | SContinue => []
  end.
(** type_validator.rs 2127-2145 [find_function_in_module]: the first function of the name. *)
Fixpoint find_function (m : module) (name : string) : option fdef :=
  match m with
  | [] => None
  | IFn f :: m => if String.eqb (f_name f) name then Some f else find_function m name
  | _ :: m => find_function m name
  end.
(** type_validator.rs 1327-1345 [analyze_function_statement_types]. *)
Definition check_body (g : types) (m : module) (name : string) : list stmt_report :=
  match find_function m name with
  | Some f => flat_map (check_stmt g (resolved g (f_ret f))) (f_body f)
  | None => []
  end.
(** type_validator.rs 69-96 [validate]: the signatures, then the bodies. *)
Definition check_module (g : types) (m : module) : list stmt_report :=
  flat_map (fun i => match i with
                     | IFn f => nested_arrays (f_ret f) ++ flat_map (fun p => nested_arrays (snd p)) (f_params f)
                     | _ => []
                     end) m ++
  flat_map (fun i => match i with IFn f => check_body g m (f_name f) | _ => [] end) m.
