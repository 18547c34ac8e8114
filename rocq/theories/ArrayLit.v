(** Array literals [[a, b]] and [[a; n]]: crates/compiler/semantic/src/type_resolution.rs,
    validation/type_validator.rs and crates/compiler/mir/src/lowering/expr.rs. *)
From Coq Require Import NArith String List Bool.
From Verif Require Import Syn Compat.
Import ListNotations.

(** [expression_semantic_type] for the elements: the type of an expression when the given type is expected. *)
Definition typing : Type := option stype -> expr -> stype.
Definition element_of (context : option stype) : option stype :=
  match context with Some (FixedArray e _) => Some e | _ => None end.
(** type_resolution.rs 777-862: the type of [[es]]; [annotation] is the resolved [expected_type_ast]. *)
Definition literal_type (typed : typing) (annotation context : option stype) (es : list expr) : stype :=
  match es with
  | [] =>
    match element_of context with
    | Some e => FixedArray e 0
    | None => match annotation with Some (FixedArray e 0) => FixedArray e 0 | _ => Error end
    end
  | first :: rest =>
    let t := typed (element_of context) first in
    if forallb (fun e => compatible (typed (Some t) e) t) rest then FixedArray t (N.of_nat (length es)) else Error
  end.
(** type_resolution.rs 863-889: the type of [[e; n]]. *)
Definition repeat_type (typed : typing) (context : option stype) (e : expr) (n : N) : stype :=
  FixedArray (typed (element_of context) e) n.

Inductive array_report : Set := EmptyArray | NestedArray | ElementMismatch (i : nat).
Definition array_literal (e : expr) : bool := match e with EArr _ | ERep _ _ => true | _ => false end.
(** type_validator.rs 897-915: the loop over the elements after the first. *)
Fixpoint mismatches (typed : typing) (t : stype) (i : nat) (es : list expr) : list array_report :=
  match es with
  | [] => []
  | e :: es => (if compatible (typed (Some t) e) t then [] else [ElementMismatch i]) ++ mismatches typed t (S i) es
  end.
(** type_validator.rs 851-917 [check_array_literal_types]. *)
Definition check_literal (typed : typing) (es : list expr) : list array_report :=
  match es with
  | [] => [EmptyArray]
  | first :: rest => if existsb array_literal es then [NestedArray] else mismatches typed (typed None first) 1 rest
  end.
(** type_validator.rs 919-983 [check_array_repeat_types]; [annotation] is the element type of the
    annotation, if that is an array. *)
Definition check_repeat (typed : typing) (annotation : option stype) (e : expr) : list array_report :=
  if array_literal e then [NestedArray] else
  match annotation with
  | Some t => if compatible (typed (Some t) e) t then [] else [ElementMismatch 0]
  | None => []
  end.

(** lowering/expr.rs 526-533: the type of the elements of the array that is built; other types are an error. *)
Definition lowered_element (t : stype) : option stype := match t with FixedArray e _ => Some e | _ => None end.

(** type_resolution.rs 431-468 and 470-475 for numbers without annotation and for parentheses, with the types of names given:
    an instance of [typing] (other expressions are not needed for it). *)
Fixpoint simple_typing (names : string -> stype) (hint : option stype) (e : expr) : stype :=
  match e with
  | ELit _ (Some s) => if String.eqb s "u32" then U32 else Felt
  | ELit _ None => match hint with Some U32 => U32 | _ => Felt end
  | EBool _ => Bool
  | EId x => names x
  | EPar e => simple_typing names hint e
  | EArr (e :: es) => FixedArray (simple_typing names (element_of hint) e) (N.of_nat (length (e :: es)))
  | _ => Error
  end.
