(** When the compiler lets a value stand where a type is expected, and the checks of calls:
    crates/compiler/semantic/src/type_resolution.rs and validation/type_validator.rs. *)
From Coq Require Import NArith String List Bool.
Import ListNotations.

(** types.rs 71-106 [TypeData].  Structs and function signatures are interned: they are
    known by a number here. *)
Inductive stype : Type :=
| Felt | Bool | U32
| Struct (id : nat)
| Tuple (l : list stype)
| Pointer (e : stype)
| FixedArray (e : stype) (size : N)
| Function (id : nat)
| Unknown
| Error.

(** Equality of interned types (types.rs 27-31): equal ids are equal data. *)
Fixpoint same (a b : stype) : bool :=
  match a, b with
  | Felt, Felt | Bool, Bool | U32, U32 | Unknown, Unknown | Error, Error => true
  | Struct i, Struct j | Function i, Function j => Nat.eqb i j
  | Tuple l, Tuple m =>
    (fix go l m := match l, m with
                   | [], [] => true
                   | a :: l, b :: m => same a b && go l m
                   | _, _ => false
                   end) l m
  | Pointer a, Pointer b => same a b
  | FixedArray a m, FixedArray b n => same a b && N.eqb m n
  | _, _ => false
  end.

(** type_resolution.rs 983-1037 [are_types_compatible]. *)
Fixpoint compatible (actual expected : stype) : bool :=
  same actual expected ||
  match actual, expected with
  | Error, _ | _, Error => true
  | Unknown, _ | _, Unknown => true
  | Tuple l, Tuple m =>
    Nat.eqb (length l) (length m) &&
    (fix all l m := match l, m with
                    | a :: l, e :: m => compatible a e && all l m
                    | _, _ => true
                    end) l m
  | FixedArray a m, FixedArray e n => N.eqb m n && compatible a e
  | Pointer a, Pointer e => compatible a e
  | _, _ => false
  end.

Inductive report : Type :=
| WrongCount (expected found : nat)
| WrongType (position : nat)
| NotBool.

(** type_validator.rs 583-600: the loop over the arguments, from position [k]. *)
Fixpoint check_args (k : nat) (args params : list stype) : list report :=
  match args, params with
  | a :: args, p :: params => (if compatible a p then [] else [WrongType k]) ++ check_args (S k) args params
  | _, _ => []
  end.
(** type_validator.rs 547-653 [check_function_call_types] for a callee that is a function:
    the types of its parameters and of the arguments.  The rule on constant arrays is left out. *)
Definition check_call (params args : list stype) : list report :=
  if Nat.eqb (length args) (length params) then check_args 0 args params
  else [WrongCount (length params) (length args)].

(** type_validator.rs 159-191 [check_builtin_assert]: only a first argument is looked at. *)
Definition check_assert (args : list stype) : list report :=
  match args with
  | Bool :: _ | Error :: _ | Unknown :: _ => []
  | _ :: _ => [NotBool]
  | [] => []
  end.
(** mir/src/lowering/stmt.rs 396-420 [lower_assert_call]: the arguments that are computed;
    [None] is the error "assert expects at least one argument". *)
Definition lowered_assert {A} (args : list A) : option (list A) :=
  match args with
  | [] => None
  | a :: _ => Some [a]
  end.
