(** Syntax of (a fragment of) Cairo-M source programs, after name resolution.

    Models crates/compiler/parser/src/parser.rs (the [Expression] and [Statement] types) as
    they reach crates/compiler/mir/src/lowering.  Simplifications: only the scalar fragment
    (felt, u32, bool; functions with at most one result) is covered: no tuples, structs,
    arrays, pointers or constants; identifiers are already resolved to definitions (every
    declaration has its own number, see semantic_index.rs [definition_for_identifier_expr]);
    literals carry the type that semantic analysis infers for them; parentheses are dropped;
    a block is a right-nested sequence. *)
From Coq Require Import ZArith Bool String List.
From Verif Require Import Mir.
Import ListNotations.
Open Scope Z_scope.

(** parser.rs: [BinaryOp]. *)
Inductive sop : Set :=
| SAdd | SSub | SMul | SDiv | SMod
| SEq | SNeq | SLt | SGt | SLe | SGe
| SAnd | SOr | SBitAnd | SBitOr | SBitXor.

(** parser.rs: [Expression].  [assert] is a built-in function; it is a statement here. *)
Inductive expr : Set :=
| ELit (n : Z) (t : ty)
| EBool (b : bool)
| EVar (x : nat)
| EUn (op : unop) (e : expr)
| EBin (op : sop) (l r : expr)
| ECall (f : nat) (args : exprs)
| ECast (e : expr) (t : ty)
with exprs : Set := ENil | ECons (e : expr) (es : exprs).

(** parser.rs: [Statement].  [SCall] is an expression statement that is a call. *)
Inductive stmt : Set :=
| SSkip
| SSeq (a b : stmt)
| SLet (x : nat) (e : expr)
| SAssign (x : nat) (e : expr)
| SCall (f : nat) (args : exprs)
| SExpr (e : expr)
| SAssert (e : expr)
| SIf (c : expr) (a b : stmt)
| SIf1 (c : expr) (a : stmt)
| SWhile (c : expr) (body : stmt)
| SLoop (body : stmt)
| SFor (init : stmt) (c : expr) (step body : stmt)
| SBreak
| SContinue
| SReturn (e : option expr).

(** A function: the types of its variables (parameters are the variables [0 .. n-1]), the
    types of its parameters, its result, its body. *)
Record sfun : Type := Sfun {
  s_vars : nat -> ty;
  s_params : list ty;
  s_ret : option ty;
  s_body : stmt }.

(** Signatures of the functions of a module. *)
Definition sigs := list (list ty * option ty).
Definition sig_of (f : sfun) : list ty * option ty := (s_params f, s_ret f).

(** semantic/src/type_resolution.rs 1047-1250: the operator signatures (both operands have
    the same type). *)
Definition bin_type (op : sop) (t : ty) : option ty :=
  match op, t with
  | (SAdd | SSub | SMul | SDiv), TFelt => Some TFelt
  | (SAdd | SSub | SMul | SDiv | SMod | SBitAnd | SBitOr | SBitXor), TU32 => Some TU32
  | (SEq | SNeq), (TFelt | TU32 | TBool) => Some TBool
  | (SLt | SGt | SLe | SGe), TU32 => Some TBool
  | (SAnd | SOr), TBool => Some TBool
  | _, _ => None
  end.
Definition un_type (op : unop) (t : ty) : option ty :=
  match op, t with
  | Neg, TFelt => Some TFelt
  | Neg, TU32 => Some TU32
  | Not, TBool => Some TBool
  | _, _ => None
  end.

(** type_resolution.rs: [expression_semantic_type]; [None] if the expression is ill typed
    (type_validator.rs).  Literals must be in range (literal_validator.rs). *)
Fixpoint type_of (V : nat -> ty) (sg : sigs) (e : expr) : option ty :=
  match e with
  | ELit n t => if (0 <=? n) && (n <? match t with TFelt => 2147483647 | TU32 => 4294967296 | _ => 0 end) then Some t else None
  | EBool _ => Some TBool
  | EVar x => Some (V x)
  | EUn op a => match type_of V sg a with Some t => un_type op t | None => None end
  | EBin op l r =>
    match type_of V sg l, type_of V sg r with
    | Some t, Some u => if ty_eqb t u then bin_type op t else None
    | _, _ => None
    end
  | ECall f args =>
    match nth_error sg f with
    | Some (ps, Some t) => if types_of_args V sg args ps then Some t else None
    | _ => None
    end
  | ECast a t => match type_of V sg a, t with Some TU32, TFelt => Some TFelt | _, _ => None end
  end
with types_of_args (V : nat -> ty) (sg : sigs) (es : exprs) (ps : list ty) {struct es} : bool :=
  match es, ps with
  | ENil, [] => true
  | ECons e es', p :: ps' =>
    match type_of V sg e with Some t => ty_eqb t p && types_of_args V sg es' ps' | None => false end
  | _, _ => false
  end.
