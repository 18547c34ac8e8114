(** The syntax tree that the parser builds.

    Models crates/compiler/parser/src/parser.rs 133-520.  Positions ([Spanned]) are left
    out. *)
From Coq Require Import NArith Bool String List.
Import ListNotations.

(** parser.rs 134-139: [NamedType]. *)
Inductive named : Set := NFelt | NBool | NU32 | NCustom (s : string).
(** parser.rs 158-171: [TypeExpr]. *)
Inductive ty : Set :=
| TyName (n : named)
| TyPtr (t : ty)
| TyTuple (ts : list ty)
| TyArr (t : ty) (n : N).
(** parser.rs 174-179, 195-228. *)
Inductive uop : Set := UNot | UNeg.
Inductive bop : Set :=
| BAdd | BSub | BMul | BDiv | BMod
| BEq | BNeq | BLt | BGt | BLe | BGe
| BAnd | BOr | BBitAnd | BBitOr | BBitXor.
(** parser.rs 258-325: [Expression]. *)
Inductive expr : Set :=
| ELit (v : N) (suffix : option string)
| EBool (b : bool)
| EId (x : string)
| EUn (op : uop) (e : expr)
| EBin (op : bop) (l r : expr)
| ECall (f : expr) (args : list expr)
| EMem (e : expr) (f : string)
| EIdx (e i : expr)
| EStruct (n : string) (fs : list (string * expr))
| ETuple (es : list expr)
| ETupIdx (e : expr) (i : N)
| EArr (es : list expr)
| ERep (e : expr) (n : N)
| ECast (e : expr) (t : ty)
| ENew (t : ty) (n : expr)
| EPar (e : expr).
(** parser.rs 343-348: [Pattern]. *)
Inductive pat : Set := PId (x : string) | PTuple (ps : list pat).
(** parser.rs 426-433: [ConstDef]. *)
Record cdef : Set := Cdef { c_name : string; c_ty : option ty; c_val : expr }.
(** parser.rs 355-403: [Statement]. *)
Inductive stmt : Set :=
| SLet (p : pat) (t : option ty) (e : expr)
| SConst (c : cdef)
| SAssign (l r : expr)
| SReturn (e : option expr)
| SIf (c : expr) (a : stmt) (b : option stmt)
| SExpr (e : expr)
| SBlock (l : list stmt)
| SLoop (b : stmt)
| SWhile (c : expr) (b : stmt)
| SFor (i : stmt) (c : expr) (s : stmt) (b : stmt)
| SBreak
| SContinue.
(** parser.rs 462-471: [FunctionDef]; 332-337: [Parameter]. *)
Record fdef : Set := Fdef {
  f_name : string;
  f_params : list (string * ty);
  f_ret : ty;
  f_body : list stmt }.
(** parser.rs 475-480: [StructDef]. *)
Record sdef : Set := Sdef { s_name : string; s_fields : list (string * ty) }.
(** parser.rs 484-516: [UseItems], [UseStmt]. *)
Inductive uitems : Set := USingle (x : string) | UList (xs : list string).
Record use : Set := Use { u_path : list string; u_items : uitems }.
(** parser.rs 410-419: [TopLevelItem]; a module is a list of items. *)
Inductive item : Set :=
| IFn (f : fdef) | IStruct (s : sdef) | IConst (c : cdef) | IUse (u : use).
Definition module := list item.
