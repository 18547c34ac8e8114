(** Reading a syntax tree with the semantic index: the program that lowering sees.

    crates/compiler/mir/src/lowering works on the syntax tree and asks the semantic index what
    each name means (lowering/expr.rs 132-200: [definition_for_identifier_expr], then the variable
    of that definition; 404-520: the function of a call) and what the type of each expression is.
    Lower.v works on programs in which the answers are written down (Src.v).  This file writes
    them down: it goes through a file in the order in which the index was built (Sema.v) and
    takes the answers from the index's table of uses.
    Constants are lowered where they are used: the value expression is lowered again
    (lowering/expr.rs 188-212), so here a constant is replaced by what its value was read as.
    Simplifications: files of functions and constants of the top level only (imports are in
    ElabCrate.v); felt, u32 and bool only; no tuples, structs, arrays.  A constant inside a
    function is in scope if its value does not mention variables ([admitted], see Prop_Elab.v for
    what happens otherwise).  The type of a literal without suffix is the one the checker finds
    (Typing.v) in the positions where checker and lowering agree: the right operand of an
    operator, an argument, the value of a declaration, assignment or return take the expected
    type, other literals are felts; [None] where the annotation of the enclosing declaration
    says otherwise (type_resolution.rs 475-540, the hint).  [None] also means outside the
    modelled part. *)
From Coq Require Import ZArith NArith Bool String List.
From Verif Require Import Mir Src Syn Sema Typing.
Import ListNotations.
Open Scope list_scope.

Local Notation "'do' p <- e ; k" := (match e with Some p => k | None => None end)
  (at level 200, p pattern, e at level 100, k at level 200).

Notation uses := (list (string * option nat)).
(** The next use in the table. *)
Definition next_use (u : uses) : option (nat * uses) :=
  match u with (_, Some d) :: r => Some (d, r) | _ => None end.

(** type_resolution.rs: [resolve_ast_type]. *)
Definition scalar_ty (t : Syn.ty) : option Mir.ty :=
  match t with TyName NFelt => Some TFelt | TyName NU32 => Some TU32 | TyName NBool => Some TBool | _ => None end.
Definition result_ty (t : Syn.ty) : option (option Mir.ty) :=
  match t with TyTuple [] => Some None | _ => option_map Some (scalar_ty t) end.

(** The type of a literal without suffix: [expected], unless the hint disagrees. *)
Definition literal_type (hint expected : option Mir.ty) : option Mir.ty :=
  let t := match expected with Some TU32 => TU32 | _ => TFelt end in
  match hint with
  | Some TFelt => if ty_eqb t TFelt then Some t else None
  | Some TU32 => if ty_eqb t TU32 then Some t else None
  | _ => Some t
  end.
(** A definition of a function: its type; for a constant, what its value was read as. *)
Notation slot := (Mir.ty * option Src.expr)%type.
Definition param_slot (t : Mir.ty) : slot := (t, None).
Definition var_types (ts : list slot) : nat -> Mir.ty := fun x => fst (nth x ts (TErr, None)).
(** Does not mention variables. *)
Fixpoint closedb (e : Src.expr) : bool :=
  match e with
  | Src.ELit _ _ | Src.EBool _ => true
  | Src.EVar _ => false
  | Src.EUn _ a | Src.ECast a _ => closedb a
  | Src.EBin _ l r => closedb l && closedb r
  | Src.ECall _ es => closedbs es
  end
with closedbs (es : exprs) : bool := match es with ENil => true | ECons e es => closedb e && closedbs es end.

(** The value of a constant. *)
Fixpoint const_value (ks : list (nat * Src.expr)) (d : nat) : option Src.expr :=
  match ks with [] => None | (n, e) :: r => if Nat.eqb n d then Some e else const_value r d end.

Notation reader := (list (string * option nat) * list slot)%type.
Section Fun.
(** The first definition of the current function, all definitions below are those of the top
    level; which function a definition of the top level is; the constants among them; the
    signatures; the result type; which values of constants inside functions are in scope. *)
Variables (admitted : Src.expr -> bool) (base : nat) (fn : nat -> option nat) (ks : list (nat * Src.expr)) (sg : sigs) (ret : option Mir.ty).

(** [ts]: the variables and constants declared so far (the definitions from [base] on). *)
Fixpoint elab_e (ts : list slot) (hint exp : option Mir.ty) (e : Syn.expr) (u : uses) {struct e} : option (Src.expr * uses) :=
  match e with
  | Syn.ELit v None => do t <- literal_type hint exp; Some (Src.ELit (Z.of_N v) t, u)
  | Syn.ELit v (Some s) => do t <- suffix_type s; Some (Src.ELit (Z.of_N v) (mty t), u)
  | Syn.EBool b => Some (Src.EBool b, u)
  | Syn.EPar a => elab_e ts hint None a u
  | Syn.EId x =>
    do (d, u1) <- next_use u;
    if is_assert x then None
    else if Nat.ltb d base then do e' <- const_value ks d; Some (e', u1)
    else match nth_error ts (d - base) with
         | Some (_, None) => Some (Src.EVar (d - base), u1)
         | Some (_, Some e') => Some (e', u1)
         | None => None
         end
  | Syn.EUn op a => do (a', u1) <- elab_e ts hint None a u; Some (Src.EUn (unop_of op) a', u1)
  | Syn.EBin op l r =>
    do (l', u1) <- elab_e ts hint None l u;
    do (r', u2) <- elab_e ts hint (type_of (var_types ts) sg l') r u1;
    Some (Src.EBin (sop_of op) l' r', u2)
  | Syn.ECall (Syn.EId f) args =>
    do (d, u1) <- next_use u;
    if is_assert f || negb (Nat.ltb d base) then None
    else
      do k <- fn d;
      do (ps, _) <- nth_error sg k;
      do (es, u2) <-
        (fix go l qs u := match l with
         | [] => Some (ENil, u)
         | a :: l' => do (a', u1) <- elab_e ts hint (hd_error qs) a u;
                      do (es, u2) <- go l' (tl qs) u1; Some (ECons a' es, u2)
         end) args ps u1;
      Some (Src.ECall k es, u2)
  | Syn.ECast a t => do t' <- scalar_ty t; do (a', u1) <- elab_e ts hint None a u; Some (Src.ECast a' t', u1)
  | _ => None
  end.

Definition assert_arg (e : Syn.expr) : option Syn.expr :=
  match e with Syn.ECall (Syn.EId f) [a] => if is_assert f then Some a else None | _ => None end.
(** lowering/stmt.rs; [Src.SCall] is a call of a function without result. *)
Definition expr_stmt (s : Syn.expr) (e : Src.expr) : Src.stmt :=
  match s, e with
  | Syn.ECall _ _, Src.ECall d es => match nth_error sg d with Some (_, None) => Src.SCall d es | _ => Src.SExpr e end
  | _, _ => Src.SExpr e
  end.
Definition is_block (s : Syn.stmt) : bool := match s with Syn.SBlock _ => true | _ => false end.
Definition block_of (f : Syn.stmt -> reader -> option (Src.stmt * reader)) : list Syn.stmt -> reader -> option (Src.stmt * reader) :=
  fix go l st := match l with
    | [] => Some (Src.SSkip, st)
    | s :: l' => do (c, st1) <- f s st; do (cs, st2) <- go l' st1; Some (Src.SSeq c cs, st2)
    end.
Fixpoint elab_s (s : Syn.stmt) (st : reader) {struct s} : option (Src.stmt * reader) :=
  let '(u, ts) := st in
  match s with
  | Syn.SLet (PId x) ann e =>
    do t <- match ann with None => Some None | Some t => option_map Some (scalar_ty t) end;
    do (e', u1) <- elab_e ts t t e u;
    do vt <- match t with Some t => Some t | None => type_of (var_types ts) sg e' end;
    Some (Src.SLet (length ts) e', (u1, ts ++ [(vt, None)]))
  (* semantic_index.rs 1558-1583: the value is read, then the constant is defined; stmt.rs 74, 754:
     nothing is emitted; type_validator.rs 1416-1452: the annotation must be the type of the value. *)
  | Syn.SConst c =>
    do t <- match c_ty c with None => Some None | Some t => option_map Some (scalar_ty t) end;
    do (e', u1) <- elab_e ts t t (c_val c) u;
    do vt <- type_of (var_types ts) sg e';
    if match t with Some t => ty_eqb t vt | None => true end && admitted e'
    then Some (Src.SSkip, (u1, ts ++ [(vt, Some e')])) else None
  | Syn.SAssign (Syn.EId x) e =>
    do (d, u1) <- next_use u;
    if Nat.ltb d base then None
    else match nth_error ts (d - base) with
         | Some (t, None) => do (e', u2) <- elab_e ts None (Some t) e u1; Some (Src.SAssign (d - base) e', (u2, ts))
         | _ => None
         end
  | Syn.SReturn None => Some (Src.SReturn None, st)
  | Syn.SReturn (Some e) => do (e', u1) <- elab_e ts None ret e u; Some (Src.SReturn (Some e'), (u1, ts))
  | Syn.SIf c a b =>
    do (c', u1) <- elab_e ts None None c u;
    do (a', st1) <- elab_s a (u1, ts);
    match b with
    | Some b => do (b', st2) <- elab_s b st1; Some (Src.SIf c' a' b', st2)
    | None => Some (Src.SIf1 c' a', st1)
    end
  | Syn.SExpr e =>
    match assert_arg e with
    | Some a =>
      match u with
      | _ :: u1 => do (a', u2) <- elab_e ts None None a u1; Some (Src.SAssert a', (u2, ts))
      | [] => None
      end
    | None => do (e', u1) <- elab_e ts None None e u; Some (expr_stmt e e', (u1, ts))
    end
  | Syn.SBlock l => block_of (fun s st => elab_s s st) l st
  | Syn.SLoop b => do (b', st1) <- elab_s b st; Some (Src.SLoop b', st1)
  | Syn.SWhile c b =>
    do (c', u1) <- elab_e ts None None c u; do (b', st1) <- elab_s b (u1, ts); Some (Src.SWhile c' b', st1)
  | Syn.SFor i c s b =>
    if negb (is_block b) then None
    else
      do (i', st1) <- elab_s i st;
      do (c', u2) <- elab_e (snd st1) None None c (fst st1);
      do (b', st3) <- elab_s b (u2, snd st1);
      do (s', st4) <- elab_s s st3;
      Some (Src.SFor i' c' s' b', st4)
  | Syn.SBreak => Some (Src.SBreak, st)
  | Syn.SContinue => Some (Src.SContinue, st)
  | _ => None
  end.
End Fun.

(** The functions of a file and their signatures. *)
Fixpoint fns_of (m : module) : list fdef :=
  match m with [] => [] | IFn f :: r => f :: fns_of r | _ :: r => fns_of r end.
Fixpoint omap {A B} (f : A -> option B) (l : list A) : option (list B) :=
  match l with [] => Some [] | a :: r => do b <- f a; do bs <- omap f r; Some (b :: bs) end.
Definition signature (f : fdef) : option (list Mir.ty * option Mir.ty) :=
  do ps <- omap (fun p => scalar_ty (snd p)) (f_params f); do r <- result_ty (f_ret f); Some (ps, r).
Definition elab_fn (admitted : Src.expr -> bool) (base : nat) (fn : nat -> option nat) (ks : list (nat * Src.expr)) (sg : sigs) (f : fdef) (u : uses) : option (sfun * uses * nat) :=
  do (ps, r) <- signature f;
  do (c, (u', ts)) <- block_of (elab_s admitted base fn ks sg r) (f_body f) (u, map param_slot ps);
  Some (Sfun (var_types ts) ps r c, u', (base + length ts)%nat).
(** semantic_index.rs 1673-1703: the value is read with the annotation as hint.  No check
    compares the annotation of a constant of the top level with its value (type_validator.rs
    69-101 goes through functions only); [None] here if they differ. *)
Definition elab_const (base : nat) (fn : nat -> option nat) (ks : list (nat * Src.expr)) (sg : sigs) (c : cdef) (u : uses) : option (Src.expr * uses) :=
  do t <- match c_ty c with None => Some None | Some t => option_map Some (scalar_ty t) end;
  do (e, u1) <- elab_e base fn ks sg [] t t (c_val c) u;
  do vt <- type_of (var_types []) sg e;
  if match t with Some t => ty_eqb t vt | None => true end then Some (e, u1) else None.
(** The functions of a file, in order; [base] is the number of the next definition. *)
Fixpoint elab_items (admitted : Src.expr -> bool) (base : nat) (fn : nat -> option nat) (ks : list (nat * Src.expr)) (sg : sigs) (m : module) (u : uses) : option (list sfun) :=
  match m with
  | [] => Some []
  | IFn f :: r => do (f', u', base') <- elab_fn admitted base fn ks sg f u; do r' <- elab_items admitted base' fn ks sg r u'; Some (f' :: r')
  | IConst c :: r => do (e, u') <- elab_const base fn ks sg c u; elab_items admitted (S base) fn ((base, e) :: ks) sg r u'
  | IUse _ :: r => elab_items admitted base fn ks sg r u
  | IStruct _ :: _ => None
  end.
(** semantic_errors.rs 38-70: two declarations of a name at the top level are an error. *)
Fixpoint distinct (l : list string) : bool :=
  match l with [] => true | x :: r => negb (existsb (String.eqb x) r) && distinct r end.
Definition is_use (i : item) : bool := match i with IUse _ => true | _ => false end.
(** A file without imports: its functions are the first definitions. *)
Definition elab_with (admitted : Src.expr -> bool) (m : module) : option (list sfun) :=
  do sg <- omap signature (fns_of m);
  if distinct (flat_map top_names m) && negb (existsb is_use m) then
    elab_items admitted (length sg) (fun d => if Nat.ltb d (length sg) then Some d else None) [] sg m (ix_uses (build m))
  else None.
(** The constants inside functions do not mention variables. *)
Definition elab : module -> option (list sfun) := elab_with closedb.
