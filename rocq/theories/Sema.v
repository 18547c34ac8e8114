(** The semantic index: which definition each name in a file refers to.

    Models crates/compiler/semantic/src/semantic_index.rs 185-720 (the tables and their
    lookups), 829-1340 ([SemanticIndexBuilder]), 1345-1735 (its traversal of the syntax
    tree), visitor.rs 93-130 and validation/scope_check.rs 97-135 (unused names).
    Simplifications: no positions (a usage is known by its number in the order of the
    traversal, a definition by its index); the expression table, type hints, origins and
    the span-to-scope map are not part of this file; the second resolution of a struct
    literal's name, which only finds type hints for its fields, is left out. *)
From Coq Require Import NArith Bool String List.
From Verif Require Import Syn.
Import ListNotations.
Open Scope list_scope.

(** definition.rs: [DefinitionKind]. *)
Inductive dkind : Set := DFun | DStruct | DUse | DLet | DConst | DParam.
(** definition.rs: [Definition]. *)
Record defn : Set := Defn { d_name : string; d_kind : dkind; d_scope : nat }.

(** 210-310: [SemanticIndex], and the [scope_stack] of the builder (top first).
    [ix_names] is [name_index]: for each scope and name the definitions, oldest first.
    [ix_uses] is [identifier_usages] with [uses]; [ix_tys] is [type_usages] with
    [type_usage_to_definition], [ix_lits] the part of it that comes from struct literals; [ix_used] is [used_definitions]. *)
Record index : Type := Index {
  ix_parents : list (option nat);
  ix_names : nat -> string -> list nat;
  ix_defs : list defn;
  ix_uses : list (string * option nat);
  ix_tys : list (string * option nat);
  ix_lits : list (string * option nat);
  ix_used : list nat;
  ix_stack : list nat }.

Definition put {A} (f : nat -> string -> A) (i : nat) (x : string) (a : A) : nat -> string -> A :=
  fun j y => if Nat.eqb j i && String.eqb y x then a else f j y.

(** 860: [current_scope] (the stack is never empty). *)
Definition current (ix : index) : nat := hd 0 (ix_stack ix).

(** 338-343 [add_scope], 868-875 [push_scope], 878-882 [pop_scope]. *)
Definition push_scope (ix : index) : index :=
  Index (ix_parents ix ++ [hd_error (ix_stack ix)]) (ix_names ix) (ix_defs ix) (ix_uses ix)
        (ix_tys ix) (ix_lits ix) (ix_used ix) (length (ix_parents ix) :: ix_stack ix).
Definition pop_scope (ix : index) : index :=
  Index (ix_parents ix) (ix_names ix) (ix_defs ix) (ix_uses ix) (ix_tys ix) (ix_lits ix) (ix_used ix) (tl (ix_stack ix)).

(** 907-933: [add_place_with_definition]. *)
Definition define (x : string) (k : dkind) (ix : index) : index :=
  Index (ix_parents ix)
        (put (ix_names ix) (current ix) x (ix_names ix (current ix) x ++ [length (ix_defs ix)]))
        (ix_defs ix ++ [Defn x k (current ix)]) (ix_uses ix) (ix_tys ix) (ix_lits ix) (ix_used ix) (ix_stack ix).

(** 575-585: [latest_definition_index_by_name]. *)
Fixpoint last_opt {A} (l : list A) : option A :=
  match l with [] => None | [a] => Some a | _ :: r => last_opt r end.
Definition latest (ix : index) (s : nat) (x : string) : option nat := last_opt (ix_names ix s x).
(** 601-615: [latest_definition_index_by_name_in_chain].  A parent has a smaller number than
    its child, so [n] rounds are enough for [n] scopes. *)
Fixpoint in_chain (n : nat) (ix : index) (s : nat) (x : string) : option nat :=
  match n with
  | O => None
  | S k =>
    match latest ix s x with
    | Some d => Some d
    | None => match nth_error (ix_parents ix) s with
              | Some (Some p) => in_chain k ix p x
              | _ => None
              end
    end
  end.
Definition resolve (ix : index) (x : string) : option nat :=
  in_chain (length (ix_parents ix)) ix (current ix) x.

(** 1077-1103: an identifier. *)
Definition use_name (x : string) (ix : index) : index :=
  let d := resolve ix x in
  Index (ix_parents ix) (ix_names ix) (ix_defs ix) (ix_uses ix ++ [(x, d)]) (ix_tys ix) (ix_lits ix)
        (match d with Some i => i :: ix_used ix | None => ix_used ix end) (ix_stack ix).
(** 1705-1732: the name of a type. *)
Definition use_type (x : string) (ix : index) : index :=
  let d := resolve ix x in
  Index (ix_parents ix) (ix_names ix) (ix_defs ix) (ix_uses ix) (ix_tys ix ++ [(x, d)]) (ix_lits ix)
        (match d with Some i => i :: ix_used ix | None => ix_used ix end) (ix_stack ix).
(** 1142-1161: the name of a struct literal is looked up in the current scope only, and its
    definition is not marked as used. *)
Definition use_struct (x : string) (ix : index) : index :=
  Index (ix_parents ix) (ix_names ix) (ix_defs ix) (ix_uses ix)
        (ix_tys ix) (ix_lits ix ++ [(x, latest ix (current ix) x)]) (ix_used ix) (ix_stack ix).

Definition each {A} (f : A -> index -> index) (l : list A) (ix : index) : index :=
  fold_left (fun ix a => f a ix) l ix.

(** 1704-1734, visitor.rs 106-130: [visit_type_expr]. *)
Fixpoint visit_ty (t : ty) (ix : index) {struct t} : index :=
  match t with
  | TyName (NCustom x) => use_type x ix
  | TyName _ => ix
  | TyPtr t => visit_ty t ix
  | TyTuple ts => fold_left (fun ix t => visit_ty t ix) ts ix
  | TyArr t _ => visit_ty t ix
  end.

(** 1070-1340: [visit_expr_contents].  The type of a cast is not visited. *)
Fixpoint visit_expr (e : expr) (ix : index) {struct e} : index :=
  match e with
  | ELit _ _ | EBool _ => ix
  | EId x => use_name x ix
  | EUn _ a | EMem a _ | ETupIdx a _ | ERep a _ | ECast a _ | EPar a => visit_expr a ix
  | EBin _ l r | EIdx l r => visit_expr r (visit_expr l ix)
  | ECall f args => fold_left (fun ix e => visit_expr e ix) args (visit_expr f ix)
  | EStruct n fs => fold_left (fun ix f => visit_expr (snd f) ix) fs (use_struct n ix)
  | ETuple es | EArr es => fold_left (fun ix e => visit_expr e ix) es ix
  | ENew t n => visit_expr n (visit_ty t ix)
  end.

(** 1401-1418: [collect_pattern_identifiers]. *)
Fixpoint pat_names (p : pat) : list string :=
  match p with PId x => [x] | PTuple ps => flat_map pat_names ps end.

(** 1358-1620: [visit_stmt]. *)
Fixpoint visit_stmt (s : stmt) (ix : index) {struct s} : index :=
  match s with
  | SLet p t e =>
    let ix := visit_expr e ix in
    let ix := match t with Some t => visit_ty t ix | None => ix end in
    each (fun x => define x DLet) (pat_names p) ix
  | SConst c => define (c_name c) DConst (visit_expr (c_val c) ix)
  | SAssign l r => visit_expr r (visit_expr l ix)
  | SReturn None => ix
  | SReturn (Some e) | SExpr e => visit_expr e ix
  | SIf c a b =>
    let ix := visit_expr c ix in
    let ix := pop_scope (visit_stmt a (push_scope ix)) in
    match b with
    | Some b => pop_scope (visit_stmt b (push_scope ix))
    | None => ix
    end
  | SBlock l => pop_scope (fold_left (fun ix s => visit_stmt s ix) l (push_scope ix))
  | SLoop b => pop_scope (visit_stmt b (push_scope ix))
  | SWhile c b => pop_scope (visit_stmt b (push_scope (visit_expr c ix)))
  | SFor i c st b =>
    pop_scope (visit_stmt st (visit_stmt b (visit_expr c (visit_stmt i (push_scope ix)))))
  | SBreak | SContinue => ix
  end.

(** 1627-1652: [visit_function]; 1654-1665: [visit_parameter]. *)
Definition visit_param (p : string * ty) (ix : index) : index :=
  define (fst p) DParam (visit_ty (snd p) ix).
Definition visit_fn (f : fdef) (ix : index) : index :=
  pop_scope (each visit_stmt (f_body f) (each visit_param (f_params f) (visit_ty (f_ret f) (push_scope ix)))).
(** 1667-1703 and visitor.rs 93-100. *)
Definition visit_item (i : item) (ix : index) : index :=
  match i with
  | IFn f => visit_fn f ix
  | IStruct s => each (fun f => visit_ty (snd f)) (s_fields s) ix
  | IConst c => define (c_name c) DConst (visit_expr (c_val c) ix)
  | IUse _ => ix
  end.

(** 936-1035: the declarations of the first pass. *)
Definition use_names (u : use) : list string := match u_items u with USingle x => [x] | UList xs => xs end.
Definition declare (i : item) (ix : index) : index :=
  match i with
  | IFn f => define (f_name f) DFun ix
  | IStruct s => define (s_name s) DStruct ix
  | IUse u => match u_path u with [] => ix | _ => each (fun x => define x DUse) (use_names u) ix end
  | IConst _ => ix
  end.

(** 829-857: [new] and [build]. *)
Definition empty_index : index := Index [None] (fun _ _ => []) [] [] [] [] [] [0].
Definition build (m : module) : index := each visit_item m (each declare m empty_index).

(** scope_check.rs 97-135: the names reported as unused, with their definitions. *)
Definition starts_underscore (x : string) : bool := prefix "_" x.
Definition warned (ix : index) (i : nat) (d : defn) : bool :=
  negb (match d_kind d with DFun | DStruct => true | _ => false end)
  && negb (starts_underscore (d_name d)) && negb (existsb (Nat.eqb i) (ix_used ix)).
Definition unused (ix : index) : list nat :=
  map fst (filter (fun p => warned ix (fst p) (snd p)) (combine (seq 0 (length (ix_defs ix))) (ix_defs ix))).
(** semantic_errors.rs 38-70: top-level names declared twice are an error. *)
Definition top_names (i : item) : list string :=
  match i with IFn f => [f_name f] | IStruct s => [s_name s] | IConst c => [c_name c] | IUse u => use_names u end.
