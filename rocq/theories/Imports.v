(** Imports between the modules of a project: the import graph, the search for cyclic
    imports, the order in which modules are analysed, and what an imported name stands for
    to the type checker and to the lowering.

    Models crates/compiler/semantic/src/db.rs 222-410, semantic_index.rs 936-1022,
    validation/scope_check.rs 219-300, type_resolution.rs 232-262 and
    crates/compiler/mir/src/lowering/function.rs 48-215, builder.rs 190-240, 415-462.
    Simplifications: a hash map is an association list, its order the order of iteration;
    a definition is known by its position among the root definitions of its file (the root
    definitions are the ones other modules see); types are left out: the type checker's
    answer for an imported name is the definition it takes the type from. *)
From Coq Require Import Bool String List.
From Verif Require Import Syn.
Import ListNotations.
Open Scope list_scope.

(** A computation that may panic; [NoFuel] is the model's own bound on the recursion. *)
Inductive run (A : Type) : Type := Done (a : A) | Panic | NoFuel.
Arguments Done {A}. Arguments Panic {A}. Arguments NoFuel {A}.

(** The first entry of a key ([HashMap::get]; keys are distinct in a hash map). *)
Fixpoint get {A} (x : string) (l : list (string * A)) : option A :=
  match l with
  | [] => None
  | (y, a) :: r => if String.eqb y x then Some a else get x r
  end.
Definition insert {A} (x : string) (a : A) (l : list (string * A)) : list (string * A) := (x, a) :: l.

(** db.rs 107-111: the modules of a crate; [project_parsed_modules] (222-234). *)
Definition crate := list (string * module).
(** db.rs 237: [HashMap<String, Vec<String>>]. *)
Definition graph := list (string * list string).

(** db.rs 246-251, semantic_index.rs 978-986: [path.join("::")]. *)
Definition joined (path : list string) : string := String.concat "::" path.

(** db.rs 236-259: [project_import_graph]. *)
Definition use_targets (i : item) : list string :=
  match i with
  | IUse u => match u_path u with [] => [] | p => [joined p] end
  | _ => []
  end.
Definition import_graph (c : crate) : graph :=
  map (fun p => (fst p, flat_map use_targets (snd p))) c.

(** [Iterator::position]. *)
Fixpoint position (x : string) (l : list string) : option nat :=
  match l with
  | [] => None
  | y :: r => if String.eqb y x then Some 0 else option_map S (position x r)
  end.

(** db.rs 262-309: [detect_import_cycle].  The state is [visited] (0, 1 or 2 for a name) and
    [path]; the third component is [cycle]. *)
Definition state : Type := list (string * nat) * list string.
Definition visit_result : Type := run (state * option (list string)).

(** 277-298: the loop over the neighbours; [rec] is [dfs] itself. *)
Fixpoint neighbours (rec : string -> list (string * nat) -> list string -> visit_result)
  (ns : list string) (v : list (string * nat)) (p : list string) : visit_result :=
  match ns with
  | [] => Done ((v, p), None)
  | b :: r =>
    match get b v with
    | None =>
      match rec b (insert b 0 v) p with
      | Done ((v', p'), None) => neighbours rec r v' p'
      | other => other
      end
    | Some 1 =>
      match position b p with
      | None => Panic
      | Some i => Done ((v, p), Some (skipn i p ++ [b]))
      end
    | Some _ => neighbours rec r v p
    end
  end.

(** 267-302: [dfs]. *)
Fixpoint dfs (fuel : nat) (g : graph) (node : string) (v : list (string * nat)) (p : list string) : visit_result :=
  match fuel with
  | O => NoFuel
  | S k =>
    let v := insert node 1 v in
    let p := p ++ [node] in
    match neighbours (dfs k g) (match get node g with Some ns => ns | None => [] end) v p with
    | Done ((v', p'), None) => Done ((insert node 2 v', removelast p'), None)
    | other => other
    end
  end.

(** 304-305: the sorted keys. *)
Fixpoint place (x : string) (l : list string) : list string :=
  match l with
  | [] => [x]
  | y :: r => if String.leb x y then x :: l else y :: place x r
  end.
Fixpoint sorted (l : list string) : list string :=
  match l with [] => [] | x :: r => place x (sorted r) end.

(** 306-313: the loop over the keys. *)
Fixpoint search (fuel : nat) (g : graph) (keys : list string) (v : list (string * nat)) (p : list string)
  : run (option (list string)) :=
  match keys with
  | [] => Done None
  | n :: r =>
    match get n v with
    | Some _ => search fuel g r v p
    | None =>
      match dfs fuel g n v p with
      | Done (_, Some c) => Done (Some c)
      | Done ((v', p'), None) => search fuel g r v' p'
      | Panic => Panic
      | NoFuel => NoFuel
      end
    end
  end.

(** Every name the graph mentions; a bound for the depth of the recursion. *)
Definition names (g : graph) : list string := map fst g ++ flat_map snd g.
Definition detect_import_cycle (g : graph) : run (option (list string)) :=
  search (S (length (names g))) g (sorted (map fst g)) [] [].

(** 316-348: [topological_sort]; the state is [visited] and [topo]. *)
Definition mem (x : string) (l : list string) : bool := existsb (String.eqb x) l.
Fixpoint topo_loop (rec : string -> list string * list string -> run (list string * list string))
  (ns : list string) (s : list string * list string) : run (list string * list string) :=
  match ns with
  | [] => Done s
  | b :: r =>
    if mem b (fst s) then topo_loop rec r s
    else match rec b s with Done s' => topo_loop rec r s' | other => other end
  end.
Fixpoint dfs_topo (fuel : nat) (g : graph) (node : string) (s : list string * list string)
  : run (list string * list string) :=
  match fuel with
  | O => NoFuel
  | S k =>
    match topo_loop (dfs_topo k g) (match get node g with Some ns => ns | None => [] end)
                    (node :: fst s, snd s) with
    | Done (v, t) => Done (v, t ++ [node])
    | other => other
    end
  end.
Definition topological_sort (g : graph) : run (list string) :=
  match topo_loop (dfs_topo (S (length (names g))) g) (map fst g) ([], []) with
  | Done (_, t) => Done t
  | Panic => Panic
  | NoFuel => NoFuel
  end.

(** definition.rs: the kinds of a definition in the root scope. *)
Inductive rdef : Type :=
| RFun (f : fdef) | RStruct (s : sdef) | RConst (c : cdef) | RUse (from : string).

(** semantic_index.rs 936-1022 and 1667-1703: functions, structs and imports are declared
    first, constants when the items are visited. *)
Definition use_names (u : use) : list string := match u_items u with USingle x => [x] | UList xs => xs end.
Definition declared (i : item) : list (string * rdef) :=
  match i with
  | IFn f => [(f_name f, RFun f)]
  | IStruct s => [(s_name s, RStruct s)]
  | IUse u => match u_path u with [] => [] | p => map (fun x => (x, RUse (joined p))) (use_names u) end
  | IConst _ => []
  end.
Definition constant (i : item) : list (string * rdef) :=
  match i with IConst c => [(c_name c, RConst c)] | _ => [] end.
Definition root_defs (m : module) : list (string * rdef) := flat_map declared m ++ flat_map constant m.

(** semantic_index.rs 575-585: [latest_definition_index_by_name] for the root scope. *)
Fixpoint latest_from (i : nat) (x : string) (l : list (string * rdef)) : option (nat * rdef) :=
  match l with
  | [] => None
  | (y, d) :: r =>
    match latest_from (S i) x r with
    | Some a => Some a
    | None => if String.eqb y x then Some (i, d) else None
    end
  end.
Definition latest (m : module) (x : string) : option (nat * rdef) := latest_from 0 x (root_defs m).

(** scope_check.rs 219-300: [validate_imports]. *)
Inductive import_error : Type := UnresolvedModule (m : string) | UnresolvedImport (m x : string).
Definition check_import (c : crate) (d : string * rdef) : list import_error :=
  match d with
  | (x, RUse from) =>
    match get from c with
    | None => [UnresolvedModule from]
    | Some m => match latest m x with None => [UnresolvedImport from x] | Some _ => [] end
    end
  | _ => []
  end.
Definition check_imports (c : crate) (m : module) : list import_error :=
  flat_map (check_import c) (root_defs m).

(** type_resolution.rs 232-262 and the cases before it: the definition from which
    [definition_semantic_type] takes the type of a root definition of module [at_].  A name that is
    not there has the error type ([None]).  A definition is its module and its index. *)
Fixpoint type_source (fuel : nat) (c : crate) (at_ : string) (x : string) (i : nat) (d : rdef)
  : run (option (string * nat * rdef)) :=
  match fuel with
  | O => NoFuel
  | S k =>
    match d with
    | RUse from =>
      match get from c with
      | None => Done None
      | Some m =>
        match latest m x with
        | None => Done None
        | Some (j, d') => type_source k c from x j d'
        end
      end
    | _ => Done (Some (at_, i, d))
    end
  end.

(** function.rs 204-217: [find_function_ast]: the first function of that name. *)
Fixpoint find_function_ast (m : module) (x : string) : option fdef :=
  match m with
  | [] => None
  | IFn f :: r => if String.eqb (f_name f) x then Some f else find_function_ast r x
  | _ :: r => find_function_ast r x
  end.

(** function.rs 78-112: the first pass; the function identifiers in the order of the
    definitions.  An entry is the module and index of the definition. *)
Fixpoint functions_of (name : string) (m : module) (i : nat) (l : list (string * rdef)) : list (string * nat * string) :=
  match l with
  | [] => []
  | (x, RFun _) :: r =>
    match find_function_ast m x with
    | Some _ => (name, i, x) :: functions_of name m (S i) r
    | None => functions_of name m (S i) r
    end
  | _ :: r => functions_of name m (S i) r
  end.
Definition function_mapping (order : crate) : list (string * nat * string) :=
  flat_map (fun p => functions_of (fst p) (snd p) 0 (root_defs (snd p))) order.
(** [function_mapping.get]: the identifier of a definition. *)
Fixpoint function_id (m : string) (i : nat) (l : list (string * nat * string)) : option nat :=
  match l with
  | [] => None
  | (n, j, _) :: r => if String.eqb n m && Nat.eqb j i then Some 0 else option_map S (function_id m i r)
  end.
(** function.rs 114-178: the second pass; the syntax tree that is lowered for an identifier,
    with the module in which it is lowered. *)
Definition lowered (order : crate) : list (option (string * fdef)) :=
  map (fun e => match e with
                | (n, _, x) => match get n order with
                               | Some m => option_map (pair n) (find_function_ast m x)
                               | None => None
                               end
                end) (function_mapping order).

(** builder.rs 190-240: [resolve_imported_function]. *)
Definition resolve_imported_function (c order : crate) (m x : string) : option nat :=
  match get m c with
  | None => None
  | Some md =>
    match latest md x with
    | Some (i, RFun _) => function_id m i (function_mapping order)
    | _ => None
    end
  end.
(** builder.rs 415-462: [resolve_callee_expression] for a name that stands for the root
    definition [(i, d)] of module [m].  [None] is a lowering error. *)
Definition resolve_callee (c order : crate) (m x : string) (i : nat) (d : rdef) : option nat :=
  match d with
  | RFun _ => function_id m i (function_mapping order)
  | RUse from => resolve_imported_function c order from x
  | _ => None
  end.

(** lowering/expr.rs 176-225: [lower_identifier] for a name in an expression that the index
    resolves to a definition of the root scope.  The value of a constant of the file is lowered
    in its place.  For every other definition the variable of that definition is read; no
    function ever writes it, and function.rs 519-526 panics ([None]: "Variable must be defined"). *)
Definition lower_identifier (d : rdef) : option cdef := match d with RConst k => Some k | _ => None end.
