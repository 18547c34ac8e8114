(** Lexical scoping, without reference to the compiler: what the names in a file refer to.

    Declarations are numbered: first the functions, structs and imported names of the file,
    in order, then all others in the order in which they are written.  An environment lists
    the declarations in force, the most recent first, and a name refers to the first one of
    that name.  Functions, structs and imported names are in force everywhere in the file; a
    constant of the file from its declaration to the end of the file; a parameter in its
    function; a local variable or constant from the end of its declaration to the end of the
    innermost block, branch or loop that contains the declaration. *)
From Coq Require Import NArith Bool String List.
From Verif Require Import Syn.
Import ListNotations.
Open Scope list_scope.

Definition env : Type := list (string * nat).
Fixpoint refers (r : env) (x : string) : option nat :=
  match r with
  | [] => None
  | (y, d) :: r' => if String.eqb y x then Some d else refers r' x
  end.

(** The names an expression mentions, from left to right: variables and functions; types. *)
Fixpoint names_e (e : expr) : list string :=
  match e with
  | ELit _ _ | EBool _ => []
  | EId x => [x]
  | EUn _ a | EMem a _ | ETupIdx a _ | ERep a _ | ECast a _ | EPar a | ENew _ a => names_e a
  | EBin _ l r | EIdx l r => names_e l ++ names_e r
  | ECall f args => names_e f ++ flat_map names_e args
  | EStruct _ fs => flat_map (fun f => names_e (snd f)) fs
  | ETuple es | EArr es => flat_map names_e es
  end.
Fixpoint names_t (t : ty) : list string :=
  match t with
  | TyName (NCustom x) => [x]
  | TyName _ => []
  | TyPtr t | TyArr t _ => names_t t
  | TyTuple ts => flat_map names_t ts
  end.
Fixpoint types_e (e : expr) : list string :=
  match e with
  | ELit _ _ | EBool _ | EId _ => []
  | EUn _ a | EMem a _ | ETupIdx a _ | ERep a _ | ECast a _ | EPar a => types_e a
  | ENew t a => names_t t ++ types_e a
  | EBin _ l r | EIdx l r => types_e l ++ types_e r
  | ECall f args => types_e f ++ flat_map types_e args
  | EStruct _ fs => flat_map (fun f => types_e (snd f)) fs
  | ETuple es | EArr es => flat_map types_e es
  end.
(** The names of the structs an expression builds. *)
Fixpoint built_e (e : expr) : list string :=
  match e with
  | ELit _ _ | EBool _ | EId _ => []
  | EUn _ a | EMem a _ | ETupIdx a _ | ERep a _ | ECast a _ | EPar a | ENew _ a => built_e a
  | EBin _ l r | EIdx l r => built_e l ++ built_e r
  | ECall f args => built_e f ++ flat_map built_e args
  | EStruct n fs => n :: flat_map (fun f => built_e (snd f)) fs
  | ETuple es | EArr es => flat_map built_e es
  end.
Fixpoint pnames (p : pat) : list string :=
  match p with PId x => [x] | PTuple ps => flat_map pnames ps end.

(** What was found: each mentioned name with its declaration, for variables and functions, for
    types, and for structs that are built; and the declarations in the order of their numbers,
    with [true] for those that ought to be mentioned somewhere (all but functions and structs). *)
Record found : Type := Found {
  in_exprs : list (string * option nat);
  in_types : list (string * option nat);
  in_lits : list (string * option nat);
  declared : list (string * bool) }.
Definition look (r : env) (xs : list string) : list (string * option nat) := map (fun x => (x, refers r x)) xs.
Definition found_e (r : env) (e : expr) : found := Found (look r (names_e e)) (look r (types_e e)) (look r (built_e e)) [].
Definition found_t (r : env) (t : option ty) : found :=
  Found [] (match t with Some t => look r (names_t t) | None => [] end) [] [].
Definition nothing : found := Found [] [] [] [].
Definition both (a b : found) : found := 
  Found (in_exprs a ++ in_exprs b) (in_types a ++ in_types b) (in_lits a ++ in_lits b)
        (declared a ++ declared b).

(** The result of going through a piece of text: what was found, the environment behind it,
    the number of the next declaration. *)
Definition walk : Type := found * env * nat.
Definition plain (f : found) (r : env) (n : nat) : walk := (f, r, n).
Definition next (a : walk) (k : env -> nat -> walk) : walk :=
  let '(f, r, n) := a in let '(g, r', n') := k r n in (both f g, r', n').
(** A scope of its own: its declarations are forgotten afterwards. *)
Definition scoped (r : env) (a : walk) : walk := let '(f, _, n) := a in (f, r, n).
Definition declares (w : bool) (x : string) (r : env) (n : nat) : walk :=
  (Found [] [] [] [(x, w)], (x, n) :: r, S n).
Definition all {A} (f : A -> env -> nat -> walk) : list A -> env -> nat -> walk :=
  fix go l r n := match l with [] => plain nothing r n | a :: l' => next (f a r n) (fun r n => go l' r n) end.

Fixpoint walk_s (s : stmt) (r : env) (n : nat) {struct s} : walk :=
  match s with
  | SLet p t e =>
    next (plain (both (found_e r e) (found_t r t)) r n) (all (declares true) (pnames p))
  | SConst c => next (plain (found_e r (c_val c)) r n) (declares true (c_name c))
  | SAssign l e => plain (both (found_e r l) (found_e r e)) r n
  | SReturn None => plain nothing r n
  | SReturn (Some e) | SExpr e => plain (found_e r e) r n
  | SIf c a b =>
    next (plain (found_e r c) r n) (fun r n =>
    next (scoped r (walk_s a r n)) (fun r n =>
    match b with Some b => scoped r (walk_s b r n) | None => plain nothing r n end))
  | SBlock l => scoped r (all (fun s r n => walk_s s r n) l r n)
  | SLoop b => scoped r (walk_s b r n)
  | SWhile c b => next (plain (found_e r c) r n) (fun r n => scoped r (walk_s b r n))
  | SFor i c st b =>
    scoped r (next (walk_s i r n) (fun r n =>
              next (plain (found_e r c) r n) (fun r n =>
              next (walk_s b r n) (fun r n => walk_s st r n))))
  | SBreak | SContinue => plain nothing r n
  end.

Definition walk_param (p : string * ty) (r : env) (n : nat) : walk :=
  next (plain (found_t r (Some (snd p))) r n) (declares true (fst p)).
Definition walk_item (i : item) (r : env) (n : nat) : walk :=
  match i with
  | IFn f => scoped r (next (plain (found_t r (Some (f_ret f))) r n) (fun r n =>
                       next (all walk_param (f_params f) r n) (all walk_s (f_body f))))
  | IStruct s => all (fun f r n => plain (found_t r (Some (snd f))) r n) (s_fields s) r n
  | IConst c => next (plain (found_e r (c_val c)) r n) (declares true (c_name c))
  | IUse _ => plain nothing r n
  end.

(** Functions, structs and imported names. *)
Definition globals (i : item) (r : env) (n : nat) : walk :=
  match i with
  | IFn f => declares false (f_name f) r n
  | IStruct s => declares false (s_name s) r n
  | IUse u =>
    match u_path u with
    | [] => plain nothing r n
    | _ => all (declares true) (match u_items u with USingle x => [x] | UList xs => xs end) r n
    end
  | IConst _ => plain nothing r n
  end.
Definition walk_file (m : module) : walk := next (all globals m [] 0) (all walk_item m).
Definition names_in_file (m : module) : found := let '(f, _, _) := walk_file m in f.
