(** Types of expressions: inference, the checks, and the queries of lowering.

    Models, for expressions of literals, variables, operators, calls and casts,
    crates/compiler/semantic/src/type_resolution.rs 261-690 ([expression_semantic_type]), 985-1259
    (compatible types, operator signatures), validation/type_validator.rs 271-690, 1184-1230,
    1555-1595, 1974-2030 (the checks), validation/literal_validator.rs, and
    crates/compiler/mir/src/lowering/{expr.rs 60-400, stmt.rs 122-185}.
    Functions have the form [fn f(..) -> T { let x: T1 = e1; ..; return e; }], which suffices to see
    how types are inferred and used; Lower.v has the other statements.
    Simplifications: types are felt, u32, bool and unit; names are already resolved to entries
    of [scope] (C58). *)
From Coq Require Import ZArith NArith Bool String List.
From Verif Require Import Mir Src Lower Syn.
Import ListNotations.
Open Scope list_scope.

(** types.rs: [TypeData]; [YFn] is any function type. *)
Inductive yty : Set := YFelt | YU32 | YBool | YUnit | YFn | YErr.
Definition yty_eqb (a b : yty) : bool :=
  match a, b with
  | YFelt, YFelt | YU32, YU32 | YBool, YBool | YUnit, YUnit | YFn, YFn | YErr, YErr => true
  | _, _ => false
  end.
(** What a name stands for: a variable (its type and number), or a function (its number,
    parameters, result). *)
Inductive entity : Set := EnVar (t : yty) (n : nat) | EnFn (k : nat) (ps : list yty) (r : yty).
Definition scope := list (string * entity).
Fixpoint find (G : scope) (x : string) : option entity :=
  match G with [] => None | (y, d) :: r => if String.eqb y x then Some d else find r x end.

(** semantic_index.rs: [Origin], as far as it decides about types. *)
Inductive origin : Set := ONone | OAssign (lhs : yty) | OArg (param : option yty) | OCond | ORet (ret : option yty).
Definition unsuffixed (e : Syn.expr) : bool := match e with Syn.ELit _ None => true | _ => false end.
(** 290-420: the context that an expression gets from its origin. *)
Definition from_origin (o : origin) (e : Syn.expr) : option yty :=
  match o with
  | ONone => None
  | OAssign t => if unsuffixed e then Some t else None
  | OArg p => p
  | OCond => Some YBool
  | ORet r => r
  end.

(** 1047-1250: the signatures of the operators (both operands have the same type). *)
Definition bin_sig (op : bop) (t : yty) : option yty :=
  match op, t with
  | (BAdd | BSub | BMul | BDiv), YFelt => Some YFelt
  | (BAdd | BSub | BMul | BDiv | BMod | BBitAnd | BBitOr | BBitXor), YU32 => Some YU32
  | (BEq | BNeq), (YFelt | YU32 | YBool) => Some YBool
  | (BLt | BGt | BLe | BGe), YU32 => Some YBool
  | (BAnd | BOr), YBool => Some YBool
  | _, _ => None
  end.
Definition un_sig (op : uop) (t : yty) : option yty :=
  match op, t with
  | UNeg, (YFelt | YU32) => Some t
  | UNot, YBool => Some YBool
  | _, _ => None
  end.
(** 985-1036: [are_types_compatible]. *)
Definition compatible (a b : yty) : bool := yty_eqb a b || yty_eqb a YErr || yty_eqb b YErr.
(** The result of the first signature that fits both operand types (in the order of the list:
    felt, u32, bool); an unknown type fits everything. *)
Definition result_bin (op : bop) (l r : yty) : yty :=
  let fits t := match bin_sig op t with Some _ => compatible l t && compatible r t | None => false end in
  match filter fits [YFelt; YU32; YBool] with
  | t :: _ => match bin_sig op t with Some u => u | None => YErr end
  | [] => YErr
  end.
Definition result_un (op : uop) (a : yty) : yty :=
  let fits t := match un_sig op t with Some _ => compatible a t | None => false end in
  match filter fits [YFelt; YU32; YBool] with
  | t :: _ => match un_sig op t with Some u => u | None => YErr end
  | [] => YErr
  end.
Definition commutative (op : bop) : bool := match op with BAdd | BMul | BEq | BNeq => true | _ => false end.
Definition named_type (t : Syn.ty) : yty :=
  match t with
  | TyName NFelt => YFelt | TyName NU32 => YU32 | TyName NBool => YBool
  | TyTuple [] => YUnit | _ => YErr
  end.
Definition suffix_type (s : string) : option yty :=
  if String.eqb s "u32" then Some YU32 else if String.eqb s "felt" then Some YFelt else None.
Definition is_assert (x : string) : bool := String.eqb x "assert".

Section Types.
Variable G : scope.

(** 261-690: [expression_semantic_type].  [h] is the hint recorded with the expression (the
    annotation of the declaration it is part of), [o] its origin, [c] the expected type. *)
Fixpoint sty (h : option yty) (o : origin) (c : option yty) (e : Syn.expr) {struct e} : yty :=
  let c := match c with Some t => Some t | None => from_origin o e end in
  match e with
  | Syn.ELit _ s =>
    match match s with Some s => suffix_type s | None => None end with
    | Some t => t
    | None =>
      match h, c with
      | Some YU32, _ => YU32
      | Some YFelt, _ => YFelt
      | _, Some YU32 => YU32
      | _, _ => YFelt
      end
    end
  | Syn.EBool _ => YBool
  | Syn.EPar a => sty h ONone c a
  | Syn.EId x =>
    if is_assert x then YUnit
    else match find G x with Some (EnVar t _) => t | Some (EnFn _ _ _) => YFn | None => YErr end
  | Syn.EUn op a => result_un op (sty h ONone c a)
  | Syn.EBin op l r =>
    if commutative op && unsuffixed l && negb (unsuffixed r) then
      let tr := sty h ONone c r in
      result_bin op (sty h ONone (Some tr) l) tr
    else
      let tl := sty h ONone c l in
      result_bin op tl (sty h ONone (Some tl) r)
  | Syn.ECall (Syn.EId f) _ =>
    if is_assert f then YUnit
    else match find G f with Some (EnFn _ _ r) => r | _ => YErr end
  | Syn.ECast _ t => named_type t
  | _ => YErr
  end.

(** type_validator.rs 271-690, 1184-1230: no error is reported for the expression or a part
    of it.  Undeclared names are reported by scope_check.rs. *)
Definition param (ps : list yty) (i : nat) : option yty := nth_error ps i.
Fixpoint check (h : option yty) (e : Syn.expr) {struct e} : bool :=
  match e with
  | Syn.ELit _ _ | Syn.EBool _ => true
  | Syn.EId x => is_assert x || match find G x with Some _ => true | None => false end
  | Syn.EPar a => check h a
  | Syn.EUn op a =>
    check h a && match un_sig op (sty h ONone None a) with Some _ => true | None => false end
  | Syn.EBin op l r =>
    check h l && check h r &&
    (let '(tl, tr) :=
       if commutative op && unsuffixed l && negb (unsuffixed r) then
         let tr := sty h ONone None r in (sty h ONone (Some tr) l, tr)
       else let tl := sty h ONone None l in (tl, sty h ONone (Some tl) r) in
     yty_eqb tl YErr || yty_eqb tr YErr
     || (match bin_sig op tl with Some _ => true | None => false end && yty_eqb tl tr))
  | Syn.ECall (Syn.EId f) args =>
    if is_assert f then
      (fix go l := match l with [] => true | a :: l' => check h a && go l' end) args &&
      match args with
      | a :: _ => compatible (sty h ONone None a) YBool
      | [] => true
      end
    else match find G f with
         | Some (EnFn _ ps _) =>
           Nat.eqb (length args) (length ps) &&
           (fix go l ps :=
              match l, ps with
              | a :: l', p :: ps' => check h a && compatible (sty h (OArg (Some p)) (Some p) a) p && go l' ps'
              | _, _ => true
              end) args ps
         | _ => false
         end
  | Syn.ECast a t =>
    check h a && match sty h ONone None a, named_type t with YU32, YFelt => true | _, _ => false end
  | _ => false
  end.
End Types.

(** mir_types.rs 189-260: [from_semantic_type]. *)
Definition mty (t : yty) : Mir.ty :=
  match t with YFelt => TFelt | YU32 => TU32 | YBool => TBool | YUnit => TTuple [] | YFn => TFun | YErr => TErr end.
Definition sop_of (op : bop) : sop :=
  match op with
  | BAdd => SAdd | BSub => SSub | BMul => SMul | BDiv => SDiv | BMod => SMod
  | BEq => SEq | BNeq => SNeq | BLt => SLt | BGt => SGt | BLe => SLe | BGe => SGe
  | BAnd => SAnd | BOr => SOr | BBitAnd => SBitAnd | BBitOr => SBitOr | BBitXor => SBitXor
  end.
Definition unop_of (op : uop) : unop := match op with UNot => Not | UNeg => Neg end.

Local Notation "'do' p <- e ; k" := (match e with Some p => k | None => None end)
  (at level 200, p pattern, e at level 100, k at level 200).

(** Lowering: the instructions and the types of the value ids so far. *)
Definition code : Type := list minstr * list Mir.ty.
Definition new_id (t : Mir.ty) (s : code) : nat * code := (length (snd s), (fst s, snd s ++ [t])).
Definition emit1 (i : minstr) (s : code) : code := (fst s ++ [i], snd s).
(** expr.rs 60-400, 566-597.  [env] gives the value id of each variable. *)
Fixpoint lower (G : scope) (env : list nat) (h : option yty) (o : origin) (e : Syn.expr) (s : code) {struct e}
  : option (value * code) :=
  match e with
  | Syn.ELit v _ => Some (Lit (LInt (Z.of_N v mod 2 ^ 32)%Z), s)
  | Syn.EBool b => Some (Lit (LBool b), s)
  | Syn.EPar a => lower G env h ONone a s
  | Syn.EId x =>
    match find G x with
    | Some (EnVar _ n) => do i <- nth_error env n; Some (Op i, s)
    | _ => None
    end
  | Syn.EUn op a =>
    do (v, s1) <- lower G env h ONone a s;
    let (d, s2) := new_id (mty (sty G h o None e)) s1 in
    Some (Op d, emit1 (IUnary (unop_of op) d v) s2)
  | Syn.EBin op l r =>
    do (v, s1) <- lower G env h ONone l s;
    do (w, s2) <- lower G env h ONone r s1;
    let (d, s3) := new_id (mty (sty G h o None e)) s2 in
    do p <- from_parser (sop_of op) (mty (sty G h ONone None l));
    Some (Op d, emit1 (IBinary p d v w) s3)
  | Syn.ECall (Syn.EId f) args =>
    match find G f with
    | Some (EnFn k ps r) =>
      do (vs, s1) <-
        (fix go l qs s := match l with
         | [] => Some ([], s)
         | a :: l' => do (v, s1) <- lower G env h (OArg (hd_error qs)) a s;
                      do (vs, s2) <- go l' (tl qs) s1; Some (v :: vs, s2)
         end) args ps s;
      let (d, s2) := new_id (mty r) s1 in
      Some (Op d, emit1 (ICall [d] k vs (map mty ps)) s2)
    | _ => None
    end
  | Syn.ECast a t =>
    do (v, s1) <- lower G env h ONone a s;
    let (d, s2) := new_id (mty (named_type t)) s1 in
    Some (Op d, emit1 (ICast d v (mty (sty G h ONone None a)) (mty (named_type t))) s2)
  | _ => None
  end.

(** A function: parameters, result, declarations (name, annotation, value), returned value. *)
Record rfn : Set := Rfn {
  r_params : list (string * yty);
  r_ret : yty;
  r_lets : list (string * option yty * Syn.expr);
  r_val : Syn.expr }.
Definition file : Set := list (string * rfn).

Fixpoint globals_from (k : nat) (m : file) : scope :=
  match m with [] => [] | (n, f) :: r => (n, EnFn k (map snd (r_params f)) (r_ret f)) :: globals_from (S k) r end.
(** The scope in a function: parameters, then declarations. *)
Definition add_var (G : scope) (n : nat) (x : string) (t : yty) : scope := (x, EnVar t n) :: G.
Fixpoint add_params (G : scope) (n : nat) (ps : list (string * yty)) : scope :=
  match ps with [] => G | (x, t) :: r => add_params (add_var G n x t) (S n) r end.
(** type_resolution.rs 117-137: the type of a variable. *)
Definition let_type (G : scope) (a : option yty) (e : Syn.expr) : yty :=
  match a with Some t => t | None => sty G None ONone None e end.
Fixpoint add_lets (G : scope) (n : nat) (ls : list (string * option yty * Syn.expr)) : scope :=
  match ls with [] => G | (x, a, e) :: r => add_lets (add_var G n x (let_type G a e)) (S n) r end.
(** 338-390: the expected type of a returned expression is the result of the first function
    of the file: the root scope, where all functions are defined, contains the expression. *)
Definition ret_origin (m : file) : origin := ORet (option_map (fun f => r_ret (snd f)) (hd_error m)).

(** literal_validator.rs 125-240: the literal that initialises a variable with an annotation. *)
Definition lit_ok (t : yty) (e : Syn.expr) : bool :=
  match t, e with
  | YU32, Syn.ELit v _ => (v <=? 4294967295)%N
  | YFelt, Syn.ELit v _ => (v <=? 2147483647)%N
  | (YU32 | YFelt), Syn.EUn UNeg _ => false
  | _, _ => true
  end.
(** type_validator.rs 1555-1595, 1974-2030. *)
Fixpoint check_lets (G : scope) (n : nat) (ls : list (string * option yty * Syn.expr)) : bool :=
  match ls with
  | [] => true
  | (x, a, e) :: r =>
    check G a e
    && match a with Some t => compatible (sty G a ONone None e) t && lit_ok t e | None => true end
    && check_lets (add_var G n x (let_type G a e)) (S n) r
  end.
Definition check_fn (m : file) (f : rfn) : bool :=
  let G := add_params (globals_from 0 m) 0 (r_params f) in
  let n := length (r_params f) in
  let G' := add_lets G n (r_lets f) in
  check_lets G n (r_lets f) && check G' None (r_val f)
  && compatible (sty G' None (ret_origin m) None (r_val f)) (r_ret f).
Definition accepts (m : file) : bool := forallb (fun f => check_fn m (snd f)) m.

(** stmt.rs 122-142 and builder.rs 653-712: declarations. *)
Fixpoint lower_lets (G : scope) (env : list nat) (ls : list (string * option yty * Syn.expr)) (s : code)
  : option (list nat * code) :=
  match ls with
  | [] => Some (env, s)
  | (x, a, e) :: r =>
    do (v, s1) <- lower G env a ONone e s;
    let t := let_type G a e in
    match v with
    | Op i => lower_lets (add_var G (length env) x t) (env ++ [i]) r s1
    | Lit _ => let (d, s2) := new_id (mty t) s1 in
               lower_lets (add_var G (length env) x t) (env ++ [d]) r (emit1 (IAssign d v (mty t)) s2)
    | VErr => None
    end
  end.
(** function.rs 205-334, stmt.rs 144-185. *)
Definition lower_rfn (m : file) (f : rfn) : option func :=
  let n := length (r_params f) in
  let G := add_params (globals_from 0 m) 0 (r_params f) in
  do (env, s1) <- lower_lets G (seq 0 n) (r_lets f) ([], map (fun p => mty (snd p)) (r_params f));
  do (v, s2) <- lower (add_lets G n (r_lets f)) env None (ret_origin m) (r_val f) s1;
  let (r, s3) := new_id (mty (r_ret f)) s2 in
  Some (Func [Block (fst s3) (TReturn [v]) []] 0 (seq 0 n) [r] (length (snd s3)) (nth_error (snd s3))).
Fixpoint lower_file (all m : file) : option (list (string * func)) :=
  match m with
  | [] => Some []
  | (n, f) :: r => do g <- lower_rfn all f; do gs <- lower_file all r; Some ((n, g) :: gs)
  end.
