(** The meaning of a file as it is written: names and blocks, no numbers for variables, no
    types computed in advance.

    A function runs with a list of named values, the most recent first.  A declaration adds
    one; a name stands for the first one of that name; an assignment changes it, unless it is a
    constant; a constant keeps the value its expression had where it was declared; at the end of a
    block, branch or loop body the values that were added in it are dropped.  A number
    without suffix has the type of what it meets: the other operand, the assigned variable,
    the declared type of a variable, parameter or result; alone it is a felt.  Functions are
    known by name everywhere.  The name of a constant stands for the value of its expression,
    in which the constants written before it are known.  [assert] is built in.  Written from docs/ and without reference
    to the compiler; the arithmetic is that of SrcSem.v. *)
From Coq Require Import ZArith NArith Bool String List.
From Verif Require Import M31 Isa Mir MirSem Src SrcSem Syn.
Import ListNotations.
Open Scope list_scope.

(** What a name stands for: a variable or a constant (the outcome of its expression matters where
    the constant is used). *)
Inductive named : Type := NVar (v : val) | NConst (v : res val).
Definition names : Type := list (string * named).
Fixpoint value_of (r : names) (x : string) : option named :=
  match r with [] => None | (y, v) :: r' => if String.eqb y x then Some v else value_of r' x end.
Fixpoint change (r : names) (x : string) (v : val) : option names :=
  match r with
  | [] => None
  | (y, w) :: r' => if String.eqb y x then Some ((y, NVar v) :: r') else option_map (cons (y, w)) (change r' x v)
  end.

Definition bop_meaning (op : bop) : sop :=
  match op with
  | BAdd => SAdd | BSub => SSub | BMul => SMul | BDiv => SDiv | BMod => SMod
  | BEq => SEq | BNeq => SNeq | BLt => SLt | BGt => SGt | BLe => SLe | BGe => SGe
  | BAnd => SAnd | BOr => SOr | BBitAnd => SBitAnd | BBitOr => SBitOr | BBitXor => SBitXor
  end.
Definition uop_meaning (op : uop) : unop := match op with UNot => Not | UNeg => Neg end.
Definition type_named (t : Syn.ty) : option Mir.ty :=
  match t with TyName NFelt => Some TFelt | TyName NU32 => Some TU32 | TyName NBool => Some TBool | _ => None end.

(** A number without suffix, or a value. *)
Inductive nval : Type := Num (n : Z) | Val (v : val).
(** The value at a given type. *)
Definition at_type (t : Mir.ty) (a : nval) : res val := match a with Num n => lit_val n t | Val v => ROk v end.
(** The value of the type of [v]. *)
Definition like (v : val) (a : nval) : val :=
  match a with Num n => match v with VU32 _ => VU32 n | _ => VFelt n end | Val w => w end.
Definition operate (op : bop) (a b : nval) : res val :=
  match a, b with
  | Num m, Num n => src_bin (bop_meaning op) (VFelt m) (VFelt n)
  | Num _, Val v => src_bin (bop_meaning op) (like v a) v
  | Val v, _ => src_bin (bop_meaning op) v (like v b)
  end.

Inductive nout : Type := NNext (r : names) | NBreak (r : names) | NCont (r : names) | NRet (v : option val).
(** Leaving a block that was entered with [r]. *)
Definition drop_to (r r' : names) : names := skipn (length r' - length r) r'.
Definition leave (r : names) (o : nout) : nout :=
  match o with
  | NNext r' => NNext (drop_to r r')
  | NBreak r' => NBreak (drop_to r r')
  | NCont r' => NCont (drop_to r r')
  | NRet v => NRet v
  end.
Definition leaving (r : names) (x : res nout) : res nout := rbind x (fun o => ROk (leave r o)).

Section Sem.
(** The functions of the file: the declared parameter types; what a call returns.  The
    constants. *)
Variable params : string -> option (list Mir.ty).
Variable konst : string -> option (res val).
Variable call : string -> list val -> res (option val).
(** The declared result. *)
Variable ret : option Mir.ty.

(** The arguments, from left to right, at the types [ts]. *)
Definition arguments (ev : Syn.expr -> res nval) : list Syn.expr -> list Mir.ty -> res (list val) :=
  fix go l ts := match l with
    | [] => ROk []
    | a :: l' => rbind (rbind (ev a) (at_type (hd TErr ts))) (fun v => rbind (go l' (tl ts)) (fun vs => ROk (v :: vs)))
    end.
(** A call of [f], which must not be the name of a variable or of a constant of the function. *)
Definition called (r : names) (f : string) (args : list Mir.ty -> res (list val)) : res (option val) :=
  match value_of r f, params f with
  | None, Some ts => rbind (args ts) (call f)
  | _, _ => RStuck
  end.

Fixpoint nev (r : names) (e : Syn.expr) {struct e} : res nval :=
  match e with
  | Syn.ELit n None => ROk (Num (Z.of_N n))
  | Syn.ELit n (Some s) =>
    if String.eqb s "u32" then ROk (Val (VU32 (Z.of_N n)))
    else if String.eqb s "felt" then ROk (Val (VFelt (Z.of_N n))) else RStuck
  | Syn.EBool b => ROk (Val (VBool b))
  | Syn.EId x => match value_of r x with
    | Some (NVar v) => ROk (Val v)
    | Some (NConst v) => rbind v (fun v => ROk (Val v))
    | None => match konst x with Some v => rbind v (fun v => ROk (Val v)) | None => RStuck end
    end
  | Syn.EPar a => nev r a
  | Syn.EUn op a =>
    rbind (nev r a) (fun a => rbind (at_type TFelt a) (fun v => rbind (src_un (uop_meaning op) v) (fun w => ROk (Val w))))
  | Syn.EBin op a b =>
    rbind (nev r a) (fun a => rbind (nev r b) (fun b => rbind (operate op a b) (fun w => ROk (Val w))))
  | Syn.ECall (Syn.EId f) args =>
    rbind (called r f (arguments (fun a => nev r a) args)) (fun o => match o with Some v => ROk (Val v) | None => RStuck end)
  | Syn.ECast a _ =>
    rbind (nev r a) (fun a => rbind (at_type TFelt a) (fun v =>
      match v with VU32 z => if (z <? P)%Z then ROk (Val (VFelt z)) else RTrap | _ => RStuck end))
  | _ => RStuck
  end.

Definition ncond (r : names) (e : Syn.expr) (k : bool -> res nout) : res nout :=
  rbind (nev r e) (fun a => match a with Val (VBool b) => k b | _ => RStuck end).
Definition declared_type (t : option Syn.ty) : option Mir.ty := match t with Some t => type_named t | None => Some TFelt end.

(** Running a statement; [n] bounds the nesting of statements and the number of rounds. *)
Fixpoint nexec (n : nat) (r : names) (c : Syn.stmt) {struct n} : res nout :=
  match n with
  | O => RFuel
  | S k =>
    match c with
    | Syn.SLet (PId x) t e =>
      match declared_type t with
      | Some t => rbind (rbind (nev r e) (at_type t)) (fun v => ROk (NNext ((x, NVar v) :: r)))
      | None => RStuck
      end
    | Syn.SConst d =>
      match declared_type (c_ty d) with
      | Some t => ROk (NNext ((c_name d, NConst (rbind (nev r (c_val d)) (at_type t))) :: r))
      | None => RStuck
      end
    | Syn.SAssign (Syn.EId x) e =>
      rbind (nev r e) (fun a =>
        match value_of r x with
        | Some (NVar old) => match change r x (like old a) with Some r' => ROk (NNext r') | None => RStuck end
        | _ => RStuck
        end)
    | Syn.SReturn None => ROk (NRet None)
    | Syn.SReturn (Some e) =>
      match ret with
      | Some t => rbind (rbind (nev r e) (at_type t)) (fun v => ROk (NRet (Some v)))
      | None => RStuck
      end
    | Syn.SExpr (Syn.ECall (Syn.EId f) args) =>
      if String.eqb f "assert" then
        match args with
        | [e] => ncond r e (fun b => if b then ROk (NNext r) else RTrap)
        | _ => RStuck
        end
      else rbind (called r f (arguments (nev r) args)) (fun _ => ROk (NNext r))
    | Syn.SExpr e => rbind (nev r e) (fun _ => ROk (NNext r))
    | Syn.SIf e a (Some b) => leaving r (ncond r e (fun v => nexec k r (if v then a else b)))
    | Syn.SIf e a None => leaving r (ncond r e (fun v => if v then nexec k r a else ROk (NNext r)))
    | Syn.SBlock [] => ROk (NNext r)
    | Syn.SBlock (a :: l) =>
      leaving r (rbind (nexec k r a) (fun o => match o with NNext r' => nexec k r' (Syn.SBlock l) | _ => ROk o end))
    | Syn.SWhile e b =>
      ncond r e (fun v =>
        if v then rbind (leaving r (nexec k r b)) (fun o =>
                  match o with
                  | NNext r' | NCont r' => nexec k r' (Syn.SWhile e b)
                  | NBreak r' => ROk (NNext r')
                  | NRet v => ROk (NRet v)
                  end)
        else ROk (NNext r))
    | Syn.SLoop b =>
      rbind (leaving r (nexec k r b)) (fun o =>
        match o with
        | NNext r' | NCont r' => nexec k r' (Syn.SLoop b)
        | NBreak r' => ROk (NNext r')
        | NRet v => ROk (NRet v)
        end)
    | Syn.SFor i e st b =>
      leaving r (rbind (nexec k r i) (fun o => match o with NNext r' => nfor k r' e st b | _ => RStuck end))
    | Syn.SBreak => ROk (NBreak r)
    | Syn.SContinue => ROk (NCont r)
    | _ => RStuck
    end
  end
(** The rounds of a [for] loop: [continue] runs the step. *)
with nfor (n : nat) (r : names) (e : Syn.expr) (st b : Syn.stmt) {struct n} : res nout :=
  match n with
  | O => RFuel
  | S k =>
    ncond r e (fun v =>
      if v then rbind (leaving r (nexec k r b)) (fun o =>
                match o with
                | NNext r' | NCont r' =>
                  rbind (leaving r (nexec k r' st)) (fun o' =>
                    match o' with NNext r'' => nfor k r'' e st b | _ => RStuck end)
                | NBreak r' => ROk (NNext r')
                | NRet v => ROk (NRet v)
                end)
      else ROk (NNext r))
  end.
End Sem.

(** The functions of a file, by name. *)
Fixpoint function (m : module) (f : string) : option fdef :=
  match m with
  | IFn d :: r => if String.eqb (f_name d) f then Some d else function r f
  | _ :: r => function r f
  | [] => None
  end.
Fixpoint types_named (l : list (string * Syn.ty)) : option (list Mir.ty) :=
  match l with
  | [] => Some []
  | (_, t) :: r => match type_named t, types_named r with Some t, Some ts => Some (t :: ts) | _, _ => None end
  end.
Definition params_of (m : module) (f : string) : option (list Mir.ty) :=
  match function m f with Some d => types_named (f_params d) | None => None end.


(** A number alone is a felt, as for variables. *)
Definition constant (params : string -> option (list Mir.ty)) (call : string -> list val -> res (option val))
    (before : string -> option (res val)) (c : cdef) : string -> option (res val) :=
  fun x => if String.eqb (c_name c) x
           then match declared_type (c_ty c) with
                | Some t => Some (rbind (nev params before call [] (c_val c)) (at_type t))
                | None => None
                end
           else before x.
Fixpoint constants (params : string -> option (list Mir.ty)) (call : string -> list val -> res (option val))
    (m : module) (before : string -> option (res val)) : string -> option (res val) :=
  match m with
  | [] => before
  | IConst c :: r => constants params call r (constant params call before c)
  | _ :: r => constants params call r before
  end.
(** Running the function [d] of the file [m] with the given meaning of calls. *)
Definition run_function (params : string -> option (list Mir.ty)) (call : string -> list val -> res (option val))
    (m : module) (F : nat) (d : fdef) (args : list val) : res (option val) :=
  if Nat.eqb (length args) (length (f_params d)) then
    rbind (nexec params (constants params call m (fun _ => None)) call (type_named (f_ret d)) F
             (rev (combine (map fst (f_params d)) (map NVar args))) (Syn.SBlock (f_body d)))
      (fun o => match o with NRet v => ROk v | _ => RStuck end)
  else RStuck.
(** Calling the function [f] of a file: [n] bounds the depth of calls, [F] the work of each. *)
Fixpoint file_call (m : module) (F n : nat) (f : string) (args : list val) : res (option val) :=
  match n with
  | O => RFuel
  | S n' =>
    match function m f with
    | Some d => run_function (params_of m) (file_call m F n') m F d args
    | None => RStuck
    end
  end.
