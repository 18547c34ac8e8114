(** Reading a checked file: the source program (Src.v) in which every literal has the type that
    the checker gives it where it stands, with the expected types passed down.  And: which
    machine operators belong to the operators of a program. *)
From Coq Require Import ZArith NArith Bool String List.
From Verif Require Import Mir Src Lower Syn Typing.
Import ListNotations.
Open Scope list_scope.

Local Notation "'do' p <- e ; k" := (match e with Some p => k | None => None end)
  (at level 200, p pattern, e at level 100, k at level 200).

(** The operators of the two languages. *)
Definition the_op (op : bop) : sop :=
  match op with
  | BAdd => SAdd | BSub => SSub | BMul => SMul | BDiv => SDiv | BMod => SMod
  | BEq => SEq | BNeq => SNeq | BLt => SLt | BGt => SGt | BLe => SLe | BGe => SGe
  | BAnd => SAnd | BOr => SOr | BBitAnd => SBitAnd | BBitOr => SBitOr | BBitXor => SBitXor
  end.
Definition the_unop (op : uop) : unop := match op with UNot => Not | UNeg => Neg end.

Fixpoint reading (G : scope) (h : option yty) (o : origin) (c : option yty) (e : Syn.expr) {struct e} : option Src.expr :=
  let c' := match c with Some t => Some t | None => from_origin o e end in
  match e with
  | Syn.ELit v _ => Some (Src.ELit (Z.of_N v) (mty (sty G h o c e)))
  | Syn.EBool b => Some (Src.EBool b)
  | Syn.EPar a => reading G h ONone c' a
  | Syn.EId x => match find G x with Some (EnVar _ n) => if is_assert x then None else Some (Src.EVar n) | _ => None end
  | Syn.EUn op a => do a' <- reading G h ONone c' a; Some (Src.EUn (the_unop op) a')
  | Syn.EBin op l r =>
    if commutative op && unsuffixed l && negb (unsuffixed r) then
      do l' <- reading G h ONone (Some (sty G h ONone c' r)) l;
      do r' <- reading G h ONone c' r;
      Some (Src.EBin (the_op op) l' r')
    else
      do l' <- reading G h ONone c' l;
      do r' <- reading G h ONone (Some (sty G h ONone c' l)) r;
      Some (Src.EBin (the_op op) l' r')
  | Syn.ECall (Syn.EId f) args =>
    match find G f with
    | Some (EnFn k ps _) =>
      if is_assert f then None else
      do es <- (fix go l qs := match l with
                | [] => Some ENil
                | a :: l' => do a' <- reading G h (OArg (hd_error qs)) (hd_error qs) a;
                             do es <- go l' (tl qs); Some (ECons a' es)
                end) args ps;
      Some (Src.ECall k es)
    | _ => None
    end
  | Syn.ECast a t => do a' <- reading G h ONone None a; Some (Src.ECast a' (mty (named_type t)))
  | _ => None
  end.
Fixpoint read_lets (G : scope) (n : nat) (ls : list (string * option yty * Syn.expr)) : option (list Src.stmt * list yty) :=
  match ls with
  | [] => Some ([], [])
  | (x, a, e) :: r =>
    do e' <- reading G a ONone None e;
    let t := let_type G a e in
    do (ss, ts) <- read_lets (add_var G n x t) (S n) r;
    Some (Src.SLet n e' :: ss, t :: ts)
  end.
Definition ret_type (t : yty) : option Mir.ty := match t with YUnit => None | _ => Some (mty t) end.
(** The value is returned at the declared type. *)
Definition read_fn (m : file) (f : rfn) : option sfun :=
  let G := add_params (globals_from 0 m) 0 (r_params f) in
  let n := length (r_params f) in
  do (ss, ts) <- read_lets G n (r_lets f);
  do e' <- reading (add_lets G n (r_lets f)) None (ret_origin m) None (r_val f);
  Some (Sfun (fun x => nth x (map mty (map snd (r_params f) ++ ts)) TErr) (map (fun p => mty (snd p)) (r_params f))
             (ret_type (r_ret f)) (fold_right Src.SSeq Src.SSkip (ss ++ [Src.SReturn (Some e')]))).
Fixpoint read_file (all m : file) : option (list sfun) :=
  match m with
  | [] => Some []
  | (_, f) :: r => do g <- read_fn all f; do gs <- read_file all r; Some (g :: gs)
  end.

(** The operators of a typed program, in the order in which they are computed: for each the
    machine operator of its operand type. *)
Inductive machine_op : Set := MBin (o : option binop) | MUn (o : unop).
Fixpoint wanted (V : nat -> Mir.ty) (sg : sigs) (e : Src.expr) : list machine_op :=
  match e with
  | Src.ELit _ _ | Src.EBool _ | Src.EVar _ => []
  | Src.EUn op a => wanted V sg a ++ [MUn op]
  | Src.ECast a _ => wanted V sg a
  | Src.EBin op l r =>
    wanted V sg l ++ wanted V sg r
    ++ [MBin match type_of V sg l with Some t => from_parser op t | None => None end]
  | Src.ECall _ es => wanteds V sg es
  end
with wanteds (V : nat -> Mir.ty) (sg : sigs) (es : Src.exprs) : list machine_op :=
  match es with ENil => [] | ECons e r => wanted V sg e ++ wanteds V sg r end.
Definition operators (l : list minstr) : list machine_op :=
  flat_map (fun i => match i with IBinary o _ _ _ => [MBin (Some o)] | IUnary o _ _ => [MUn o] | _ => [] end) l.

(** An expression whose type is settled by its first operand: not by an expected type. *)
Fixpoint anchored (e : Syn.expr) : bool :=
  match e with
  | Syn.ELit _ (Some s) => match suffix_type s with Some _ => true | None => false end
  | Syn.ELit _ None => false
  | Syn.EPar a | Syn.EUn _ a | Syn.EBin _ a _ => anchored a
  | _ => true
  end.
(** The left operand of every operator is of that kind. *)
Fixpoint steady (e : Syn.expr) : bool :=
  match e with
  | Syn.EPar a | Syn.EUn _ a | Syn.ECast a _ => steady a
  | Syn.EBin _ l r => anchored l && steady l && steady r
  | Syn.ECall _ args => forallb steady args
  | _ => true
  end.
(** A scope and the signatures that the names in it have. *)
Definition fits_scope (G : scope) (V : nat -> Mir.ty) (sg : sigs) : Prop :=
  forall x, match find G x with
            | Some (EnVar t n) => V n = mty t
            | Some (EnFn k ps r) => nth_error sg k = Some (map mty ps, ret_type r)
            | None => True
            end.
