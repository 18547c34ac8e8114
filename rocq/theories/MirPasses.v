(** Constant evaluation and the passes that rewrite one instruction or one terminator
    at a time: ArithmeticSimplify, ConstantFolding, SimplifyBranches, FuseCmpBranch.

    Models crates/compiler/mir/src/passes/{const_eval,arithmetic_simplify,
    constant_folding,simplify_branches,fuse_cmp}.rs.  A pass returns [None] when the
    compiler panics. *)
From Coq Require Import ZArith Bool String List.
From Verif Require Import M31 Isa Mir MirSem.
Import ListNotations.
Open Scope Z_scope.

(** Outcome of evaluating a constant expression: a literal, not evaluable, or a panic
    (division by a literal that is zero in the field). *)
Inductive ev : Set := EvLit (l : lit) | EvNo | EvPanic.

(** const_eval.rs 24-133: [ConstEvaluator::eval_binary_op]. *)
Definition eval_binary_op (op : binop) (l r : lit) : ev :=
  match op, l, r with
  | Add, LInt a, LInt b => EvLit (LInt (madd (mfrom a) (mfrom b)))
  | Sub, LInt a, LInt b => EvLit (LInt (msub (mfrom a) (mfrom b)))
  | Mul, LInt a, LInt b => EvLit (LInt (mmul (mfrom a) (mfrom b)))
  | Div, LInt a, LInt b =>
    if b =? 0 then EvNo
    else match mdiv (mfrom a) (mfrom b) with
         | Some q => EvLit (LInt q)
         | None => EvPanic
         end
  | Eq, LInt a, LInt b => EvLit (LBool (a =? b))
  | Neq, LInt a, LInt b => EvLit (LBool (negb (a =? b)))
  | U32Add, LInt a, LInt b => EvLit (LInt ((a + b) mod B32))
  | U32Sub, LInt a, LInt b => EvLit (LInt ((a - b) mod B32))
  | U32Mul, LInt a, LInt b => EvLit (LInt ((a * b) mod B32))
  | U32Div, LInt a, LInt b => if b =? 0 then EvNo else EvLit (LInt (a / b))
  | U32Rem, LInt a, LInt b => if b =? 0 then EvNo else EvLit (LInt (a mod b))
  | U32Eq, LInt a, LInt b => EvLit (LBool (a =? b))
  | U32Neq, LInt a, LInt b => EvLit (LBool (negb (a =? b)))
  | U32Less, LInt a, LInt b => EvLit (LBool (a <? b))
  | U32Greater, LInt a, LInt b => EvLit (LBool (b <? a))
  | U32LessEqual, LInt a, LInt b => EvLit (LBool (a <=? b))
  | U32GreaterEqual, LInt a, LInt b => EvLit (LBool (b <=? a))
  | U32BitwiseAnd, LInt a, LInt b => EvLit (LInt (Z.land a b))
  | U32BitwiseOr, LInt a, LInt b => EvLit (LInt (Z.lor a b))
  | U32BitwiseXor, LInt a, LInt b => EvLit (LInt (Z.lxor a b))
  | And, LBool a, LBool b => EvLit (LBool (a && b))
  | Or, LBool a, LBool b => EvLit (LBool (a || b))
  | _, _, _ => EvNo
  end.

(** const_eval.rs: [eval_unary_op]. *)
Definition eval_unary_op (op : unop) (l : lit) : option lit :=
  match op, l with
  | Not, LBool b => Some (LBool (negb b))
  | Neg, LInt i => Some (LInt (mneg (mfrom i)))
  | _, _ => None
  end.

(** const_eval.rs: [is_zero], [as_bool], [identity_value], [absorbing_value]. *)
Definition is_zero (v : value) : bool :=
  match v with
  | Lit (LInt n) => n =? 0
  | Lit (LBool false) => true
  | _ => false
  end.
Definition as_bool (l : lit) : option bool :=
  match l with
  | LBool b => Some b
  | LInt n => Some (negb (n =? 0))
  | LUnit => None
  end.
Definition identity_value (op : binop) : option lit :=
  match op with
  | Add | Sub | U32Add | U32Sub => Some (LInt 0)
  | Mul | Div | U32Mul | U32Div => Some (LInt 1)
  | And => Some (LBool true)
  | Or => Some (LBool false)
  | _ => None
  end.
Definition absorbing_value (op : binop) : option lit :=
  match op with
  | Mul | U32Mul => Some (LInt 0)
  | And => Some (LBool false)
  | Or => Some (LBool true)
  | _ => None
  end.

(** arithmetic_simplify.rs 155-161: what to replace the operation by. *)
Inductive simp : Set := SAssign (v : value) | SNone | SPanic.

Definition is_lit (o : option lit) (v : value) : bool :=
  match o with Some l => value_eqb v (Lit l) | None => false end.

(** arithmetic_simplify.rs 31-82: [try_simplify_binary] ([Literal(l)] and [Assign(v)]
    results are both assignments of a value). *)
Definition try_simplify (op : binop) (l r : value) : simp :=
  if is_lit (identity_value op) l then SAssign r
  else if is_lit (identity_value op) r then SAssign l
  else if is_lit (absorbing_value op) l || is_lit (absorbing_value op) r
  then match absorbing_value op with Some a => SAssign (Lit a) | None => SNone end
  else match op, l, r with
       | (Eq | U32Eq), Op a, Op b => if Nat.eqb a b then SAssign (Lit (LBool true)) else SNone
       | (Neq | U32Neq), Op a, Op b => if Nat.eqb a b then SAssign (Lit (LBool false)) else SNone
       | (Sub | U32Sub), Op a, Op b => if Nat.eqb a b then SAssign (Lit (LInt 0)) else SNone
       | _, Lit a, Lit b =>
         match eval_binary_op op a b with
         | EvLit c => SAssign (Lit c)
         | EvNo => SNone
         | EvPanic => SPanic
         end
       | _, _, _ => SNone
       end.

(** arithmetic_simplify.rs 117-152 and 163-175. *)
Definition simplify_instr (i : minstr) : option minstr :=
  match i with
  | IBinary op d l r =>
    match try_simplify op l r with
    | SAssign v => Some (IAssign d v (result_type op))
    | SNone => Some i
    | SPanic => None
    end
  | _ => Some i
  end.

(** constant_folding.rs 31-76. *)
Definition fold_instr (i : minstr) : option minstr :=
  match i with
  | IBinary op d (Lit a) (Lit b) =>
    match eval_binary_op op a b with
    | EvLit c => Some (IAssign d (Lit c) (result_type op))
    | EvNo => Some i
    | EvPanic => None
    end
  | IUnary op d (Lit a) =>
    match eval_unary_op op a with
    | Some c => Some (IAssign d (Lit c) (match op with Not => TBool | Neg => TFelt end))
    | None => Some i
    end
  | _ => Some i
  end.

(** The two passes: every instruction of every block, in place. *)
Definition rewrite_block (fi : minstr -> option minstr) (b : block) : option block :=
  match omap fi (b_instrs b) with
  | Some is => Some (Block is (b_term b) (b_preds b))
  | None => None
  end.
Definition rewrite_all (fi : minstr -> option minstr) (f : func) : option func :=
  match omap (rewrite_block fi) (f_blocks f) with
  | Some bs => Some (with_blocks f bs)
  | None => None
  end.
Definition arithmetic_simplify : func -> option func := rewrite_all simplify_instr.
Definition constant_folding : func -> option func := rewrite_all fold_instr.

(** basic_block.rs 144-153 and function.rs 361-400: predecessor lists. *)
Definition add_pred (p : nat) (b : block) : block :=
  if mem_nat p (b_preds b) then b
  else Block (b_instrs b) (b_term b) (b_preds b ++ [p]).
Definition remove_pred (p : nat) (b : block) : block :=
  Block (b_instrs b) (b_term b) (filter (fun q => negb (Nat.eqb q p)) (b_preds b)).
Fixpoint upd_nth {A} (n : nat) (g : A -> A) (l : list A) : list A :=
  match n, l with
  | _, [] => []
  | O, a :: r => g a :: r
  | Datatypes.S k, a :: r => a :: upd_nth k g r
  end.
(** function.rs 685-711: [set_terminator_with_edges] (a target that does not exist
    panics in the code; here the block list is left as it is, and such a terminator has
    no meaning anyway). *)
Definition set_term (t : term) (b : block) : block := Block (b_instrs b) t (b_preds b).
Definition set_terminator_with_edges (id : nat) (t : term) (bs : list block) : list block :=
  match nth_error bs id with
  | None => bs
  | Some b =>
    let bs1 := fold_left (fun l x => upd_nth x (remove_pred id) l) (targets (b_term b)) bs in
    let bs2 := upd_nth id (set_term t) bs1 in
    fold_left (fun l x => upd_nth x (add_pred id) l) (targets t) bs2
  end.

(** simplify_branches.rs 35-87: the terminator to use instead, if any. *)
Inductive bsimp : Set := BTo (t : term) | BSame | BPanic.
Definition simplify_term (t : term) : bsimp :=
  match t with
  | TIf (Lit l) a b =>
    match as_bool l with
    | Some true => BTo (TJump a)
    | Some false => BTo (TJump b)
    | None => BSame
    end
  | TCmp op (Lit l) (Lit r) a b =>
    match eval_binary_op op l r with
    | EvLit (LBool true) => BTo (TJump a)
    | EvLit (LBool false) => BTo (TJump b)
    | EvLit _ | EvNo => BSame
    | EvPanic => BPanic
    end
  | _ => BSame
  end.
(** simplify_branches.rs 89-115: one block after the other. *)
Definition simplify_block (bs : list block) (id : nat) : option (list block) :=
  match nth_error bs id with
  | None => Some bs
  | Some b => match simplify_term (b_term b) with
              | BTo t => Some (set_terminator_with_edges id t bs)
              | BSame => Some bs
              | BPanic => None
              end
  end.
Fixpoint fold_opt {A B} (g : A -> B -> option A) (l : list B) (a : A) : option A :=
  match l with
  | [] => Some a
  | b :: r => match g a b with Some a' => fold_opt g r a' | None => None end
  end.
Definition simplify_branches (f : func) : option func :=
  match fold_opt simplify_block (seq 0 (length (f_blocks f))) (f_blocks f) with
  | Some bs => Some (with_blocks f bs)
  | None => None
  end.

(** fuse_cmp.rs 40-47: [is_fusible_comparison]. *)
Definition fusible (op : binop) : bool :=
  match op with Eq | Neq | U32Eq | U32Neq => true | _ => false end.
(** fuse_cmp.rs 50-128: one block; [once] says whether a value is used exactly once. *)
Fixpoint unsnoc {A} (l : list A) : option (list A * A) :=
  match l with
  | [] => None
  | [a] => Some ([], a)
  | a :: r => match unsnoc r with Some (i, x) => Some (a :: i, x) | None => None end
  end.
Definition fuse_term (op : binop) (l r : value) (a b : nat) : term :=
  match op, is_zero l, is_zero r with
  | (Eq | U32Eq), true, false => TIf r b a
  | (Eq | U32Eq), false, true => TIf l b a
  | (Neq | U32Neq), true, false => TIf r a b
  | (Neq | U32Neq), false, true => TIf l a b
  | _, _, _ => TCmp op l r a b
  end.
Definition fuse_block (once : nat -> bool) (blk : block) : block :=
  match b_term blk with
  | TIf (Op c) a b =>
    if once c then
      match unsnoc (b_instrs blk) with
      | Some (is, IBinary op d l r) =>
        if Nat.eqb d c && fusible op then Block is (fuse_term op l r a b) (b_preds blk) else blk
      | Some (is, IUnary Not d s) =>
        if Nat.eqb d c then Block is (TIf s b a) (b_preds blk) else blk
      | _ => blk
      end
    else blk
  | _ => blk
  end.
Definition fuse_cmp (f : func) : func :=
  with_blocks f (map (fuse_block (fun c => Nat.eqb (use_count f c) 1)) (f_blocks f)).
