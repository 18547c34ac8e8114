(** Syntax of the compiler's mid-level intermediate representation (MIR) and the
    generic operations on it.

    Models crates/compiler/mir/src/{instruction,terminator,value,function,
    basic_block,value_visitor,mir_types}.rs.  Simplifications: value and block ids
    are [nat]; source spans, expression ids, comments, block names, the [sealed] /
    [filled] flags and the local-variable table are dropped (no pass modelled here
    reads them); the recorded type of a value is a partial function. *)
From Coq Require Import ZArith Bool String List.
Import ListNotations.
Open Scope Z_scope.

(** mir_types.rs: [MirType].  The parameter list of [Function] and the name carried by
    the error type are dropped. *)
Inductive ty : Set :=
| TFelt | TBool | TU32
| TTuple (ts : list ty)
| TStruct (name : string) (fields : list (string * ty))
| TArr (elem : ty) (size : nat)
| TPtr (elem : ty)
| TFun | TUnit | TErr | TUnknown.

(** [PartialEq] of [MirType] (derived). *)
Fixpoint ty_eqb (a b : ty) {struct a} : bool :=
  match a, b with
  | TFelt, TFelt | TBool, TBool | TU32, TU32
  | TFun, TFun | TUnit, TUnit | TErr, TErr | TUnknown, TUnknown => true
  | TTuple xs, TTuple ys =>
    (fix go xs ys := match xs, ys with
                     | [], [] => true
                     | x :: xs', y :: ys' => ty_eqb x y && go xs' ys'
                     | _, _ => false
                     end) xs ys
  | TStruct n xs, TStruct m ys =>
    String.eqb n m &&
    (fix go xs ys := match xs, ys with
                     | [], [] => true
                     | (k, x) :: xs', (l, y) :: ys' => String.eqb k l && ty_eqb x y && go xs' ys'
                     | _, _ => false
                     end) xs ys
  | TArr x n, TArr y m => ty_eqb x y && Nat.eqb n m
  | TPtr x, TPtr y => ty_eqb x y
  | _, _ => false
  end.

(** value.rs 20-52: [Literal::Integer(u32)], [Boolean], [Unit]; [Value]. *)
Inductive lit : Set := LInt (n : Z) | LBool (b : bool) | LUnit.
Inductive value : Set := Lit (l : lit) | Op (v : nat) | VErr.

Definition lit_eqb (a b : lit) : bool :=
  match a, b with
  | LInt n, LInt m => n =? m
  | LBool x, LBool y => Bool.eqb x y
  | LUnit, LUnit => true
  | _, _ => false
  end.
Definition value_eqb (a b : value) : bool :=
  match a, b with
  | Lit x, Lit y => lit_eqb x y
  | Op x, Op y => Nat.eqb x y
  | VErr, VErr => true
  | _, _ => false
  end.

(** instruction.rs 20-57. *)
Inductive binop : Set :=
| Add | Sub | Mul | Div
| Eq | Neq | Less | Greater | LessEqual | GreaterEqual
| And | Or
| U32Add | U32Sub | U32Mul | U32Div | U32Rem
| U32Eq | U32Neq | U32Less | U32Greater | U32LessEqual | U32GreaterEqual
| U32BitwiseAnd | U32BitwiseOr | U32BitwiseXor.
Inductive unop : Set := Not | Neg.

(** instruction.rs 149-185: [BinaryOp::result_type]. *)
Definition result_type (op : binop) : ty :=
  match op with
  | Add | Sub | Mul | Div => TFelt
  | U32Add | U32Sub | U32Mul | U32Div | U32Rem
  | U32BitwiseAnd | U32BitwiseOr | U32BitwiseXor => TU32
  | _ => TBool
  end.

(** instruction.rs: [Projection], [Place]. *)
Inductive proj : Set := PIdx (v : value) | PField (name : string) | PTup (i : nat).
Record place : Set := Place { pl_base : nat; pl_projs : list proj }.

(** instruction.rs 235-372: [InstructionKind], in the same order.  A call keeps the
    parameter types of its signature (the only part read later). *)
Inductive minstr : Set :=
| IAssign (dest : nat) (source : value) (t : ty)
| IUnary (op : unop) (dest : nat) (source : value)
| IBinary (op : binop) (dest : nat) (left right : value)
| ICall (dests : list nat) (callee : nat) (args : list value) (params : list ty)
| ICast (dest : nat) (source : value) (source_type target_type : ty)
| ILoad (dest : nat) (pl : place) (t : ty)
| IStore (pl : place) (v : value) (t : ty)
| IDebug (message : string) (values : list value)
| INop
| IPhi (dest : nat) (t : ty) (sources : list (nat * value))
| IMakeTuple (dest : nat) (elements : list value)
| IExtractTuple (dest : nat) (tuple : value) (index : nat) (element_ty : ty)
| IMakeStruct (dest : nat) (fields : list (string * value)) (struct_ty : ty)
| IExtractField (dest : nat) (struct_val : value) (field : string) (field_ty : ty)
| IInsertField (dest : nat) (struct_val : value) (field : string) (new_value : value) (struct_ty : ty)
| IInsertTuple (dest : nat) (tuple_val : value) (index : nat) (new_value : value) (tuple_ty : ty)
| IMakeArray (dest : nat) (elements : list value) (element_ty : ty) (is_const : bool)
| IAssertEq (left right : value)
| IAlloc (dest : nat) (cells : value).

(** terminator.rs 22-52. *)
Inductive term : Set :=
| TJump (target : nat)
| TIf (cond : value) (then_target else_target : nat)
| TCmp (op : binop) (left right : value) (then_target else_target : nat)
| TReturn (values : list value)
| TUnreachable.

(** basic_block.rs: a block (the predecessor list is a field in the code; it is kept
    because critical-edge detection reads it). *)
Record block : Set := Block { b_instrs : list minstr; b_term : term; b_preds : list nat }.

(** function.rs: [MirFunction].  [f_types] is [value_types]. *)
Record func : Type := Func {
  f_blocks : list block; f_entry : nat; f_params : list nat; f_rets : list nat;
  f_next : nat; f_types : nat -> option ty }.

(** instruction.rs 672-700: [destinations]. *)
Definition dests (i : minstr) : list nat :=
  match i with
  | IAssign d _ _ | IUnary _ d _ | IBinary _ d _ _ | ICast d _ _ _ | ILoad d _ _
  | IPhi d _ _ | IMakeTuple d _ | IExtractTuple d _ _ _ | IMakeStruct d _ _
  | IExtractField d _ _ _ | IInsertField d _ _ _ _ | IInsertTuple d _ _ _ _
  | IMakeArray d _ _ _ | IAlloc d _ => [d]
  | ICall ds _ _ _ => ds
  | IDebug _ _ | INop | IStore _ _ _ | IAssertEq _ _ => []
  end.

(** instruction.rs 703-710: [destination], defined only when there is exactly one. *)
Definition dest (i : minstr) : option nat :=
  match dests i with [d] => Some d | _ => None end.

(** value_visitor.rs: the ids mentioned by values and places. *)
Definition val_ids (v : value) : list nat := match v with Op i => [i] | _ => [] end.
Definition vals_ids (vs : list value) : list nat := flat_map val_ids vs.
Definition proj_ids (p : proj) : list nat := match p with PIdx v => val_ids v | _ => [] end.
Definition place_ids (p : place) : list nat := pl_base p :: flat_map proj_ids (pl_projs p).

(** instruction.rs 713-850: [used_values] (a hash set in the code; a list here, used
    only through membership). *)
Definition uses (i : minstr) : list nat :=
  match i with
  | IAssign _ s _ | IUnary _ _ s | ICast _ s _ _ => val_ids s
  | IBinary _ _ l r | IAssertEq l r => val_ids l ++ val_ids r
  | ICall _ _ args _ => vals_ids args
  | ILoad _ p _ => place_ids p
  | IStore p v _ => place_ids p ++ val_ids v
  | IDebug _ vs => vals_ids vs
  | INop => []
  | IPhi _ _ ss => vals_ids (map snd ss)
  | IMakeTuple _ es | IMakeArray _ es _ _ => vals_ids es
  | IExtractTuple _ t _ _ => val_ids t
  | IMakeStruct _ fs _ => vals_ids (map snd fs)
  | IExtractField _ s _ _ => val_ids s
  | IInsertField _ s _ n _ | IInsertTuple _ s _ n _ => val_ids s ++ val_ids n
  | IAlloc _ c => val_ids c
  end.

(** terminator.rs 133-170 and 112-130. *)
Definition term_uses (t : term) : list nat :=
  match t with
  | TJump _ | TUnreachable => []
  | TIf c _ _ => val_ids c
  | TCmp _ l r _ _ => val_ids l ++ val_ids r
  | TReturn vs => vals_ids vs
  end.
Definition targets (t : term) : list nat :=
  match t with
  | TJump n => [n]
  | TIf _ a b | TCmp _ _ _ a b => [a; b]
  | TReturn _ | TUnreachable => []
  end.

(** Rewriting every value in use position by [fv] and every place base by [fb]; the
    shape shared by [replace_value_uses] (instruction.rs 853-942, terminator.rs
    173-200) and by constant propagation's operand rewriting. *)
Definition pmap (fv : value -> value) (p : proj) : proj :=
  match p with PIdx v => PIdx (fv v) | _ => p end.
Definition plmap (fv : value -> value) (fb : nat -> nat) (p : place) : place :=
  Place (fb (pl_base p)) (map (pmap fv) (pl_projs p)).
Definition imap (fv : value -> value) (fb : nat -> nat) (i : minstr) : minstr :=
  match i with
  | IAssign d s t => IAssign d (fv s) t
  | IUnary op d s => IUnary op d (fv s)
  | IBinary op d l r => IBinary op d (fv l) (fv r)
  | ICall ds c args ps => ICall ds c (map fv args) ps
  | ICast d s a b => ICast d (fv s) a b
  | ILoad d p t => ILoad d (plmap fv fb p) t
  | IStore p v t => IStore (plmap fv fb p) (fv v) t
  | IDebug m vs => IDebug m (map fv vs)
  | INop => INop
  | IPhi d t ss => IPhi d t (map (fun s => (fst s, fv (snd s))) ss)
  | IMakeTuple d es => IMakeTuple d (map fv es)
  | IExtractTuple d t n e => IExtractTuple d (fv t) n e
  | IMakeStruct d fs t => IMakeStruct d (map (fun f => (fst f, fv (snd f))) fs) t
  | IExtractField d s f t => IExtractField d (fv s) f t
  | IInsertField d s f n t => IInsertField d (fv s) f (fv n) t
  | IInsertTuple d s k n t => IInsertTuple d (fv s) k (fv n) t
  | IMakeArray d es t c => IMakeArray d (map fv es) t c
  | IAssertEq l r => IAssertEq (fv l) (fv r)
  | IAlloc d c => IAlloc d (fv c)
  end.
Definition tmap (fv : value -> value) (t : term) : term :=
  match t with
  | TIf c a b => TIf (fv c) a b
  | TCmp op l r a b => TCmp op (fv l) (fv r) a b
  | TReturn vs => TReturn (map fv vs)
  | TJump _ | TUnreachable => t
  end.

(** value_visitor.rs: [replace_value_id] on an id and on a value. *)
Definition sub_id (from to : nat) (i : nat) : nat := if Nat.eqb i from then to else i.
Definition sub_val (from to : nat) (v : value) : value :=
  match v with Op i => Op (sub_id from to i) | _ => v end.

(** function.rs: [replace_all_uses].  All instructions and terminators, the parameter
    and return lists; the type of [from] moves to [to] when [to] has none; no effect
    when the two ids are equal. *)
Definition bmap (fi : minstr -> minstr) (ft : term -> term) (b : block) : block :=
  Block (map fi (b_instrs b)) (ft (b_term b)) (b_preds b).
Definition replace_all_uses (from to : nat) (f : func) : func :=
  if Nat.eqb from to then f else
  Func (map (bmap (imap (sub_val from to) (sub_id from to)) (tmap (sub_val from to))) (f_blocks f))
       (f_entry f) (map (sub_id from to) (f_params f)) (map (sub_id from to) (f_rets f))
       (f_next f)
       (fun v => if Nat.eqb v from then None
                 else if Nat.eqb v to
                      then match f_types f to with Some t => Some t | None => f_types f from end
                      else f_types f v).

(** Replace the block list. *)
Definition with_blocks (f : func) (bs : list block) : func :=
  Func bs (f_entry f) (f_params f) (f_rets f) (f_next f) (f_types f).
(** Rewrite every instruction, leaving the terminators. *)
Definition map_instrs (fi : minstr -> minstr) (f : func) : func :=
  with_blocks f (map (bmap fi (fun t => t)) (f_blocks f)).

(** instruction.rs 970-979. *)
Definition has_side_effects (i : minstr) : bool :=
  match i with ICall _ _ _ _ | IDebug _ _ | IStore _ _ _ | IAlloc _ _ => true | _ => false end.

(** instruction.rs: [is_phi]. *)
Definition is_phi (i : minstr) : bool := match i with IPhi _ _ _ => true | _ => false end.

Definition mem_nat (x : nat) (l : list nat) : bool := existsb (Nat.eqb x) l.

(** function.rs 182-195: [get_value_use_counts] (an instruction or terminator counts
    once, however often it mentions the value). *)
Definition use_count (f : func) (v : nat) : nat :=
  fold_right (fun b n =>
    (length (filter (fun i => mem_nat v (uses i)) (b_instrs b))
     + (if mem_nat v (term_uses (b_term b)) then 1 else 0) + n)%nat) 0%nat (f_blocks f).
