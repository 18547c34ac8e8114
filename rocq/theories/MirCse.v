(** Local common-subexpression elimination.

    Models crates/compiler/mir/src/passes/local_cse.rs. *)
From Coq Require Import ZArith Bool String List.
From Verif Require Import Mir MirPasses MirCopy.
Import ListNotations.
Open Scope nat_scope.

(** local_cse.rs 9-51: [PureExpressionKey].  The result types of binary and unary keys
    are functions of the operator and are left out. *)
Inductive ekey : Set :=
| KBinary (op : binop) (left right : nat)
| KUnary (op : unop) (operand : nat)
| KExtractTuple (tuple index : nat) (t : ty)
| KExtractField (sv : nat) (field : string) (t : ty)
| KMakeTuple (es : list nat)
| KMakeStruct (fs : list (string * nat)) (t : ty).

Definition op_id (v : value) : option nat := match v with Op i => Some i | _ => None end.
Fixpoint op_ids (vs : list value) : option (list nat) :=
  match vs with
  | [] => Some []
  | v :: r => match op_id v, op_ids r with Some i, Some l => Some (i :: l) | _, _ => None end
  end.
Fixpoint field_ids (fs : list (string * value)) : option (list (string * nat)) :=
  match fs with
  | [] => Some []
  | (n, v) :: r => match op_id v, field_ids r with Some i, Some l => Some ((n, i) :: l) | _, _ => None end
  end.

(** local_cse.rs 54-196: [from_instruction].  A fixed array is keyed as a tuple. *)
Definition key_of (i : minstr) : option ekey :=
  match i with
  | IBinary op _ (Op l) (Op r) => Some (KBinary op l r)
  | IUnary op _ (Op v) => Some (KUnary op v)
  | IExtractTuple _ (Op v) n t => Some (KExtractTuple v n t)
  | IExtractField _ (Op v) n t => Some (KExtractField v n t)
  | IMakeTuple _ es => option_map KMakeTuple (op_ids es)
  | IMakeStruct _ fs t => option_map (fun l => KMakeStruct l t) (field_ids fs)
  | IMakeArray _ es _ _ => option_map KMakeTuple (op_ids es)
  | _ => None
  end.

(** Derived equality of keys. *)
Definition binop_eqb (a b : binop) : bool :=
  match a, b with
  | Add, Add | Sub, Sub | Mul, Mul | Div, Div | Eq, Eq | Neq, Neq | Less, Less | Greater, Greater
  | LessEqual, LessEqual | GreaterEqual, GreaterEqual | And, And | Or, Or | U32Add, U32Add
  | U32Sub, U32Sub | U32Mul, U32Mul | U32Div, U32Div | U32Rem, U32Rem | U32Eq, U32Eq
  | U32Neq, U32Neq | U32Less, U32Less | U32Greater, U32Greater | U32LessEqual, U32LessEqual
  | U32GreaterEqual, U32GreaterEqual | U32BitwiseAnd, U32BitwiseAnd
  | U32BitwiseOr, U32BitwiseOr | U32BitwiseXor, U32BitwiseXor => true
  | _, _ => false
  end.
Fixpoint list_eqb {A} (eqb : A -> A -> bool) (a b : list A) : bool :=
  match a, b with
  | [], [] => true
  | x :: a', y :: b' => eqb x y && list_eqb eqb a' b'
  | _, _ => false
  end.
Definition ekey_eqb (a b : ekey) : bool :=
  match a, b with
  | KBinary o l r, KBinary o' l' r' => binop_eqb o o' && Nat.eqb l l' && Nat.eqb r r'
  | KUnary Not v, KUnary Not v' | KUnary Neg v, KUnary Neg v' => Nat.eqb v v'
  | KExtractTuple v n t, KExtractTuple v' n' t' => Nat.eqb v v' && Nat.eqb n n' && ty_eqb t t'
  | KExtractField v n t, KExtractField v' n' t' => Nat.eqb v v' && String.eqb n n' && ty_eqb t t'
  | KMakeTuple es, KMakeTuple es' => list_eqb Nat.eqb es es'
  | KMakeStruct fs t, KMakeStruct fs' t' =>
    list_eqb (fun x y => String.eqb (fst x) (fst y) && Nat.eqb (snd x) (snd y)) fs fs' && ty_eqb t t'
  | _, _ => false
  end.

(** local_cse.rs 219-248: the scan; a table of first occurrences, and the replacements. *)
Fixpoint find_key (k : ekey) (tab : list (ekey * nat)) : option nat :=
  match tab with
  | [] => None
  | (k', s) :: r => if ekey_eqb k k' then Some s else find_key k r
  end.
Fixpoint scan (tab : list (ekey * nat)) (is : list minstr) : list (nat * nat) :=
  match is with
  | [] => []
  | i :: r =>
    match key_of i, dest i with
    | Some k, Some d =>
      match find_key k tab with
      | Some s => (d, s) :: scan tab r
      | None => scan ((k, d) :: tab) r
      end
    | _, _ => scan tab r
    end
  end.

(** local_cse.rs 265-284: [remove_redundant_instructions]: every instruction of the block
    with one destination, and that unused, goes. *)
Definition result_used (g : func) (i : minstr) : bool :=
  match dest i with Some d => Nat.ltb 0 (use_count g d) | None => true end.
Definition remove_unused (b : nat) (g : func) : func :=
  with_blocks g (upd_nth b (fun blk => Block (filter (result_used g) (b_instrs blk)) (b_term blk) (b_preds blk))
                         (f_blocks g)).

(** local_cse.rs 215-262: [process_block]. *)
Definition process_block (f : func) (b : nat) : func :=
  match nth_error (f_blocks f) b with
  | None => f
  | Some blk =>
    match scan [] (b_instrs blk) with
    | [] => f
    | l => remove_unused b (replace_list l f)
    end
  end.

(** local_cse.rs 287-301: [run]. *)
Definition local_cse (f : func) : func := fold_left process_block (seq 0 (length (f_blocks f))) f.
