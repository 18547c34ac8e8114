(** Legalisation of u32 comparisons, run on the MIR just before code generation.

    Models crates/compiler/codegen/src/mir_passes/legalize.rs. *)
From Coq Require Import ZArith Bool List.
From Verif Require Import Mir.
Import ListNotations.

(** codegen/src/builder/normalize.rs: [is_commutative_u32]. *)
Definition commutative_u32 (op : binop) : bool :=
  match op with
  | U32Add | U32Mul | U32BitwiseAnd | U32BitwiseOr | U32BitwiseXor | U32Eq | U32Neq => true
  | _ => false
  end.

(** legalize.rs 121-134: [canonicalize_commutative_u32] (the operator is unchanged). *)
Definition canon_comm (op : binop) (l r : value) : value * value :=
  if commutative_u32 op
  then match l, r with Lit _, Op _ => (r, l) | _, _ => (l, r) end
  else (l, r).

(** legalize.rs 37-111: one instruction, with the next unused value id.  Operators that
    need no rewriting keep the original instruction, operands not exchanged. *)
Definition legal_instr (n : nat) (i : minstr) : list minstr * nat :=
  match i with
  | IBinary op d l0 r0 =>
    let l := fst (canon_comm op l0 r0) in
    let r := snd (canon_comm op l0 r0) in
    match op with
    | U32Neq => ([IBinary U32Eq n l r; IUnary Not d (Op n)], S n)
    | U32Greater => ([IBinary U32Less d r l], n)
    | U32GreaterEqual => ([IBinary U32Less n l r; IUnary Not d (Op n)], S n)
    | U32LessEqual => ([IBinary U32Less n r l; IUnary Not d (Op n)], S n)
    | _ => ([i], n)
    end
  | _ => ([i], n)
  end.
Fixpoint legal_instrs (n : nat) (is : list minstr) : list minstr * nat :=
  match is with
  | [] => ([], n)
  | i :: r => let x := legal_instr n i in
              let y := legal_instrs (snd x) r in
              (fst x ++ fst y, snd y)
  end.
(** legalize.rs 27-36 and 112-118: block by block; terminators are not touched. *)
Fixpoint legal_blocks (n : nat) (bs : list block) : list block * nat :=
  match bs with
  | [] => ([], n)
  | b :: r => let x := legal_instrs n (b_instrs b) in
              let y := legal_blocks (snd x) r in
              (Block (fst x) (b_term b) (b_preds b) :: fst y, snd y)
  end.
(** Every id handed out is recorded with type bool ([new_typed_value_id]). *)
Definition legalize (f : func) : func :=
  let x := legal_blocks (f_next f) (f_blocks f) in
  Func (fst x) (f_entry f) (f_params f) (f_rets f) (snd x)
       (fun v => if (Nat.leb (f_next f) v && Nat.ltb v (snd x))%bool then Some TBool else f_types f v).
