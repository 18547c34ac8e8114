(** How MIR values sit in machine memory, and the opcode the code generator picks for an
    operator (crates/compiler/codegen/src/builder/felt.rs 183-203,
    builder/u32_ops.rs: the two-operand, frame-relative forms). *)
From Coq Require Import ZArith Bool List.
From Verif Require Import M31 Instr Isa Mir MirSem.
Import ListNotations.
Open Scope Z_scope.

(** The cells of a scalar: one for a felt or a boolean, two 16-bit limbs for a u32. *)
Definition holds (m : Z -> Z) (a : Z) (v : val) : Prop :=
  match v with
  | VFelt z => m a = z /\ 0 <= z < P
  | VBool b => m a = (if b then 1 else 0)
  | VU32 z => 0 <= z < B32 /\ m a = z mod B16 /\ m ((a + 1) mod P) = z / B16
  | _ => False
  end.

(** The opcode for [dst := a op b] ([t] is the scratch slot of the division), and the
    slot that receives the result.  The remaining operators are expanded into several
    instructions and are treated separately. *)
Definition opcode (op : binop) (a b d t : Z) : option instr :=
  match op with
  | Add => Some (StoreAddFpFp a b d)
  | Sub => Some (StoreSubFpFp a b d)
  | Mul => Some (StoreMulFpFp a b d)
  | Div => Some (StoreDivFpFp a b d)
  | U32Add => Some (U32StoreAddFpFp a b d)
  | U32Sub => Some (U32StoreSubFpFp a b d)
  | U32Mul => Some (U32StoreMulFpFp a b d)
  | U32Div => Some (U32StoreDivRemFpFp a b d t)
  | U32Rem => Some (U32StoreDivRemFpFp a b t d)
  | U32Eq => Some (U32StoreEqFpFp a b d)
  | U32Less => Some (U32StoreLtFpFp a b d)
  | U32BitwiseAnd => Some (U32StoreAndFpFp a b d)
  | U32BitwiseOr => Some (U32StoreOrFpFp a b d)
  | U32BitwiseXor => Some (U32StoreXorFpFp a b d)
  | _ => None
  end.
Definition slot (s : state) (o : Z) : Z := (fp s + o) mod P.
(** The two-cell areas at offsets [d] and [t] do not overlap. *)
Definition apart (s : state) (d t : Z) : Prop :=
  forall i j, (i = 0 \/ i = 1) -> (j = 0 \/ j = 1) -> (slot s d + i) mod P <> (slot s t + j) mod P.
