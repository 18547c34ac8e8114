(** The instruction set: variants, opcodes, encoding and decoding.
    Models crates/common/src/instruction.rs (macro 98-235, table 313-577,
    [to_qm31_vec] 591-607, JSON form 609-655).
    Generated once from the table of that file; the macro-generated functions are
    written out per variant, in table order. *)
From Coq Require Import ZArith Bool List.
From Verif Require Import M31.
Import ListNotations.
Open Scope Z_scope.

(** instruction.rs 27-34 [OperandType]: immediate, felt cell, u32 (two cells). *)
Inductive okind : Set := KImm | KFelt | KU32.

(** instruction.rs 106-111: the enum; fields in encoding order. *)
Inductive instr : Set :=
| StoreAddFpFp (src0_off src1_off dst_off : Z) (* = 0; lines 317-321 *)
| StoreSubFpFp (src0_off src1_off dst_off : Z) (* = 1; lines 323-327 *)
| StoreMulFpFp (src0_off src1_off dst_off : Z) (* = 2; lines 329-333 *)
| StoreDivFpFp (src0_off src1_off dst_off : Z) (* = 3; lines 335-339 *)
| StoreAddFpImm (src_off imm dst_off : Z) (* = 4; lines 343-347 *)
| StoreMulFpImm (src_off imm dst_off : Z) (* = 6; lines 349-353 *)
| StoreLeFpImm (src_off imm dst_off : Z) (* = 48; lines 357-361 *)
| AssertEqFpImm (src_off imm : Z) (* = 50; lines 364-367 *)
| StoreDoubleDerefFp (base_off imm dst_off : Z) (* = 8; lines 371-377 *)
| StoreDoubleDerefFpFp (base_off offset_off dst_off : Z) (* = 42; lines 379-385 *)
| StoreImm (imm dst_off : Z) (* = 9; lines 387-390 *)
| StoreFramePointer (imm dst_off : Z) (* = 43; lines 392-395 *)
| CallAbsImm (frame_off target : Z) (* = 10; lines 400-406 *)
| Ret (* = 11; lines 411-414 *)
| JmpAbsImm (target : Z) (* = 12; lines 418-418 *)
| JmpRelImm (offset : Z) (* = 13; lines 420-420 *)
| JnzFpImm (cond_off offset : Z) (* = 14; lines 424-427 *)
| U32StoreAddFpFp (src0_off src1_off dst_off : Z) (* = 15; lines 431-435 *)
| U32StoreSubFpFp (src0_off src1_off dst_off : Z) (* = 16; lines 437-441 *)
| U32StoreMulFpFp (src0_off src1_off dst_off : Z) (* = 17; lines 443-447 *)
| U32StoreDivRemFpFp (src0_off src1_off dst_off dst_rem_off : Z) (* = 18; lines 449-454 *)
| U32StoreAddFpImm (src_off imm_lo imm_hi dst_off : Z) (* = 19; lines 458-463 *)
| U32StoreMulFpImm (src_off imm_lo imm_hi dst_off : Z) (* = 21; lines 465-470 *)
| U32StoreDivRemFpImm (src_off imm_lo imm_hi dst_off dst_rem_off : Z) (* = 22; lines 472-478 *)
| U32StoreImm (imm_lo imm_hi dst_off : Z) (* = 23; lines 482-486 *)
| U32StoreEqFpFp (src0_off src1_off dst_off : Z) (* = 24; lines 490-494 *)
| U32StoreLtFpFp (src0_off src1_off dst_off : Z) (* = 28; lines 496-500 *)
| U32StoreEqFpImm (src_off imm_lo imm_hi dst_off : Z) (* = 30; lines 504-509 *)
| U32StoreLtFpImm (src_off imm_lo imm_hi dst_off : Z) (* = 34; lines 511-516 *)
| U32StoreAndFpFp (src0_off src1_off dst_off : Z) (* = 36; lines 520-524 *)
| U32StoreOrFpFp (src0_off src1_off dst_off : Z) (* = 37; lines 525-529 *)
| U32StoreXorFpFp (src0_off src1_off dst_off : Z) (* = 38; lines 530-534 *)
| U32StoreAndFpImm (src_off imm_lo imm_hi dst_off : Z) (* = 39; lines 537-542 *)
| U32StoreOrFpImm (src_off imm_lo imm_hi dst_off : Z) (* = 40; lines 543-548 *)
| U32StoreXorFpImm (src_off imm_lo imm_hi dst_off : Z) (* = 41; lines 549-554 *)
| StoreToDoubleDerefFpImm (base_off imm src_off : Z) (* = 44; lines 558-564 *)
| StoreToDoubleDerefFpFp (base_off offset_off src_off : Z) (* = 45; lines 566-572 *)
| PrintM31 (offset : Z) (* = 46; lines 575-575 *)
| PrintU32 (offset : Z) (* = 47; lines 576-576 *).

(** instruction.rs 129-134 [opcode_value]. *)
Definition opcode (i : instr) : Z :=
  match i with
  | StoreAddFpFp _ _ _ => 0
  | StoreSubFpFp _ _ _ => 1
  | StoreMulFpFp _ _ _ => 2
  | StoreDivFpFp _ _ _ => 3
  | StoreAddFpImm _ _ _ => 4
  | StoreMulFpImm _ _ _ => 6
  | StoreLeFpImm _ _ _ => 48
  | AssertEqFpImm _ _ => 50
  | StoreDoubleDerefFp _ _ _ => 8
  | StoreDoubleDerefFpFp _ _ _ => 42
  | StoreImm _ _ => 9
  | StoreFramePointer _ _ => 43
  | CallAbsImm _ _ => 10
  | Ret => 11
  | JmpAbsImm _ => 12
  | JmpRelImm _ => 13
  | JnzFpImm _ _ => 14
  | U32StoreAddFpFp _ _ _ => 15
  | U32StoreSubFpFp _ _ _ => 16
  | U32StoreMulFpFp _ _ _ => 17
  | U32StoreDivRemFpFp _ _ _ _ => 18
  | U32StoreAddFpImm _ _ _ _ => 19
  | U32StoreMulFpImm _ _ _ _ => 21
  | U32StoreDivRemFpImm _ _ _ _ _ => 22
  | U32StoreImm _ _ _ => 23
  | U32StoreEqFpFp _ _ _ => 24
  | U32StoreLtFpFp _ _ _ => 28
  | U32StoreEqFpImm _ _ _ _ => 30
  | U32StoreLtFpImm _ _ _ _ => 34
  | U32StoreAndFpFp _ _ _ => 36
  | U32StoreOrFpFp _ _ _ => 37
  | U32StoreXorFpFp _ _ _ => 38
  | U32StoreAndFpImm _ _ _ _ => 39
  | U32StoreOrFpImm _ _ _ _ => 40
  | U32StoreXorFpImm _ _ _ _ => 41
  | StoreToDoubleDerefFpImm _ _ _ => 44
  | StoreToDoubleDerefFpFp _ _ _ => 45
  | PrintM31 _ => 46
  | PrintU32 _ => 47
  end.

(** The explicit operands, in encoding order (macro 176-183). *)
Definition operands (i : instr) : list Z :=
  match i with
  | StoreAddFpFp src0_off src1_off dst_off => [src0_off; src1_off; dst_off]
  | StoreSubFpFp src0_off src1_off dst_off => [src0_off; src1_off; dst_off]
  | StoreMulFpFp src0_off src1_off dst_off => [src0_off; src1_off; dst_off]
  | StoreDivFpFp src0_off src1_off dst_off => [src0_off; src1_off; dst_off]
  | StoreAddFpImm src_off imm dst_off => [src_off; imm; dst_off]
  | StoreMulFpImm src_off imm dst_off => [src_off; imm; dst_off]
  | StoreLeFpImm src_off imm dst_off => [src_off; imm; dst_off]
  | AssertEqFpImm src_off imm => [src_off; imm]
  | StoreDoubleDerefFp base_off imm dst_off => [base_off; imm; dst_off]
  | StoreDoubleDerefFpFp base_off offset_off dst_off => [base_off; offset_off; dst_off]
  | StoreImm imm dst_off => [imm; dst_off]
  | StoreFramePointer imm dst_off => [imm; dst_off]
  | CallAbsImm frame_off target => [frame_off; target]
  | Ret => []
  | JmpAbsImm target => [target]
  | JmpRelImm offset => [offset]
  | JnzFpImm cond_off offset => [cond_off; offset]
  | U32StoreAddFpFp src0_off src1_off dst_off => [src0_off; src1_off; dst_off]
  | U32StoreSubFpFp src0_off src1_off dst_off => [src0_off; src1_off; dst_off]
  | U32StoreMulFpFp src0_off src1_off dst_off => [src0_off; src1_off; dst_off]
  | U32StoreDivRemFpFp src0_off src1_off dst_off dst_rem_off => [src0_off; src1_off; dst_off; dst_rem_off]
  | U32StoreAddFpImm src_off imm_lo imm_hi dst_off => [src_off; imm_lo; imm_hi; dst_off]
  | U32StoreMulFpImm src_off imm_lo imm_hi dst_off => [src_off; imm_lo; imm_hi; dst_off]
  | U32StoreDivRemFpImm src_off imm_lo imm_hi dst_off dst_rem_off => [src_off; imm_lo; imm_hi; dst_off; dst_rem_off]
  | U32StoreImm imm_lo imm_hi dst_off => [imm_lo; imm_hi; dst_off]
  | U32StoreEqFpFp src0_off src1_off dst_off => [src0_off; src1_off; dst_off]
  | U32StoreLtFpFp src0_off src1_off dst_off => [src0_off; src1_off; dst_off]
  | U32StoreEqFpImm src_off imm_lo imm_hi dst_off => [src_off; imm_lo; imm_hi; dst_off]
  | U32StoreLtFpImm src_off imm_lo imm_hi dst_off => [src_off; imm_lo; imm_hi; dst_off]
  | U32StoreAndFpFp src0_off src1_off dst_off => [src0_off; src1_off; dst_off]
  | U32StoreOrFpFp src0_off src1_off dst_off => [src0_off; src1_off; dst_off]
  | U32StoreXorFpFp src0_off src1_off dst_off => [src0_off; src1_off; dst_off]
  | U32StoreAndFpImm src_off imm_lo imm_hi dst_off => [src_off; imm_lo; imm_hi; dst_off]
  | U32StoreOrFpImm src_off imm_lo imm_hi dst_off => [src_off; imm_lo; imm_hi; dst_off]
  | U32StoreXorFpImm src_off imm_lo imm_hi dst_off => [src_off; imm_lo; imm_hi; dst_off]
  | StoreToDoubleDerefFpImm base_off imm src_off => [base_off; imm; src_off]
  | StoreToDoubleDerefFpFp base_off offset_off src_off => [base_off; offset_off; src_off]
  | PrintM31 offset => [offset]
  | PrintU32 offset => [offset]
  end.

(** Operand kinds declared by the table, explicit then implicit. *)
Definition kinds (i : instr) : list okind :=
  match i with
  | StoreAddFpFp _ _ _ => [KFelt; KFelt; KFelt]
  | StoreSubFpFp _ _ _ => [KFelt; KFelt; KFelt]
  | StoreMulFpFp _ _ _ => [KFelt; KFelt; KFelt]
  | StoreDivFpFp _ _ _ => [KFelt; KFelt; KFelt]
  | StoreAddFpImm _ _ _ => [KFelt; KImm; KFelt]
  | StoreMulFpImm _ _ _ => [KFelt; KImm; KFelt]
  | StoreLeFpImm _ _ _ => [KFelt; KImm; KFelt]
  | AssertEqFpImm _ _ => [KFelt; KImm]
  | StoreDoubleDerefFp _ _ _ => [KFelt; KImm; KFelt; KFelt]
  | StoreDoubleDerefFpFp _ _ _ => [KFelt; KFelt; KFelt; KFelt]
  | StoreImm _ _ => [KImm; KFelt]
  | StoreFramePointer _ _ => [KImm; KFelt]
  | CallAbsImm _ _ => [KImm; KImm; KFelt; KFelt]
  | Ret => [KFelt; KFelt]
  | JmpAbsImm _ => [KImm]
  | JmpRelImm _ => [KImm]
  | JnzFpImm _ _ => [KFelt; KImm]
  | U32StoreAddFpFp _ _ _ => [KU32; KU32; KU32]
  | U32StoreSubFpFp _ _ _ => [KU32; KU32; KU32]
  | U32StoreMulFpFp _ _ _ => [KU32; KU32; KU32]
  | U32StoreDivRemFpFp _ _ _ _ => [KU32; KU32; KU32; KU32]
  | U32StoreAddFpImm _ _ _ _ => [KU32; KImm; KImm; KU32]
  | U32StoreMulFpImm _ _ _ _ => [KU32; KImm; KImm; KU32]
  | U32StoreDivRemFpImm _ _ _ _ _ => [KU32; KImm; KImm; KU32; KU32]
  | U32StoreImm _ _ _ => [KImm; KImm; KU32]
  | U32StoreEqFpFp _ _ _ => [KU32; KU32; KFelt]
  | U32StoreLtFpFp _ _ _ => [KU32; KU32; KFelt]
  | U32StoreEqFpImm _ _ _ _ => [KU32; KImm; KImm; KFelt]
  | U32StoreLtFpImm _ _ _ _ => [KU32; KImm; KImm; KFelt]
  | U32StoreAndFpFp _ _ _ => [KU32; KU32; KU32]
  | U32StoreOrFpFp _ _ _ => [KU32; KU32; KU32]
  | U32StoreXorFpFp _ _ _ => [KU32; KU32; KU32]
  | U32StoreAndFpImm _ _ _ _ => [KU32; KImm; KImm; KU32]
  | U32StoreOrFpImm _ _ _ _ => [KU32; KImm; KImm; KU32]
  | U32StoreXorFpImm _ _ _ _ => [KU32; KImm; KImm; KU32]
  | StoreToDoubleDerefFpImm _ _ _ => [KFelt; KImm; KFelt; KFelt]
  | StoreToDoubleDerefFpFp _ _ _ => [KFelt; KFelt; KFelt; KFelt]
  | PrintM31 _ => [KFelt]
  | PrintU32 _ => [KU32]
  end.

(** instruction.rs 38-57 [__mem_accesses_for_kind!]. *)
Definition kind_accesses (k : okind) : Z := match k with KImm => 0 | KFelt => 1 | KU32 => 2 end.

(** instruction.rs 162-173 [memory_accesses]. *)
Definition memory_accesses (i : instr) : Z :=
  fold_right Z.add 0 (map kind_accesses (kinds i)).

(** instruction.rs 175-183 [to_smallvec]. *)
Definition encode (i : instr) : list Z := mfrom (opcode i) :: operands i.

(** instruction.rs 136-141 [size_in_m31s]. *)
Definition size_m31 (i : instr) : Z := 1 + Z.of_nat (length (operands i)).

(** [usize::div_ceil(4)]. *)
Definition div_ceil4 (n : Z) : Z := (n + 3) / 4.

(** instruction.rs 144 [size_in_qm31s]. *)
Definition size_qm31 (i : instr) : Z := div_ceil4 (size_m31 i).

(** instruction.rs 146-152 [size_in_m31s_for_opcode]; the same data as the
    lookup table [OPCODE_SIZE_TABLE] (226-231), out-of-range indices included
    ([None] for both). *)
Definition opcode_size (op : Z) : option Z :=
  match op with
  | 0 => Some 4
  | 1 => Some 4
  | 2 => Some 4
  | 3 => Some 4
  | 4 => Some 4
  | 6 => Some 4
  | 8 => Some 4
  | 9 => Some 3
  | 10 => Some 3
  | 11 => Some 1
  | 12 => Some 2
  | 13 => Some 2
  | 14 => Some 3
  | 15 => Some 4
  | 16 => Some 4
  | 17 => Some 4
  | 18 => Some 5
  | 19 => Some 5
  | 21 => Some 5
  | 22 => Some 6
  | 23 => Some 4
  | 24 => Some 4
  | 28 => Some 4
  | 30 => Some 5
  | 34 => Some 5
  | 36 => Some 4
  | 37 => Some 4
  | 38 => Some 4
  | 39 => Some 5
  | 40 => Some 5
  | 41 => Some 5
  | 42 => Some 4
  | 43 => Some 3
  | 44 => Some 4
  | 45 => Some 4
  | 46 => Some 2
  | 47 => Some 2
  | 48 => Some 4
  | 50 => Some 3
  | _ => None
  end.

(** instruction.rs 13-23 [InstructionError]. *)
Inductive ierr : Set :=
| InvalidOpcode (op : Z)
| SizeMismatch (expected found : Z)
| AssertionFailed (a b : Z).

Inductive dres : Set := DOk (i : instr) | DErr (e : ierr).

(** instruction.rs 186-213 [TryFrom<SmallVec>]. *)
Definition decode (l : list Z) : dres :=
  match l with
  | [] => DErr (SizeMismatch 1 0)
  | op :: args =>
    let mismatch n := DErr (SizeMismatch n (Z.of_nat (length args))) in
    match op with
    | 0 => match args with [src0_off; src1_off; dst_off] => DOk (StoreAddFpFp src0_off src1_off dst_off) | _ => mismatch 3 end
    | 1 => match args with [src0_off; src1_off; dst_off] => DOk (StoreSubFpFp src0_off src1_off dst_off) | _ => mismatch 3 end
    | 2 => match args with [src0_off; src1_off; dst_off] => DOk (StoreMulFpFp src0_off src1_off dst_off) | _ => mismatch 3 end
    | 3 => match args with [src0_off; src1_off; dst_off] => DOk (StoreDivFpFp src0_off src1_off dst_off) | _ => mismatch 3 end
    | 4 => match args with [src_off; imm; dst_off] => DOk (StoreAddFpImm src_off imm dst_off) | _ => mismatch 3 end
    | 6 => match args with [src_off; imm; dst_off] => DOk (StoreMulFpImm src_off imm dst_off) | _ => mismatch 3 end
    | 8 => match args with [base_off; imm; dst_off] => DOk (StoreDoubleDerefFp base_off imm dst_off) | _ => mismatch 3 end
    | 9 => match args with [imm; dst_off] => DOk (StoreImm imm dst_off) | _ => mismatch 2 end
    | 10 => match args with [frame_off; target] => DOk (CallAbsImm frame_off target) | _ => mismatch 2 end
    | 11 => match args with [] => DOk Ret | _ => mismatch 0 end
    | 12 => match args with [target] => DOk (JmpAbsImm target) | _ => mismatch 1 end
    | 13 => match args with [offset] => DOk (JmpRelImm offset) | _ => mismatch 1 end
    | 14 => match args with [cond_off; offset] => DOk (JnzFpImm cond_off offset) | _ => mismatch 2 end
    | 15 => match args with [src0_off; src1_off; dst_off] => DOk (U32StoreAddFpFp src0_off src1_off dst_off) | _ => mismatch 3 end
    | 16 => match args with [src0_off; src1_off; dst_off] => DOk (U32StoreSubFpFp src0_off src1_off dst_off) | _ => mismatch 3 end
    | 17 => match args with [src0_off; src1_off; dst_off] => DOk (U32StoreMulFpFp src0_off src1_off dst_off) | _ => mismatch 3 end
    | 18 => match args with [src0_off; src1_off; dst_off; dst_rem_off] => DOk (U32StoreDivRemFpFp src0_off src1_off dst_off dst_rem_off) | _ => mismatch 4 end
    | 19 => match args with [src_off; imm_lo; imm_hi; dst_off] => DOk (U32StoreAddFpImm src_off imm_lo imm_hi dst_off) | _ => mismatch 4 end
    | 21 => match args with [src_off; imm_lo; imm_hi; dst_off] => DOk (U32StoreMulFpImm src_off imm_lo imm_hi dst_off) | _ => mismatch 4 end
    | 22 => match args with [src_off; imm_lo; imm_hi; dst_off; dst_rem_off] => DOk (U32StoreDivRemFpImm src_off imm_lo imm_hi dst_off dst_rem_off) | _ => mismatch 5 end
    | 23 => match args with [imm_lo; imm_hi; dst_off] => DOk (U32StoreImm imm_lo imm_hi dst_off) | _ => mismatch 3 end
    | 24 => match args with [src0_off; src1_off; dst_off] => DOk (U32StoreEqFpFp src0_off src1_off dst_off) | _ => mismatch 3 end
    | 28 => match args with [src0_off; src1_off; dst_off] => DOk (U32StoreLtFpFp src0_off src1_off dst_off) | _ => mismatch 3 end
    | 30 => match args with [src_off; imm_lo; imm_hi; dst_off] => DOk (U32StoreEqFpImm src_off imm_lo imm_hi dst_off) | _ => mismatch 4 end
    | 34 => match args with [src_off; imm_lo; imm_hi; dst_off] => DOk (U32StoreLtFpImm src_off imm_lo imm_hi dst_off) | _ => mismatch 4 end
    | 36 => match args with [src0_off; src1_off; dst_off] => DOk (U32StoreAndFpFp src0_off src1_off dst_off) | _ => mismatch 3 end
    | 37 => match args with [src0_off; src1_off; dst_off] => DOk (U32StoreOrFpFp src0_off src1_off dst_off) | _ => mismatch 3 end
    | 38 => match args with [src0_off; src1_off; dst_off] => DOk (U32StoreXorFpFp src0_off src1_off dst_off) | _ => mismatch 3 end
    | 39 => match args with [src_off; imm_lo; imm_hi; dst_off] => DOk (U32StoreAndFpImm src_off imm_lo imm_hi dst_off) | _ => mismatch 4 end
    | 40 => match args with [src_off; imm_lo; imm_hi; dst_off] => DOk (U32StoreOrFpImm src_off imm_lo imm_hi dst_off) | _ => mismatch 4 end
    | 41 => match args with [src_off; imm_lo; imm_hi; dst_off] => DOk (U32StoreXorFpImm src_off imm_lo imm_hi dst_off) | _ => mismatch 4 end
    | 42 => match args with [base_off; offset_off; dst_off] => DOk (StoreDoubleDerefFpFp base_off offset_off dst_off) | _ => mismatch 3 end
    | 43 => match args with [imm; dst_off] => DOk (StoreFramePointer imm dst_off) | _ => mismatch 2 end
    | 44 => match args with [base_off; imm; src_off] => DOk (StoreToDoubleDerefFpImm base_off imm src_off) | _ => mismatch 3 end
    | 45 => match args with [base_off; offset_off; src_off] => DOk (StoreToDoubleDerefFpFp base_off offset_off src_off) | _ => mismatch 3 end
    | 46 => match args with [offset] => DOk (PrintM31 offset) | _ => mismatch 1 end
    | 47 => match args with [offset] => DOk (PrintU32 offset) | _ => mismatch 1 end
    | 48 => match args with [src_off; imm; dst_off] => DOk (StoreLeFpImm src_off imm dst_off) | _ => mismatch 3 end
    | 50 => match args with [src_off; imm] => DOk (AssertEqFpImm src_off imm) | _ => mismatch 2 end
    | _ => DErr (InvalidOpcode op)
    end
  end.

(** instruction.rs 593-606 [to_qm31_vec]: chunks of four, zero padded. *)
Definition chunk4 (l : list Z) : qm31 :=
  Q (nth 0 l 0) (nth 1 l 0) (nth 2 l 0) (nth 3 l 0).
Fixpoint chunks (fuel : nat) (l : list Z) : list qm31 :=
  match fuel, l with
  | _, [] => []
  | O, _ => []
  | S k, _ => chunk4 (firstn 4 l) :: chunks k (skipn 4 l)
  end.
Definition to_words (i : instr) : list qm31 := chunks (length (encode i)) (encode i).

(** All operands are field elements. *)
Definition iwf (i : instr) : Prop := Forall wf (operands i).

(** The print instructions (debugging aid). *)
Definition is_print (i : instr) : bool :=
  match i with PrintM31 _ | PrintU32 _ => true | _ => false end.
