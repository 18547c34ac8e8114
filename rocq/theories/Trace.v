(** The prover's row generation: from an execution bundle to the row of its component and
    to the fractions of the logup columns.  Models, for every opcode component, the
    closure of [Claim::write_trace] and [InteractionClaim::write_interaction_trace] in
    crates/prover/src/components/opcodes/*.rs.
    Simplifications: one lane at a time; field elements are integers, columns are reduced at
    the end ([fill]); a logup fraction is kept as relation, multiplicity and values, before
    the relation combines them with random coefficients. *)
From Coq Require Import ZArith Bool List.
From Verif Require Import M31 Instr Adapter Air AirOpcodes.
Import ListNotations.
Open Scope Z_scope.

(** A row: the trace columns and the logup columns (one or two fractions each). *)
Record trow : Type := TRow { t_cols : list Z; t_logup : list (list Air.entry) }.

(** [PackedM31::to_array], [.0]: the reduced integer. *)
Definition fld (x : Z) : Z := x mod P.
(** [if x != 0 { x.inverse() } else { zero }]. *)
Definition inv0 (x : Z) : Z := if fld x =? 0 then 0 else minv (fld x).
(** [if x.0 > 0xFFFF { one } else { zero }]. *)
Definition carry16 (x : Z) : Z := if 65535 <? fld x then 1 else 0.
(** [x.0 & 0xFF], [x.0 >> 8], [(x.0 >> 8) & 0xFF]. *)
Definition lo8 (x : Z) : Z := fld x mod 256.
Definition shr8 (x : Z) : Z := fld x / 256.
Definition hi8 (x : Z) : Z := fld x / 256 mod 256.
(** [if x < y { one } else { zero }] on integers. *)
Definition lt01 (x y : Z) : Z := if x <? y then 1 else 0.
(** [lo.0 | (hi.0 << 16)] in u32, [d0.0 | (d1.0 << 8)]. *)
Definition u32_of (lo hi : Z) : Z := Z.lor (fld lo) (fld hi * 65536 mod 4294967296).
Definition u16_of (d0 d1 : Z) : Z := Z.lor (fld d0) (fld d1 * 256 mod 4294967296).
(** [if x.0 == 11 { c } else { x }]: padding rows hold [Ret], opcode 11. *)
Definition unless_ret (x c : Z) : Z := if fld x =? 11 then c else x.
(** store_fp_imm.rs [write_trace]: the immediate, 0 for padding ([unreachable!] otherwise). *)
Definition imm_of (i : instr) : Z :=
  match i with StoreAddFpImm _ imm _ | StoreMulFpImm _ imm _ => imm | _ => 0 end.
(** store_le_fp_imm.rs: [sort_by_key] of three pairs, stable. *)
Definition sort2 (x y : Z * Z) : (Z * Z) * (Z * Z) := if fst y <? fst x then (y, x) else (x, y).
Definition sort3 (x y z : Z * Z) : ((Z * Z) * (Z * Z)) * (Z * Z) :=
  let (a, b) := sort2 x y in
  if fst z <? fst a then ((z, a), b) else if fst z <? fst b then ((a, z), b) else ((a, b), z).
(** store_le_fp_imm.rs 132-133: ((P / 3) >> 16) + 1 and ((P / 2) >> 16) + 1. *)
Definition PRIME_OVER_3_HIGH : Z := 10923.
Definition PRIME_OVER_2_HIGH : Z := 16384.

(** utils/data_accesses.rs 10-60 [get_prev_clock], [get_prev_value], [get_value], [get_address]:
    the k-th access of the bundle, zero when it has fewer. *)
Definition access (b : bundle) (k : nat) : daccess := nth k (b_acc b) (DA 0 0 0 0).
Definition prev_clock (b : bundle) (k : nat) : Z := d_prev_clock (access b k).
Definition prev_value (b : bundle) (k : nat) : Z := d_prev (access b k).
Definition value (b : bundle) (k : nat) : Z := d_val (access b k).
Definition address (b : bundle) (k : nat) : Z := d_addr (access b k).
(** utils/execution_bundle.rs 35-72 [Pack::pack]: the k-th field element of the instruction,
    zero beyond its size. *)
Definition iv (b : bundle) (k : nat) : Z := nth k (encode (b_instr b)) 0.

(** components/opcodes/store_fp_fp.rs 153-312: the closure of [write_trace]; 321-486: the columns of
    [write_interaction_trace]. *)
Definition tr_store_fp_fp (enabler : Z) (bd : bundle) : trow :=
  let op1_inverses := inv0 (value bd 1) in
  let flag := if opcode (b_instr bd) =? 11 then 0 else opcode (b_instr bd) - 0 in
  let opcode_flag_0 := flag / 2 in
  let opcode_flag_1 := flag mod 2 in
  let pc := M31.pc (b_st bd) in
  let fp := M31.fp (b_st bd) in
  let clock := b_clock bd in
  let inst_prev_clock := b_prev_clock bd in
  let opcode_id := iv bd 0 in
  let off0 := iv bd 1 in
  let off1 := iv bd 2 in
  let off2 := iv bd 3 in
  let op0_prev_clock := prev_clock bd 0 in
  let op0_val := value bd 0 in
  let op1_prev_clock := prev_clock bd 1 in
  let op1_val := value bd 1 in
  let dst_prev_clock := prev_clock bd 2 in
  let dst_prev_val := prev_value bd 2 in
  let dst_val := value bd 2 in
  let op1_inv := op1_inverses in
  let prod := op0_val * op1_val in
  let div := op0_val * op1_inverses in
  let row := [enabler; pc; fp; clock; inst_prev_clock; off0; off1; off2; op0_prev_clock; op0_val;
    op1_prev_clock; op1_val; op1_inv; dst_prev_clock; dst_prev_val; dst_val; opcode_flag_0; opcode_flag_1;
    prod; div] in
  TRow row
   [[RE Registers (- enabler) [pc; fp; clock]; RE Registers enabler [pc + 1; fp; clock + 1]];
    [RE Memory (- enabler) [pc; inst_prev_clock; opcode_id; off0; off1; off2]; RE Memory enabler [pc; clock;
      opcode_id; off0; off1; off2]];
    [RE Memory (- enabler) [fp + off0; op0_prev_clock; op0_val; 0; 0; 0]; RE Memory enabler [fp + off0; clock;
      op0_val; 0; 0; 0]];
    [RE Memory (- enabler) [fp + off1; op1_prev_clock; op1_val; 0; 0; 0]; RE Memory enabler [fp + off1; clock;
      op1_val; 0; 0; 0]];
    [RE Memory (- enabler) [fp + off2; dst_prev_clock; dst_prev_val; 0; 0; 0]; RE Memory enabler [fp + off2;
      clock; dst_val; 0; 0; 0]];
    [RE RC20 (-1) [clock - inst_prev_clock - enabler]; RE RC20 (-1) [clock - op0_prev_clock - enabler]];
    [RE RC20 (-1) [clock - op1_prev_clock - enabler]; RE RC20 (-1) [clock - dst_prev_clock - enabler]]].

(** components/opcodes/store_fp_imm.rs 147-299: the closure of [write_trace]; 308-447: the columns of
    [write_interaction_trace]. *)
Definition tr_store_fp_imm (enabler : Z) (bd : bundle) : trow :=
  let imm_inverses := inv0 (imm_of (b_instr bd)) in
  let flag := Z.max 0 (opcode (b_instr bd) - 4) in
  let opcode_flag_0 := flag / 2 in
  let opcode_flag_1 := flag mod 2 in
  let pc := M31.pc (b_st bd) in
  let fp := M31.fp (b_st bd) in
  let clock := b_clock bd in
  let inst_prev_clock := b_prev_clock bd in
  let opcode_id := iv bd 0 in
  let src_off := iv bd 1 in
  let imm := iv bd 2 in
  let dst_off := iv bd 3 in
  let src_prev_clock := prev_clock bd 0 in
  let src_val := value bd 0 in
  let dst_prev_clock := prev_clock bd 1 in
  let dst_prev_val := prev_value bd 1 in
  let dst_val := value bd 1 in
  let prod := src_val * imm in
  let div := src_val * imm_inverses in
  let imm_inv := imm_inverses in
  let row := [enabler; pc; fp; clock; inst_prev_clock; src_off; imm; dst_off; src_prev_clock; src_val;
    imm_inv; dst_prev_clock; dst_prev_val; dst_val; opcode_flag_0 * enabler; opcode_flag_1 * enabler; prod;
    div] in
  TRow row
   [[RE Registers (- enabler) [pc; fp; clock]; RE Registers enabler [pc + 1; fp; clock + 1]];
    [RE Memory (- enabler) [pc; inst_prev_clock; opcode_id; src_off; imm; dst_off]; RE Memory enabler [pc;
      clock; opcode_id; src_off; imm; dst_off]];
    [RE Memory (- enabler) [fp + src_off; src_prev_clock; src_val; 0; 0; 0]; RE Memory enabler [fp + src_off;
      clock; src_val; 0; 0; 0]];
    [RE Memory (- enabler) [fp + dst_off; dst_prev_clock; dst_prev_val; 0; 0; 0]; RE Memory enabler [fp +
      dst_off; clock; dst_val; 0; 0; 0]];
    [RE RC20 (-1) [clock - inst_prev_clock - enabler]; RE RC20 (-1) [clock - src_prev_clock - enabler]];
    [RE RC20 (-1) [clock - dst_prev_clock - enabler]]].

(** components/opcodes/store_imm.rs 114-203: the closure of [write_trace]; 212-315: the columns of
    [write_interaction_trace]. *)
Definition tr_store_imm (enabler : Z) (bd : bundle) : trow :=
  let pc := M31.pc (b_st bd) in
  let fp := M31.fp (b_st bd) in
  let clock := b_clock bd in
  let inst_prev_clock := b_prev_clock bd in
  let opcode_constant := 9 in
  let off0 := iv bd 1 in
  let off2 := iv bd 2 in
  let dst_prev_val := prev_value bd 0 in
  let dst_prev_clock := prev_clock bd 0 in
  let row := [enabler; pc; fp; clock; inst_prev_clock; off0; off2; dst_prev_clock; dst_prev_val] in
  TRow row
   [[RE Registers (- enabler) [pc; fp; clock]; RE Registers enabler [pc + 1; fp; clock + 1]];
    [RE Memory (- enabler) [pc; inst_prev_clock; opcode_constant; off0; off2; 0]; RE Memory enabler [pc;
      clock; opcode_constant; off0; off2; 0]];
    [RE Memory (- enabler) [fp + off2; dst_prev_clock; dst_prev_val; 0; 0; 0]; RE Memory enabler [fp + off2;
      clock; off0; 0; 0; 0]];
    [RE RC20 (-1) [clock - inst_prev_clock - enabler]; RE RC20 (-1) [clock - dst_prev_clock - enabler]]].

(** components/opcodes/store_frame_pointer.rs 114-209: the closure of [write_trace]; 218-321: the columns of
    [write_interaction_trace]. *)
Definition tr_store_frame_pointer (enabler : Z) (bd : bundle) : trow :=
  let pc := M31.pc (b_st bd) in
  let fp := M31.fp (b_st bd) in
  let clock := b_clock bd in
  let inst_prev_clock := b_prev_clock bd in
  let opcode_constant := 43 in
  let imm := iv bd 1 in
  let dst_off := iv bd 2 in
  let dst_prev_val := prev_value bd 0 in
  let dst_prev_clock := prev_clock bd 0 in
  let row := [enabler; pc; fp; clock; inst_prev_clock; imm; dst_off; dst_prev_val; dst_prev_clock] in
  TRow row
   [[RE Registers (- enabler) [pc; fp; clock]; RE Registers enabler [pc + 1; fp; clock + 1]];
    [RE Memory (- enabler) [pc; inst_prev_clock; opcode_constant; imm; dst_off; 0]; RE Memory enabler [pc;
      clock; opcode_constant; imm; dst_off; 0]];
    [RE Memory (- enabler) [fp + dst_off; dst_prev_clock; dst_prev_val; 0; 0; 0]; RE Memory enabler [fp +
      dst_off; clock; fp + imm; 0; 0; 0]];
    [RE RC20 (-1) [clock - inst_prev_clock - enabler]; RE RC20 (-1) [clock - dst_prev_clock - enabler]]].

(** components/opcodes/assert_eq_fp_imm.rs 117-211: the closure of [write_trace]; 220-323: the columns of
    [write_interaction_trace]. *)
Definition tr_assert_eq_fp_imm (enabler : Z) (bd : bundle) : trow :=
  let pc := M31.pc (b_st bd) in
  let fp := M31.fp (b_st bd) in
  let clock := b_clock bd in
  let inst_prev_clock := b_prev_clock bd in
  let opcode_constant := 50 in
  let src0_off := iv bd 1 in
  let imm := iv bd 2 in
  let op0_prev_clock := prev_clock bd 0 in
  let op0_val := value bd 0 in
  let row := [enabler; pc; fp; clock; inst_prev_clock; src0_off; imm; op0_prev_clock; op0_val] in
  TRow row
   [[RE Registers (- enabler) [pc; fp; clock]; RE Registers enabler [pc + 1; fp; clock + 1]];
    [RE Memory (- enabler) [pc; inst_prev_clock; opcode_constant; src0_off; imm; 0]; RE Memory enabler [pc;
      clock; opcode_constant; src0_off; imm; 0]];
    [RE Memory (- enabler) [fp + src0_off; op0_prev_clock; op0_val; 0; 0; 0]; RE Memory enabler [fp +
      src0_off; clock; op0_val; 0; 0; 0]];
    [RE RC20 (-1) [clock - inst_prev_clock - enabler]; RE RC20 (-1) [clock - op0_prev_clock - enabler]]].

(** components/opcodes/call_abs_imm.rs 119-223: the closure of [write_trace]; 232-371: the columns of
    [write_interaction_trace]. *)
Definition tr_call_abs_imm (enabler : Z) (bd : bundle) : trow :=
  let pc := M31.pc (b_st bd) in
  let fp := M31.fp (b_st bd) in
  let clock := b_clock bd in
  let inst_prev_clock := b_prev_clock bd in
  let opcode_constant := 10 in
  let off0 := iv bd 1 in
  let off1 := iv bd 2 in
  let op0_prev_clock := prev_clock bd 0 in
  let op0_prev_val := prev_value bd 0 in
  let op0_plus_one_prev_clock := prev_clock bd 1 in
  let op0_plus_one_prev_val := prev_value bd 1 in
  let row := [enabler; pc; fp; clock; inst_prev_clock; off0; off1; op0_prev_clock; op0_prev_val;
    op0_plus_one_prev_clock; op0_plus_one_prev_val] in
  TRow row
   [[RE Registers (- enabler) [pc; fp; clock]; RE Registers enabler [off1; fp + off0 + 1 + 1; clock + 1]];
    [RE Memory (- enabler) [pc; inst_prev_clock; opcode_constant; off0; off1; 0]; RE Memory enabler [pc;
      clock; opcode_constant; off0; off1; 0]];
    [RE Memory (- enabler) [fp + off0; op0_prev_clock; op0_prev_val; 0; 0; 0]; RE Memory enabler [fp + off0;
      clock; fp; 0; 0; 0]];
    [RE Memory (- enabler) [fp + off0 + 1; op0_plus_one_prev_clock; op0_plus_one_prev_val; 0; 0; 0]; RE Memory
      enabler [fp + off0 + 1; clock; pc + 1; 0; 0; 0]];
    [RE RC20 (-1) [clock - inst_prev_clock - enabler]; RE RC20 (-1) [clock - op0_prev_clock - enabler]];
    [RE RC20 (-1) [clock - op0_plus_one_prev_clock - enabler]]].

(** components/opcodes/ret.rs 117-228: the closure of [write_trace]; 237-376: the columns of
    [write_interaction_trace]. *)
Definition tr_ret (enabler : Z) (bd : bundle) : trow :=
  let pc := M31.pc (b_st bd) in
  let fp := M31.fp (b_st bd) in
  let clock := b_clock bd in
  let inst_prev_clock := b_prev_clock bd in
  let opcode_constant := 11 in
  let fp_min_1_prev_clock := prev_clock bd 0 in
  let fp_min_1_val := value bd 0 in
  let fp_min_2_prev_clock := prev_clock bd 1 in
  let fp_min_2_val := value bd 1 in
  let row := [enabler; pc; fp; clock; inst_prev_clock; fp_min_2_prev_clock; fp_min_2_val; fp_min_1_prev_clock;
    fp_min_1_val] in
  TRow row
   [[RE Registers (- enabler) [pc; fp; clock]; RE Registers enabler [fp_min_1_val; fp_min_2_val; clock + 1]];
    [RE Memory (- enabler) [pc; inst_prev_clock; opcode_constant; 0; 0; 0]; RE Memory enabler [pc; clock;
      opcode_constant; 0; 0; 0]];
    [RE Memory (- enabler) [fp - 2; fp_min_2_prev_clock; fp_min_2_val; 0; 0; 0]; RE Memory enabler [fp - 2;
      clock; fp_min_2_val; 0; 0; 0]];
    [RE Memory (- enabler) [fp - 1; fp_min_1_prev_clock; fp_min_1_val; 0; 0; 0]; RE Memory enabler [fp - 1;
      clock; fp_min_1_val; 0; 0; 0]];
    [RE RC20 (-1) [clock - inst_prev_clock - enabler]; RE RC20 (-1) [clock - fp_min_2_prev_clock - enabler]];
    [RE RC20 (-1) [clock - fp_min_1_prev_clock - enabler]]].

(** components/opcodes/store_le_fp_imm.rs 196-408: the closure of [write_trace]; 417-539: the columns of
    [write_interaction_trace]. *)
Definition tr_store_le_fp_imm (enabler : Z) (bd : bundle) : trow :=
  let pc := M31.pc (b_st bd) in
  let fp := M31.fp (b_st bd) in
  let clock := b_clock bd in
  let inst_prev_clock := b_prev_clock bd in
  let opcode_constant := 48 in
  let src_off := iv bd 1 in
  let imm := iv bd 2 in
  let dst_off := iv bd 3 in
  let src_val := value bd 0 in
  let src_prev_clock := prev_clock bd 0 in
  let dst_prev_val := prev_value bd 1 in
  let dst_prev_clock := prev_clock bd 1 in
  let is_le := if fld src_val <=? fld imm then 1 else 0 in
  let a := if fld src_val <=? fld imm then src_val else imm in
  let b := if fld src_val <=? fld imm then imm else src_val in
  let lengths := sort3 (fld a, 0) (Z.max 0 (fld b - fld a), 1) (P - 1 - fld b, 2) in
  let short := fst (fst (fst lengths)) in
  let long := fst (snd (fst lengths)) in
  let exclude := snd (snd lengths) in
  let arc_short_lo := short mod PRIME_OVER_3_HIGH in
  let arc_short_hi := short / PRIME_OVER_3_HIGH in
  let arc_long_lo := long mod PRIME_OVER_2_HIGH in
  let arc_long_hi := long / PRIME_OVER_2_HIGH in
  let keep_0_1 := if enabler =? 1 then if exclude =? 2 then 1 else 0 else 0 in
  let keep_0_2 := if enabler =? 1 then if exclude =? 1 then 1 else 0 else 0 in
  let keep_1_2 := if enabler =? 1 then if exclude =? 0 then 1 else 0 else 0 in
  let row := [enabler; pc; fp; clock; inst_prev_clock; src_off; imm; dst_off; src_val; src_prev_clock;
    dst_prev_val; dst_prev_clock; a; b; keep_0_1; keep_0_2; keep_1_2; arc_short_lo; arc_short_hi; arc_long_lo;
    arc_long_hi; is_le] in
  TRow row
   [[RE Registers (- enabler) [pc; fp; clock]; RE Registers enabler [pc + 1; fp; clock + 1]];
    [RE Memory (- enabler) [pc; inst_prev_clock; opcode_constant; src_off; imm; dst_off]; RE Memory enabler
      [pc; clock; opcode_constant; src_off; imm; dst_off]];
    [RE Memory (- enabler) [fp + src_off; src_prev_clock; src_val; 0; 0; 0]; RE Memory enabler [fp + src_off;
      clock; src_val; 0; 0; 0]];
    [RE Memory (- enabler) [fp + dst_off; dst_prev_clock; dst_prev_val; 0; 0; 0]; RE Memory enabler [fp +
      dst_off; clock; is_le; 0; 0; 0]];
    [RE RC16 (-1) [arc_short_lo]; RE RC16 (-1) [arc_short_hi]];
    [RE RC16 (-1) [arc_long_lo]; RE RC16 (-1) [arc_long_hi]];
    [RE RC20 (-1) [clock - inst_prev_clock - enabler]; RE RC20 (-1) [clock - src_prev_clock - enabler]];
    [RE RC20 (-1) [clock - dst_prev_clock - enabler]]].

(** components/opcodes/double_deref_fp_imm.rs 135-257: the closure of [write_trace]; 266-356: the columns of
    [write_interaction_trace]. *)
Definition tr_double_deref_fp_imm (enabler : Z) (bd : bundle) : trow :=
  let store_double_deref_fp := 8 in
  let delta_inv := minv (44 - 8) in
  let pc := M31.pc (b_st bd) in
  let fp := M31.fp (b_st bd) in
  let clock := b_clock bd in
  let inst_prev_clock := b_prev_clock bd in
  let opcode_constant := unless_ret (iv bd 0) 8 in
  let off0 := iv bd 1 in
  let off1 := iv bd 2 in
  let off2 := iv bd 3 in
  let val0 := value bd 0 in
  let prev_clock0 := prev_clock bd 0 in
  let val1 := value bd 1 in
  let prev_clock1 := prev_clock bd 1 in
  let prev_val2 := prev_value bd 2 in
  let prev_clock2 := prev_clock bd 2 in
  let write_lhs := (opcode_constant - store_double_deref_fp) * delta_inv in
  let addr1 := write_lhs * (fp + off2) + (1 - write_lhs) * (val0 + off1) in
  let addr2 := write_lhs * (val0 + off1) + (1 - write_lhs) * (fp + off2) in
  let row := [enabler; pc; fp; clock; inst_prev_clock; opcode_constant; off0; off1; off2; val0; prev_clock0;
    addr1; val1; prev_clock1; addr2; prev_val2; prev_clock2] in
  TRow row
   [[RE Registers (- enabler) [pc; fp; clock]; RE Registers enabler [pc + 1; fp; clock + 1]];
    [RE Memory (- enabler) [pc; inst_prev_clock; opcode_constant; off0; off1; off2]; RE Memory enabler [pc;
      clock; opcode_constant; off0; off1; off2]];
    [RE Memory (- enabler) [fp + off0; prev_clock0; val0; 0; 0; 0]; RE Memory enabler [fp + off0; clock; val0;
      0; 0; 0]];
    [RE Memory (- enabler) [addr1; prev_clock1; val1; 0; 0; 0]; RE Memory enabler [addr1; clock; val1; 0; 0;
      0]];
    [RE Memory (- enabler) [addr2; prev_clock2; prev_val2; 0; 0; 0]; RE Memory enabler [addr2; clock; val1; 0;
      0; 0]];
    [RE RC20 (-1) [clock - inst_prev_clock - enabler]; RE RC20 (-1) [clock - prev_clock0 - enabler]];
    [RE RC20 (-1) [clock - prev_clock1 - enabler]; RE RC20 (-1) [clock - prev_clock2 - enabler]]].

(** components/opcodes/double_deref_fp_fp.rs 139-270: the closure of [write_trace]; 279-383: the columns of
    [write_interaction_trace]. *)
Definition tr_double_deref_fp_fp (enabler : Z) (bd : bundle) : trow :=
  let store_double_deref_fp_fp := 42 in
  let delta_inv := minv (45 - 42) in
  let pc := M31.pc (b_st bd) in
  let fp := M31.fp (b_st bd) in
  let clock := b_clock bd in
  let inst_prev_clock := b_prev_clock bd in
  let opcode_constant := unless_ret (iv bd 0) 42 in
  let off0 := iv bd 1 in
  let off1 := iv bd 2 in
  let off2 := iv bd 3 in
  let val0 := value bd 0 in
  let prev_clock0 := prev_clock bd 0 in
  let val1 := value bd 1 in
  let prev_clock1 := prev_clock bd 1 in
  let val2 := value bd 2 in
  let prev_clock2 := prev_clock bd 2 in
  let prev_val3 := prev_value bd 3 in
  let prev_clock3 := prev_clock bd 3 in
  let write_lhs := (opcode_constant - store_double_deref_fp_fp) * delta_inv in
  let addr2 := write_lhs * (fp + off2) + (1 - write_lhs) * (val0 + val1) in
  let addr3 := write_lhs * (val0 + val1) + (1 - write_lhs) * (fp + off2) in
  let row := [enabler; pc; fp; clock; inst_prev_clock; opcode_constant; off0; off1; off2; val0; prev_clock0;
    val1; prev_clock1; addr2; val2; prev_clock2; addr3; prev_val3; prev_clock3] in
  TRow row
   [[RE Registers (- enabler) [pc; fp; clock]; RE Registers enabler [pc + 1; fp; clock + 1]];
    [RE Memory (- enabler) [pc; inst_prev_clock; opcode_constant; off0; off1; off2]; RE Memory enabler [pc;
      clock; opcode_constant; off0; off1; off2]];
    [RE Memory (- enabler) [fp + off0; prev_clock0; val0; 0; 0; 0]; RE Memory enabler [fp + off0; clock; val0;
      0; 0; 0]];
    [RE Memory (- enabler) [fp + off1; prev_clock1; val1; 0; 0; 0]; RE Memory enabler [fp + off1; clock; val1;
      0; 0; 0]];
    [RE Memory (- enabler) [addr2; prev_clock2; val2; 0; 0; 0]; RE Memory enabler [addr2; clock; val2; 0; 0;
      0]];
    [RE Memory (- enabler) [addr3; prev_clock3; prev_val3; 0; 0; 0]; RE Memory enabler [addr3; clock; val2; 0;
      0; 0]];
    [RE RC20 (-1) [clock - inst_prev_clock - enabler]; RE RC20 (-1) [clock - prev_clock0 - enabler]];
    [RE RC20 (-1) [clock - prev_clock1 - enabler]; RE RC20 (-1) [clock - prev_clock2 - enabler]];
    [RE RC20 (-1) [clock - prev_clock3 - enabler]]].

(** components/opcodes/jmp_imm.rs 110-189: the closure of [write_trace]; 198-275: the columns of
    [write_interaction_trace]. *)
Definition tr_jmp_imm (enabler : Z) (bd : bundle) : trow :=
  let pc := M31.pc (b_st bd) in
  let fp := M31.fp (b_st bd) in
  let clock := b_clock bd in
  let inst_prev_clock := b_prev_clock bd in
  let opcode_constant := 12 in
  let opcode_id := iv bd 0 in
  let off0 := iv bd 1 in
  let is_rel := enabler * (opcode_id - opcode_constant) in
  let row := [enabler; pc; fp; clock; inst_prev_clock; off0; is_rel] in
  TRow row
   [[RE Memory (- enabler) [pc; inst_prev_clock; opcode_id; off0; 0; 0]; RE Memory enabler [pc; clock;
      opcode_id; off0; 0; 0]];
    [RE RC20 (-1) [clock - inst_prev_clock - enabler]; RE Registers (- enabler) [pc; fp; clock]];
    [RE Registers enabler [off0 + pc * is_rel; fp; clock + 1]]].

(** components/opcodes/jnz_fp_imm.rs 121-229: the closure of [write_trace]; 238-341: the columns of
    [write_interaction_trace]. *)
Definition tr_jnz_fp_imm (enabler : Z) (bd : bundle) : trow :=
  let pc := M31.pc (b_st bd) in
  let fp := M31.fp (b_st bd) in
  let clock := b_clock bd in
  let inst_prev_clock := b_prev_clock bd in
  let opcode_constant := 14 in
  let off0 := iv bd 1 in
  let imm := iv bd 2 in
  let op0_prev_clock := prev_clock bd 0 in
  let op0_val := value bd 0 in
  let op0_val_inv := inv0 op0_val in
  let taken := if op0_val =? 0 then 0 else 1 in
  let pc_new := pc + 1 + taken * (imm - 1) in
  let row := [enabler; pc; fp; clock; inst_prev_clock; off0; imm; op0_prev_clock; op0_val; op0_val_inv; taken;
    pc_new] in
  TRow row
   [[RE Registers (- enabler) [pc; fp; clock]; RE Registers enabler [pc_new; fp; clock + 1]];
    [RE Memory (- enabler) [pc; inst_prev_clock; opcode_constant; off0; imm; 0]; RE Memory enabler [pc; clock;
      opcode_constant; off0; imm; 0]];
    [RE Memory (- enabler) [fp + off0; op0_prev_clock; op0_val; 0; 0; 0]; RE Memory enabler [fp + off0; clock;
      op0_val; 0; 0; 0]];
    [RE RC20 (-1) [clock - inst_prev_clock - enabler]; RE RC20 (-1) [clock - op0_prev_clock - enabler]]].

(** components/opcodes/u32_store_imm.rs 131-258: the closure of [write_trace]; 267-427: the columns of
    [write_interaction_trace]. *)
Definition tr_u32_store_imm (enabler : Z) (bd : bundle) : trow :=
  let pc := M31.pc (b_st bd) in
  let fp := M31.fp (b_st bd) in
  let clock := b_clock bd in
  let inst_prev_clock := b_prev_clock bd in
  let opcode_constant := 23 in
  let imm_lo := iv bd 1 in
  let imm_hi := iv bd 2 in
  let dst_off := iv bd 3 in
  let dst_prev_clock_lo := prev_clock bd 0 in
  let dst_prev_val_lo := prev_value bd 0 in
  let dst_prev_clock_hi := prev_clock bd 1 in
  let dst_prev_val_hi := prev_value bd 1 in
  let row := [enabler; pc; fp; clock; inst_prev_clock; imm_lo; imm_hi; dst_off; dst_prev_val_lo;
    dst_prev_val_hi; dst_prev_clock_lo; dst_prev_clock_hi] in
  TRow row
   [[RE Registers (- enabler) [pc; fp; clock]; RE Registers enabler [pc + 1; fp; clock + 1]];
    [RE Memory (- enabler) [pc; inst_prev_clock; opcode_constant; imm_lo; imm_hi; dst_off]; RE Memory enabler
      [pc; clock; opcode_constant; imm_lo; imm_hi; dst_off]];
    [RE Memory (- enabler) [fp + dst_off; dst_prev_clock_lo; dst_prev_val_lo; 0; 0; 0]; RE Memory enabler [fp
      + dst_off; clock; imm_lo; 0; 0; 0]];
    [RE Memory (- enabler) [fp + dst_off + 1; dst_prev_clock_hi; dst_prev_val_hi; 0; 0; 0]; RE Memory enabler
      [fp + dst_off + 1; clock; imm_hi; 0; 0; 0]];
    [RE RC16 (-1) [imm_lo]; RE RC16 (-1) [imm_hi]];
    [RE RC20 (-1) [clock - inst_prev_clock - enabler]; RE RC20 (-1) [clock - dst_prev_clock_lo - enabler]];
    [RE RC20 (-1) [clock - dst_prev_clock_hi - enabler]]].

(** components/opcodes/u32_store_add_fp_fp.rs 155-386: the closure of [write_trace]; 395-528: the columns of
    [write_interaction_trace]. *)
Definition tr_u32_store_add_fp_fp (enabler : Z) (bd : bundle) : trow :=
  let pc := M31.pc (b_st bd) in
  let fp := M31.fp (b_st bd) in
  let clock := b_clock bd in
  let inst_prev_clock := b_prev_clock bd in
  let opcode_constant := 15 in
  let src0_off := iv bd 1 in
  let src1_off := iv bd 2 in
  let dst_off := iv bd 3 in
  let op0_prev_lo_clock := prev_clock bd 0 in
  let op0_val_lo := value bd 0 in
  let op0_prev_hi_clock := prev_clock bd 1 in
  let op0_val_hi := value bd 1 in
  let op1_prev_lo_clock := prev_clock bd 2 in
  let op1_val_lo := value bd 2 in
  let op1_prev_hi_clock := prev_clock bd 3 in
  let op1_val_hi := value bd 3 in
  let dst_prev_lo_clock := prev_clock bd 4 in
  let dst_prev_val_lo := prev_value bd 4 in
  let dst_prev_hi_clock := prev_clock bd 5 in
  let dst_prev_val_hi := prev_value bd 5 in
  let u16_carry := carry16 (op0_val_lo + op1_val_lo) in
  let u32_carry := carry16 (op0_val_hi + op1_val_hi + u16_carry) in
  let res_lo := op0_val_lo + op1_val_lo - u16_carry * 65536 in
  let res_hi := op0_val_hi + op1_val_hi + u16_carry - u32_carry * 65536 in
  let row := [enabler; pc; fp; clock; inst_prev_clock; src0_off; src1_off; dst_off; op0_val_lo; op0_val_hi;
    op0_prev_lo_clock; op0_prev_hi_clock; op1_val_lo; op1_val_hi; op1_prev_lo_clock; op1_prev_hi_clock;
    dst_prev_val_lo; dst_prev_val_hi; dst_prev_lo_clock; dst_prev_hi_clock; u16_carry; u32_carry] in
  TRow row
   [[RE Registers (- enabler) [pc; fp; clock]; RE Registers enabler [pc + 1; fp; clock + 1]];
    [RE Memory (- enabler) [pc; inst_prev_clock; opcode_constant; src0_off; src1_off; dst_off]; RE Memory
      enabler [pc; clock; opcode_constant; src0_off; src1_off; dst_off]];
    [RE Memory (- enabler) [fp + src0_off; op0_prev_lo_clock; op0_val_lo; 0; 0; 0]; RE Memory enabler [fp +
      src0_off; clock; op0_val_lo; 0; 0; 0]];
    [RE Memory (- enabler) [fp + src0_off + 1; op0_prev_hi_clock; op0_val_hi; 0; 0; 0]; RE Memory enabler [fp
      + src0_off + 1; clock; op0_val_hi; 0; 0; 0]];
    [RE Memory (- enabler) [fp + src1_off; op1_prev_lo_clock; op1_val_lo; 0; 0; 0]; RE Memory enabler [fp +
      src1_off; clock; op1_val_lo; 0; 0; 0]];
    [RE Memory (- enabler) [fp + src1_off + 1; op1_prev_hi_clock; op1_val_hi; 0; 0; 0]; RE Memory enabler [fp
      + src1_off + 1; clock; op1_val_hi; 0; 0; 0]];
    [RE Memory (- enabler) [fp + dst_off; dst_prev_lo_clock; dst_prev_val_lo; 0; 0; 0]; RE Memory enabler [fp
      + dst_off; clock; res_lo; 0; 0; 0]];
    [RE Memory (- enabler) [fp + dst_off + 1; dst_prev_hi_clock; dst_prev_val_hi; 0; 0; 0]; RE Memory enabler
      [fp + dst_off + 1; clock; res_hi; 0; 0; 0]];
    [RE RC16 (-1) [op0_val_lo]; RE RC16 (-1) [op0_val_hi]];
    [RE RC16 (-1) [op1_val_lo]; RE RC16 (-1) [op1_val_hi]];
    [RE RC16 (-1) [res_lo]; RE RC16 (-1) [res_hi]];
    [RE RC20 (-1) [clock - inst_prev_clock - enabler]; RE RC20 (-1) [clock - op0_prev_lo_clock - enabler]];
    [RE RC20 (-1) [clock - op0_prev_hi_clock - enabler]; RE RC20 (-1) [clock - op1_prev_lo_clock - enabler]];
    [RE RC20 (-1) [clock - op1_prev_hi_clock - enabler]; RE RC20 (-1) [clock - dst_prev_lo_clock - enabler]];
    [RE RC20 (-1) [clock - dst_prev_hi_clock - enabler]]].

(** components/opcodes/u32_store_add_fp_imm.rs 150-346: the closure of [write_trace]; 355-503: the columns of
    [write_interaction_trace]. *)
Definition tr_u32_store_add_fp_imm (enabler : Z) (bd : bundle) : trow :=
  let pc := M31.pc (b_st bd) in
  let fp := M31.fp (b_st bd) in
  let clock := b_clock bd in
  let inst_prev_clock := b_prev_clock bd in
  let opcode_constant := 19 in
  let src_off := iv bd 1 in
  let imm_lo := iv bd 2 in
  let imm_hi := iv bd 3 in
  let dst_off := iv bd 4 in
  let op0_val_lo := value bd 0 in
  let op0_val_hi := value bd 1 in
  let op0_prev_clock_lo := prev_clock bd 0 in
  let op0_prev_clock_hi := prev_clock bd 1 in
  let dst_prev_val_lo := prev_value bd 2 in
  let dst_prev_val_hi := prev_value bd 3 in
  let dst_prev_clock_lo := prev_clock bd 2 in
  let dst_prev_clock_hi := prev_clock bd 3 in
  let u16_carry := carry16 (op0_val_lo + imm_lo) in
  let u32_carry := carry16 (op0_val_hi + imm_hi + u16_carry) in
  let res_lo := op0_val_lo + imm_lo - u16_carry * 65536 in
  let res_hi := op0_val_hi + imm_hi + u16_carry - u32_carry * 65536 in
  let row := [enabler; pc; fp; clock; inst_prev_clock; src_off; imm_lo; imm_hi; dst_off; op0_val_lo;
    op0_val_hi; op0_prev_clock_lo; op0_prev_clock_hi; dst_prev_val_lo; dst_prev_val_hi; dst_prev_clock_lo;
    dst_prev_clock_hi; u16_carry; u32_carry] in
  TRow row
   [[RE Registers (- enabler) [pc; fp; clock]; RE Registers enabler [pc + 1 + 1; fp; clock + 1]];
    [RE Memory (- enabler) [pc; inst_prev_clock; opcode_constant; src_off; imm_lo; imm_hi]; RE Memory enabler
      [pc; clock; opcode_constant; src_off; imm_lo; imm_hi]];
    [RE Memory (- enabler) [pc + 1; inst_prev_clock; dst_off; 0; 0; 0]; RE Memory enabler [pc + 1; clock;
      dst_off; 0; 0; 0]];
    [RE Memory (- enabler) [fp + src_off; op0_prev_clock_lo; op0_val_lo; 0; 0; 0]; RE Memory enabler [fp +
      src_off; clock; op0_val_lo; 0; 0; 0]];
    [RE Memory (- enabler) [fp + src_off + 1; op0_prev_clock_hi; op0_val_hi; 0; 0; 0]; RE Memory enabler [fp +
      src_off + 1; clock; op0_val_hi; 0; 0; 0]];
    [RE Memory (- enabler) [fp + dst_off; dst_prev_clock_lo; dst_prev_val_lo; 0; 0; 0]; RE Memory enabler [fp
      + dst_off; clock; res_lo; 0; 0; 0]];
    [RE Memory (- enabler) [fp + dst_off + 1; dst_prev_clock_hi; dst_prev_val_hi; 0; 0; 0]; RE Memory enabler
      [fp + dst_off + 1; clock; res_hi; 0; 0; 0]];
    [RE RC16 (-1) [op0_val_lo]; RE RC16 (-1) [op0_val_hi]];
    [RE RC16 (-1) [imm_lo]; RE RC16 (-1) [imm_hi]];
    [RE RC16 (-1) [res_lo]; RE RC16 (-1) [res_hi]];
    [RE RC20 (-1) [clock - inst_prev_clock - enabler]; RE RC20 (-1) [clock - op0_prev_clock_lo - enabler]];
    [RE RC20 (-1) [clock - op0_prev_clock_hi - enabler]; RE RC20 (-1) [clock - dst_prev_clock_lo - enabler]];
    [RE RC20 (-1) [clock - dst_prev_clock_hi - enabler]]].

(** components/opcodes/u32_store_sub_fp_fp.rs 158-392: the closure of [write_trace]; 401-533: the columns of
    [write_interaction_trace]. *)
Definition tr_u32_store_sub_fp_fp (enabler : Z) (bd : bundle) : trow :=
  let pc := M31.pc (b_st bd) in
  let fp := M31.fp (b_st bd) in
  let clock := b_clock bd in
  let inst_prev_clock := b_prev_clock bd in
  let opcode_constant := 16 in
  let src0_off := iv bd 1 in
  let src1_off := iv bd 2 in
  let dst_off := iv bd 3 in
  let op0_prev_lo_clock := prev_clock bd 0 in
  let op0_val_lo := value bd 0 in
  let op0_prev_hi_clock := prev_clock bd 1 in
  let op0_val_hi := value bd 1 in
  let op1_prev_lo_clock := prev_clock bd 2 in
  let op1_val_lo := value bd 2 in
  let op1_prev_hi_clock := prev_clock bd 3 in
  let op1_val_hi := value bd 3 in
  let dst_prev_lo_clock := prev_clock bd 4 in
  let dst_prev_val_lo := prev_value bd 4 in
  let dst_prev_hi_clock := prev_clock bd 5 in
  let dst_prev_val_hi := prev_value bd 5 in
  let borrow_lo := lt01 (fld op0_val_lo) (fld op1_val_lo) in
  let borrow_hi := lt01 (fld op0_val_hi) (fld (op1_val_hi + borrow_lo)) in
  let res_lo := op0_val_lo + borrow_lo * 65536 - op1_val_lo in
  let res_hi := op0_val_hi - borrow_lo + borrow_hi * 65536 - op1_val_hi in
  let row := [enabler; pc; fp; clock; inst_prev_clock; src0_off; src1_off; dst_off; op0_val_lo; op0_val_hi;
    op0_prev_lo_clock; op0_prev_hi_clock; op1_val_lo; op1_val_hi; op1_prev_lo_clock; op1_prev_hi_clock;
    dst_prev_val_lo; dst_prev_val_hi; dst_prev_lo_clock; dst_prev_hi_clock; borrow_lo; borrow_hi] in
  TRow row
   [[RE Registers (- enabler) [pc; fp; clock]; RE Registers enabler [pc + 1; fp; clock + 1]];
    [RE Memory (- enabler) [pc; inst_prev_clock; opcode_constant; src0_off; src1_off; dst_off]; RE Memory
      enabler [pc; clock; opcode_constant; src0_off; src1_off; dst_off]];
    [RE Memory (- enabler) [fp + src0_off; op0_prev_lo_clock; op0_val_lo; 0; 0; 0]; RE Memory enabler [fp +
      src0_off; clock; op0_val_lo; 0; 0; 0]];
    [RE Memory (- enabler) [fp + src0_off + 1; op0_prev_hi_clock; op0_val_hi; 0; 0; 0]; RE Memory enabler [fp
      + src0_off + 1; clock; op0_val_hi; 0; 0; 0]];
    [RE Memory (- enabler) [fp + src1_off; op1_prev_lo_clock; op1_val_lo; 0; 0; 0]; RE Memory enabler [fp +
      src1_off; clock; op1_val_lo; 0; 0; 0]];
    [RE Memory (- enabler) [fp + src1_off + 1; op1_prev_hi_clock; op1_val_hi; 0; 0; 0]; RE Memory enabler [fp
      + src1_off + 1; clock; op1_val_hi; 0; 0; 0]];
    [RE Memory (- enabler) [fp + dst_off; dst_prev_lo_clock; dst_prev_val_lo; 0; 0; 0]; RE Memory enabler [fp
      + dst_off; clock; res_lo; 0; 0; 0]];
    [RE Memory (- enabler) [fp + dst_off + 1; dst_prev_hi_clock; dst_prev_val_hi; 0; 0; 0]; RE Memory enabler
      [fp + dst_off + 1; clock; res_hi; 0; 0; 0]];
    [RE RC16 (-1) [op0_val_lo]; RE RC16 (-1) [op0_val_hi]];
    [RE RC16 (-1) [op1_val_lo]; RE RC16 (-1) [op1_val_hi]];
    [RE RC16 (-1) [res_lo]; RE RC16 (-1) [res_hi]];
    [RE RC20 (-1) [clock - inst_prev_clock - enabler]; RE RC20 (-1) [clock - op0_prev_lo_clock - enabler]];
    [RE RC20 (-1) [clock - op0_prev_hi_clock - enabler]; RE RC20 (-1) [clock - op1_prev_lo_clock - enabler]];
    [RE RC20 (-1) [clock - op1_prev_hi_clock - enabler]; RE RC20 (-1) [clock - dst_prev_lo_clock - enabler]];
    [RE RC20 (-1) [clock - dst_prev_hi_clock - enabler]]].

(** components/opcodes/u32_store_lt_fp_fp.rs 153-380: the closure of [write_trace]; 389-541: the columns of
    [write_interaction_trace]. *)
Definition tr_u32_store_lt_fp_fp (enabler : Z) (bd : bundle) : trow :=
  let pc := M31.pc (b_st bd) in
  let fp := M31.fp (b_st bd) in
  let clock := b_clock bd in
  let inst_prev_clock := b_prev_clock bd in
  let opcode_constant := 28 in
  let src0_off := iv bd 1 in
  let src1_off := iv bd 2 in
  let dst_off := iv bd 3 in
  let op0_val_lo := value bd 0 in
  let op0_prev_clock_lo := prev_clock bd 0 in
  let op0_val_hi := value bd 1 in
  let op0_prev_clock_hi := prev_clock bd 1 in
  let op1_val_lo := value bd 2 in
  let op1_prev_clock_lo := prev_clock bd 2 in
  let op1_val_hi := value bd 3 in
  let op1_prev_clock_hi := prev_clock bd 3 in
  let dst_prev_val := prev_value bd 4 in
  let dst_prev_clock := prev_clock bd 4 in
  let borrow_lo := lt01 (fld op1_val_lo) (fld op0_val_lo + fld enabler) in
  let borrow_hi := lt01 (fld op1_val_hi) (fld op0_val_hi + fld borrow_lo) in
  let row := [enabler; pc; fp; clock; inst_prev_clock; src0_off; src1_off; dst_off; op0_val_lo; op0_val_hi;
    op0_prev_clock_lo; op0_prev_clock_hi; op1_val_lo; op1_val_hi; op1_prev_clock_lo; op1_prev_clock_hi;
    dst_prev_val; dst_prev_clock; borrow_lo; borrow_hi] in
  TRow row
   [[RE Registers (- enabler) [pc; fp; clock]; RE Registers enabler [pc + 1; fp; clock + 1]];
    [RE Memory (- enabler) [pc; inst_prev_clock; opcode_constant; src0_off; src1_off; dst_off]; RE Memory
      enabler [pc; clock; opcode_constant; src0_off; src1_off; dst_off]];
    [RE Memory (- enabler) [fp + src0_off; op0_prev_clock_lo; op0_val_lo; 0; 0; 0]; RE Memory enabler [fp +
      src0_off; clock; op0_val_lo; 0; 0; 0]];
    [RE Memory (- enabler) [fp + src0_off + 1; op0_prev_clock_hi; op0_val_hi; 0; 0; 0]; RE Memory enabler [fp
      + src0_off + 1; clock; op0_val_hi; 0; 0; 0]];
    [RE Memory (- enabler) [fp + src1_off; op1_prev_clock_lo; op1_val_lo; 0; 0; 0]; RE Memory enabler [fp +
      src1_off; clock; op1_val_lo; 0; 0; 0]];
    [RE Memory (- enabler) [fp + src1_off + 1; op1_prev_clock_hi; op1_val_hi; 0; 0; 0]; RE Memory enabler [fp
      + src1_off + 1; clock; op1_val_hi; 0; 0; 0]];
    [RE Memory (- enabler) [fp + dst_off; dst_prev_clock; dst_prev_val; 0; 0; 0]; RE Memory enabler [fp +
      dst_off; clock; 1 - borrow_hi; 0; 0; 0]];
    [RE RC16 (-1) [op0_val_lo]; RE RC16 (-1) [op0_val_hi]];
    [RE RC16 (-1) [op1_val_lo]; RE RC16 (-1) [op1_val_hi]];
    [RE RC16 (-1) [op1_val_lo - enabler + borrow_lo * 65536 - op0_val_lo]; RE RC16 (-1) [op1_val_hi -
      borrow_lo + borrow_hi * 65536 - op0_val_hi]];
    [RE RC20 (-1) [clock - inst_prev_clock - enabler]; RE RC20 (-1) [clock - op0_prev_clock_lo - enabler]];
    [RE RC20 (-1) [clock - op0_prev_clock_hi - enabler]; RE RC20 (-1) [clock - op1_prev_clock_lo - enabler]];
    [RE RC20 (-1) [clock - op1_prev_clock_hi - enabler]; RE RC20 (-1) [clock - dst_prev_clock - enabler]]].

(** components/opcodes/u32_store_lt_fp_imm.rs 147-341: the closure of [write_trace]; 350-482: the columns of
    [write_interaction_trace]. *)
Definition tr_u32_store_lt_fp_imm (enabler : Z) (bd : bundle) : trow :=
  let pc := M31.pc (b_st bd) in
  let fp := M31.fp (b_st bd) in
  let clock := b_clock bd in
  let inst_prev_clock := b_prev_clock bd in
  let opcode_constant := 34 in
  let src_off := iv bd 1 in
  let imm_lo := iv bd 2 in
  let imm_hi := iv bd 3 in
  let dst_off := iv bd 4 in
  let op0_val_lo := value bd 0 in
  let op0_prev_clock_lo := prev_clock bd 0 in
  let op0_val_hi := value bd 1 in
  let op0_prev_clock_hi := prev_clock bd 1 in
  let dst_prev_val := prev_value bd 2 in
  let dst_prev_clock := prev_clock bd 2 in
  let borrow_lo := lt01 (fld imm_lo) (fld op0_val_lo + fld enabler) in
  let borrow_hi := lt01 (fld imm_hi) (fld op0_val_hi + fld borrow_lo) in
  let row := [enabler; pc; fp; clock; inst_prev_clock; src_off; imm_lo; imm_hi; dst_off; op0_val_lo;
    op0_val_hi; op0_prev_clock_lo; op0_prev_clock_hi; dst_prev_val; dst_prev_clock; borrow_lo; borrow_hi] in
  TRow row
   [[RE Registers (- enabler) [pc; fp; clock]; RE Registers enabler [pc + 1 + 1; fp; clock + 1]];
    [RE Memory (- enabler) [pc; inst_prev_clock; opcode_constant; src_off; imm_lo; imm_hi]; RE Memory enabler
      [pc; clock; opcode_constant; src_off; imm_lo; imm_hi]];
    [RE Memory (- enabler) [pc + 1; inst_prev_clock; dst_off; 0; 0; 0]; RE Memory enabler [pc + 1; clock;
      dst_off; 0; 0; 0]];
    [RE Memory (- enabler) [fp + src_off; op0_prev_clock_lo; op0_val_lo; 0; 0; 0]; RE Memory enabler [fp +
      src_off; clock; op0_val_lo; 0; 0; 0]];
    [RE Memory (- enabler) [fp + src_off + 1; op0_prev_clock_hi; op0_val_hi; 0; 0; 0]; RE Memory enabler [fp +
      src_off + 1; clock; op0_val_hi; 0; 0; 0]];
    [RE Memory (- enabler) [fp + dst_off; dst_prev_clock; dst_prev_val; 0; 0; 0]; RE Memory enabler [fp +
      dst_off; clock; 1 - borrow_hi; 0; 0; 0]];
    [RE RC16 (-1) [op0_val_lo]; RE RC16 (-1) [op0_val_hi]];
    [RE RC16 (-1) [imm_lo]; RE RC16 (-1) [imm_hi]];
    [RE RC16 (-1) [imm_lo - enabler + borrow_lo * 65536 - op0_val_lo]; RE RC16 (-1) [imm_hi - borrow_lo +
      borrow_hi * 65536 - op0_val_hi]];
    [RE RC20 (-1) [clock - inst_prev_clock - enabler]; RE RC20 (-1) [clock - op0_prev_clock_lo - enabler]];
    [RE RC20 (-1) [clock - op0_prev_clock_hi - enabler]; RE RC20 (-1) [clock - dst_prev_clock - enabler]]].

(** components/opcodes/u32_store_eq_fp_fp.rs 160-363: the closure of [write_trace]; 372-488: the columns of
    [write_interaction_trace]. *)
Definition tr_u32_store_eq_fp_fp (enabler : Z) (bd : bundle) : trow :=
  let pc := M31.pc (b_st bd) in
  let fp := M31.fp (b_st bd) in
  let clock := b_clock bd in
  let inst_prev_clock := b_prev_clock bd in
  let opcode_constant := 24 in
  let src0_off := iv bd 1 in
  let src1_off := iv bd 2 in
  let dst_off := iv bd 4 in
  let op0_val_lo := value bd 0 in
  let op0_val_hi := value bd 1 in
  let op0_prev_clock_lo := prev_clock bd 0 in
  let op0_prev_clock_hi := prev_clock bd 1 in
  let op1_val_lo := value bd 2 in
  let op1_val_hi := value bd 3 in
  let op1_prev_clock_lo := prev_clock bd 2 in
  let op1_prev_clock_hi := prev_clock bd 3 in
  let dst_prev_val := prev_value bd 4 in
  let dst_prev_clock := prev_clock bd 4 in
  let diff_lo := op1_val_lo - op0_val_lo in
  let diff_hi := op1_val_hi - op0_val_hi in
  let diff_inv_lo := inv0 diff_lo in
  let diff_inv_hi := inv0 diff_hi in
  let is_eq_lo := 1 - diff_lo * diff_inv_lo in
  let is_eq_prod := is_eq_lo * (1 - diff_hi * diff_inv_hi) in
  let row := [enabler; pc; fp; clock; inst_prev_clock; src0_off; src1_off; dst_off; op0_val_lo; op0_val_hi;
    op0_prev_clock_lo; op0_prev_clock_hi; op1_val_lo; op1_val_hi; op1_prev_clock_lo; op1_prev_clock_hi;
    dst_prev_val; dst_prev_clock; diff_inv_lo; diff_inv_hi; is_eq_lo; is_eq_prod] in
  TRow row
   [[RE Registers (- enabler) [pc; fp; clock]; RE Registers enabler [pc + 1; fp; clock + 1]];
    [RE Memory (- enabler) [pc; inst_prev_clock; opcode_constant; src0_off; src1_off; dst_off]; RE Memory
      enabler [pc; clock; opcode_constant; src0_off; src1_off; dst_off]];
    [RE Memory (- enabler) [fp + src0_off; op0_prev_clock_lo; op0_val_lo; 0; 0; 0]; RE Memory enabler [fp +
      src0_off; clock; op0_val_lo; 0; 0; 0]];
    [RE Memory (- enabler) [fp + src0_off + 1; op0_prev_clock_hi; op0_val_hi; 0; 0; 0]; RE Memory enabler [fp
      + src0_off + 1; clock; op0_val_hi; 0; 0; 0]];
    [RE Memory (- enabler) [fp + src1_off; op1_prev_clock_lo; op1_val_lo; 0; 0; 0]; RE Memory enabler [fp +
      src1_off; clock; op1_val_lo; 0; 0; 0]];
    [RE Memory (- enabler) [fp + src1_off + 1; op1_prev_clock_hi; op1_val_hi; 0; 0; 0]; RE Memory enabler [fp
      + src1_off + 1; clock; op1_val_hi; 0; 0; 0]];
    [RE Memory (- enabler) [fp + dst_off; dst_prev_clock; dst_prev_val; 0; 0; 0]; RE Memory enabler [fp +
      dst_off; clock; is_eq_prod; 0; 0; 0]];
    [RE RC16 (-1) [op0_val_lo]; RE RC16 (-1) [op0_val_hi]];
    [RE RC16 (-1) [op1_val_lo]; RE RC16 (-1) [op1_val_hi]];
    [RE RC20 (-1) [clock - inst_prev_clock - enabler]; RE RC20 (-1) [clock - op0_prev_clock_lo - enabler]];
    [RE RC20 (-1) [clock - op0_prev_clock_hi - enabler]; RE RC20 (-1) [clock - op1_prev_clock_lo - enabler]];
    [RE RC20 (-1) [clock - op1_prev_clock_hi - enabler]; RE RC20 (-1) [clock - dst_prev_clock - enabler]]].

(** components/opcodes/u32_store_eq_fp_imm.rs 150-304: the closure of [write_trace]; 313-428: the columns of
    [write_interaction_trace]. *)
Definition tr_u32_store_eq_fp_imm (enabler : Z) (bd : bundle) : trow :=
  let pc := M31.pc (b_st bd) in
  let fp := M31.fp (b_st bd) in
  let clock := b_clock bd in
  let inst_prev_clock := b_prev_clock bd in
  let opcode_constant := 30 in
  let src0_off := iv bd 1 in
  let imm_lo := iv bd 2 in
  let imm_hi := iv bd 3 in
  let dst_off := iv bd 4 in
  let op0_val_lo := value bd 0 in
  let op0_val_hi := value bd 1 in
  let op0_prev_clock_lo := prev_clock bd 0 in
  let op0_prev_clock_hi := prev_clock bd 1 in
  let dst_prev_val := prev_value bd 2 in
  let dst_prev_clock := prev_clock bd 2 in
  let diff := op0_val_lo + op0_val_hi * 65536 - imm_lo - imm_hi * 65536 in
  let diff_inv := inv0 diff in
  let row := [enabler; pc; fp; clock; inst_prev_clock; src0_off; imm_lo; imm_hi; dst_off; op0_val_lo;
    op0_val_hi; op0_prev_clock_lo; op0_prev_clock_hi; dst_prev_val; dst_prev_clock; diff_inv] in
  TRow row
   [[RE Registers (- enabler) [pc; fp; clock]; RE Registers enabler [pc + 1; fp; clock + 1]];
    [RE Memory (- enabler) [pc; inst_prev_clock; opcode_constant; src0_off; imm_lo; imm_hi]; RE Memory enabler
      [pc; clock; opcode_constant; src0_off; imm_lo; imm_hi]];
    [RE Memory (- enabler) [pc; inst_prev_clock; dst_off; 0; 0; 0]; RE Memory enabler [pc; clock; dst_off; 0;
      0; 0]];
    [RE Memory (- enabler) [fp + src0_off; op0_prev_clock_lo; op0_val_lo; 0; 0; 0]; RE Memory enabler [fp +
      src0_off; clock; op0_val_lo; 0; 0; 0]];
    [RE Memory (- enabler) [fp + src0_off + 1; op0_prev_clock_hi; op0_val_hi; 0; 0; 0]; RE Memory enabler [fp
      + src0_off + 1; clock; op0_val_hi; 0; 0; 0]];
    [RE Memory (- enabler) [fp + dst_off; dst_prev_clock; dst_prev_val; 0; 0; 0]; RE Memory enabler [fp +
      dst_off; clock; 1 - diff * diff_inv; 0; 0; 0]];
    [RE RC16 (-1) [op0_val_lo]; RE RC16 (-1) [op0_val_hi]];
    [RE RC16 (-1) [imm_lo]; RE RC16 (-1) [imm_hi]];
    [RE RC20 (-1) [clock - inst_prev_clock - enabler]; RE RC20 (-1) [clock - op0_prev_clock_lo - enabler]];
    [RE RC20 (-1) [clock - op0_prev_clock_hi - enabler]; RE RC20 (-1) [clock - dst_prev_clock - enabler]]].

(** components/opcodes/u32_store_mul_fp_fp.rs 196-507: the closure of [write_trace]; 516-687: the columns of
    [write_interaction_trace]. *)
Definition tr_u32_store_mul_fp_fp (enabler : Z) (bd : bundle) : trow :=
  let pc := M31.pc (b_st bd) in
  let fp := M31.fp (b_st bd) in
  let clock := b_clock bd in
  let inst_prev_clock := b_prev_clock bd in
  let opcode_constant := 17 in
  let src0_off := iv bd 1 in
  let src1_off := iv bd 2 in
  let dst_off := iv bd 3 in
  let op0_prev_clock_lo := prev_clock bd 0 in
  let op0_val_lo := value bd 0 in
  let op0_prev_clock_hi := prev_clock bd 1 in
  let op0_val_hi := value bd 1 in
  let op1_prev_clock_lo := prev_clock bd 2 in
  let op1_val_lo := value bd 2 in
  let op1_prev_clock_hi := prev_clock bd 3 in
  let op1_val_hi := value bd 3 in
  let dst_prev_clock_lo := prev_clock bd 4 in
  let dst_prev_val_lo := prev_value bd 4 in
  let dst_prev_clock_hi := prev_clock bd 5 in
  let dst_prev_val_hi := prev_value bd 5 in
  let op0_0 := lo8 op0_val_lo in
  let op0_1 := shr8 op0_val_lo in
  let op0_2 := lo8 op0_val_hi in
  let op0_3 := shr8 op0_val_hi in
  let op1_0 := lo8 op1_val_lo in
  let op1_1 := shr8 op1_val_lo in
  let op1_2 := lo8 op1_val_hi in
  let op1_3 := shr8 op1_val_hi in
  let prod_0 := op0_0 * op1_0 in
  let carry_0 := shr8 prod_0 in
  let res_0 := prod_0 - carry_0 * 256 in
  let sum_1 := op0_0 * op1_1 + op0_1 * op1_0 + carry_0 in
  let carry_1 := shr8 sum_1 in
  let res_1 := sum_1 - carry_1 * 256 in
  let sum_2 := op0_0 * op1_2 + op0_1 * op1_1 + op0_2 * op1_0 + carry_1 in
  let carry_2 := shr8 sum_2 in
  let res_2 := sum_2 - carry_2 * 256 in
  let sum_3 := op0_0 * op1_3 + op0_1 * op1_2 + op0_2 * op1_1 + op0_3 * op1_0 + carry_2 in
  let carry_3 := shr8 sum_3 in
  let res_3 := sum_3 - carry_3 * 256 in
  let row := [enabler; pc; fp; clock; inst_prev_clock; src0_off; src1_off; dst_off; op0_0; op0_1; op0_2;
    op0_3; op0_prev_clock_lo; op0_prev_clock_hi; op1_0; op1_1; op1_2; op1_3; op1_prev_clock_lo;
    op1_prev_clock_hi; dst_prev_val_lo; dst_prev_val_hi; dst_prev_clock_lo; dst_prev_clock_hi; res_0; res_1;
    res_2; res_3; carry_0; carry_1; carry_2; carry_3] in
  let max_carry_0 := 254 in
  let max_carry_1 := 509 in
  let max_carry_2 := 764 in
  let max_carry_3 := 1019 in
  TRow row
   [[RE Registers (- enabler) [pc; fp; clock]; RE Registers enabler [pc + 1; fp; clock + 1]];
    [RE Memory (- enabler) [pc; inst_prev_clock; opcode_constant; src0_off; src1_off; dst_off]; RE Memory
      enabler [pc; clock; opcode_constant; src0_off; src1_off; dst_off]];
    [RE Memory (- enabler) [fp + src0_off; op0_prev_clock_lo; op0_0 + op0_1 * 256; 0; 0; 0]; RE Memory enabler
      [fp + src0_off; clock; op0_0 + op0_1 * 256; 0; 0; 0]];
    [RE Memory (- enabler) [fp + src0_off + 1; op0_prev_clock_hi; op0_2 + op0_3 * 256; 0; 0; 0]; RE Memory
      enabler [fp + src0_off + 1; clock; op0_2 + op0_3 * 256; 0; 0; 0]];
    [RE Memory (- enabler) [fp + src1_off; op1_prev_clock_lo; op1_0 + op1_1 * 256; 0; 0; 0]; RE Memory enabler
      [fp + src1_off; clock; op1_0 + op1_1 * 256; 0; 0; 0]];
    [RE Memory (- enabler) [fp + src1_off + 1; op1_prev_clock_hi; op1_2 + op1_3 * 256; 0; 0; 0]; RE Memory
      enabler [fp + src1_off + 1; clock; op1_2 + op1_3 * 256; 0; 0; 0]];
    [RE Memory (- enabler) [fp + dst_off; dst_prev_clock_lo; dst_prev_val_lo; 0; 0; 0]; RE Memory enabler [fp
      + dst_off; clock; res_0 + res_1 * 256; 0; 0; 0]];
    [RE Memory (- enabler) [fp + dst_off + 1; dst_prev_clock_hi; dst_prev_val_hi; 0; 0; 0]; RE Memory enabler
      [fp + dst_off + 1; clock; res_2 + res_3 * 256; 0; 0; 0]];
    [RE RC8 (-1) [op0_0]; RE RC8 (-1) [op0_1]];
    [RE RC8 (-1) [op0_2]; RE RC8 (-1) [op0_3]];
    [RE RC8 (-1) [op1_0]; RE RC8 (-1) [op1_1]];
    [RE RC8 (-1) [op1_2]; RE RC8 (-1) [op1_3]];
    [RE RC8 (-1) [res_0]; RE RC8 (-1) [res_1]];
    [RE RC8 (-1) [res_2]; RE RC8 (-1) [res_3]];
    [RE RC16 (-1) [max_carry_0 - carry_0]; RE RC16 (-1) [max_carry_1 - carry_1]];
    [RE RC16 (-1) [max_carry_2 - carry_2]; RE RC16 (-1) [max_carry_3 - carry_3]];
    [RE RC20 (-1) [clock - inst_prev_clock - enabler]; RE RC20 (-1) [clock - op0_prev_clock_lo - enabler]];
    [RE RC20 (-1) [clock - op0_prev_clock_hi - enabler]; RE RC20 (-1) [clock - dst_prev_clock_lo - enabler]];
    [RE RC20 (-1) [clock - dst_prev_clock_hi - enabler]]].

(** components/opcodes/u32_store_mul_fp_imm.rs 189-461: the closure of [write_trace]; 470-641: the columns of
    [write_interaction_trace]. *)
Definition tr_u32_store_mul_fp_imm (enabler : Z) (bd : bundle) : trow :=
  let pc := M31.pc (b_st bd) in
  let fp := M31.fp (b_st bd) in
  let clock := b_clock bd in
  let inst_prev_clock := b_prev_clock bd in
  let opcode_constant := 21 in
  let src_off := iv bd 1 in
  let imm_lo := iv bd 2 in
  let imm_hi := iv bd 3 in
  let dst_off := iv bd 4 in
  let op0_prev_clock_lo := prev_clock bd 0 in
  let op0_val_lo := value bd 0 in
  let op0_prev_clock_hi := prev_clock bd 1 in
  let op0_val_hi := value bd 1 in
  let dst_prev_clock_lo := prev_clock bd 2 in
  let dst_prev_val_lo := prev_value bd 2 in
  let dst_prev_clock_hi := prev_clock bd 3 in
  let dst_prev_val_hi := prev_value bd 3 in
  let op0_0 := lo8 op0_val_lo in
  let op0_1 := shr8 op0_val_lo in
  let op0_2 := lo8 op0_val_hi in
  let op0_3 := shr8 op0_val_hi in
  let imm_0 := lo8 imm_lo in
  let imm_1 := shr8 imm_lo in
  let imm_2 := lo8 imm_hi in
  let imm_3 := shr8 imm_hi in
  let prod_0 := op0_0 * imm_0 in
  let carry_0 := shr8 prod_0 in
  let res_0 := prod_0 - carry_0 * 256 in
  let sum_1 := op0_0 * imm_1 + op0_1 * imm_0 + carry_0 in
  let carry_1 := shr8 sum_1 in
  let res_1 := sum_1 - carry_1 * 256 in
  let sum_2 := op0_0 * imm_2 + op0_1 * imm_1 + op0_2 * imm_0 + carry_1 in
  let carry_2 := shr8 sum_2 in
  let res_2 := sum_2 - carry_2 * 256 in
  let sum_3 := op0_0 * imm_3 + op0_1 * imm_2 + op0_2 * imm_1 + op0_3 * imm_0 + carry_2 in
  let carry_3 := shr8 sum_3 in
  let res_3 := sum_3 - carry_3 * 256 in
  let row := [enabler; pc; fp; clock; inst_prev_clock; src_off; imm_0; imm_1; imm_2; imm_3; dst_off; op0_0;
    op0_1; op0_2; op0_3; op0_prev_clock_lo; op0_prev_clock_hi; dst_prev_val_lo; dst_prev_val_hi;
    dst_prev_clock_lo; dst_prev_clock_hi; res_0; res_1; res_2; res_3; carry_0; carry_1; carry_2; carry_3] in
  let max_carry_0 := 254 in
  let max_carry_1 := 509 in
  let max_carry_2 := 764 in
  let max_carry_3 := 1019 in
  TRow row
   [[RE Registers (- enabler) [pc; fp; clock]; RE Registers enabler [pc + 1 + 1; fp; clock + 1]];
    [RE Memory (- enabler) [pc; inst_prev_clock; opcode_constant; src_off; imm_0 + imm_1 * 256; imm_2 + imm_3
      * 256]; RE Memory enabler [pc; clock; opcode_constant; src_off; imm_0 + imm_1 * 256; imm_2 + imm_3 *
      256]];
    [RE Memory (- enabler) [pc + 1; inst_prev_clock; dst_off; 0; 0; 0]; RE Memory enabler [pc + 1; clock;
      dst_off; 0; 0; 0]];
    [RE Memory (- enabler) [fp + src_off; op0_prev_clock_lo; op0_0 + op0_1 * 256; 0; 0; 0]; RE Memory enabler
      [fp + src_off; clock; op0_0 + op0_1 * 256; 0; 0; 0]];
    [RE Memory (- enabler) [fp + src_off + 1; op0_prev_clock_hi; op0_2 + op0_3 * 256; 0; 0; 0]; RE Memory
      enabler [fp + src_off + 1; clock; op0_2 + op0_3 * 256; 0; 0; 0]];
    [RE Memory (- enabler) [fp + dst_off; dst_prev_clock_lo; dst_prev_val_lo; 0; 0; 0]; RE Memory enabler [fp
      + dst_off; clock; res_0 + res_1 * 256; 0; 0; 0]];
    [RE Memory (- enabler) [fp + dst_off + 1; dst_prev_clock_hi; dst_prev_val_hi; 0; 0; 0]; RE Memory enabler
      [fp + dst_off + 1; clock; res_2 + res_3 * 256; 0; 0; 0]];
    [RE RC8 (-1) [op0_0]; RE RC8 (-1) [op0_1]];
    [RE RC8 (-1) [op0_2]; RE RC8 (-1) [op0_3]];
    [RE RC8 (-1) [imm_0]; RE RC8 (-1) [imm_1]];
    [RE RC8 (-1) [imm_2]; RE RC8 (-1) [imm_3]];
    [RE RC8 (-1) [res_0]; RE RC8 (-1) [res_1]];
    [RE RC8 (-1) [res_2]; RE RC8 (-1) [res_3]];
    [RE RC16 (-1) [max_carry_0 - carry_0]; RE RC16 (-1) [max_carry_1 - carry_1]];
    [RE RC16 (-1) [max_carry_2 - carry_2]; RE RC16 (-1) [max_carry_3 - carry_3]];
    [RE RC20 (-1) [clock - inst_prev_clock - enabler]; RE RC20 (-1) [clock - op0_prev_clock_lo - enabler]];
    [RE RC20 (-1) [clock - op0_prev_clock_hi - enabler]; RE RC20 (-1) [clock - dst_prev_clock_lo - enabler]];
    [RE RC20 (-1) [clock - dst_prev_clock_hi - enabler]]].

(** components/opcodes/u32_store_div_fp_fp.rs 257-762: the closure of [write_trace]; 771-967: the columns of
    [write_interaction_trace]. *)
Definition tr_u32_store_div_fp_fp (enabler : Z) (bd : bundle) : trow :=
  let pc := M31.pc (b_st bd) in
  let fp := M31.fp (b_st bd) in
  let clock := b_clock bd in
  let inst_prev_clock := b_prev_clock bd in
  let opcode_constant := 18 in
  let src0_off := iv bd 1 in
  let src1_off := iv bd 2 in
  let dst_off := iv bd 3 in
  let dst_rem_off := iv bd 4 in
  let n_lo := value bd 0 in
  let n_hi := value bd 1 in
  let op0_prev_clock_lo := prev_clock bd 0 in
  let op0_prev_clock_hi := prev_clock bd 1 in
  let op1_val_lo := value bd 2 in
  let op1_val_hi := value bd 3 in
  let op1_prev_clock_lo := prev_clock bd 2 in
  let op1_prev_clock_hi := prev_clock bd 3 in
  let dst_prev_val_lo := prev_value bd 4 in
  let dst_prev_val_hi := prev_value bd 5 in
  let dst_prev_clock_lo := prev_clock bd 4 in
  let dst_prev_clock_hi := prev_clock bd 5 in
  let dst_rem_prev_val_lo := prev_value bd 6 in
  let dst_rem_prev_val_hi := prev_value bd 7 in
  let dst_rem_prev_clock_lo := prev_clock bd 6 in
  let dst_rem_prev_clock_hi := prev_clock bd 7 in
  let d_0 := lo8 op1_val_lo in
  let d_1 := hi8 op1_val_lo in
  let d_2 := lo8 op1_val_hi in
  let d_3 := hi8 op1_val_hi in
  let n_u32 := u32_of n_lo n_hi in
  let d_u32 := u32_of op1_val_lo op1_val_hi in
  let q_u32 := if d_u32 =? 0 then 0 else n_u32 / d_u32 in
  let r_u32 := if d_u32 =? 0 then 0 else n_u32 mod d_u32 in
  let q_lo := q_u32 mod 65536 in
  let q_hi := q_u32 / 65536 in
  let r_lo := r_u32 mod 65536 in
  let r_hi := r_u32 / 65536 in
  let q_0 := lo8 q_lo in
  let q_1 := hi8 q_lo in
  let q_2 := lo8 q_hi in
  let q_3 := hi8 q_hi in
  let prod_0 := q_0 * d_0 in
  let prod_1_raw := q_0 * d_1 + q_1 * d_0 in
  let prod_2_raw := q_0 * d_2 + q_2 * d_0 + q_1 * d_1 in
  let prod_3_raw := q_0 * d_3 + q_3 * d_0 + q_1 * d_2 + q_2 * d_1 in
  let prod_4_raw := q_1 * d_3 + q_3 * d_1 + q_2 * d_2 in
  let prod_5_raw := q_2 * d_3 + q_3 * d_2 in
  let prod_6_raw := q_3 * d_3 in
  let mul_carry_0 := shr8 prod_0 in
  let prod_1_with_carry := prod_1_raw + mul_carry_0 in
  let mul_carry_1 := shr8 prod_1_with_carry in
  let prod_2_with_carry := prod_2_raw + mul_carry_1 in
  let mul_carry_2 := shr8 prod_2_with_carry in
  let prod_3_with_carry := prod_3_raw + mul_carry_2 in
  let mul_carry_3 := shr8 prod_3_with_carry in
  let prod_4_with_carry := prod_4_raw + mul_carry_3 in
  let mul_carry_4 := shr8 prod_4_with_carry in
  let prod_5_with_carry := prod_5_raw + mul_carry_4 in
  let mul_carry_5 := shr8 prod_5_with_carry in
  let prod_6_with_carry := prod_6_raw + mul_carry_5 in
  let mul_carry_6 := shr8 prod_6_with_carry in
  let prod_0 := prod_0 - mul_carry_0 * 256 in
  let prod_1 := prod_1_with_carry - mul_carry_1 * 256 in
  let prod_2 := prod_2_with_carry - mul_carry_2 * 256 in
  let prod_3 := prod_3_with_carry - mul_carry_3 * 256 in
  let prod_4 := prod_4_with_carry - mul_carry_4 * 256 in
  let prod_5 := prod_5_with_carry - mul_carry_5 * 256 in
  let prod_6 := prod_6_with_carry - mul_carry_6 * 256 in
  let prod_7 := mul_carry_6 in
  let add_0_raw := prod_0 + prod_1 * 256 + r_lo in
  let add_carry_0 := carry16 (add_0_raw) in
  let add_1_raw := prod_2 + prod_3 * 256 + r_hi + add_carry_0 in
  let add_carry_1 := carry16 (add_1_raw) in
  let add_2_raw := prod_4 + prod_5 * 256 + add_carry_1 in
  let add_carry_2 := carry16 (add_2_raw) in
  let add_3_raw := prod_6 + prod_7 * 256 + add_carry_2 in
  let add_carry_3 := carry16 (add_3_raw) in
  let sub_borrow_0 := lt01 (u16_of d_0 d_1) (fld r_lo + 1) in
  let sub_borrow_1 := lt01 (u16_of d_2 d_3) (fld r_hi + fld sub_borrow_0) in
  let res_lo := q_0 + q_1 * 256 in
  let res_hi := q_2 + q_3 * 256 in
  let row := [enabler; pc; fp; clock; inst_prev_clock; src0_off; src1_off; dst_off; dst_rem_off; n_lo; n_hi;
    op0_prev_clock_lo; op0_prev_clock_hi; d_0; d_1; d_2; d_3; op1_prev_clock_lo; op1_prev_clock_hi;
    dst_prev_val_lo; dst_prev_val_hi; dst_prev_clock_lo; dst_prev_clock_hi; dst_rem_prev_val_lo;
    dst_rem_prev_val_hi; dst_rem_prev_clock_lo; dst_rem_prev_clock_hi; q_0; q_1; q_2; q_3; mul_carry_0;
    mul_carry_1; mul_carry_2; mul_carry_3; mul_carry_4; mul_carry_5; mul_carry_6; prod_0; prod_1; prod_2;
    prod_3; prod_4; prod_5; prod_6; prod_7; add_carry_0; add_carry_1; add_carry_2; add_carry_3; sub_borrow_0;
    sub_borrow_1; r_lo; r_hi] in
  let max_carry_0 := 254 in
  let max_carry_1 := 509 in
  let max_carry_2 := 764 in
  let max_carry_3 := 1019 in
  let max_carry_4 := 765 in
  let max_carry_5 := 510 in
  let max_carry_6 := 255 in
  let sub_check_lo := d_0 + d_1 * 256 + sub_borrow_0 * 65536 - r_lo - 1 in
  let sub_check_hi := d_2 + d_3 * 256 + sub_borrow_1 * 65536 - r_hi - sub_borrow_0 in
  TRow row
   [[RE Registers (- enabler) [pc; fp; clock]; RE Registers enabler [pc + 1 + 1; fp; clock + 1]];
    [RE Memory (- enabler) [pc; inst_prev_clock; opcode_constant; src0_off; src1_off; dst_off]; RE Memory
      enabler [pc; clock; opcode_constant; src0_off; src1_off; dst_off]];
    [RE Memory (- enabler) [pc + 1; inst_prev_clock; dst_rem_off; 0; 0; 0]; RE Memory enabler [pc + 1; clock;
      dst_rem_off; 0; 0; 0]];
    [RE Memory (- enabler) [fp + src0_off; op0_prev_clock_lo; n_lo; 0; 0; 0]; RE Memory enabler [fp +
      src0_off; clock; n_lo; 0; 0; 0]];
    [RE Memory (- enabler) [fp + src0_off + 1; op0_prev_clock_hi; n_hi; 0; 0; 0]; RE Memory enabler [fp +
      src0_off + 1; clock; n_hi; 0; 0; 0]];
    [RE Memory (- enabler) [fp + src1_off; op1_prev_clock_lo; op1_val_lo; 0; 0; 0]; RE Memory enabler [fp +
      src1_off; clock; op1_val_lo; 0; 0; 0]];
    [RE Memory (- enabler) [fp + src1_off + 1; op1_prev_clock_hi; op1_val_hi; 0; 0; 0]; RE Memory enabler [fp
      + src1_off + 1; clock; op1_val_hi; 0; 0; 0]];
    [RE Memory (- enabler) [fp + dst_off; dst_prev_clock_lo; dst_prev_val_lo; 0; 0; 0]; RE Memory enabler [fp
      + dst_off; clock; res_lo; 0; 0; 0]];
    [RE Memory (- enabler) [fp + dst_off + 1; dst_prev_clock_hi; dst_prev_val_hi; 0; 0; 0]; RE Memory enabler
      [fp + dst_off + 1; clock; res_hi; 0; 0; 0]];
    [RE Memory (- enabler) [fp + dst_rem_off; dst_rem_prev_clock_lo; dst_rem_prev_val_lo; 0; 0; 0]; RE Memory
      enabler [fp + dst_rem_off; clock; r_lo; 0; 0; 0]];
    [RE Memory (- enabler) [fp + dst_rem_off + 1; dst_rem_prev_clock_hi; dst_rem_prev_val_hi; 0; 0; 0]; RE
      Memory enabler [fp + dst_rem_off + 1; clock; r_hi; 0; 0; 0]];
    [RE RC8 (-1) [d_0]; RE RC8 (-1) [d_1]];
    [RE RC8 (-1) [d_2]; RE RC8 (-1) [d_3]];
    [RE RC8 (-1) [q_0]; RE RC8 (-1) [q_1]];
    [RE RC8 (-1) [q_2]; RE RC8 (-1) [q_3]];
    [RE RC8 (-1) [prod_0]; RE RC8 (-1) [prod_1]];
    [RE RC8 (-1) [prod_2]; RE RC8 (-1) [prod_3]];
    [RE RC8 (-1) [prod_4]; RE RC8 (-1) [prod_5]];
    [RE RC8 (-1) [prod_6]; RE RC8 (-1) [prod_7]];
    [RE RC16 (-1) [n_lo]; RE RC16 (-1) [n_hi]];
    [RE RC16 (-1) [r_lo]; RE RC16 (-1) [r_hi]];
    [RE RC16 (-1) [max_carry_0 - mul_carry_0]; RE RC16 (-1) [max_carry_1 - mul_carry_1]];
    [RE RC16 (-1) [max_carry_2 - mul_carry_2]; RE RC16 (-1) [max_carry_3 - mul_carry_3]];
    [RE RC16 (-1) [max_carry_4 - mul_carry_4]; RE RC16 (-1) [max_carry_5 - mul_carry_5]];
    [RE RC16 (-1) [max_carry_6 - mul_carry_6]; RE RC16 (-1) [sub_check_lo]];
    [RE RC16 (-1) [sub_check_hi]; RE RC20 (-1) [clock - inst_prev_clock - enabler]];
    [RE RC20 (-1) [clock - op0_prev_clock_lo - enabler]; RE RC20 (-1) [clock - op0_prev_clock_hi - enabler]];
    [RE RC20 (-1) [clock - dst_prev_clock_lo - enabler]; RE RC20 (-1) [clock - dst_prev_clock_hi - enabler]];
    [RE RC20 (-1) [clock - dst_rem_prev_clock_lo - enabler]; RE RC20 (-1) [clock - dst_rem_prev_clock_hi -
      enabler]]].

(** components/opcodes/u32_store_div_fp_imm.rs 251-722: the closure of [write_trace]; 731-927: the columns of
    [write_interaction_trace]. *)
Definition tr_u32_store_div_fp_imm (enabler : Z) (bd : bundle) : trow :=
  let pc := M31.pc (b_st bd) in
  let fp := M31.fp (b_st bd) in
  let clock := b_clock bd in
  let inst_prev_clock := b_prev_clock bd in
  let opcode_constant := 22 in
  let src_off := iv bd 1 in
  let imm_lo := iv bd 2 in
  let imm_hi := iv bd 3 in
  let dst_off := iv bd 4 in
  let dst_rem_prev_val_lo := prev_value bd 4 in
  let dst_rem_prev_val_hi := prev_value bd 5 in
  let dst_rem_prev_clock_lo := prev_clock bd 4 in
  let dst_rem_prev_clock_hi := prev_clock bd 5 in
  let dst_rem_addr_lo := address bd 4 in
  let dst_rem_off := dst_rem_addr_lo - fp in
  let n_lo := value bd 0 in
  let n_hi := value bd 1 in
  let op0_prev_clock_lo := prev_clock bd 0 in
  let op0_prev_clock_hi := prev_clock bd 1 in
  let dst_prev_val_lo := prev_value bd 2 in
  let dst_prev_val_hi := prev_value bd 3 in
  let dst_prev_clock_lo := prev_clock bd 2 in
  let dst_prev_clock_hi := prev_clock bd 3 in
  let d_0 := lo8 imm_lo in
  let d_1 := hi8 imm_lo in
  let d_2 := lo8 imm_hi in
  let d_3 := hi8 imm_hi in
  let n_u32 := u32_of n_lo n_hi in
  let d_u32 := u32_of imm_lo imm_hi in
  let q_u32 := if d_u32 =? 0 then 0 else n_u32 / d_u32 in
  let r_u32 := if d_u32 =? 0 then 0 else n_u32 mod d_u32 in
  let q_lo := q_u32 mod 65536 in
  let q_hi := q_u32 / 65536 in
  let r_lo := r_u32 mod 65536 in
  let r_hi := r_u32 / 65536 in
  let q_0 := lo8 q_lo in
  let q_1 := hi8 q_lo in
  let q_2 := lo8 q_hi in
  let q_3 := hi8 q_hi in
  let prod_0 := q_0 * d_0 in
  let prod_1_raw := q_0 * d_1 + q_1 * d_0 in
  let prod_2_raw := q_0 * d_2 + q_2 * d_0 + q_1 * d_1 in
  let prod_3_raw := q_0 * d_3 + q_3 * d_0 + q_1 * d_2 + q_2 * d_1 in
  let prod_4_raw := q_1 * d_3 + q_3 * d_1 + q_2 * d_2 in
  let prod_5_raw := q_2 * d_3 + q_3 * d_2 in
  let prod_6_raw := q_3 * d_3 in
  let mul_carry_0 := shr8 prod_0 in
  let prod_1_with_carry := prod_1_raw + mul_carry_0 in
  let mul_carry_1 := shr8 prod_1_with_carry in
  let prod_2_with_carry := prod_2_raw + mul_carry_1 in
  let mul_carry_2 := shr8 prod_2_with_carry in
  let prod_3_with_carry := prod_3_raw + mul_carry_2 in
  let mul_carry_3 := shr8 prod_3_with_carry in
  let prod_4_with_carry := prod_4_raw + mul_carry_3 in
  let mul_carry_4 := shr8 prod_4_with_carry in
  let prod_5_with_carry := prod_5_raw + mul_carry_4 in
  let mul_carry_5 := shr8 prod_5_with_carry in
  let prod_6_with_carry := prod_6_raw + mul_carry_5 in
  let mul_carry_6 := shr8 prod_6_with_carry in
  let prod_0 := prod_0 - mul_carry_0 * 256 in
  let prod_1 := prod_1_with_carry - mul_carry_1 * 256 in
  let prod_2 := prod_2_with_carry - mul_carry_2 * 256 in
  let prod_3 := prod_3_with_carry - mul_carry_3 * 256 in
  let prod_4 := prod_4_with_carry - mul_carry_4 * 256 in
  let prod_5 := prod_5_with_carry - mul_carry_5 * 256 in
  let prod_6 := prod_6_with_carry - mul_carry_6 * 256 in
  let prod_7 := mul_carry_6 in
  let add_0_raw := prod_0 + prod_1 * 256 + r_lo in
  let add_carry_0 := carry16 (add_0_raw) in
  let add_1_raw := prod_2 + prod_3 * 256 + r_hi + add_carry_0 in
  let add_carry_1 := carry16 (add_1_raw) in
  let add_2_raw := prod_4 + prod_5 * 256 + add_carry_1 in
  let add_carry_2 := carry16 (add_2_raw) in
  let add_3_raw := prod_6 + prod_7 * 256 + add_carry_2 in
  let add_carry_3 := carry16 (add_3_raw) in
  let sub_borrow_0 := lt01 (u16_of d_0 d_1) (fld r_lo + 1) in
  let sub_borrow_1 := lt01 (u16_of d_2 d_3) (fld r_hi + fld sub_borrow_0) in
  let res_lo := q_0 + q_1 * 256 in
  let res_hi := q_2 + q_3 * 256 in
  let row := [enabler; pc; fp; clock; inst_prev_clock; src_off; d_0; d_1; d_2; d_3; dst_off; dst_rem_off;
    n_lo; n_hi; op0_prev_clock_lo; op0_prev_clock_hi; dst_prev_val_lo; dst_prev_val_hi; dst_prev_clock_lo;
    dst_prev_clock_hi; dst_rem_prev_val_lo; dst_rem_prev_val_hi; dst_rem_prev_clock_lo; dst_rem_prev_clock_hi;
    q_0; q_1; q_2; q_3; mul_carry_0; mul_carry_1; mul_carry_2; mul_carry_3; mul_carry_4; mul_carry_5;
    mul_carry_6; prod_0; prod_1; prod_2; prod_3; prod_4; prod_5; prod_6; prod_7; add_carry_0; add_carry_1;
    add_carry_2; add_carry_3; sub_borrow_0; sub_borrow_1; r_lo; r_hi] in
  let max_carry_0 := 254 in
  let max_carry_1 := 509 in
  let max_carry_2 := 764 in
  let max_carry_3 := 1019 in
  let max_carry_4 := 765 in
  let max_carry_5 := 510 in
  let max_carry_6 := 255 in
  let sub_check_lo := d_0 + d_1 * 256 + sub_borrow_0 * 65536 - r_lo - 1 in
  let sub_check_hi := d_2 + d_3 * 256 + sub_borrow_1 * 65536 - r_hi - sub_borrow_0 in
  TRow row
   [[RE Registers (- enabler) [pc; fp; clock]; RE Registers enabler [pc + 1 + 1; fp; clock + 1]];
    [RE Memory (- enabler) [pc; inst_prev_clock; opcode_constant; src_off; imm_lo; imm_hi]; RE Memory enabler
      [pc; clock; opcode_constant; src_off; imm_lo; imm_hi]];
    [RE Memory (- enabler) [pc + 1; inst_prev_clock; dst_off; dst_rem_off; 0; 0]; RE Memory enabler [pc + 1;
      clock; dst_off; dst_rem_off; 0; 0]];
    [RE Memory (- enabler) [fp + src_off; op0_prev_clock_lo; n_lo; 0; 0; 0]; RE Memory enabler [fp + src_off;
      clock; n_lo; 0; 0; 0]];
    [RE Memory (- enabler) [fp + src_off + 1; op0_prev_clock_hi; n_hi; 0; 0; 0]; RE Memory enabler [fp +
      src_off + 1; clock; n_hi; 0; 0; 0]];
    [RE Memory (- enabler) [fp + dst_off; dst_prev_clock_lo; dst_prev_val_lo; 0; 0; 0]; RE Memory enabler [fp
      + dst_off; clock; res_lo; 0; 0; 0]];
    [RE Memory (- enabler) [fp + dst_off + 1; dst_prev_clock_hi; dst_prev_val_hi; 0; 0; 0]; RE Memory enabler
      [fp + dst_off + 1; clock; res_hi; 0; 0; 0]];
    [RE Memory (- enabler) [fp + dst_rem_off; dst_rem_prev_clock_lo; dst_rem_prev_val_lo; 0; 0; 0]; RE Memory
      enabler [fp + dst_rem_off; clock; r_lo; 0; 0; 0]];
    [RE Memory (- enabler) [fp + dst_rem_off + 1; dst_rem_prev_clock_hi; dst_rem_prev_val_hi; 0; 0; 0]; RE
      Memory enabler [fp + dst_rem_off + 1; clock; r_hi; 0; 0; 0]];
    [RE RC8 (-1) [d_0]; RE RC8 (-1) [d_1]];
    [RE RC8 (-1) [d_2]; RE RC8 (-1) [d_3]];
    [RE RC8 (-1) [q_0]; RE RC8 (-1) [q_1]];
    [RE RC8 (-1) [q_2]; RE RC8 (-1) [q_3]];
    [RE RC8 (-1) [prod_0]; RE RC8 (-1) [prod_1]];
    [RE RC8 (-1) [prod_2]; RE RC8 (-1) [prod_3]];
    [RE RC8 (-1) [prod_4]; RE RC8 (-1) [prod_5]];
    [RE RC8 (-1) [prod_6]; RE RC8 (-1) [prod_7]];
    [RE RC16 (-1) [n_lo]; RE RC16 (-1) [n_hi]];
    [RE RC16 (-1) [r_lo]; RE RC16 (-1) [r_hi]];
    [RE RC16 (-1) [max_carry_0 - mul_carry_0]; RE RC16 (-1) [max_carry_1 - mul_carry_1]];
    [RE RC16 (-1) [max_carry_2 - mul_carry_2]; RE RC16 (-1) [max_carry_3 - mul_carry_3]];
    [RE RC16 (-1) [max_carry_4 - mul_carry_4]; RE RC16 (-1) [max_carry_5 - mul_carry_5]];
    [RE RC16 (-1) [max_carry_6 - mul_carry_6]; RE RC16 (-1) [sub_check_lo]];
    [RE RC16 (-1) [sub_check_hi]; RE RC20 (-1) [clock - inst_prev_clock - enabler]];
    [RE RC20 (-1) [clock - op0_prev_clock_lo - enabler]; RE RC20 (-1) [clock - op0_prev_clock_hi - enabler]];
    [RE RC20 (-1) [clock - dst_prev_clock_lo - enabler]; RE RC20 (-1) [clock - dst_prev_clock_hi - enabler]];
    [RE RC20 (-1) [clock - dst_rem_prev_clock_lo - enabler]; RE RC20 (-1) [clock - dst_rem_prev_clock_hi -
      enabler]]].

(** components/opcodes/u32_store_bitwise_fp_fp.rs 151-384: the closure of [write_trace]; 394-523: the columns of
    [write_interaction_trace]. *)
Definition tr_u32_store_bitwise_fp_fp (enabler : Z) (bd : bundle) : trow :=
  let pc := M31.pc (b_st bd) in
  let fp := M31.fp (b_st bd) in
  let clock := b_clock bd in
  let inst_prev_clock := b_prev_clock bd in
  let opcode_constant := unless_ret (iv bd 0) 36 in
  let src0_off := iv bd 1 in
  let src1_off := iv bd 2 in
  let dst_off := iv bd 3 in
  let op0_val_lo := value bd 0 in
  let op0_val_hi := value bd 1 in
  let op0_prev_clock_lo := prev_clock bd 0 in
  let op0_prev_clock_hi := prev_clock bd 1 in
  let op1_val_lo := value bd 2 in
  let op1_val_hi := value bd 3 in
  let op1_prev_clock_lo := prev_clock bd 2 in
  let op1_prev_clock_hi := prev_clock bd 3 in
  let dst_val_lo := value bd 4 in
  let dst_val_hi := value bd 5 in
  let dst_prev_val_lo := prev_value bd 4 in
  let dst_prev_val_hi := prev_value bd 5 in
  let dst_prev_clock_lo := prev_clock bd 4 in
  let dst_prev_clock_hi := prev_clock bd 5 in
  let op0_val_0 := lo8 op0_val_lo in
  let op0_val_1 := hi8 op0_val_lo in
  let op0_val_2 := lo8 op0_val_hi in
  let op0_val_3 := hi8 op0_val_hi in
  let op1_val_0 := lo8 op1_val_lo in
  let op1_val_1 := hi8 op1_val_lo in
  let op1_val_2 := lo8 op1_val_hi in
  let op1_val_3 := hi8 op1_val_hi in
  let dst_val_0 := lo8 dst_val_lo in
  let dst_val_1 := hi8 dst_val_lo in
  let dst_val_2 := lo8 dst_val_hi in
  let dst_val_3 := hi8 dst_val_hi in
  let bitwise_op := opcode_constant - 36 in
  let row := [enabler; pc; fp; clock; inst_prev_clock; opcode_constant; src0_off; src1_off; dst_off;
    op0_val_0; op0_val_1; op0_val_2; op0_val_3; op0_prev_clock_lo; op0_prev_clock_hi; op1_val_0; op1_val_1;
    op1_val_2; op1_val_3; op1_prev_clock_lo; op1_prev_clock_hi; dst_prev_val_lo; dst_prev_val_hi; dst_val_0;
    dst_val_1; dst_val_2; dst_val_3; dst_prev_clock_lo; dst_prev_clock_hi] in
  TRow row
   [[RE Registers (- enabler) [pc; fp; clock]; RE Registers enabler [pc + 1; fp; clock + 1]];
    [RE Memory (- enabler) [pc; inst_prev_clock; opcode_constant; src0_off; src1_off; dst_off]; RE Memory
      enabler [pc; clock; opcode_constant; src0_off; src1_off; dst_off]];
    [RE Memory (- enabler) [fp + src0_off; op0_prev_clock_lo; op0_val_lo; 0; 0; 0]; RE Memory enabler [fp +
      src0_off; clock; op0_val_lo; 0; 0; 0]];
    [RE Memory (- enabler) [fp + src0_off + 1; op0_prev_clock_hi; op0_val_hi; 0; 0; 0]; RE Memory enabler [fp
      + src0_off + 1; clock; op0_val_hi; 0; 0; 0]];
    [RE Memory (- enabler) [fp + src1_off; op1_prev_clock_lo; op1_val_lo; 0; 0; 0]; RE Memory enabler [fp +
      src1_off; clock; op1_val_lo; 0; 0; 0]];
    [RE Memory (- enabler) [fp + src1_off + 1; op1_prev_clock_hi; op1_val_hi; 0; 0; 0]; RE Memory enabler [fp
      + src1_off + 1; clock; op1_val_hi; 0; 0; 0]];
    [RE Memory (- enabler) [fp + dst_off; dst_prev_clock_lo; dst_prev_val_lo; 0; 0; 0]; RE Memory enabler [fp
      + dst_off; clock; dst_val_lo; 0; 0; 0]];
    [RE Memory (- enabler) [fp + dst_off + 1; dst_prev_clock_hi; dst_prev_val_hi; 0; 0; 0]; RE Memory enabler
      [fp + dst_off + 1; clock; dst_val_hi; 0; 0; 0]];
    [RE BitwiseR (-1) [bitwise_op; op0_val_0; op1_val_0; dst_val_0]; RE BitwiseR (-1) [bitwise_op; op0_val_1;
      op1_val_1; dst_val_1]];
    [RE BitwiseR (-1) [bitwise_op; op0_val_2; op1_val_2; dst_val_2]; RE BitwiseR (-1) [bitwise_op; op0_val_3;
      op1_val_3; dst_val_3]];
    [RE RC20 (-1) [clock - inst_prev_clock - enabler]; RE RC20 (-1) [clock - op0_prev_clock_lo - enabler]];
    [RE RC20 (-1) [clock - op0_prev_clock_hi - enabler]; RE RC20 (-1) [clock - op1_prev_clock_lo - enabler]];
    [RE RC20 (-1) [clock - op1_prev_clock_hi - enabler]; RE RC20 (-1) [clock - dst_prev_clock_lo - enabler]];
    [RE RC20 (-1) [clock - dst_prev_clock_hi - enabler]]].

(** components/opcodes/u32_store_bitwise_fp_imm.rs 145-351: the closure of [write_trace]; 361-490: the columns of
    [write_interaction_trace]. *)
Definition tr_u32_store_bitwise_fp_imm (enabler : Z) (bd : bundle) : trow :=
  let pc := M31.pc (b_st bd) in
  let fp := M31.fp (b_st bd) in
  let clock := b_clock bd in
  let inst_prev_clock := b_prev_clock bd in
  let opcode_constant := unless_ret (iv bd 0) 39 in
  let src_off := iv bd 1 in
  let imm_lo := iv bd 2 in
  let imm_hi := iv bd 3 in
  let dst_off := iv bd 4 in
  let op0_val_lo := value bd 0 in
  let op0_val_hi := value bd 1 in
  let op0_prev_clock_lo := prev_clock bd 0 in
  let op0_prev_clock_hi := prev_clock bd 1 in
  let dst_val_lo := value bd 2 in
  let dst_val_hi := value bd 3 in
  let dst_prev_val_lo := prev_value bd 2 in
  let dst_prev_val_hi := prev_value bd 3 in
  let dst_prev_clock_lo := prev_clock bd 2 in
  let dst_prev_clock_hi := prev_clock bd 3 in
  let op0_val_0 := lo8 op0_val_lo in
  let op0_val_1 := hi8 op0_val_lo in
  let op0_val_2 := lo8 op0_val_hi in
  let op0_val_3 := hi8 op0_val_hi in
  let imm_0 := lo8 imm_lo in
  let imm_1 := hi8 imm_lo in
  let imm_2 := lo8 imm_hi in
  let imm_3 := hi8 imm_hi in
  let dst_val_0 := lo8 dst_val_lo in
  let dst_val_1 := hi8 dst_val_lo in
  let dst_val_2 := lo8 dst_val_hi in
  let dst_val_3 := hi8 dst_val_hi in
  let bitwise_op := opcode_constant - 39 in
  let row := [enabler; pc; fp; clock; inst_prev_clock; opcode_constant; src_off; imm_0; imm_1; imm_2; imm_3;
    dst_off; op0_val_0; op0_val_1; op0_val_2; op0_val_3; op0_prev_clock_lo; op0_prev_clock_hi;
    dst_prev_val_lo; dst_prev_val_hi; dst_val_0; dst_val_1; dst_val_2; dst_val_3; dst_prev_clock_lo;
    dst_prev_clock_hi] in
  let imm_lo := imm_0 + imm_1 * 256 in
  let imm_hi := imm_2 + imm_3 * 256 in
  TRow row
   [[RE Registers (- enabler) [pc; fp; clock]; RE Registers enabler [pc + 1 + 1; fp; clock + 1]];
    [RE Memory (- enabler) [pc; inst_prev_clock; opcode_constant; src_off; imm_lo; imm_hi]; RE Memory enabler
      [pc; clock; opcode_constant; src_off; imm_lo; imm_hi]];
    [RE Memory (- enabler) [pc + 1; inst_prev_clock; dst_off; 0; 0; 0]; RE Memory enabler [pc + 1; clock;
      dst_off; 0; 0; 0]];
    [RE Memory (- enabler) [fp + src_off; op0_prev_clock_lo; op0_val_lo; 0; 0; 0]; RE Memory enabler [fp +
      src_off; clock; op0_val_lo; 0; 0; 0]];
    [RE Memory (- enabler) [fp + src_off + 1; op0_prev_clock_hi; op0_val_hi; 0; 0; 0]; RE Memory enabler [fp +
      src_off + 1; clock; op0_val_hi; 0; 0; 0]];
    [RE Memory (- enabler) [fp + dst_off; dst_prev_clock_lo; dst_prev_val_lo; 0; 0; 0]; RE Memory enabler [fp
      + dst_off; clock; dst_val_lo; 0; 0; 0]];
    [RE Memory (- enabler) [fp + dst_off + 1; dst_prev_clock_hi; dst_prev_val_hi; 0; 0; 0]; RE Memory enabler
      [fp + dst_off + 1; clock; dst_val_hi; 0; 0; 0]];
    [RE BitwiseR (-1) [bitwise_op; op0_val_0; imm_0; dst_val_0]; RE BitwiseR (-1) [bitwise_op; op0_val_1;
      imm_1; dst_val_1]];
    [RE BitwiseR (-1) [bitwise_op; op0_val_2; imm_2; dst_val_2]; RE BitwiseR (-1) [bitwise_op; op0_val_3;
      imm_3; dst_val_3]];
    [RE RC20 (-1) [clock - inst_prev_clock - enabler]; RE RC20 (-1) [clock - op0_prev_clock_lo - enabler]];
    [RE RC20 (-1) [clock - op0_prev_clock_hi - enabler]; RE RC20 (-1) [clock - dst_prev_clock_lo - enabler]];
    [RE RC20 (-1) [clock - dst_prev_clock_hi - enabler]]].

(** The row of each component. *)
Definition write_row (c : component) : Z -> bundle -> trow :=
  match c with
  | C_store_fp_fp => tr_store_fp_fp
  | C_store_fp_imm => tr_store_fp_imm
  | C_store_imm => tr_store_imm
  | C_store_frame_pointer => tr_store_frame_pointer
  | C_assert_eq_fp_imm => tr_assert_eq_fp_imm
  | C_call_abs_imm => tr_call_abs_imm
  | C_ret => tr_ret
  | C_store_le_fp_imm => tr_store_le_fp_imm
  | C_double_deref_fp_imm => tr_double_deref_fp_imm
  | C_double_deref_fp_fp => tr_double_deref_fp_fp
  | C_jmp_imm => tr_jmp_imm
  | C_jnz_fp_imm => tr_jnz_fp_imm
  | C_u32_store_imm => tr_u32_store_imm
  | C_u32_store_add_fp_fp => tr_u32_store_add_fp_fp
  | C_u32_store_add_fp_imm => tr_u32_store_add_fp_imm
  | C_u32_store_sub_fp_fp => tr_u32_store_sub_fp_fp
  | C_u32_store_lt_fp_fp => tr_u32_store_lt_fp_fp
  | C_u32_store_lt_fp_imm => tr_u32_store_lt_fp_imm
  | C_u32_store_eq_fp_fp => tr_u32_store_eq_fp_fp
  | C_u32_store_eq_fp_imm => tr_u32_store_eq_fp_imm
  | C_u32_store_mul_fp_fp => tr_u32_store_mul_fp_fp
  | C_u32_store_mul_fp_imm => tr_u32_store_mul_fp_imm
  | C_u32_store_div_fp_fp => tr_u32_store_div_fp_fp
  | C_u32_store_div_fp_imm => tr_u32_store_div_fp_imm
  | C_u32_store_bitwise_fp_fp => tr_u32_store_bitwise_fp_fp
  | C_u32_store_bitwise_fp_imm => tr_u32_store_bitwise_fp_imm
  end.
(** The columns as field elements, and the fractions. *)
Definition fill (c : component) (enabler : Z) (b : bundle) : list Z := map fld (t_cols (write_row c enabler b)).
Definition fractions (c : component) (enabler : Z) (b : bundle) : list (list Air.entry) := t_logup (write_row c enabler b).

(** mod.rs [define_opcodes!]: the component of an instruction; the print instructions have none. *)
Definition component_of (i : instr) : option component :=
  match i with
  | AssertEqFpImm _ _ => Some C_assert_eq_fp_imm
  | CallAbsImm _ _ => Some C_call_abs_imm
  | JmpAbsImm _ | JmpRelImm _ => Some C_jmp_imm
  | JnzFpImm _ _ => Some C_jnz_fp_imm
  | Ret => Some C_ret
  | StoreImm _ _ => Some C_store_imm
  | StoreAddFpFp _ _ _ | StoreSubFpFp _ _ _ | StoreMulFpFp _ _ _ | StoreDivFpFp _ _ _ => Some C_store_fp_fp
  | StoreAddFpImm _ _ _ | StoreMulFpImm _ _ _ => Some C_store_fp_imm
  | StoreDoubleDerefFp _ _ _ | StoreToDoubleDerefFpImm _ _ _ => Some C_double_deref_fp_imm
  | StoreDoubleDerefFpFp _ _ _ | StoreToDoubleDerefFpFp _ _ _ => Some C_double_deref_fp_fp
  | StoreFramePointer _ _ => Some C_store_frame_pointer
  | U32StoreImm _ _ _ => Some C_u32_store_imm
  | U32StoreAddFpImm _ _ _ _ => Some C_u32_store_add_fp_imm
  | U32StoreMulFpImm _ _ _ _ => Some C_u32_store_mul_fp_imm
  | U32StoreDivRemFpImm _ _ _ _ _ => Some C_u32_store_div_fp_imm
  | U32StoreEqFpFp _ _ _ => Some C_u32_store_eq_fp_fp
  | U32StoreEqFpImm _ _ _ _ => Some C_u32_store_eq_fp_imm
  | U32StoreLtFpImm _ _ _ _ => Some C_u32_store_lt_fp_imm
  | U32StoreLtFpFp _ _ _ => Some C_u32_store_lt_fp_fp
  | U32StoreAddFpFp _ _ _ => Some C_u32_store_add_fp_fp
  | U32StoreSubFpFp _ _ _ => Some C_u32_store_sub_fp_fp
  | U32StoreMulFpFp _ _ _ => Some C_u32_store_mul_fp_fp
  | U32StoreDivRemFpFp _ _ _ _ => Some C_u32_store_div_fp_fp
  | U32StoreAndFpFp _ _ _ | U32StoreOrFpFp _ _ _ | U32StoreXorFpFp _ _ _ => Some C_u32_store_bitwise_fp_fp
  | U32StoreAndFpImm _ _ _ _ | U32StoreOrFpImm _ _ _ _ | U32StoreXorFpImm _ _ _ _ => Some C_u32_store_bitwise_fp_imm
  | StoreLeFpImm _ _ _ => Some C_store_le_fp_imm
  | PrintM31 _ | PrintU32 _ => None
  end.

(** adapter/memory.rs [ExecutionBundle::default()]: the padding bundle. *)
Definition pad_bundle : bundle := Bundle (St 0 0) 0 Ret 0 [].
(** [write_trace]: the number of rows is a power of two, at least 16; the rows of the
    bundles first, then padding rows.  [Enabler] is 1 on the former and 0 on the latter. *)
Definition n_rows (n : nat) : nat := Nat.max 16 (Z.to_nat (2 ^ Z.log2_up (Z.of_nat n))).
(** mod.rs [write_trace]: the bundles of the component's opcodes, opcode by opcode (here: in
    the order of execution). *)
Definition component_dec (c d : component) : {c = d} + {c <> d}.
Proof. decide equality. Defined.
Definition mine (c : component) (b : bundle) : bool :=
  match component_of (b_instr b) with Some d => if component_dec c d then true else false | None => false end.
Definition trace_of (c : component) (bs : list bundle) : list (list Z) :=
  let xs := filter (mine c) bs in
  map (fill c 1) xs ++ repeat (fill c 0 pad_bundle) (n_rows (length xs) - length xs).
