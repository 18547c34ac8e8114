(** Model of the AIR of every component: the [evaluate] functions of
    crates/prover/src/components (opcodes/*.rs, memory.rs, clock_update.rs, merkle.rs).
    Each function takes the row's columns in the order of [eval.next_trace_mask()] and
    returns the polynomial constraints and relation entries in source order, with the
    source's names.  Loops over arrays of entries are unrolled; [add_intermediate] is a
    plain definition. *)
From Coq Require Import ZArith List.
From Verif Require Import M31 Air.
Import ListNotations.
Open Scope Z_scope.

(** crates/prover/src/components/opcodes/store_fp_fp.rs 496-678: [evaluate]. *)
Definition store_fp_fp
    (enabler pc fp clock inst_prev_clock off0 off1 off2 op0_prev_clock op0_val op1_prev_clock
     op1_val op1_inv dst_prev_clock dst_prev_val dst_val opcode_flag_0 opcode_flag_1 prod div : Z) : air :=
  let one := 1 in
  let is_add := (one - opcode_flag_0) * (one - opcode_flag_1) in
  let is_sub := (one - opcode_flag_0) * opcode_flag_1 in
  let is_mul := opcode_flag_0 * (one - opcode_flag_1) in
  let is_div := opcode_flag_0 * opcode_flag_1 in
  let opcode_id := 0 + 2 * opcode_flag_0 + opcode_flag_1 in
  let res := is_add * (op0_val + op1_val) + is_sub * (op0_val - op1_val) + is_mul * prod + is_div * div in
  Air
    [ enabler * (one - enabler)
    ; opcode_flag_0 * (one - opcode_flag_0)
    ; opcode_flag_1 * (one - opcode_flag_1)
    ; prod - op0_val * op1_val
    ; op1_val * (op1_inv * op1_val - one)
    ; op1_inv * (op1_inv * op1_val - one)
    ; div - op0_val * op1_inv
    ; dst_val - res ]
    [ RE Registers (- enabler) [pc; fp; clock]
    ; RE Registers (enabler) [pc + one; fp; clock + one]
    ; RE Memory (- enabler) [pc; inst_prev_clock; opcode_id; off0; off1; off2]
    ; RE Memory (enabler) [pc; clock; opcode_id; off0; off1; off2]
    ; RE Memory (- enabler) [fp + off0; op0_prev_clock; op0_val]
    ; RE Memory (enabler) [fp + off0; clock; op0_val]
    ; RE Memory (- enabler) [fp + off1; op1_prev_clock; op1_val]
    ; RE Memory (enabler) [fp + off1; clock; op1_val]
    ; RE Memory (- enabler) [fp + off2; dst_prev_clock; dst_prev_val]
    ; RE Memory (enabler) [fp + off2; clock; dst_val]
    ; RE RC20 (- 1) [clock - inst_prev_clock - enabler]
    ; RE RC20 (- 1) [clock - op0_prev_clock - enabler]
    ; RE RC20 (- 1) [clock - op1_prev_clock - enabler]
    ; RE RC20 (- 1) [clock - dst_prev_clock - enabler] ].

(** crates/prover/src/components/opcodes/store_fp_imm.rs 457-616: [evaluate]. *)
Definition store_fp_imm
    (enabler pc fp clock inst_prev_clock src_off imm dst_off src_prev_clock src_val imm_inv
     dst_prev_clock dst_prev_val dst_val opcode_flag_0 opcode_flag_1 prod div : Z) : air :=
  let one := 1 in
  let is_add := (one - opcode_flag_0) * (one - opcode_flag_1) in
  let is_sub := (one - opcode_flag_0) * opcode_flag_1 in
  let is_mul := opcode_flag_0 * (one - opcode_flag_1) in
  let is_div := opcode_flag_0 * opcode_flag_1 in
  let opcode_id := 4 + 2 * opcode_flag_0 + opcode_flag_1 in
  let res := is_add * (src_val + imm) + is_sub * (src_val - imm) + is_mul * prod + is_div * div in
  Air
    [ enabler * (one - enabler)
    ; opcode_flag_0 * (one - opcode_flag_0)
    ; opcode_flag_1 * (one - opcode_flag_1)
    ; prod - src_val * imm
    ; imm * (imm_inv * imm - one)
    ; imm_inv * (imm_inv * imm - one)
    ; div - src_val * imm_inv
    ; dst_val - res ]
    [ RE Registers (- enabler) [pc; fp; clock]
    ; RE Registers (enabler) [pc + one; fp; clock + one]
    ; RE Memory (- enabler) [pc; inst_prev_clock; opcode_id; src_off; imm; dst_off]
    ; RE Memory (enabler) [pc; clock; opcode_id; src_off; imm; dst_off]
    ; RE Memory (- enabler) [fp + src_off; src_prev_clock; src_val]
    ; RE Memory (enabler) [fp + src_off; clock; src_val]
    ; RE Memory (- enabler) [fp + dst_off; dst_prev_clock; dst_prev_val]
    ; RE Memory (enabler) [fp + dst_off; clock; dst_val]
    ; RE RC20 (- 1) [clock - inst_prev_clock - enabler]
    ; RE RC20 (- 1) [clock - src_prev_clock - enabler]
    ; RE RC20 (- 1) [clock - dst_prev_clock - enabler] ].

(** crates/prover/src/components/opcodes/store_imm.rs 325-416: [evaluate]. *)
Definition store_imm
    (enabler pc fp clock inst_prev_clock off0 off2 dst_prev_clock dst_prev_val : Z) : air :=
  let one := 1 in
  let zero := 0 in
  let opcode_constant := 9 in
  Air
    [ enabler * (one - enabler) ]
    [ RE Registers (- enabler) [pc; fp; clock]
    ; RE Registers (enabler) [pc + one; fp; clock + one]
    ; RE Memory (- enabler) [pc; inst_prev_clock; opcode_constant; off0; off2]
    ; RE Memory (enabler) [pc; clock; opcode_constant; off0; off2]
    ; RE Memory (- enabler) [fp + off2; dst_prev_clock; dst_prev_val]
    ; RE Memory (enabler) [fp + off2; clock; off0; zero; zero; zero]
    ; RE RC20 (- 1) [clock - inst_prev_clock - enabler]
    ; RE RC20 (- 1) [clock - dst_prev_clock - enabler] ].

(** crates/prover/src/components/opcodes/store_frame_pointer.rs 331-414: [evaluate]. *)
Definition store_frame_pointer
    (enabler pc fp clock inst_prev_clock imm dst_off dst_prev_val dst_prev_clock : Z) : air :=
  let one := 1 in
  let opcode_constant := 43 in
  Air
    [ enabler * (one - enabler) ]
    [ RE Registers (- enabler) [pc; fp; clock]
    ; RE Registers (enabler) [pc + one; fp; clock + one]
    ; RE Memory (- enabler) [pc; inst_prev_clock; opcode_constant; imm; dst_off]
    ; RE Memory (enabler) [pc; clock; opcode_constant; imm; dst_off]
    ; RE Memory (- enabler) [fp + dst_off; dst_prev_clock; dst_prev_val]
    ; RE Memory (enabler) [fp + dst_off; clock; fp + imm]
    ; RE RC20 (- 1) [clock - inst_prev_clock - enabler]
    ; RE RC20 (- 1) [clock - dst_prev_clock - enabler] ].

(** crates/prover/src/components/opcodes/store_le_fp_imm.rs 549-744: [evaluate]. *)
Definition store_le_fp_imm
    (enabler pc fp clock inst_prev_clock src_off imm dst_off src_val src_prev_clock dst_prev_val
     dst_prev_clock a b keep_0_1 keep_0_2 keep_1_2 arc_short_lo arc_short_hi arc_long_lo
     arc_long_hi is_le : Z) : air :=
  let one := 1 in
  let opcode_constant := 48 in
  let prime_over_3_high := 10923 in
  let prime_over_2_high := 16384 in
  let arc_short := arc_short_lo + arc_short_hi * prime_over_3_high in
  let arc_long := arc_long_lo + arc_long_hi * prime_over_2_high in
  let arc_sum := arc_short + arc_long in
  let arc_prod := arc_short * arc_long in
  Air
    [ enabler * (one - enabler)
    ; keep_0_1 * (one - keep_0_1)
    ; keep_0_2 * (one - keep_0_2)
    ; keep_1_2 * (one - keep_1_2)
    ; enabler * (keep_0_1 + keep_0_2 + keep_1_2 - one)
    ; is_le * (one - is_le)
    ; keep_0_1 * (arc_sum - (a + b - a))
    ; keep_0_1 * (arc_prod - a * (b - a))
    ; keep_0_2 * (arc_sum - (a - one - b))
    ; keep_0_2 * (arc_prod - a * ((- one) - b))
    ; keep_1_2 * (arc_sum - (b - a - one - b))
    ; keep_1_2 * (arc_prod - (b - a) * ((- one) - b))
    ; enabler * (a - is_le * src_val - (one - is_le) * imm)
    ; enabler * (b - is_le * imm - (one - is_le) * src_val) ]
    [ RE Registers (- enabler) [pc; fp; clock]
    ; RE Registers (enabler) [pc + one; fp; clock + one]
    ; RE Memory (- enabler) [pc; inst_prev_clock; opcode_constant; src_off; imm; dst_off]
    ; RE Memory (enabler) [pc; clock; opcode_constant; src_off; imm; dst_off]
    ; RE Memory (- enabler) [fp + src_off; src_prev_clock; src_val]
    ; RE Memory (enabler) [fp + src_off; clock; src_val]
    ; RE Memory (- enabler) [fp + dst_off; dst_prev_clock; dst_prev_val]
    ; RE Memory (enabler) [fp + dst_off; clock; is_le]
    ; RE RC16 (- 1) [arc_short_lo]
    ; RE RC16 (- 1) [arc_short_hi]
    ; RE RC16 (- 1) [arc_long_lo]
    ; RE RC16 (- 1) [arc_long_hi]
    ; RE RC20 (- 1) [clock - inst_prev_clock - enabler]
    ; RE RC20 (- 1) [clock - src_prev_clock - enabler]
    ; RE RC20 (- 1) [clock - dst_prev_clock - enabler] ].

(** crates/prover/src/components/opcodes/assert_eq_fp_imm.rs 333-414: [evaluate]. *)
Definition assert_eq_fp_imm
    (enabler pc fp clock inst_prev_clock src0_off imm op0_prev_clock op0_val : Z) : air :=
  let one := 1 in
  let opcode_constant := 50 in
  Air
    [ enabler * (one - enabler)
    ; op0_val - imm ]
    [ RE Registers (- enabler) [pc; fp; clock]
    ; RE Registers (enabler) [pc + one; fp; clock + one]
    ; RE Memory (- enabler) [pc; inst_prev_clock; opcode_constant; src0_off; imm]
    ; RE Memory (enabler) [pc; clock; opcode_constant; src0_off; imm]
    ; RE Memory (- enabler) [fp + src0_off; op0_prev_clock; op0_val]
    ; RE Memory (enabler) [fp + src0_off; clock; op0_val]
    ; RE RC20 (- 1) [clock - inst_prev_clock - enabler]
    ; RE RC20 (- 1) [clock - op0_prev_clock - enabler] ].

(** crates/prover/src/components/opcodes/double_deref_fp_imm.rs 366-506: [evaluate]. *)
Definition double_deref_fp_imm
    (enabler pc fp clock inst_prev_clock opcode_constant off0 off1 off2 val0 prev_clock0 addr1
     val1 prev_clock1 addr2 prev_val2 prev_clock2 : Z) : air :=
  let one := 1 in
  let delta_inv := minv (44 - 8) in
  let store_double_deref_fp := 8 in
  let write_lhs := (opcode_constant - store_double_deref_fp) * delta_inv in
  Air
    [ enabler * (one - enabler)
    ; write_lhs * (one - write_lhs)
    ; enabler * (addr1 - write_lhs * (fp + off2) - (one - write_lhs) * (val0 + off1))
    ; enabler * (addr2 - write_lhs * (val0 + off1) - (one - write_lhs) * (fp + off2)) ]
    [ RE Registers (- enabler) [pc; fp; clock]
    ; RE Registers (enabler) [pc + one; fp; clock + one]
    ; RE Memory (- enabler) [pc; inst_prev_clock; opcode_constant; off0; off1; off2]
    ; RE Memory (enabler) [pc; clock; opcode_constant; off0; off1; off2]
    ; RE Memory (- enabler) [fp + off0; prev_clock0; val0]
    ; RE Memory (enabler) [fp + off0; clock; val0]
    ; RE Memory (- enabler) [addr1; prev_clock1; val1]
    ; RE Memory (enabler) [addr1; clock; val1]
    ; RE Memory (- enabler) [addr2; prev_clock2; prev_val2]
    ; RE Memory (enabler) [addr2; clock; val1]
    ; RE RC20 (- 1) [clock - inst_prev_clock - enabler]
    ; RE RC20 (- 1) [clock - prev_clock0 - enabler]
    ; RE RC20 (- 1) [clock - prev_clock1 - enabler]
    ; RE RC20 (- 1) [clock - prev_clock2 - enabler] ].

(** crates/prover/src/components/opcodes/double_deref_fp_fp.rs 393-559: [evaluate]. *)
Definition double_deref_fp_fp
    (enabler pc fp clock inst_prev_clock opcode_constant off0 off1 off2 val0 prev_clock0 val1
     prev_clock1 addr2 val2 prev_clock2 addr3 prev_val3 prev_clock3 : Z) : air :=
  let one := 1 in
  let store_double_deref_fp_fp := 42 in
  let delta_inv := minv (45 - 42) in
  let write_lhs := (opcode_constant - store_double_deref_fp_fp) * delta_inv in
  Air
    [ enabler * (one - enabler)
    ; write_lhs * (one - write_lhs)
    ; enabler * (addr2 - write_lhs * (fp + off2) - (one - write_lhs) * (val0 + val1))
    ; enabler * (addr3 - write_lhs * (val0 + val1) - (one - write_lhs) * (fp + off2)) ]
    [ RE Registers (- enabler) [pc; fp; clock]
    ; RE Registers (enabler) [pc + one; fp; clock + one]
    ; RE Memory (- enabler) [pc; inst_prev_clock; opcode_constant; off0; off1; off2]
    ; RE Memory (enabler) [pc; clock; opcode_constant; off0; off1; off2]
    ; RE Memory (- enabler) [fp + off0; prev_clock0; val0]
    ; RE Memory (enabler) [fp + off0; clock; val0]
    ; RE Memory (- enabler) [fp + off1; prev_clock1; val1]
    ; RE Memory (enabler) [fp + off1; clock; val1]
    ; RE Memory (- enabler) [addr2; prev_clock2; val2]
    ; RE Memory (enabler) [addr2; clock; val2]
    ; RE Memory (- enabler) [addr3; prev_clock3; prev_val3]
    ; RE Memory (enabler) [addr3; clock; val2]
    ; RE RC20 (- 1) [clock - inst_prev_clock - enabler]
    ; RE RC20 (- 1) [clock - prev_clock0 - enabler]
    ; RE RC20 (- 1) [clock - prev_clock1 - enabler]
    ; RE RC20 (- 1) [clock - prev_clock2 - enabler]
    ; RE RC20 (- 1) [clock - prev_clock3 - enabler] ].

(** crates/prover/src/components/opcodes/call_abs_imm.rs 381-491: [evaluate]. *)
Definition call_abs_imm
    (enabler pc fp clock inst_prev_clock off0 off1 op0_prev_clock op0_prev_val
     op0_plus_one_prev_clock op0_plus_one_prev_val : Z) : air :=
  let one := 1 in
  let opcode_constant := 10 in
  Air
    [ enabler * (one - enabler) ]
    [ RE Registers (- enabler) [pc; fp; clock]
    ; RE Registers (enabler) [off1; fp + off0 + one + one; clock + one]
    ; RE Memory (- enabler) [pc; inst_prev_clock; opcode_constant; off0; off1]
    ; RE Memory (enabler) [pc; clock; opcode_constant; off0; off1]
    ; RE Memory (- enabler) [fp + off0; op0_prev_clock; op0_prev_val]
    ; RE Memory (enabler) [fp + off0; clock; fp]
    ; RE Memory (- enabler) [fp + off0 + one; op0_plus_one_prev_clock; op0_plus_one_prev_val]
    ; RE Memory (enabler) [fp + off0 + one; clock; pc + one]
    ; RE RC20 (- 1) [clock - inst_prev_clock - enabler]
    ; RE RC20 (- 1) [clock - op0_prev_clock - enabler]
    ; RE RC20 (- 1) [clock - op0_plus_one_prev_clock - enabler] ].

(** crates/prover/src/components/opcodes/ret.rs 386-483: [evaluate]. *)
Definition ret
    (enabler pc fp clock inst_prev_clock fp_min_2_prev_clock fp_min_2_val fp_min_1_prev_clock
     fp_min_1_val : Z) : air :=
  let one := 1 in
  let two := 2 in
  let opcode_constant := 11 in
  Air
    [ enabler * (one - enabler) ]
    [ RE Registers (- enabler) [pc; fp; clock]
    ; RE Registers (enabler) [fp_min_1_val; fp_min_2_val; clock + one]
    ; RE Memory (- enabler) [pc; inst_prev_clock; opcode_constant]
    ; RE Memory (enabler) [pc; clock; opcode_constant]
    ; RE Memory (- enabler) [fp - two; fp_min_2_prev_clock; fp_min_2_val]
    ; RE Memory (enabler) [fp - two; clock; fp_min_2_val]
    ; RE Memory (- enabler) [fp - enabler; fp_min_1_prev_clock; fp_min_1_val]
    ; RE Memory (enabler) [fp - enabler; clock; fp_min_1_val]
    ; RE RC20 (- 1) [clock - inst_prev_clock - enabler]
    ; RE RC20 (- 1) [clock - fp_min_2_prev_clock - enabler]
    ; RE RC20 (- 1) [clock - fp_min_1_prev_clock - enabler] ].

(** crates/prover/src/components/opcodes/jmp_imm.rs 285-342: [evaluate]. *)
Definition jmp_imm
    (enabler pc fp clock inst_prev_clock off0 is_rel : Z) : air :=
  let one := 1 in
  let opcode_constant := 12 in
  let opcode_id := opcode_constant + is_rel in
  Air
    [ enabler * (one - enabler)
    ; is_rel * (one - is_rel) ]
    [ RE Memory (- enabler) [pc; inst_prev_clock; opcode_id; off0]
    ; RE Memory (enabler) [pc; clock; opcode_id; off0]
    ; RE RC20 (- 1) [clock - inst_prev_clock - enabler]
    ; RE Registers (- enabler) [pc; fp; clock]
    ; RE Registers (enabler) [off0 + pc * is_rel; fp; clock + one] ].

(** crates/prover/src/components/opcodes/jnz_fp_imm.rs 351-443: [evaluate]. *)
Definition jnz_fp_imm
    (enabler pc fp clock inst_prev_clock off0 imm op0_prev_clock op0_val op0_val_inv taken
     pc_new : Z) : air :=
  let one := 1 in
  let opcode_constant := 14 in
  Air
    [ enabler * (one - enabler)
    ; enabler * op0_val * (taken - one)
    ; enabler * (taken - op0_val * op0_val_inv)
    ; enabler * (pc_new - pc - one - taken * (imm - one)) ]
    [ RE Registers (- enabler) [pc; fp; clock]
    ; RE Registers (enabler) [pc_new; fp; clock + one]
    ; RE Memory (- enabler) [pc; inst_prev_clock; opcode_constant; off0; imm]
    ; RE Memory (enabler) [pc; clock; opcode_constant; off0; imm]
    ; RE Memory (- enabler) [fp + off0; op0_prev_clock; op0_val]
    ; RE Memory (enabler) [fp + off0; clock; op0_val]
    ; RE RC20 (- 1) [clock - inst_prev_clock - enabler]
    ; RE RC20 (- 1) [clock - op0_prev_clock - enabler] ].

(** crates/prover/src/components/opcodes/u32_store_imm.rs 437-563: [evaluate]. *)
Definition u32_store_imm
    (enabler pc fp clock inst_prev_clock imm_lo imm_hi dst_off dst_prev_val_lo dst_prev_val_hi
     dst_prev_clock_lo dst_prev_clock_hi : Z) : air :=
  let one := 1 in
  let opcode_constant := 23 in
  Air
    [ enabler * (one - enabler) ]
    [ RE Registers (- enabler) [pc; fp; clock]
    ; RE Registers (enabler) [pc + one; fp; clock + one]
    ; RE Memory (- enabler) [pc; inst_prev_clock; opcode_constant; imm_lo; imm_hi; dst_off]
    ; RE Memory (enabler) [pc; clock; opcode_constant; imm_lo; imm_hi; dst_off]
    ; RE Memory (- enabler) [fp + dst_off; dst_prev_clock_lo; dst_prev_val_lo]
    ; RE Memory (enabler) [fp + dst_off; clock; imm_lo]
    ; RE Memory (- enabler) [fp + dst_off + one; dst_prev_clock_hi; dst_prev_val_hi]
    ; RE Memory (enabler) [fp + dst_off + one; clock; imm_hi]
    ; RE RC16 (- 1) [imm_lo]
    ; RE RC16 (- 1) [imm_hi]
    ; RE RC20 (- 1) [clock - inst_prev_clock - enabler]
    ; RE RC20 (- 1) [clock - dst_prev_clock_lo - enabler]
    ; RE RC20 (- 1) [clock - dst_prev_clock_hi - enabler] ].

(** crates/prover/src/components/opcodes/u32_store_add_fp_fp.rs 538-806: [evaluate]. *)
Definition u32_store_add_fp_fp
    (enabler pc fp clock inst_prev_clock src0_off src1_off dst_off op0_val_lo op0_val_hi
     op0_prev_lo_clock op0_prev_hi_clock op1_val_lo op1_val_hi op1_prev_lo_clock
     op1_prev_hi_clock dst_prev_val_lo dst_prev_val_hi dst_prev_lo_clock dst_prev_hi_clock
     u16_carry u32_carry : Z) : air :=
  let one := 1 in
  let two_pow_16 := 65536 in
  let opcode_constant := 15 in
  let res_lo := op0_val_lo + op1_val_lo - u16_carry * two_pow_16 in
  let res_hi := op0_val_hi + op1_val_hi + u16_carry - u32_carry * two_pow_16 in
  Air
    [ enabler * (one - enabler)
    ; u16_carry * (one - u16_carry)
    ; u32_carry * (one - u32_carry) ]
    [ RE Registers (- enabler) [pc; fp; clock]
    ; RE Registers (enabler) [pc + one; fp; clock + one]
    ; RE Memory (- enabler) [pc; inst_prev_clock; opcode_constant; src0_off; src1_off; dst_off]
    ; RE Memory (enabler) [pc; clock; opcode_constant; src0_off; src1_off; dst_off]
    ; RE Memory (- enabler) [fp + src0_off; op0_prev_lo_clock; op0_val_lo]
    ; RE Memory (enabler) [fp + src0_off; clock; op0_val_lo]
    ; RE Memory (- enabler) [fp + src0_off + one; op0_prev_hi_clock; op0_val_hi]
    ; RE Memory (enabler) [fp + src0_off + one; clock; op0_val_hi]
    ; RE Memory (- enabler) [fp + src1_off; op1_prev_lo_clock; op1_val_lo]
    ; RE Memory (enabler) [fp + src1_off; clock; op1_val_lo]
    ; RE Memory (- enabler) [fp + src1_off + one; op1_prev_hi_clock; op1_val_hi]
    ; RE Memory (enabler) [fp + src1_off + one; clock; op1_val_hi]
    ; RE Memory (- enabler) [fp + dst_off; dst_prev_lo_clock; dst_prev_val_lo]
    ; RE Memory (enabler) [fp + dst_off; clock; res_lo]
    ; RE Memory (- enabler) [fp + dst_off + one; dst_prev_hi_clock; dst_prev_val_hi]
    ; RE Memory (enabler) [fp + dst_off + one; clock; res_hi]
    ; RE RC16 (- 1) [op0_val_lo]
    ; RE RC16 (- 1) [op0_val_hi]
    ; RE RC16 (- 1) [op1_val_lo]
    ; RE RC16 (- 1) [op1_val_hi]
    ; RE RC16 (- 1) [res_lo]
    ; RE RC16 (- 1) [res_hi]
    ; RE RC20 (- 1) [clock - inst_prev_clock - enabler]
    ; RE RC20 (- 1) [clock - op0_prev_lo_clock - enabler]
    ; RE RC20 (- 1) [clock - op0_prev_hi_clock - enabler]
    ; RE RC20 (- 1) [clock - op1_prev_lo_clock - enabler]
    ; RE RC20 (- 1) [clock - op1_prev_hi_clock - enabler]
    ; RE RC20 (- 1) [clock - dst_prev_lo_clock - enabler]
    ; RE RC20 (- 1) [clock - dst_prev_hi_clock - enabler] ].

(** crates/prover/src/components/opcodes/u32_store_add_fp_imm.rs 513-743: [evaluate]. *)
Definition u32_store_add_fp_imm
    (enabler pc fp clock inst_prev_clock src_off imm_lo imm_hi dst_off op0_val_lo op0_val_hi
     op0_prev_clock_lo op0_prev_clock_hi dst_prev_val_lo dst_prev_val_hi dst_prev_clock_lo
     dst_prev_clock_hi u16_carry u32_carry : Z) : air :=
  let one := 1 in
  let two_pow_16 := 65536 in
  let opcode_constant := 19 in
  let res_lo := op0_val_lo + imm_lo - u16_carry * two_pow_16 in
  let res_hi := op0_val_hi + imm_hi + u16_carry - u32_carry * two_pow_16 in
  Air
    [ enabler * (one - enabler)
    ; u16_carry * (one - u16_carry)
    ; u32_carry * (one - u32_carry) ]
    [ RE Registers (- enabler) [pc; fp; clock]
    ; RE Registers (enabler) [pc + one + one; fp; clock + one]
    ; RE Memory (- enabler) [pc; inst_prev_clock; opcode_constant; src_off; imm_lo; imm_hi]
    ; RE Memory (enabler) [pc; clock; opcode_constant; src_off; imm_lo; imm_hi]
    ; RE Memory (- enabler) [pc + one; inst_prev_clock; dst_off]
    ; RE Memory (enabler) [pc + one; clock; dst_off]
    ; RE Memory (- enabler) [fp + src_off; op0_prev_clock_lo; op0_val_lo]
    ; RE Memory (enabler) [fp + src_off; clock; op0_val_lo]
    ; RE Memory (- enabler) [fp + src_off + one; op0_prev_clock_hi; op0_val_hi]
    ; RE Memory (enabler) [fp + src_off + one; clock; op0_val_hi]
    ; RE Memory (- enabler) [fp + dst_off; dst_prev_clock_lo; dst_prev_val_lo]
    ; RE Memory (enabler) [fp + dst_off; clock; res_lo]
    ; RE Memory (- enabler) [fp + dst_off + one; dst_prev_clock_hi; dst_prev_val_hi]
    ; RE Memory (enabler) [fp + dst_off + one; clock; res_hi]
    ; RE RC16 (- 1) [op0_val_lo]
    ; RE RC16 (- 1) [op0_val_hi]
    ; RE RC16 (- 1) [imm_lo]
    ; RE RC16 (- 1) [imm_hi]
    ; RE RC16 (- 1) [res_lo]
    ; RE RC16 (- 1) [res_hi]
    ; RE RC20 (- 1) [clock - inst_prev_clock - enabler]
    ; RE RC20 (- 1) [clock - op0_prev_clock_lo - enabler]
    ; RE RC20 (- 1) [clock - op0_prev_clock_hi - enabler]
    ; RE RC20 (- 1) [clock - dst_prev_clock_lo - enabler]
    ; RE RC20 (- 1) [clock - dst_prev_clock_hi - enabler] ].

(** crates/prover/src/components/opcodes/u32_store_sub_fp_fp.rs 543-811: [evaluate]. *)
Definition u32_store_sub_fp_fp
    (enabler pc fp clock inst_prev_clock src0_off src1_off dst_off op0_val_lo op0_val_hi
     op0_prev_lo_clock op0_prev_hi_clock op1_val_lo op1_val_hi op1_prev_lo_clock
     op1_prev_hi_clock dst_prev_val_lo dst_prev_val_hi dst_prev_lo_clock dst_prev_hi_clock
     borrow_lo borrow_hi : Z) : air :=
  let one := 1 in
  let two_pow_16 := 65536 in
  let opcode_constant := 16 in
  let res_lo := op0_val_lo + borrow_lo * two_pow_16 - op1_val_lo in
  let res_hi := op0_val_hi - borrow_lo + borrow_hi * two_pow_16 - op1_val_hi in
  Air
    [ enabler * (one - enabler)
    ; borrow_lo * (one - borrow_lo)
    ; borrow_hi * (one - borrow_hi) ]
    [ RE Registers (- enabler) [pc; fp; clock]
    ; RE Registers (enabler) [pc + one; fp; clock + one]
    ; RE Memory (- enabler) [pc; inst_prev_clock; opcode_constant; src0_off; src1_off; dst_off]
    ; RE Memory (enabler) [pc; clock; opcode_constant; src0_off; src1_off; dst_off]
    ; RE Memory (- enabler) [fp + src0_off; op0_prev_lo_clock; op0_val_lo]
    ; RE Memory (enabler) [fp + src0_off; clock; op0_val_lo]
    ; RE Memory (- enabler) [fp + src0_off + one; op0_prev_hi_clock; op0_val_hi]
    ; RE Memory (enabler) [fp + src0_off + one; clock; op0_val_hi]
    ; RE Memory (- enabler) [fp + src1_off; op1_prev_lo_clock; op1_val_lo]
    ; RE Memory (enabler) [fp + src1_off; clock; op1_val_lo]
    ; RE Memory (- enabler) [fp + src1_off + one; op1_prev_hi_clock; op1_val_hi]
    ; RE Memory (enabler) [fp + src1_off + one; clock; op1_val_hi]
    ; RE Memory (- enabler) [fp + dst_off; dst_prev_lo_clock; dst_prev_val_lo]
    ; RE Memory (enabler) [fp + dst_off; clock; res_lo]
    ; RE Memory (- enabler) [fp + dst_off + one; dst_prev_hi_clock; dst_prev_val_hi]
    ; RE Memory (enabler) [fp + dst_off + one; clock; res_hi]
    ; RE RC16 (- 1) [op0_val_lo]
    ; RE RC16 (- 1) [op0_val_hi]
    ; RE RC16 (- 1) [op1_val_lo]
    ; RE RC16 (- 1) [op1_val_hi]
    ; RE RC16 (- 1) [res_lo]
    ; RE RC16 (- 1) [res_hi]
    ; RE RC20 (- 1) [clock - inst_prev_clock - enabler]
    ; RE RC20 (- 1) [clock - op0_prev_lo_clock - enabler]
    ; RE RC20 (- 1) [clock - op0_prev_hi_clock - enabler]
    ; RE RC20 (- 1) [clock - op1_prev_lo_clock - enabler]
    ; RE RC20 (- 1) [clock - op1_prev_hi_clock - enabler]
    ; RE RC20 (- 1) [clock - dst_prev_lo_clock - enabler]
    ; RE RC20 (- 1) [clock - dst_prev_hi_clock - enabler] ].

(** crates/prover/src/components/opcodes/u32_store_mul_fp_fp.rs 697-1059: [evaluate]. *)
Definition u32_store_mul_fp_fp
    (enabler pc fp clock inst_prev_clock src0_off src1_off dst_off op0_0 op0_1 op0_2 op0_3
     op0_prev_clock_lo op0_prev_clock_hi op1_0 op1_1 op1_2 op1_3 op1_prev_clock_lo
     op1_prev_clock_hi dst_prev_val_lo dst_prev_val_hi dst_prev_clock_lo dst_prev_clock_hi res_0
     res_1 res_2 res_3 carry_0 carry_1 carry_2 carry_3 : Z) : air :=
  let one := 1 in
  let two_pow_8 := 256 in
  let opcode_constant := 17 in
  let max_carry_0 := 254 in
  let max_carry_1 := 509 in
  let max_carry_2 := 764 in
  let max_carry_3 := 1019 in
  Air
    [ enabler * (one - enabler)
    ; enabler * (res_0 - (op0_0 * op1_0 - carry_0 * two_pow_8))
    ; enabler * (res_1 - (op0_0 * op1_1 + op0_1 * op1_0 + carry_0 - carry_1 * two_pow_8))
    ; enabler * (res_2 - (op0_0 * op1_2 + op0_1 * op1_1 + op0_2 * op1_0 + carry_1 - carry_2 * two_pow_8))
    ; enabler * (res_3 - (op0_0 * op1_3 + op0_1 * op1_2 + op0_2 * op1_1 + op0_3 * op1_0 + carry_2 - carry_3 * two_pow_8)) ]
    [ RE Registers (- enabler) [pc; fp; clock]
    ; RE Registers (enabler) [pc + one; fp; clock + one]
    ; RE Memory (- enabler) [pc; inst_prev_clock; opcode_constant; src0_off; src1_off; dst_off]
    ; RE Memory (enabler) [pc; clock; opcode_constant; src0_off; src1_off; dst_off]
    ; RE Memory (- enabler) [fp + src0_off; op0_prev_clock_lo; op0_0 + op0_1 * two_pow_8]
    ; RE Memory (enabler) [fp + src0_off; clock; op0_0 + op0_1 * two_pow_8]
    ; RE Memory (- enabler) [fp + src0_off + one; op0_prev_clock_hi; op0_2 + op0_3 * two_pow_8]
    ; RE Memory (enabler) [fp + src0_off + one; clock; op0_2 + op0_3 * two_pow_8]
    ; RE Memory (- enabler) [fp + src1_off; op1_prev_clock_lo; op1_0 + op1_1 * two_pow_8]
    ; RE Memory (enabler) [fp + src1_off; clock; op1_0 + op1_1 * two_pow_8]
    ; RE Memory (- enabler) [fp + src1_off + one; op1_prev_clock_hi; op1_2 + op1_3 * two_pow_8]
    ; RE Memory (enabler) [fp + src1_off + one; clock; op1_2 + op1_3 * two_pow_8]
    ; RE Memory (- enabler) [fp + dst_off; dst_prev_clock_lo; dst_prev_val_lo]
    ; RE Memory (enabler) [fp + dst_off; clock; res_0 + res_1 * two_pow_8]
    ; RE Memory (- enabler) [fp + dst_off + one; dst_prev_clock_hi; dst_prev_val_hi]
    ; RE Memory (enabler) [fp + dst_off + one; clock; res_2 + res_3 * two_pow_8]
    ; RE RC8 (- 1) [op0_0]
    ; RE RC8 (- 1) [op0_1]
    ; RE RC8 (- 1) [op0_2]
    ; RE RC8 (- 1) [op0_3]
    ; RE RC8 (- 1) [op1_0]
    ; RE RC8 (- 1) [op1_1]
    ; RE RC8 (- 1) [op1_2]
    ; RE RC8 (- 1) [op1_3]
    ; RE RC8 (- 1) [res_0]
    ; RE RC8 (- 1) [res_1]
    ; RE RC8 (- 1) [res_2]
    ; RE RC8 (- 1) [res_3]
    ; RE RC16 (- 1) [max_carry_0 - carry_0]
    ; RE RC16 (- 1) [max_carry_1 - carry_1]
    ; RE RC16 (- 1) [max_carry_2 - carry_2]
    ; RE RC16 (- 1) [max_carry_3 - carry_3]
    ; RE RC20 (- 1) [clock - inst_prev_clock - enabler]
    ; RE RC20 (- 1) [clock - op0_prev_clock_lo - enabler]
    ; RE RC20 (- 1) [clock - op0_prev_clock_hi - enabler]
    ; RE RC20 (- 1) [clock - dst_prev_clock_lo - enabler]
    ; RE RC20 (- 1) [clock - dst_prev_clock_hi - enabler] ].

(** crates/prover/src/components/opcodes/u32_store_mul_fp_imm.rs 651-986: [evaluate]. *)
Definition u32_store_mul_fp_imm
    (enabler pc fp clock inst_prev_clock src_off imm_0 imm_1 imm_2 imm_3 dst_off op0_0 op0_1
     op0_2 op0_3 op0_prev_clock_lo op0_prev_clock_hi dst_prev_val_lo dst_prev_val_hi
     dst_prev_clock_lo dst_prev_clock_hi res_0 res_1 res_2 res_3 carry_0 carry_1 carry_2 carry_3 : Z) : air :=
  let one := 1 in
  let two_pow_8 := 256 in
  let opcode_constant := 21 in
  let max_carry_0 := 254 in
  let max_carry_1 := 509 in
  let max_carry_2 := 764 in
  let max_carry_3 := 1019 in
  Air
    [ enabler * (one - enabler)
    ; enabler * (res_0 - (op0_0 * imm_0 - carry_0 * two_pow_8))
    ; enabler * (res_1 - (op0_0 * imm_1 + op0_1 * imm_0 + carry_0 - carry_1 * two_pow_8))
    ; enabler * (res_2 - (op0_0 * imm_2 + op0_1 * imm_1 + op0_2 * imm_0 + carry_1 - carry_2 * two_pow_8))
    ; enabler * (res_3 - (op0_0 * imm_3 + op0_1 * imm_2 + op0_2 * imm_1 + op0_3 * imm_0 + carry_2 - carry_3 * two_pow_8)) ]
    [ RE Registers (- enabler) [pc; fp; clock]
    ; RE Registers (enabler) [pc + one + one; fp; clock + one]
    ; RE Memory (- enabler) [pc; inst_prev_clock; opcode_constant; src_off; imm_0 + imm_1 * two_pow_8; imm_2 + imm_3 * two_pow_8]
    ; RE Memory (enabler) [pc; clock; opcode_constant; src_off; imm_0 + imm_1 * two_pow_8; imm_2 + imm_3 * two_pow_8]
    ; RE Memory (- enabler) [pc + one; inst_prev_clock; dst_off]
    ; RE Memory (enabler) [pc + one; clock; dst_off]
    ; RE Memory (- enabler) [fp + src_off; op0_prev_clock_lo; op0_0 + op0_1 * two_pow_8]
    ; RE Memory (enabler) [fp + src_off; clock; op0_0 + op0_1 * two_pow_8]
    ; RE Memory (- enabler) [fp + src_off + one; op0_prev_clock_hi; op0_2 + op0_3 * two_pow_8]
    ; RE Memory (enabler) [fp + src_off + one; clock; op0_2 + op0_3 * two_pow_8]
    ; RE Memory (- enabler) [fp + dst_off; dst_prev_clock_lo; dst_prev_val_lo]
    ; RE Memory (enabler) [fp + dst_off; clock; res_0 + res_1 * two_pow_8]
    ; RE Memory (- enabler) [fp + dst_off + one; dst_prev_clock_hi; dst_prev_val_hi]
    ; RE Memory (enabler) [fp + dst_off + one; clock; res_2 + res_3 * two_pow_8]
    ; RE RC8 (- 1) [op0_0]
    ; RE RC8 (- 1) [op0_1]
    ; RE RC8 (- 1) [op0_2]
    ; RE RC8 (- 1) [op0_3]
    ; RE RC8 (- 1) [imm_0]
    ; RE RC8 (- 1) [imm_1]
    ; RE RC8 (- 1) [imm_2]
    ; RE RC8 (- 1) [imm_3]
    ; RE RC8 (- 1) [res_0]
    ; RE RC8 (- 1) [res_1]
    ; RE RC8 (- 1) [res_2]
    ; RE RC8 (- 1) [res_3]
    ; RE RC16 (- 1) [max_carry_0 - carry_0]
    ; RE RC16 (- 1) [max_carry_1 - carry_1]
    ; RE RC16 (- 1) [max_carry_2 - carry_2]
    ; RE RC16 (- 1) [max_carry_3 - carry_3]
    ; RE RC20 (- 1) [clock - inst_prev_clock - enabler]
    ; RE RC20 (- 1) [clock - op0_prev_clock_lo - enabler]
    ; RE RC20 (- 1) [clock - op0_prev_clock_hi - enabler]
    ; RE RC20 (- 1) [clock - dst_prev_clock_lo - enabler]
    ; RE RC20 (- 1) [clock - dst_prev_clock_hi - enabler] ].

(** crates/prover/src/components/opcodes/u32_store_div_fp_fp.rs 977-1510: [evaluate]. *)
Definition u32_store_div_fp_fp
    (enabler pc fp clock inst_prev_clock src0_off src1_off dst_off dst_rem_off n_lo n_hi
     op0_prev_clock_lo op0_prev_clock_hi d_0 d_1 d_2 d_3 op1_prev_clock_lo op1_prev_clock_hi
     dst_prev_val_lo dst_prev_val_hi dst_prev_clock_lo dst_prev_clock_hi dst_rem_prev_val_lo
     dst_rem_prev_val_hi dst_rem_prev_clock_lo dst_rem_prev_clock_hi q_0 q_1 q_2 q_3 mul_carry_0
     mul_carry_1 mul_carry_2 mul_carry_3 mul_carry_4 mul_carry_5 mul_carry_6 prod_0 prod_1
     prod_2 prod_3 prod_4 prod_5 prod_6 prod_7 add_carry_0 add_carry_1 add_carry_2 add_carry_3
     sub_borrow_0 sub_borrow_1 r_lo r_hi : Z) : air :=
  let one := 1 in
  let two_pow_8 := 256 in
  let two_pow_16 := 65536 in
  let opcode_constant := 18 in
  let op1_val_lo := d_0 + d_1 * two_pow_8 in
  let op1_val_hi := d_2 + d_3 * two_pow_8 in
  let sub_check_lo := d_0 + d_1 * two_pow_8 + sub_borrow_0 * two_pow_16 - r_lo - one in
  let sub_check_hi := d_2 + d_3 * two_pow_8 + sub_borrow_1 * two_pow_16 - r_hi - sub_borrow_0 in
  let res_lo := q_0 + q_1 * two_pow_8 in
  let res_hi := q_2 + q_3 * two_pow_8 in
  let max_carry_0 := 254 in
  let max_carry_1 := 509 in
  let max_carry_2 := 764 in
  let max_carry_3 := 1019 in
  let max_carry_4 := 765 in
  let max_carry_5 := 510 in
  let max_carry_6 := 255 in
  Air
    [ enabler * (one - enabler)
    ; enabler * add_carry_0 * (one - add_carry_0)
    ; enabler * add_carry_1 * (one - add_carry_1)
    ; enabler * add_carry_2 * (one - add_carry_2)
    ; enabler * sub_borrow_0 * (one - sub_borrow_0)
    ; enabler * (q_0 * d_0 - mul_carry_0 * two_pow_8 - prod_0)
    ; enabler * (q_0 * d_1 + q_1 * d_0 + mul_carry_0 - mul_carry_1 * two_pow_8 - prod_1)
    ; enabler * (q_0 * d_2 + q_2 * d_0 + q_1 * d_1 + mul_carry_1 - mul_carry_2 * two_pow_8 - prod_2)
    ; enabler * (q_0 * d_3 + q_3 * d_0 + q_1 * d_2 + q_2 * d_1 + mul_carry_2 - mul_carry_3 * two_pow_8 - prod_3)
    ; enabler * (q_1 * d_3 + q_3 * d_1 + q_2 * d_2 + mul_carry_3 - mul_carry_4 * two_pow_8 - prod_4)
    ; enabler * (q_2 * d_3 + q_3 * d_2 + mul_carry_4 - mul_carry_5 * two_pow_8 - prod_5)
    ; enabler * (q_3 * d_3 + mul_carry_5 - mul_carry_6 * two_pow_8 - prod_6)
    ; enabler * (mul_carry_6 - prod_7)
    ; enabler * (n_lo - (prod_0 + prod_1 * two_pow_8 + r_lo - add_carry_0 * two_pow_16))
    ; enabler * (n_hi - (prod_2 + prod_3 * two_pow_8 + r_hi + add_carry_0 - add_carry_1 * two_pow_16))
    ; enabler * (prod_4 + prod_5 * two_pow_8 + add_carry_1 - add_carry_2 * two_pow_16)
    ; enabler * (prod_6 + prod_7 * two_pow_8 + add_carry_2 - add_carry_3 * two_pow_16)
    ; enabler * add_carry_3
    ; enabler * sub_borrow_1 ]
    [ RE Registers (- enabler) [pc; fp; clock]
    ; RE Registers (enabler) [pc + one + one; fp; clock + one]
    ; RE Memory (- enabler) [pc; inst_prev_clock; opcode_constant; src0_off; src1_off; dst_off]
    ; RE Memory (enabler) [pc; clock; opcode_constant; src0_off; src1_off; dst_off]
    ; RE Memory (- enabler) [pc + one; inst_prev_clock; dst_rem_off]
    ; RE Memory (enabler) [pc + one; clock; dst_rem_off]
    ; RE Memory (- enabler) [fp + src0_off; op0_prev_clock_lo; n_lo]
    ; RE Memory (enabler) [fp + src0_off; clock; n_lo]
    ; RE Memory (- enabler) [fp + src0_off + one; op0_prev_clock_hi; n_hi]
    ; RE Memory (enabler) [fp + src0_off + one; clock; n_hi]
    ; RE Memory (- enabler) [fp + src1_off; op1_prev_clock_lo; op1_val_lo]
    ; RE Memory (enabler) [fp + src1_off; clock; op1_val_lo]
    ; RE Memory (- enabler) [fp + src1_off + one; op1_prev_clock_hi; op1_val_hi]
    ; RE Memory (enabler) [fp + src1_off + one; clock; op1_val_hi]
    ; RE Memory (- enabler) [fp + dst_off; dst_prev_clock_lo; dst_prev_val_lo]
    ; RE Memory (enabler) [fp + dst_off; clock; res_lo]
    ; RE Memory (- enabler) [fp + dst_off + one; dst_prev_clock_hi; dst_prev_val_hi]
    ; RE Memory (enabler) [fp + dst_off + one; clock; res_hi]
    ; RE Memory (- enabler) [fp + dst_rem_off; dst_rem_prev_clock_lo; dst_rem_prev_val_lo]
    ; RE Memory (enabler) [fp + dst_rem_off; clock; r_lo]
    ; RE Memory (- enabler) [fp + dst_rem_off + one; dst_rem_prev_clock_hi; dst_rem_prev_val_hi]
    ; RE Memory (enabler) [fp + dst_rem_off + one; clock; r_hi]
    ; RE RC8 (- 1) [d_0]
    ; RE RC8 (- 1) [d_1]
    ; RE RC8 (- 1) [d_2]
    ; RE RC8 (- 1) [d_3]
    ; RE RC8 (- 1) [q_0]
    ; RE RC8 (- 1) [q_1]
    ; RE RC8 (- 1) [q_2]
    ; RE RC8 (- 1) [q_3]
    ; RE RC8 (- 1) [prod_0]
    ; RE RC8 (- 1) [prod_1]
    ; RE RC8 (- 1) [prod_2]
    ; RE RC8 (- 1) [prod_3]
    ; RE RC8 (- 1) [prod_4]
    ; RE RC8 (- 1) [prod_5]
    ; RE RC8 (- 1) [prod_6]
    ; RE RC8 (- 1) [prod_7]
    ; RE RC16 (- 1) [n_lo]
    ; RE RC16 (- 1) [n_hi]
    ; RE RC16 (- 1) [r_lo]
    ; RE RC16 (- 1) [r_hi]
    ; RE RC16 (- 1) [max_carry_0 - mul_carry_0]
    ; RE RC16 (- 1) [max_carry_1 - mul_carry_1]
    ; RE RC16 (- 1) [max_carry_2 - mul_carry_2]
    ; RE RC16 (- 1) [max_carry_3 - mul_carry_3]
    ; RE RC16 (- 1) [max_carry_4 - mul_carry_4]
    ; RE RC16 (- 1) [max_carry_5 - mul_carry_5]
    ; RE RC16 (- 1) [max_carry_6 - mul_carry_6]
    ; RE RC16 (- 1) [sub_check_lo]
    ; RE RC16 (- 1) [sub_check_hi]
    ; RE RC20 (- 1) [clock - inst_prev_clock - enabler]
    ; RE RC20 (- 1) [clock - op0_prev_clock_lo - enabler]
    ; RE RC20 (- 1) [clock - op0_prev_clock_hi - enabler]
    ; RE RC20 (- 1) [clock - dst_prev_clock_lo - enabler]
    ; RE RC20 (- 1) [clock - dst_prev_clock_hi - enabler]
    ; RE RC20 (- 1) [clock - dst_rem_prev_clock_lo - enabler]
    ; RE RC20 (- 1) [clock - dst_rem_prev_clock_hi - enabler] ].

(** crates/prover/src/components/opcodes/u32_store_div_fp_imm.rs 937-1437: [evaluate]. *)
Definition u32_store_div_fp_imm
    (enabler pc fp clock inst_prev_clock src_off d_0 d_1 d_2 d_3 dst_off dst_rem_off n_lo n_hi
     op0_prev_clock_lo op0_prev_clock_hi dst_prev_val_lo dst_prev_val_hi dst_prev_clock_lo
     dst_prev_clock_hi dst_rem_prev_val_lo dst_rem_prev_val_hi dst_rem_prev_clock_lo
     dst_rem_prev_clock_hi q_0 q_1 q_2 q_3 mul_carry_0 mul_carry_1 mul_carry_2 mul_carry_3
     mul_carry_4 mul_carry_5 mul_carry_6 prod_0 prod_1 prod_2 prod_3 prod_4 prod_5 prod_6 prod_7
     add_carry_0 add_carry_1 add_carry_2 add_carry_3 sub_borrow_0 sub_borrow_1 r_lo r_hi : Z) : air :=
  let one := 1 in
  let two_pow_8 := 256 in
  let two_pow_16 := 65536 in
  let opcode_constant := 22 in
  let imm_lo := d_0 + d_1 * two_pow_8 in
  let imm_hi := d_2 + d_3 * two_pow_8 in
  let sub_check_lo := d_0 + d_1 * two_pow_8 + sub_borrow_0 * two_pow_16 - r_lo - one in
  let sub_check_hi := d_2 + d_3 * two_pow_8 + sub_borrow_1 * two_pow_16 - r_hi - sub_borrow_0 in
  let res_lo := q_0 + q_1 * two_pow_8 in
  let res_hi := q_2 + q_3 * two_pow_8 in
  let max_carry_0 := 254 in
  let max_carry_1 := 509 in
  let max_carry_2 := 764 in
  let max_carry_3 := 1019 in
  let max_carry_4 := 765 in
  let max_carry_5 := 510 in
  let max_carry_6 := 255 in
  Air
    [ enabler * (one - enabler)
    ; enabler * add_carry_0 * (one - add_carry_0)
    ; enabler * add_carry_1 * (one - add_carry_1)
    ; enabler * add_carry_2 * (one - add_carry_2)
    ; enabler * sub_borrow_0 * (one - sub_borrow_0)
    ; enabler * (q_0 * d_0 - mul_carry_0 * two_pow_8 - prod_0)
    ; enabler * (q_0 * d_1 + q_1 * d_0 + mul_carry_0 - mul_carry_1 * two_pow_8 - prod_1)
    ; enabler * (q_0 * d_2 + q_2 * d_0 + q_1 * d_1 + mul_carry_1 - mul_carry_2 * two_pow_8 - prod_2)
    ; enabler * (q_0 * d_3 + q_3 * d_0 + q_1 * d_2 + q_2 * d_1 + mul_carry_2 - mul_carry_3 * two_pow_8 - prod_3)
    ; enabler * (q_1 * d_3 + q_3 * d_1 + q_2 * d_2 + mul_carry_3 - mul_carry_4 * two_pow_8 - prod_4)
    ; enabler * (q_2 * d_3 + q_3 * d_2 + mul_carry_4 - mul_carry_5 * two_pow_8 - prod_5)
    ; enabler * (q_3 * d_3 + mul_carry_5 - mul_carry_6 * two_pow_8 - prod_6)
    ; enabler * (mul_carry_6 - prod_7)
    ; enabler * (n_lo - (prod_0 + prod_1 * two_pow_8 + r_lo - add_carry_0 * two_pow_16))
    ; enabler * (n_hi - (prod_2 + prod_3 * two_pow_8 + r_hi + add_carry_0 - add_carry_1 * two_pow_16))
    ; enabler * (prod_4 + prod_5 * two_pow_8 + add_carry_1 - add_carry_2 * two_pow_16)
    ; enabler * (prod_6 + prod_7 * two_pow_8 + add_carry_2 - add_carry_3 * two_pow_16)
    ; enabler * add_carry_3
    ; enabler * sub_borrow_1 ]
    [ RE Registers (- enabler) [pc; fp; clock]
    ; RE Registers (enabler) [pc + one + one; fp; clock + one]
    ; RE Memory (- enabler) [pc; inst_prev_clock; opcode_constant; src_off; imm_lo; imm_hi]
    ; RE Memory (enabler) [pc; clock; opcode_constant; src_off; imm_lo; imm_hi]
    ; RE Memory (- enabler) [pc + one; inst_prev_clock; dst_off; dst_rem_off]
    ; RE Memory (enabler) [pc + one; clock; dst_off; dst_rem_off]
    ; RE Memory (- enabler) [fp + src_off; op0_prev_clock_lo; n_lo]
    ; RE Memory (enabler) [fp + src_off; clock; n_lo]
    ; RE Memory (- enabler) [fp + src_off + one; op0_prev_clock_hi; n_hi]
    ; RE Memory (enabler) [fp + src_off + one; clock; n_hi]
    ; RE Memory (- enabler) [fp + dst_off; dst_prev_clock_lo; dst_prev_val_lo]
    ; RE Memory (enabler) [fp + dst_off; clock; res_lo]
    ; RE Memory (- enabler) [fp + dst_off + one; dst_prev_clock_hi; dst_prev_val_hi]
    ; RE Memory (enabler) [fp + dst_off + one; clock; res_hi]
    ; RE Memory (- enabler) [fp + dst_rem_off; dst_rem_prev_clock_lo; dst_rem_prev_val_lo]
    ; RE Memory (enabler) [fp + dst_rem_off; clock; r_lo]
    ; RE Memory (- enabler) [fp + dst_rem_off + one; dst_rem_prev_clock_hi; dst_rem_prev_val_hi]
    ; RE Memory (enabler) [fp + dst_rem_off + one; clock; r_hi]
    ; RE RC8 (- 1) [d_0]
    ; RE RC8 (- 1) [d_1]
    ; RE RC8 (- 1) [d_2]
    ; RE RC8 (- 1) [d_3]
    ; RE RC8 (- 1) [q_0]
    ; RE RC8 (- 1) [q_1]
    ; RE RC8 (- 1) [q_2]
    ; RE RC8 (- 1) [q_3]
    ; RE RC8 (- 1) [prod_0]
    ; RE RC8 (- 1) [prod_1]
    ; RE RC8 (- 1) [prod_2]
    ; RE RC8 (- 1) [prod_3]
    ; RE RC8 (- 1) [prod_4]
    ; RE RC8 (- 1) [prod_5]
    ; RE RC8 (- 1) [prod_6]
    ; RE RC8 (- 1) [prod_7]
    ; RE RC16 (- 1) [n_lo]
    ; RE RC16 (- 1) [n_hi]
    ; RE RC16 (- 1) [r_lo]
    ; RE RC16 (- 1) [r_hi]
    ; RE RC16 (- 1) [max_carry_0 - mul_carry_0]
    ; RE RC16 (- 1) [max_carry_1 - mul_carry_1]
    ; RE RC16 (- 1) [max_carry_2 - mul_carry_2]
    ; RE RC16 (- 1) [max_carry_3 - mul_carry_3]
    ; RE RC16 (- 1) [max_carry_4 - mul_carry_4]
    ; RE RC16 (- 1) [max_carry_5 - mul_carry_5]
    ; RE RC16 (- 1) [max_carry_6 - mul_carry_6]
    ; RE RC16 (- 1) [sub_check_lo]
    ; RE RC16 (- 1) [sub_check_hi]
    ; RE RC20 (- 1) [clock - inst_prev_clock - enabler]
    ; RE RC20 (- 1) [clock - op0_prev_clock_lo - enabler]
    ; RE RC20 (- 1) [clock - op0_prev_clock_hi - enabler]
    ; RE RC20 (- 1) [clock - dst_prev_clock_lo - enabler]
    ; RE RC20 (- 1) [clock - dst_prev_clock_hi - enabler]
    ; RE RC20 (- 1) [clock - dst_rem_prev_clock_lo - enabler]
    ; RE RC20 (- 1) [clock - dst_rem_prev_clock_hi - enabler] ].

(** crates/prover/src/components/opcodes/u32_store_eq_fp_fp.rs 498-743: [evaluate]. *)
Definition u32_store_eq_fp_fp
    (enabler pc fp clock inst_prev_clock src0_off src1_off dst_off op0_val_lo op0_val_hi
     op0_prev_clock_lo op0_prev_clock_hi op1_val_lo op1_val_hi op1_prev_clock_lo
     op1_prev_clock_hi dst_prev_val dst_prev_clock diff_inv_lo diff_inv_hi is_eq_lo is_eq_prod : Z) : air :=
  let one := 1 in
  let opcode_constant := 24 in
  let diff_lo := op1_val_lo - op0_val_lo in
  let diff_hi := op1_val_hi - op0_val_hi in
  Air
    [ enabler * (one - enabler)
    ; diff_lo * (diff_inv_lo * diff_lo - one)
    ; diff_hi * (diff_inv_hi * diff_hi - one)
    ; is_eq_lo - (one - diff_lo * diff_inv_lo)
    ; is_eq_prod - is_eq_lo * (one - diff_hi * diff_inv_hi) ]
    [ RE Registers (- enabler) [pc; fp; clock]
    ; RE Registers (enabler) [pc + one; fp; clock + one]
    ; RE Memory (- enabler) [pc; inst_prev_clock; opcode_constant; src0_off; src1_off; dst_off]
    ; RE Memory (enabler) [pc; clock; opcode_constant; src0_off; src1_off; dst_off]
    ; RE Memory (- enabler) [fp + src0_off; op0_prev_clock_lo; op0_val_lo]
    ; RE Memory (enabler) [fp + src0_off; clock; op0_val_lo]
    ; RE Memory (- enabler) [fp + src0_off + one; op0_prev_clock_hi; op0_val_hi]
    ; RE Memory (enabler) [fp + src0_off + one; clock; op0_val_hi]
    ; RE Memory (- enabler) [fp + src1_off; op1_prev_clock_lo; op1_val_lo]
    ; RE Memory (enabler) [fp + src1_off; clock; op1_val_lo]
    ; RE Memory (- enabler) [fp + src1_off + one; op1_prev_clock_hi; op1_val_hi]
    ; RE Memory (enabler) [fp + src1_off + one; clock; op1_val_hi]
    ; RE Memory (- enabler) [fp + dst_off; dst_prev_clock; dst_prev_val]
    ; RE Memory (enabler) [fp + dst_off; clock; is_eq_prod]
    ; RE RC16 (- 1) [op0_val_lo]
    ; RE RC16 (- 1) [op0_val_hi]
    ; RE RC16 (- 1) [op1_val_lo]
    ; RE RC16 (- 1) [op1_val_hi]
    ; RE RC20 (- 1) [clock - inst_prev_clock - enabler]
    ; RE RC20 (- 1) [clock - op0_prev_clock_lo - enabler]
    ; RE RC20 (- 1) [clock - op0_prev_clock_hi - enabler]
    ; RE RC20 (- 1) [clock - op1_prev_clock_lo - enabler]
    ; RE RC20 (- 1) [clock - op1_prev_clock_hi - enabler]
    ; RE RC20 (- 1) [clock - dst_prev_clock - enabler] ].

(** crates/prover/src/components/opcodes/u32_store_eq_fp_imm.rs 438-629: [evaluate]. *)
Definition u32_store_eq_fp_imm
    (enabler pc fp clock inst_prev_clock src0_off imm_lo imm_hi dst_off op0_val_lo op0_val_hi
     op0_prev_clock_lo op0_prev_clock_hi dst_prev_val dst_prev_clock diff_inv : Z) : air :=
  let one := 1 in
  let two_pow_16 := 65536 in
  let opcode_constant := 30 in
  let diff := op0_val_lo + op0_val_hi * two_pow_16 - imm_lo - imm_hi * two_pow_16 in
  Air
    [ enabler * (one - enabler)
    ; diff * (diff_inv * diff - one)
    ; diff_inv * (diff_inv * diff - one) ]
    [ RE Registers (- enabler) [pc; fp; clock]
    ; RE Registers (enabler) [pc + one + one; fp; clock + one]
    ; RE Memory (- enabler) [pc; inst_prev_clock; opcode_constant; src0_off; imm_lo; imm_hi]
    ; RE Memory (enabler) [pc; clock; opcode_constant; src0_off; imm_lo; imm_hi]
    ; RE Memory (- enabler) [pc; inst_prev_clock; dst_off]
    ; RE Memory (enabler) [pc; clock; dst_off]
    ; RE Memory (- enabler) [fp + src0_off; op0_prev_clock_lo; op0_val_lo]
    ; RE Memory (enabler) [fp + src0_off; clock; op0_val_lo]
    ; RE Memory (- enabler) [fp + src0_off + one; op0_prev_clock_hi; op0_val_hi]
    ; RE Memory (enabler) [fp + src0_off + one; clock; op0_val_hi]
    ; RE Memory (- enabler) [fp + dst_off; dst_prev_clock; dst_prev_val]
    ; RE Memory (enabler) [fp + dst_off; clock; one - diff * diff_inv]
    ; RE RC16 (- 1) [op0_val_lo]
    ; RE RC16 (- 1) [op0_val_hi]
    ; RE RC16 (- 1) [imm_lo]
    ; RE RC16 (- 1) [imm_hi]
    ; RE RC20 (- 1) [clock - inst_prev_clock - enabler]
    ; RE RC20 (- 1) [clock - op0_prev_clock_lo - enabler]
    ; RE RC20 (- 1) [clock - op0_prev_clock_hi - enabler]
    ; RE RC20 (- 1) [clock - dst_prev_clock - enabler] ].

(** crates/prover/src/components/opcodes/u32_store_lt_fp_fp.rs 551-791: [evaluate]. *)
Definition u32_store_lt_fp_fp
    (enabler pc fp clock inst_prev_clock src0_off src1_off dst_off op0_val_lo op0_val_hi
     op0_prev_clock_lo op0_prev_clock_hi op1_val_lo op1_val_hi op1_prev_clock_lo
     op1_prev_clock_hi dst_prev_val dst_prev_clock borrow_lo borrow_hi : Z) : air :=
  let one := 1 in
  let two_pow_16 := 65536 in
  let opcode_constant := 28 in
  Air
    [ enabler * (one - enabler)
    ; borrow_lo * (one - borrow_lo)
    ; borrow_hi * (one - borrow_hi) ]
    [ RE Registers (- enabler) [pc; fp; clock]
    ; RE Registers (enabler) [pc + one; fp; clock + one]
    ; RE Memory (- enabler) [pc; inst_prev_clock; opcode_constant; src0_off; src1_off; dst_off]
    ; RE Memory (enabler) [pc; clock; opcode_constant; src0_off; src1_off; dst_off]
    ; RE Memory (- enabler) [fp + src0_off; op0_prev_clock_lo; op0_val_lo]
    ; RE Memory (enabler) [fp + src0_off; clock; op0_val_lo]
    ; RE Memory (- enabler) [fp + src0_off + one; op0_prev_clock_hi; op0_val_hi]
    ; RE Memory (enabler) [fp + src0_off + one; clock; op0_val_hi]
    ; RE Memory (- enabler) [fp + src1_off; op1_prev_clock_lo; op1_val_lo]
    ; RE Memory (enabler) [fp + src1_off; clock; op1_val_lo]
    ; RE Memory (- enabler) [fp + src1_off + one; op1_prev_clock_hi; op1_val_hi]
    ; RE Memory (enabler) [fp + src1_off + one; clock; op1_val_hi]
    ; RE Memory (- enabler) [fp + dst_off; dst_prev_clock; dst_prev_val]
    ; RE Memory (enabler) [fp + dst_off; clock; one - borrow_hi]
    ; RE RC16 (- 1) [op0_val_lo]
    ; RE RC16 (- 1) [op0_val_hi]
    ; RE RC16 (- 1) [op1_val_lo]
    ; RE RC16 (- 1) [op1_val_hi]
    ; RE RC16 (- 1) [op1_val_lo - enabler + borrow_lo * two_pow_16 - op0_val_lo]
    ; RE RC16 (- 1) [op1_val_hi - borrow_lo + borrow_hi * two_pow_16 - op0_val_hi]
    ; RE RC20 (- 1) [clock - inst_prev_clock - enabler]
    ; RE RC20 (- 1) [clock - op0_prev_clock_lo - enabler]
    ; RE RC20 (- 1) [clock - op0_prev_clock_hi - enabler]
    ; RE RC20 (- 1) [clock - op1_prev_clock_lo - enabler]
    ; RE RC20 (- 1) [clock - op1_prev_clock_hi - enabler]
    ; RE RC20 (- 1) [clock - dst_prev_clock - enabler] ].

(** crates/prover/src/components/opcodes/u32_store_lt_fp_imm.rs 492-695: [evaluate]. *)
Definition u32_store_lt_fp_imm
    (enabler pc fp clock inst_prev_clock src_off imm_lo imm_hi dst_off op0_val_lo op0_val_hi
     op0_prev_clock_lo op0_prev_clock_hi dst_prev_val dst_prev_clock borrow_lo borrow_hi : Z) : air :=
  let one := 1 in
  let two_pow_16 := 65536 in
  let opcode_constant := 34 in
  Air
    [ enabler * (one - enabler)
    ; borrow_lo * (one - borrow_lo)
    ; borrow_hi * (one - borrow_hi) ]
    [ RE Registers (- enabler) [pc; fp; clock]
    ; RE Registers (enabler) [pc + one + one; fp; clock + one]
    ; RE Memory (- enabler) [pc; inst_prev_clock; opcode_constant; src_off; imm_lo; imm_hi]
    ; RE Memory (enabler) [pc; clock; opcode_constant; src_off; imm_lo; imm_hi]
    ; RE Memory (- enabler) [pc + one; inst_prev_clock; dst_off]
    ; RE Memory (enabler) [pc + one; clock; dst_off]
    ; RE Memory (- enabler) [fp + src_off; op0_prev_clock_lo; op0_val_lo]
    ; RE Memory (enabler) [fp + src_off; clock; op0_val_lo]
    ; RE Memory (- enabler) [fp + src_off + one; op0_prev_clock_hi; op0_val_hi]
    ; RE Memory (enabler) [fp + src_off + one; clock; op0_val_hi]
    ; RE Memory (- enabler) [fp + dst_off; dst_prev_clock; dst_prev_val]
    ; RE Memory (enabler) [fp + dst_off; clock; one - borrow_hi]
    ; RE RC16 (- 1) [op0_val_lo]
    ; RE RC16 (- 1) [op0_val_hi]
    ; RE RC16 (- 1) [imm_lo]
    ; RE RC16 (- 1) [imm_hi]
    ; RE RC16 (- 1) [imm_lo - enabler + borrow_lo * two_pow_16 - op0_val_lo]
    ; RE RC16 (- 1) [imm_hi - borrow_lo + borrow_hi * two_pow_16 - op0_val_hi]
    ; RE RC20 (- 1) [clock - inst_prev_clock - enabler]
    ; RE RC20 (- 1) [clock - op0_prev_clock_lo - enabler]
    ; RE RC20 (- 1) [clock - op0_prev_clock_hi - enabler]
    ; RE RC20 (- 1) [clock - dst_prev_clock - enabler] ].

(** crates/prover/src/components/opcodes/u32_store_bitwise_fp_fp.rs 533-780: [evaluate]. *)
Definition u32_store_bitwise_fp_fp
    (enabler pc fp clock inst_prev_clock opcode_constant src0_off src1_off dst_off op0_val_0
     op0_val_1 op0_val_2 op0_val_3 op0_prev_clock_lo op0_prev_clock_hi op1_val_0 op1_val_1
     op1_val_2 op1_val_3 op1_prev_clock_lo op1_prev_clock_hi dst_prev_val_lo dst_prev_val_hi
     dst_val_0 dst_val_1 dst_val_2 dst_val_3 dst_prev_clock_lo dst_prev_clock_hi : Z) : air :=
  let two_pow_8 := 256 in
  let one := 1 in
  let bitwise_op := opcode_constant - 36 in
  let op0_val_lo := op0_val_0 + op0_val_1 * two_pow_8 in
  let op0_val_hi := op0_val_2 + op0_val_3 * two_pow_8 in
  let op1_val_lo := op1_val_0 + op1_val_1 * two_pow_8 in
  let op1_val_hi := op1_val_2 + op1_val_3 * two_pow_8 in
  let dst_val_lo := dst_val_0 + dst_val_1 * two_pow_8 in
  let dst_val_hi := dst_val_2 + dst_val_3 * two_pow_8 in
  Air
    [ enabler * (enabler - one) ]
    [ RE Registers (- enabler) [pc; fp; clock]
    ; RE Registers (enabler) [pc + one; fp; clock + one]
    ; RE Memory (- enabler) [pc; inst_prev_clock; opcode_constant; src0_off; src1_off; dst_off]
    ; RE Memory (enabler) [pc; clock; opcode_constant; src0_off; src1_off; dst_off]
    ; RE Memory (- enabler) [fp + src0_off; op0_prev_clock_lo; op0_val_lo]
    ; RE Memory (enabler) [fp + src0_off; clock; op0_val_lo]
    ; RE Memory (- enabler) [fp + src0_off + one; op0_prev_clock_hi; op0_val_hi]
    ; RE Memory (enabler) [fp + src0_off + one; clock; op0_val_hi]
    ; RE Memory (- enabler) [fp + src1_off; op1_prev_clock_lo; op1_val_lo]
    ; RE Memory (enabler) [fp + src1_off; clock; op1_val_lo]
    ; RE Memory (- enabler) [fp + src1_off + one; op1_prev_clock_hi; op1_val_hi]
    ; RE Memory (enabler) [fp + src1_off + one; clock; op1_val_hi]
    ; RE Memory (- enabler) [fp + dst_off; dst_prev_clock_lo; dst_prev_val_lo]
    ; RE Memory (enabler) [fp + dst_off; clock; dst_val_lo]
    ; RE Memory (- enabler) [fp + dst_off + one; dst_prev_clock_hi; dst_prev_val_hi]
    ; RE Memory (enabler) [fp + dst_off + one; clock; dst_val_hi]
    ; RE BitwiseR (- 1) [bitwise_op; op0_val_0; op1_val_0; dst_val_0]
    ; RE BitwiseR (- 1) [bitwise_op; op0_val_1; op1_val_1; dst_val_1]
    ; RE BitwiseR (- 1) [bitwise_op; op0_val_2; op1_val_2; dst_val_2]
    ; RE BitwiseR (- 1) [bitwise_op; op0_val_3; op1_val_3; dst_val_3]
    ; RE RC20 (- 1) [clock - inst_prev_clock - enabler]
    ; RE RC20 (- 1) [clock - op0_prev_clock_lo - enabler]
    ; RE RC20 (- 1) [clock - op0_prev_clock_hi - enabler]
    ; RE RC20 (- 1) [clock - op1_prev_clock_lo - enabler]
    ; RE RC20 (- 1) [clock - op1_prev_clock_hi - enabler]
    ; RE RC20 (- 1) [clock - dst_prev_clock_lo - enabler]
    ; RE RC20 (- 1) [clock - dst_prev_clock_hi - enabler] ].

(** crates/prover/src/components/opcodes/u32_store_bitwise_fp_imm.rs 500-717: [evaluate]. *)
Definition u32_store_bitwise_fp_imm
    (enabler pc fp clock inst_prev_clock opcode_constant src_off imm_0 imm_1 imm_2 imm_3 dst_off
     op0_val_0 op0_val_1 op0_val_2 op0_val_3 op0_prev_clock_lo op0_prev_clock_hi dst_prev_val_lo
     dst_prev_val_hi dst_val_0 dst_val_1 dst_val_2 dst_val_3 dst_prev_clock_lo dst_prev_clock_hi : Z) : air :=
  let two_pow_8 := 256 in
  let one := 1 in
  let bitwise_op := opcode_constant - 39 in
  let op0_val_lo := op0_val_0 + op0_val_1 * two_pow_8 in
  let op0_val_hi := op0_val_2 + op0_val_3 * two_pow_8 in
  let imm_lo := imm_0 + imm_1 * two_pow_8 in
  let imm_hi := imm_2 + imm_3 * two_pow_8 in
  let dst_val_lo := dst_val_0 + dst_val_1 * two_pow_8 in
  let dst_val_hi := dst_val_2 + dst_val_3 * two_pow_8 in
  Air
    [ enabler * (enabler - one) ]
    [ RE Registers (- enabler) [pc; fp; clock]
    ; RE Registers (enabler) [pc + one + one; fp; clock + one]
    ; RE Memory (- enabler) [pc; inst_prev_clock; opcode_constant; src_off; imm_lo; imm_hi]
    ; RE Memory (enabler) [pc; clock; opcode_constant; src_off; imm_lo; imm_hi]
    ; RE Memory (- enabler) [pc + one; inst_prev_clock; dst_off]
    ; RE Memory (enabler) [pc + one; clock; dst_off]
    ; RE Memory (- enabler) [fp + src_off; op0_prev_clock_lo; op0_val_lo]
    ; RE Memory (enabler) [fp + src_off; clock; op0_val_lo]
    ; RE Memory (- enabler) [fp + src_off + one; op0_prev_clock_hi; op0_val_hi]
    ; RE Memory (enabler) [fp + src_off + one; clock; op0_val_hi]
    ; RE Memory (- enabler) [fp + dst_off; dst_prev_clock_lo; dst_prev_val_lo]
    ; RE Memory (enabler) [fp + dst_off; clock; dst_val_lo]
    ; RE Memory (- enabler) [fp + dst_off + one; dst_prev_clock_hi; dst_prev_val_hi]
    ; RE Memory (enabler) [fp + dst_off + one; clock; dst_val_hi]
    ; RE BitwiseR (- 1) [bitwise_op; op0_val_0; imm_0; dst_val_0]
    ; RE BitwiseR (- 1) [bitwise_op; op0_val_1; imm_1; dst_val_1]
    ; RE BitwiseR (- 1) [bitwise_op; op0_val_2; imm_2; dst_val_2]
    ; RE BitwiseR (- 1) [bitwise_op; op0_val_3; imm_3; dst_val_3]
    ; RE RC20 (- 1) [clock - inst_prev_clock - enabler]
    ; RE RC20 (- 1) [clock - op0_prev_clock_lo - enabler]
    ; RE RC20 (- 1) [clock - op0_prev_clock_hi - enabler]
    ; RE RC20 (- 1) [clock - dst_prev_clock_lo - enabler]
    ; RE RC20 (- 1) [clock - dst_prev_clock_hi - enabler] ].

(** crates/prover/src/components/memory.rs 294-366: [evaluate]. *)
Definition memory_row
    (enabler address clock value0 value1 value2 value3 multiplicity root : Z) : air :=
  let one := 1 in
  let m31_2 := 2 in
  let m31_3 := 3 in
  let m31_4 := 4 in
  let tree_height := 30 in
  Air
    [ enabler * (one - enabler) ]
    [ RE Memory (multiplicity) [address; clock; value0; value1; value2; value3]
    ; RE Merkle (- enabler) [address * m31_4; tree_height; value0; root]
    ; RE Merkle (- enabler) [address * m31_4 + one; tree_height; value1; root]
    ; RE Merkle (- enabler) [address * m31_4 + m31_2; tree_height; value2; root]
    ; RE Merkle (- enabler) [address * m31_4 + m31_3; tree_height; value3; root] ].

(** crates/prover/src/components/clock_update.rs 220-263: [evaluate]. *)
Definition clock_update_row
    (enabler address prev_clk value0 value1 value2 value3 : Z) : air :=
  let one := 1 in
  Air
    [ enabler * (one - enabler) ]
    [ RE Memory (- enabler) [address; prev_clk; value0; value1; value2; value3]
    ; RE Memory (enabler) [address; prev_clk + 1048575; value0; value1; value2; value3] ].

(** crates/prover/src/components/merkle.rs 296-379: [evaluate]. *)
Definition merkle_row
    (enabler index depth left_value right_value parent_value left_multiplicity
     right_multiplicity parent_multiplicity root : Z) : air :=
  let one := 1 in
  let m31_2 := 2 in
  let m31_2_inv := minv (m31_2) in
  Air
    [ enabler * (one - enabler)
    ; left_multiplicity * (left_multiplicity - one) * (left_multiplicity - one * m31_2)
    ; right_multiplicity * (right_multiplicity - one) * (right_multiplicity - one * m31_2)
    ; parent_multiplicity * (parent_multiplicity - one) * (parent_multiplicity - one * m31_2) ]
    [ RE Merkle (left_multiplicity) [index; depth; left_value; root]
    ; RE Merkle (right_multiplicity) [index + one; depth; right_value; root]
    ; RE Merkle (- parent_multiplicity) [index * m31_2_inv; depth - one; parent_value; root]
    ; RE Poseidon2 (enabler) [left_value; right_value]
    ; RE Poseidon2 (- enabler) [parent_value] ].

(** crates/prover/src/components/opcodes/mod.rs 223-268: the opcode components. *)
Inductive component : Set :=
| C_store_fp_fp
| C_store_fp_imm
| C_store_imm
| C_store_frame_pointer
| C_store_le_fp_imm
| C_assert_eq_fp_imm
| C_double_deref_fp_imm
| C_double_deref_fp_fp
| C_call_abs_imm
| C_ret
| C_jmp_imm
| C_jnz_fp_imm
| C_u32_store_imm
| C_u32_store_add_fp_fp
| C_u32_store_add_fp_imm
| C_u32_store_sub_fp_fp
| C_u32_store_mul_fp_fp
| C_u32_store_mul_fp_imm
| C_u32_store_div_fp_fp
| C_u32_store_div_fp_imm
| C_u32_store_eq_fp_fp
| C_u32_store_eq_fp_imm
| C_u32_store_lt_fp_fp
| C_u32_store_lt_fp_imm
| C_u32_store_bitwise_fp_fp
| C_u32_store_bitwise_fp_imm.

(** Applying an evaluator to the list of a row's columns. *)
Fixpoint ary (n : nat) : Type := match n with O => air | S n => Z -> ary n end.
Fixpoint on_row (n : nat) : ary n -> list Z -> air :=
  match n with
  | O => fun f _ => f
  | S n => fun f row => match row with [] => on_row n (f 0) [] | x :: r => on_row n (f x) r end
  end.
Definition n_columns (c : component) : nat :=
  match c with
  | C_store_fp_fp => 20
  | C_store_fp_imm => 18
  | C_store_imm => 9
  | C_store_frame_pointer => 9
  | C_store_le_fp_imm => 22
  | C_assert_eq_fp_imm => 9
  | C_double_deref_fp_imm => 17
  | C_double_deref_fp_fp => 19
  | C_call_abs_imm => 11
  | C_ret => 9
  | C_jmp_imm => 7
  | C_jnz_fp_imm => 12
  | C_u32_store_imm => 12
  | C_u32_store_add_fp_fp => 22
  | C_u32_store_add_fp_imm => 19
  | C_u32_store_sub_fp_fp => 22
  | C_u32_store_mul_fp_fp => 32
  | C_u32_store_mul_fp_imm => 29
  | C_u32_store_div_fp_fp => 54
  | C_u32_store_div_fp_imm => 51
  | C_u32_store_eq_fp_fp => 22
  | C_u32_store_eq_fp_imm => 16
  | C_u32_store_lt_fp_fp => 20
  | C_u32_store_lt_fp_imm => 17
  | C_u32_store_bitwise_fp_fp => 29
  | C_u32_store_bitwise_fp_imm => 26
  end.
Definition evaluate (c : component) (row : list Z) : air :=
  match c with
  | C_store_fp_fp => on_row 20 store_fp_fp row
  | C_store_fp_imm => on_row 18 store_fp_imm row
  | C_store_imm => on_row 9 store_imm row
  | C_store_frame_pointer => on_row 9 store_frame_pointer row
  | C_store_le_fp_imm => on_row 22 store_le_fp_imm row
  | C_assert_eq_fp_imm => on_row 9 assert_eq_fp_imm row
  | C_double_deref_fp_imm => on_row 17 double_deref_fp_imm row
  | C_double_deref_fp_fp => on_row 19 double_deref_fp_fp row
  | C_call_abs_imm => on_row 11 call_abs_imm row
  | C_ret => on_row 9 ret row
  | C_jmp_imm => on_row 7 jmp_imm row
  | C_jnz_fp_imm => on_row 12 jnz_fp_imm row
  | C_u32_store_imm => on_row 12 u32_store_imm row
  | C_u32_store_add_fp_fp => on_row 22 u32_store_add_fp_fp row
  | C_u32_store_add_fp_imm => on_row 19 u32_store_add_fp_imm row
  | C_u32_store_sub_fp_fp => on_row 22 u32_store_sub_fp_fp row
  | C_u32_store_mul_fp_fp => on_row 32 u32_store_mul_fp_fp row
  | C_u32_store_mul_fp_imm => on_row 29 u32_store_mul_fp_imm row
  | C_u32_store_div_fp_fp => on_row 54 u32_store_div_fp_fp row
  | C_u32_store_div_fp_imm => on_row 51 u32_store_div_fp_imm row
  | C_u32_store_eq_fp_fp => on_row 22 u32_store_eq_fp_fp row
  | C_u32_store_eq_fp_imm => on_row 16 u32_store_eq_fp_imm row
  | C_u32_store_lt_fp_fp => on_row 20 u32_store_lt_fp_fp row
  | C_u32_store_lt_fp_imm => on_row 17 u32_store_lt_fp_imm row
  | C_u32_store_bitwise_fp_fp => on_row 29 u32_store_bitwise_fp_fp row
  | C_u32_store_bitwise_fp_imm => on_row 26 u32_store_bitwise_fp_imm row
  end.
