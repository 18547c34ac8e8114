(** Soundness of all opcode components. *)
From Coq Require Import ZArith List.
From Verif Require Import M31 Air AirOpcodes AirSpec AirSound1 AirSound2 AirSound3.
Import ListNotations.
Open Scope Z_scope.

Theorem row_sound c row :
  length row = n_columns c -> Forall wf row -> nth 0 row 0 = 1 ->
  satisfied (evaluate c row) -> no_gap c row ->
  sound_row (evaluate c row) (row_regs row) (row_clock row).
Proof.
  intros Hlen Hw He Hs Hg. destruct c.
  - apply store_fp_fp_sound; assumption.
  - apply store_fp_imm_sound; assumption.
  - apply store_imm_sound; assumption.
  - apply store_frame_pointer_sound; assumption.
  - apply store_le_fp_imm_sound; assumption.
  - apply assert_eq_fp_imm_sound; assumption.
  - apply double_deref_fp_imm_sound; assumption.
  - apply double_deref_fp_fp_sound; assumption.
  - apply call_abs_imm_sound; assumption.
  - apply ret_sound; assumption.
  - apply jmp_imm_sound; assumption.
  - apply jnz_fp_imm_sound; assumption.
  - apply u32_store_imm_sound; assumption.
  - apply u32_store_add_fp_fp_sound; assumption.
  - apply u32_store_add_fp_imm_sound; assumption.
  - apply u32_store_sub_fp_fp_sound; assumption.
  - apply u32_store_mul_fp_fp_sound; assumption.
  - apply u32_store_mul_fp_imm_sound; assumption.
  - apply u32_store_div_fp_fp_sound; assumption.
  - apply u32_store_div_fp_imm_sound; assumption.
  - apply u32_store_eq_fp_fp_sound; assumption.
  - destruct Hg.
  - apply u32_store_lt_fp_fp_sound; assumption.
  - apply u32_store_lt_fp_imm_sound; assumption.
  - apply u32_store_bitwise_fp_fp_sound; assumption.
  - apply u32_store_bitwise_fp_imm_sound; assumption.
Qed.
