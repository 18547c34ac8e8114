(** Soundness of the u32 components: a satisfied row is a step. *)
From Coq Require Import ZArith Bool List Lia Permutation.
From Verif Require Import M31 M31Facts Instr InstrFacts Isa Machine Air AirOpcodes AirSpec AirFacts LimbFacts AirSound1.
Import ListNotations.
Open Scope Z_scope.
Ltac Zify.zify_post_hook ::= Z.div_mod_to_equations.

Ltac oks :=
  repeat match goal with
  | |- context[?x <? B16] => rewrite (small16 x) by (first [assumption|apply bytes16; assumption])
  end; cbn [andb negb].
Ltac pc2 := f_equal; ring.
Ltac byt := try (apply bytes_mod; assumption).

Lemma u32_store_imm_sound row :
  length row = 12%nat -> Forall wf row -> nth 0 row 0 = 1 ->
  satisfied (evaluate C_u32_store_imm row) ->
  sound_row (evaluate C_u32_store_imm row) (row_regs row) (row_clock row).
Proof.
  intros Hlen Hw He Hs.
  destruct row as
   [|enabler [|pc [|fp [|clock [|inst_prev_clock [|imm_lo [|imm_hi [|dst_off [|dst_prev_val_lo
   [|dst_prev_val_hi [|dst_prev_clock_lo [|dst_prev_clock_hi [|zz zs]]]]]]]]]]]]]; try discriminate Hlen; clear Hlen.
  unfold row_regs, row_clock. cbn [nth] in *. subst enabler.
  change (evaluate C_u32_store_imm _) with (u32_store_imm 1 pc fp clock inst_prev_clock imm_lo imm_hi dst_off dst_prev_val_lo dst_prev_val_hi dst_prev_clock_lo dst_prev_clock_hi) in *.
  open_row u32_store_imm Hs. ones; bools.
  smallmod.
  give (U32StoreImm imm_lo imm_hi dst_off) (St ((pc + 1) mod P) fp)
    [Acc pc inst_prev_clock (Q 23 imm_lo imm_hi dst_off) (Q 23 imm_lo imm_hi dst_off);
     Acc ((fp + dst_off) mod P) dst_prev_clock_lo (Q dst_prev_val_lo 0 0 0) (Q ((imm_lo + B16 * imm_hi) mod B16) 0 0 0);
     Acc (((fp + dst_off) mod P + 1) mod P) dst_prev_clock_hi (Q dst_prev_val_hi 0 0 0) (Q ((imm_lo + B16 * imm_hi) / B16) 0 0 0)].
  - match goal with H : 0 <= imm_lo < 65536 |- _ => clear - H; unfold B16; lia end.
  - match goal with H : 0 <= imm_lo < 65536 |- _ => clear - H; unfold B16; lia end.
  - isa1. oks. isa_go.
  - clocks_tac.
Qed.

Lemma u32_store_add_fp_fp_sound row :
  length row = 22%nat -> Forall wf row -> nth 0 row 0 = 1 ->
  satisfied (evaluate C_u32_store_add_fp_fp row) ->
  sound_row (evaluate C_u32_store_add_fp_fp row) (row_regs row) (row_clock row).
Proof.
  intros Hlen Hw He Hs.
  destruct row as
   [|enabler [|pc [|fp [|clock [|inst_prev_clock [|src0_off [|src1_off [|dst_off [|op0_val_lo
   [|op0_val_hi [|op0_prev_lo_clock [|op0_prev_hi_clock [|op1_val_lo [|op1_val_hi
   [|op1_prev_lo_clock [|op1_prev_hi_clock [|dst_prev_val_lo [|dst_prev_val_hi [|dst_prev_lo_clock
   [|dst_prev_hi_clock [|u16_carry [|u32_carry [|zz zs]]]]]]]]]]]]]]]]]]]]]]]; try discriminate Hlen; clear Hlen.
  unfold row_regs, row_clock. cbn [nth] in *. subst enabler.
  change (evaluate C_u32_store_add_fp_fp _) with (u32_store_add_fp_fp 1 pc fp clock inst_prev_clock src0_off src1_off dst_off op0_val_lo op0_val_hi op0_prev_lo_clock op0_prev_hi_clock op1_val_lo op1_val_hi op1_prev_lo_clock op1_prev_hi_clock dst_prev_val_lo dst_prev_val_hi dst_prev_lo_clock dst_prev_hi_clock u16_carry u32_carry) in *.
  open_row u32_store_add_fp_fp Hs. ones; bools.
  smallmod.
  destruct (add_lo op0_val_lo op0_val_hi op1_val_lo op1_val_hi u16_carry u32_carry) as [Hlo Hhi]; [assumption..|].
  give (U32StoreAddFpFp src0_off src1_off dst_off) (St ((pc + 1) mod P) fp)
    [Acc pc inst_prev_clock (Q 15 src0_off src1_off dst_off) (Q 15 src0_off src1_off dst_off);
     Acc ((fp + src0_off) mod P) op0_prev_lo_clock (Q op0_val_lo 0 0 0) (Q op0_val_lo 0 0 0);
     Acc (((fp + src0_off) mod P + 1) mod P) op0_prev_hi_clock (Q op0_val_hi 0 0 0) (Q op0_val_hi 0 0 0);
     Acc ((fp + src1_off) mod P) op1_prev_lo_clock (Q op1_val_lo 0 0 0) (Q op1_val_lo 0 0 0);
     Acc (((fp + src1_off) mod P + 1) mod P) op1_prev_hi_clock (Q op1_val_hi 0 0 0) (Q op1_val_hi 0 0 0);
     Acc ((fp + dst_off) mod P) dst_prev_lo_clock (Q dst_prev_val_lo 0 0 0)
       (Q (((op0_val_lo + B16 * op0_val_hi + (op1_val_lo + B16 * op1_val_hi)) mod B32) mod B16) 0 0 0);
     Acc (((fp + dst_off) mod P + 1) mod P) dst_prev_hi_clock (Q dst_prev_val_hi 0 0 0)
       (Q (((op0_val_lo + B16 * op0_val_hi + (op1_val_lo + B16 * op1_val_hi)) mod B32) / B16) 0 0 0)].
  - isa1. oks. isa_go.
  - clocks_tac.
Qed.

Lemma u32_store_add_fp_imm_sound row :
  length row = 19%nat -> Forall wf row -> nth 0 row 0 = 1 ->
  satisfied (evaluate C_u32_store_add_fp_imm row) ->
  sound_row (evaluate C_u32_store_add_fp_imm row) (row_regs row) (row_clock row).
Proof.
  intros Hlen Hw He Hs.
  destruct row as
   [|enabler [|pc [|fp [|clock [|inst_prev_clock [|src_off [|imm_lo [|imm_hi [|dst_off
   [|op0_val_lo [|op0_val_hi [|op0_prev_clock_lo [|op0_prev_clock_hi [|dst_prev_val_lo
   [|dst_prev_val_hi [|dst_prev_clock_lo [|dst_prev_clock_hi [|u16_carry [|u32_carry [|zz
   zs]]]]]]]]]]]]]]]]]]]]; try discriminate Hlen; clear Hlen.
  unfold row_regs, row_clock. cbn [nth] in *. subst enabler.
  change (evaluate C_u32_store_add_fp_imm _) with (u32_store_add_fp_imm 1 pc fp clock inst_prev_clock src_off imm_lo imm_hi dst_off op0_val_lo op0_val_hi op0_prev_clock_lo op0_prev_clock_hi dst_prev_val_lo dst_prev_val_hi dst_prev_clock_lo dst_prev_clock_hi u16_carry u32_carry) in *.
  open_row u32_store_add_fp_imm Hs. ones; bools.
  smallmod.
  destruct (add_lo op0_val_lo op0_val_hi imm_lo imm_hi u16_carry u32_carry) as [Hlo Hhi]; [assumption..|].
  give (U32StoreAddFpImm src_off imm_lo imm_hi dst_off) (St ((pc + 2) mod P) fp)
    [Acc pc inst_prev_clock (Q 19 src_off imm_lo imm_hi) (Q 19 src_off imm_lo imm_hi);
     Acc ((pc + 1) mod P) inst_prev_clock (Q dst_off 0 0 0) (Q dst_off 0 0 0);
     Acc ((fp + src_off) mod P) op0_prev_clock_lo (Q op0_val_lo 0 0 0) (Q op0_val_lo 0 0 0);
     Acc (((fp + src_off) mod P + 1) mod P) op0_prev_clock_hi (Q op0_val_hi 0 0 0) (Q op0_val_hi 0 0 0);
     Acc ((fp + dst_off) mod P) dst_prev_clock_lo (Q dst_prev_val_lo 0 0 0)
       (Q (((op0_val_lo + B16 * op0_val_hi + (imm_lo + B16 * imm_hi)) mod B32) mod B16) 0 0 0);
     Acc (((fp + dst_off) mod P + 1) mod P) dst_prev_clock_hi (Q dst_prev_val_hi 0 0 0)
       (Q (((op0_val_lo + B16 * op0_val_hi + (imm_lo + B16 * imm_hi)) mod B32) / B16) 0 0 0)].
  - pc2.
  - isa1. oks. isa_go.
  - clocks_tac.
Qed.

Lemma u32_store_sub_fp_fp_sound row :
  length row = 22%nat -> Forall wf row -> nth 0 row 0 = 1 ->
  satisfied (evaluate C_u32_store_sub_fp_fp row) ->
  sound_row (evaluate C_u32_store_sub_fp_fp row) (row_regs row) (row_clock row).
Proof.
  intros Hlen Hw He Hs.
  destruct row as
   [|enabler [|pc [|fp [|clock [|inst_prev_clock [|src0_off [|src1_off [|dst_off [|op0_val_lo
   [|op0_val_hi [|op0_prev_lo_clock [|op0_prev_hi_clock [|op1_val_lo [|op1_val_hi
   [|op1_prev_lo_clock [|op1_prev_hi_clock [|dst_prev_val_lo [|dst_prev_val_hi [|dst_prev_lo_clock
   [|dst_prev_hi_clock [|borrow_lo [|borrow_hi [|zz zs]]]]]]]]]]]]]]]]]]]]]]]; try discriminate Hlen; clear Hlen.
  unfold row_regs, row_clock. cbn [nth] in *. subst enabler.
  change (evaluate C_u32_store_sub_fp_fp _) with (u32_store_sub_fp_fp 1 pc fp clock inst_prev_clock src0_off src1_off dst_off op0_val_lo op0_val_hi op0_prev_lo_clock op0_prev_hi_clock op1_val_lo op1_val_hi op1_prev_lo_clock op1_prev_hi_clock dst_prev_val_lo dst_prev_val_hi dst_prev_lo_clock dst_prev_hi_clock borrow_lo borrow_hi) in *.
  open_row u32_store_sub_fp_fp Hs. ones; bools.
  smallmod.
  destruct (sub_lo op0_val_lo op0_val_hi op1_val_lo op1_val_hi borrow_lo borrow_hi) as [Hlo Hhi]; [assumption..|].
  give (U32StoreSubFpFp src0_off src1_off dst_off) (St ((pc + 1) mod P) fp)
    [Acc pc inst_prev_clock (Q 16 src0_off src1_off dst_off) (Q 16 src0_off src1_off dst_off);
     Acc ((fp + src0_off) mod P) op0_prev_lo_clock (Q op0_val_lo 0 0 0) (Q op0_val_lo 0 0 0);
     Acc (((fp + src0_off) mod P + 1) mod P) op0_prev_hi_clock (Q op0_val_hi 0 0 0) (Q op0_val_hi 0 0 0);
     Acc ((fp + src1_off) mod P) op1_prev_lo_clock (Q op1_val_lo 0 0 0) (Q op1_val_lo 0 0 0);
     Acc (((fp + src1_off) mod P + 1) mod P) op1_prev_hi_clock (Q op1_val_hi 0 0 0) (Q op1_val_hi 0 0 0);
     Acc ((fp + dst_off) mod P) dst_prev_lo_clock (Q dst_prev_val_lo 0 0 0)
       (Q (((op0_val_lo + B16 * op0_val_hi - (op1_val_lo + B16 * op1_val_hi)) mod B32) mod B16) 0 0 0);
     Acc (((fp + dst_off) mod P + 1) mod P) dst_prev_hi_clock (Q dst_prev_val_hi 0 0 0)
       (Q (((op0_val_lo + B16 * op0_val_hi - (op1_val_lo + B16 * op1_val_hi)) mod B32) / B16) 0 0 0)].
  - isa1. oks. isa_go.
  - clocks_tac.
Qed.

Lemma u32_store_eq_fp_fp_sound row :
  length row = 22%nat -> Forall wf row -> nth 0 row 0 = 1 ->
  satisfied (evaluate C_u32_store_eq_fp_fp row) ->
  sound_row (evaluate C_u32_store_eq_fp_fp row) (row_regs row) (row_clock row).
Proof.
  intros Hlen Hw He Hs.
  destruct row as
   [|enabler [|pc [|fp [|clock [|inst_prev_clock [|src0_off [|src1_off [|dst_off [|op0_val_lo
   [|op0_val_hi [|op0_prev_clock_lo [|op0_prev_clock_hi [|op1_val_lo [|op1_val_hi
   [|op1_prev_clock_lo [|op1_prev_clock_hi [|dst_prev_val [|dst_prev_clock [|diff_inv_lo
   [|diff_inv_hi [|is_eq_lo [|is_eq_prod [|zz zs]]]]]]]]]]]]]]]]]]]]]]]; try discriminate Hlen; clear Hlen.
  unfold row_regs, row_clock. cbn [nth] in *. subst enabler.
  change (evaluate C_u32_store_eq_fp_fp _) with (u32_store_eq_fp_fp 1 pc fp clock inst_prev_clock src0_off src1_off dst_off op0_val_lo op0_val_hi op0_prev_clock_lo op0_prev_clock_hi op1_val_lo op1_val_hi op1_prev_clock_lo op1_prev_clock_hi dst_prev_val dst_prev_clock diff_inv_lo diff_inv_hi is_eq_lo is_eq_prod) in *.
  open_row u32_store_eq_fp_fp Hs. ones; bools.
  smallmod.
  assert (Hres : is_eq_prod = if op0_val_lo + B16 * op0_val_hi =? op1_val_lo + B16 * op1_val_hi then 1 else 0).
  { apply (eq_res op0_val_lo op0_val_hi op1_val_lo op1_val_hi diff_inv_lo diff_inv_hi is_eq_lo is_eq_prod); assumption. }
  give (U32StoreEqFpFp src0_off src1_off dst_off) (St ((pc + 1) mod P) fp)
    [Acc pc inst_prev_clock (Q 24 src0_off src1_off dst_off) (Q 24 src0_off src1_off dst_off);
     Acc ((fp + src0_off) mod P) op0_prev_clock_lo (Q op0_val_lo 0 0 0) (Q op0_val_lo 0 0 0);
     Acc (((fp + src0_off) mod P + 1) mod P) op0_prev_clock_hi (Q op0_val_hi 0 0 0) (Q op0_val_hi 0 0 0);
     Acc ((fp + src1_off) mod P) op1_prev_clock_lo (Q op1_val_lo 0 0 0) (Q op1_val_lo 0 0 0);
     Acc (((fp + src1_off) mod P + 1) mod P) op1_prev_clock_hi (Q op1_val_hi 0 0 0) (Q op1_val_hi 0 0 0);
     Acc ((fp + dst_off) mod P) dst_prev_clock (Q dst_prev_val 0 0 0)
       (Q (if op0_val_lo + B16 * op0_val_hi =? op1_val_lo + B16 * op1_val_hi then 1 else 0) 0 0 0)].
  - isa1. oks. isa_go.
  - clocks_tac.
Qed.

Lemma u32_store_lt_fp_fp_sound row :
  length row = 20%nat -> Forall wf row -> nth 0 row 0 = 1 ->
  satisfied (evaluate C_u32_store_lt_fp_fp row) ->
  sound_row (evaluate C_u32_store_lt_fp_fp row) (row_regs row) (row_clock row).
Proof.
  intros Hlen Hw He Hs.
  destruct row as
   [|enabler [|pc [|fp [|clock [|inst_prev_clock [|src0_off [|src1_off [|dst_off [|op0_val_lo
   [|op0_val_hi [|op0_prev_clock_lo [|op0_prev_clock_hi [|op1_val_lo [|op1_val_hi
   [|op1_prev_clock_lo [|op1_prev_clock_hi [|dst_prev_val [|dst_prev_clock [|borrow_lo [|borrow_hi
   [|zz zs]]]]]]]]]]]]]]]]]]]]]; try discriminate Hlen; clear Hlen.
  unfold row_regs, row_clock. cbn [nth] in *. subst enabler.
  change (evaluate C_u32_store_lt_fp_fp _) with (u32_store_lt_fp_fp 1 pc fp clock inst_prev_clock src0_off src1_off dst_off op0_val_lo op0_val_hi op0_prev_clock_lo op0_prev_clock_hi op1_val_lo op1_val_hi op1_prev_clock_lo op1_prev_clock_hi dst_prev_val dst_prev_clock borrow_lo borrow_hi) in *.
  open_row u32_store_lt_fp_fp Hs. ones; bools.
  smallmod.
  pose proof (lt_res op0_val_lo op0_val_hi op1_val_lo op1_val_hi borrow_lo borrow_hi) as Hres.
  do 8 (specialize (Hres ltac:(assumption))).
  give (U32StoreLtFpFp src0_off src1_off dst_off) (St ((pc + 1) mod P) fp)
    [Acc pc inst_prev_clock (Q 28 src0_off src1_off dst_off) (Q 28 src0_off src1_off dst_off);
     Acc ((fp + src0_off) mod P) op0_prev_clock_lo (Q op0_val_lo 0 0 0) (Q op0_val_lo 0 0 0);
     Acc (((fp + src0_off) mod P + 1) mod P) op0_prev_clock_hi (Q op0_val_hi 0 0 0) (Q op0_val_hi 0 0 0);
     Acc ((fp + src1_off) mod P) op1_prev_clock_lo (Q op1_val_lo 0 0 0) (Q op1_val_lo 0 0 0);
     Acc (((fp + src1_off) mod P + 1) mod P) op1_prev_clock_hi (Q op1_val_hi 0 0 0) (Q op1_val_hi 0 0 0);
     Acc ((fp + dst_off) mod P) dst_prev_clock (Q dst_prev_val 0 0 0)
       (Q (if op0_val_lo + B16 * op0_val_hi <? op1_val_lo + B16 * op1_val_hi then 1 else 0) 0 0 0)].
  - isa1. oks. isa_go.
  - clocks_tac.
Qed.

Lemma u32_store_lt_fp_imm_sound row :
  length row = 17%nat -> Forall wf row -> nth 0 row 0 = 1 ->
  satisfied (evaluate C_u32_store_lt_fp_imm row) ->
  sound_row (evaluate C_u32_store_lt_fp_imm row) (row_regs row) (row_clock row).
Proof.
  intros Hlen Hw He Hs.
  destruct row as
   [|enabler [|pc [|fp [|clock [|inst_prev_clock [|src_off [|imm_lo [|imm_hi [|dst_off
   [|op0_val_lo [|op0_val_hi [|op0_prev_clock_lo [|op0_prev_clock_hi [|dst_prev_val
   [|dst_prev_clock [|borrow_lo [|borrow_hi [|zz zs]]]]]]]]]]]]]]]]]]; try discriminate Hlen; clear Hlen.
  unfold row_regs, row_clock. cbn [nth] in *. subst enabler.
  change (evaluate C_u32_store_lt_fp_imm _) with (u32_store_lt_fp_imm 1 pc fp clock inst_prev_clock src_off imm_lo imm_hi dst_off op0_val_lo op0_val_hi op0_prev_clock_lo op0_prev_clock_hi dst_prev_val dst_prev_clock borrow_lo borrow_hi) in *.
  open_row u32_store_lt_fp_imm Hs. ones; bools.
  smallmod.
  pose proof (lt_res op0_val_lo op0_val_hi imm_lo imm_hi borrow_lo borrow_hi) as Hres.
  do 8 (specialize (Hres ltac:(assumption))).
  give (U32StoreLtFpImm src_off imm_lo imm_hi dst_off) (St ((pc + 2) mod P) fp)
    [Acc pc inst_prev_clock (Q 34 src_off imm_lo imm_hi) (Q 34 src_off imm_lo imm_hi);
     Acc ((pc + 1) mod P) inst_prev_clock (Q dst_off 0 0 0) (Q dst_off 0 0 0);
     Acc ((fp + src_off) mod P) op0_prev_clock_lo (Q op0_val_lo 0 0 0) (Q op0_val_lo 0 0 0);
     Acc (((fp + src_off) mod P + 1) mod P) op0_prev_clock_hi (Q op0_val_hi 0 0 0) (Q op0_val_hi 0 0 0);
     Acc ((fp + dst_off) mod P) dst_prev_clock (Q dst_prev_val 0 0 0)
       (Q (if op0_val_lo + B16 * op0_val_hi <? imm_lo + B16 * imm_hi then 1 else 0) 0 0 0)].
  - pc2.
  - isa1. oks. isa_go.
  - clocks_tac.
Qed.

Lemma u32_store_mul_fp_imm_sound row :
  length row = 29%nat -> Forall wf row -> nth 0 row 0 = 1 ->
  satisfied (evaluate C_u32_store_mul_fp_imm row) ->
  sound_row (evaluate C_u32_store_mul_fp_imm row) (row_regs row) (row_clock row).
Proof.
  intros Hlen Hw He Hs.
  destruct row as
   [|enabler [|pc [|fp [|clock [|inst_prev_clock [|src_off [|imm_0 [|imm_1 [|imm_2 [|imm_3
   [|dst_off [|op0_0 [|op0_1 [|op0_2 [|op0_3 [|op0_prev_clock_lo [|op0_prev_clock_hi
   [|dst_prev_val_lo [|dst_prev_val_hi [|dst_prev_clock_lo [|dst_prev_clock_hi [|res_0 [|res_1
   [|res_2 [|res_3 [|carry_0 [|carry_1 [|carry_2 [|carry_3 [|zz zs]]]]]]]]]]]]]]]]]]]]]]]]]]]]]]; try discriminate Hlen; clear Hlen.
  unfold row_regs, row_clock. cbn [nth] in *. subst enabler.
  change (evaluate C_u32_store_mul_fp_imm _) with (u32_store_mul_fp_imm 1 pc fp clock inst_prev_clock src_off imm_0 imm_1 imm_2 imm_3 dst_off op0_0 op0_1 op0_2 op0_3 op0_prev_clock_lo op0_prev_clock_hi dst_prev_val_lo dst_prev_val_hi dst_prev_clock_lo dst_prev_clock_hi res_0 res_1 res_2 res_3 carry_0 carry_1 carry_2 carry_3) in *.
  open_row u32_store_mul_fp_imm Hs. ones; bools.
  smallmod.
  assert (Hmul : (le4 op0_0 op0_1 op0_2 op0_3 * le4 imm_0 imm_1 imm_2 imm_3) mod B32 = le4 res_0 res_1 res_2 res_3)
    by (eapply (mul_res op0_0 op0_1 op0_2 op0_3 imm_0 imm_1 imm_2 imm_3 res_0 res_1 res_2 res_3 carry_0 carry_1 carry_2 carry_3);
        assumption).
  destruct (le4_split res_0 res_1 res_2 res_3) as (Hlo & Hhi & _); [assumption..|].
  rewrite <- Hmul in Hlo, Hhi. unfold le4 in Hlo, Hhi. clear Hmul.
  assert (wf (imm_0 + imm_1 * 256)) by (apply wf_small, bytes16; assumption).
  assert (wf (imm_2 + imm_3 * 256)) by (apply wf_small, bytes16; assumption).
  give (U32StoreMulFpImm src_off (imm_0 + imm_1 * 256) (imm_2 + imm_3 * 256) dst_off) (St ((pc + 2) mod P) fp)
    [Acc pc inst_prev_clock (Q 21 src_off (imm_0 + imm_1 * 256) (imm_2 + imm_3 * 256)) (Q 21 src_off (imm_0 + imm_1 * 256) (imm_2 + imm_3 * 256));
     Acc ((pc + 1) mod P) inst_prev_clock (Q dst_off 0 0 0) (Q dst_off 0 0 0);
     Acc ((fp + src_off) mod P) op0_prev_clock_lo (Q (op0_0 + op0_1 * 256) 0 0 0) (Q (op0_0 + op0_1 * 256) 0 0 0);
     Acc (((fp + src_off) mod P + 1) mod P) op0_prev_clock_hi (Q (op0_2 + op0_3 * 256) 0 0 0) (Q (op0_2 + op0_3 * 256) 0 0 0);
     Acc ((fp + dst_off) mod P) dst_prev_clock_lo (Q dst_prev_val_lo 0 0 0)
       (Q (res_0 + res_1 * 256) 0 0 0);
     Acc (((fp + dst_off) mod P + 1) mod P) dst_prev_clock_hi (Q dst_prev_val_hi 0 0 0)
       (Q (res_2 + res_3 * 256) 0 0 0)];
  byt.
  - pc2.
  - isa1. oks. isa_go. rewrite Hlo, Hhi. reflexivity.
  - clocks_tac.
Qed.
