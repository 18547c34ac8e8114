(** Soundness of the u32 multiplication, division and bitwise components. *)
From Coq Require Import ZArith Bool List Lia Permutation.
From Verif Require Import M31 M31Facts Instr InstrFacts Isa Machine Air AirOpcodes AirSpec AirFacts LimbFacts AirSound1 AirSound2.
Import ListNotations.
Open Scope Z_scope.
Ltac Zify.zify_post_hook ::= Z.div_mod_to_equations.

(** The range checks on the clocks of the second operand that [u32_store_mul_fp_fp] and
    [u32_store_div_fp_fp] leave out are hypotheses here. *)

Lemma u32_store_mul_fp_fp_sound row :
  length row = 32%nat -> Forall wf row -> nth 0 row 0 = 1 ->
  satisfied (evaluate C_u32_store_mul_fp_fp row) ->
  ((nth 3 row 0) - (nth 18 row 0) - 1) mod P < 1048576 /\ ((nth 3 row 0) - (nth 19 row 0) - 1) mod P < 1048576 ->
  sound_row (evaluate C_u32_store_mul_fp_fp row) (row_regs row) (row_clock row).
Proof.
  intros Hlen Hw He Hs Hx.
  destruct row as
   [|enabler [|pc [|fp [|clock [|inst_prev_clock [|src0_off [|src1_off [|dst_off [|op0_0 [|op0_1
   [|op0_2 [|op0_3 [|op0_prev_clock_lo [|op0_prev_clock_hi [|op1_0 [|op1_1 [|op1_2 [|op1_3
   [|op1_prev_clock_lo [|op1_prev_clock_hi [|dst_prev_val_lo [|dst_prev_val_hi [|dst_prev_clock_lo
   [|dst_prev_clock_hi [|res_0 [|res_1 [|res_2 [|res_3 [|carry_0 [|carry_1 [|carry_2 [|carry_3
   [|zz zs]]]]]]]]]]]]]]]]]]]]]]]]]]]]]]]]]; try discriminate Hlen; clear Hlen.
  unfold row_regs, row_clock. cbn [nth] in *. subst enabler.
  change (evaluate C_u32_store_mul_fp_fp _) with (u32_store_mul_fp_fp 1 pc fp clock inst_prev_clock src0_off src1_off dst_off op0_0 op0_1 op0_2 op0_3 op0_prev_clock_lo op0_prev_clock_hi op1_0 op1_1 op1_2 op1_3 op1_prev_clock_lo op1_prev_clock_hi dst_prev_val_lo dst_prev_val_hi dst_prev_clock_lo dst_prev_clock_hi res_0 res_1 res_2 res_3 carry_0 carry_1 carry_2 carry_3) in *.
  open_row u32_store_mul_fp_fp Hs. ones; bools.
  destruct Hx as [Hx1 Hx2]. smallmod.
  assert (Hmul : (le4 op0_0 op0_1 op0_2 op0_3 * le4 op1_0 op1_1 op1_2 op1_3) mod B32 = le4 res_0 res_1 res_2 res_3)
    by (eapply (mul_res op0_0 op0_1 op0_2 op0_3 op1_0 op1_1 op1_2 op1_3 res_0 res_1 res_2 res_3 carry_0 carry_1 carry_2 carry_3);
        assumption).
  destruct (le4_split res_0 res_1 res_2 res_3) as (Hlo & Hhi & _); [assumption..|].
  rewrite <- Hmul in Hlo, Hhi. unfold le4 in Hlo, Hhi. clear Hmul.
  give (U32StoreMulFpFp src0_off src1_off dst_off) (St ((pc + 1) mod P) fp)
    [Acc pc inst_prev_clock (Q 17 src0_off src1_off dst_off) (Q 17 src0_off src1_off dst_off);
     Acc ((fp + src0_off) mod P) op0_prev_clock_lo (Q (op0_0 + op0_1 * 256) 0 0 0) (Q (op0_0 + op0_1 * 256) 0 0 0);
     Acc (((fp + src0_off) mod P + 1) mod P) op0_prev_clock_hi (Q (op0_2 + op0_3 * 256) 0 0 0) (Q (op0_2 + op0_3 * 256) 0 0 0);
     Acc ((fp + src1_off) mod P) op1_prev_clock_lo (Q (op1_0 + op1_1 * 256) 0 0 0) (Q (op1_0 + op1_1 * 256) 0 0 0);
     Acc (((fp + src1_off) mod P + 1) mod P) op1_prev_clock_hi (Q (op1_2 + op1_3 * 256) 0 0 0) (Q (op1_2 + op1_3 * 256) 0 0 0);
     Acc ((fp + dst_off) mod P) dst_prev_clock_lo (Q dst_prev_val_lo 0 0 0) (Q (res_0 + res_1 * 256) 0 0 0);
     Acc (((fp + dst_off) mod P + 1) mod P) dst_prev_clock_hi (Q dst_prev_val_hi 0 0 0) (Q (res_2 + res_3 * 256) 0 0 0)]; byt.
  - isa1. oks. isa_go. rewrite Hlo, Hhi. reflexivity.
  - clocks_tac.
Qed.

Lemma u32_store_div_fp_fp_sound row :
  length row = 54%nat -> Forall wf row -> nth 0 row 0 = 1 ->
  satisfied (evaluate C_u32_store_div_fp_fp row) ->
  ((nth 3 row 0) - (nth 17 row 0) - 1) mod P < 1048576 /\ ((nth 3 row 0) - (nth 18 row 0) - 1) mod P < 1048576 ->
  sound_row (evaluate C_u32_store_div_fp_fp row) (row_regs row) (row_clock row).
Proof.
  intros Hlen Hw He Hs Hx.
  destruct row as
   [|enabler [|pc [|fp [|clock [|inst_prev_clock [|src0_off [|src1_off [|dst_off [|dst_rem_off
   [|n_lo [|n_hi [|op0_prev_clock_lo [|op0_prev_clock_hi [|d_0 [|d_1 [|d_2 [|d_3
   [|op1_prev_clock_lo [|op1_prev_clock_hi [|dst_prev_val_lo [|dst_prev_val_hi [|dst_prev_clock_lo
   [|dst_prev_clock_hi [|dst_rem_prev_val_lo [|dst_rem_prev_val_hi [|dst_rem_prev_clock_lo
   [|dst_rem_prev_clock_hi [|q_0 [|q_1 [|q_2 [|q_3 [|mul_carry_0 [|mul_carry_1 [|mul_carry_2
   [|mul_carry_3 [|mul_carry_4 [|mul_carry_5 [|mul_carry_6 [|prod_0 [|prod_1 [|prod_2 [|prod_3
   [|prod_4 [|prod_5 [|prod_6 [|prod_7 [|add_carry_0 [|add_carry_1 [|add_carry_2 [|add_carry_3
   [|sub_borrow_0 [|sub_borrow_1 [|r_lo [|r_hi [|zz
   zs]]]]]]]]]]]]]]]]]]]]]]]]]]]]]]]]]]]]]]]]]]]]]]]]]]]]]]]; try discriminate Hlen; clear Hlen.
  unfold row_regs, row_clock. cbn [nth] in *. subst enabler.
  change (evaluate C_u32_store_div_fp_fp _) with (u32_store_div_fp_fp 1 pc fp clock inst_prev_clock src0_off src1_off dst_off dst_rem_off n_lo n_hi op0_prev_clock_lo op0_prev_clock_hi d_0 d_1 d_2 d_3 op1_prev_clock_lo op1_prev_clock_hi dst_prev_val_lo dst_prev_val_hi dst_prev_clock_lo dst_prev_clock_hi dst_rem_prev_val_lo dst_rem_prev_val_hi dst_rem_prev_clock_lo dst_rem_prev_clock_hi q_0 q_1 q_2 q_3 mul_carry_0 mul_carry_1 mul_carry_2 mul_carry_3 mul_carry_4 mul_carry_5 mul_carry_6 prod_0 prod_1 prod_2 prod_3 prod_4 prod_5 prod_6 prod_7 add_carry_0 add_carry_1 add_carry_2 add_carry_3 sub_borrow_0 sub_borrow_1 r_lo r_hi) in *.
  open_row u32_store_div_fp_fp Hs. ones; bools.
  destruct Hx as [Hx1 Hx2]. smallmod.
  match goal with H : add_carry_3 = 0 |- _ => subst add_carry_3 end.
  match goal with H : sub_borrow_1 = 0 |- _ => subst sub_borrow_1 end.
  destruct (div_res n_lo n_hi d_0 d_1 d_2 d_3 q_0 q_1 q_2 q_3 mul_carry_0 mul_carry_1 mul_carry_2 mul_carry_3
    mul_carry_4 mul_carry_5 mul_carry_6 prod_0 prod_1 prod_2 prod_3 prod_4 prod_5 prod_6 prod_7
    add_carry_0 add_carry_1 add_carry_2 0 sub_borrow_0 0 r_lo r_hi) as (Hd & Hq & Hr); [first [assumption|reflexivity]..|].
  destruct (le4_split q_0 q_1 q_2 q_3) as (Hlo & Hhi & _); [assumption..|].
  assert (Hrl : (r_lo + B16 * r_hi) mod B16 = r_lo /\ (r_lo + B16 * r_hi) / B16 = r_hi)
    by (match goal with H1 : 0 <= r_lo < 65536, H2 : 0 <= r_hi < 65536 |- _ => clear - H1 H2; unfold B16; lia end).
  destruct Hrl as [Hrl Hrh]. rewrite Hq in Hlo, Hhi. rewrite Hr in Hrl, Hrh. unfold le4 in *.
  assert (Hd0 : (d_0 + d_1 * 256 + B16 * (d_2 + d_3 * 256) =? 0) = false)
    by (apply Z.eqb_neq; intros E0; rewrite E0 in Hd; discriminate Hd).
  clear Hd Hq Hr.
  give (U32StoreDivRemFpFp src0_off src1_off dst_off dst_rem_off) (St ((pc + 2) mod P) fp)
    [Acc pc inst_prev_clock (Q 18 src0_off src1_off dst_off) (Q 18 src0_off src1_off dst_off);
     Acc ((pc + 1) mod P) inst_prev_clock (Q dst_rem_off 0 0 0) (Q dst_rem_off 0 0 0);
     Acc ((fp + src0_off) mod P) op0_prev_clock_lo (Q n_lo 0 0 0) (Q n_lo 0 0 0);
     Acc (((fp + src0_off) mod P + 1) mod P) op0_prev_clock_hi (Q n_hi 0 0 0) (Q n_hi 0 0 0);
     Acc ((fp + src1_off) mod P) op1_prev_clock_lo (Q (d_0 + d_1 * 256) 0 0 0) (Q (d_0 + d_1 * 256) 0 0 0);
     Acc (((fp + src1_off) mod P + 1) mod P) op1_prev_clock_hi (Q (d_2 + d_3 * 256) 0 0 0) (Q (d_2 + d_3 * 256) 0 0 0);
     Acc ((fp + dst_off) mod P) dst_prev_clock_lo (Q dst_prev_val_lo 0 0 0) (Q (q_0 + q_1 * 256) 0 0 0);
     Acc (((fp + dst_off) mod P + 1) mod P) dst_prev_clock_hi (Q dst_prev_val_hi 0 0 0) (Q (q_2 + q_3 * 256) 0 0 0);
     Acc ((fp + dst_rem_off) mod P) dst_rem_prev_clock_lo (Q dst_rem_prev_val_lo 0 0 0) (Q r_lo 0 0 0);
     Acc (((fp + dst_rem_off) mod P + 1) mod P) dst_rem_prev_clock_hi (Q dst_rem_prev_val_hi 0 0 0) (Q r_hi 0 0 0)]; byt.
  - pc2.
  - isa1. rewrite Hd0. oks. isa_go. rewrite Hlo, Hhi, Hrl, Hrh. reflexivity.
  - clocks_tac.
Qed.

Lemma u32_store_div_fp_imm_sound row :
  length row = 51%nat -> Forall wf row -> nth 0 row 0 = 1 ->
  satisfied (evaluate C_u32_store_div_fp_imm row) ->
  sound_row (evaluate C_u32_store_div_fp_imm row) (row_regs row) (row_clock row).
Proof.
  intros Hlen Hw He Hs.
  destruct row as
   [|enabler [|pc [|fp [|clock [|inst_prev_clock [|src_off [|d_0 [|d_1 [|d_2 [|d_3 [|dst_off
   [|dst_rem_off [|n_lo [|n_hi [|op0_prev_clock_lo [|op0_prev_clock_hi [|dst_prev_val_lo
   [|dst_prev_val_hi [|dst_prev_clock_lo [|dst_prev_clock_hi [|dst_rem_prev_val_lo
   [|dst_rem_prev_val_hi [|dst_rem_prev_clock_lo [|dst_rem_prev_clock_hi [|q_0 [|q_1 [|q_2 [|q_3
   [|mul_carry_0 [|mul_carry_1 [|mul_carry_2 [|mul_carry_3 [|mul_carry_4 [|mul_carry_5
   [|mul_carry_6 [|prod_0 [|prod_1 [|prod_2 [|prod_3 [|prod_4 [|prod_5 [|prod_6 [|prod_7
   [|add_carry_0 [|add_carry_1 [|add_carry_2 [|add_carry_3 [|sub_borrow_0 [|sub_borrow_1 [|r_lo
   [|r_hi [|zz zs]]]]]]]]]]]]]]]]]]]]]]]]]]]]]]]]]]]]]]]]]]]]]]]]]]]]; try discriminate Hlen; clear Hlen.
  unfold row_regs, row_clock. cbn [nth] in *. subst enabler.
  change (evaluate C_u32_store_div_fp_imm _) with (u32_store_div_fp_imm 1 pc fp clock inst_prev_clock src_off d_0 d_1 d_2 d_3 dst_off dst_rem_off n_lo n_hi op0_prev_clock_lo op0_prev_clock_hi dst_prev_val_lo dst_prev_val_hi dst_prev_clock_lo dst_prev_clock_hi dst_rem_prev_val_lo dst_rem_prev_val_hi dst_rem_prev_clock_lo dst_rem_prev_clock_hi q_0 q_1 q_2 q_3 mul_carry_0 mul_carry_1 mul_carry_2 mul_carry_3 mul_carry_4 mul_carry_5 mul_carry_6 prod_0 prod_1 prod_2 prod_3 prod_4 prod_5 prod_6 prod_7 add_carry_0 add_carry_1 add_carry_2 add_carry_3 sub_borrow_0 sub_borrow_1 r_lo r_hi) in *.
  open_row u32_store_div_fp_imm Hs. ones; bools.
  smallmod.
  match goal with H : add_carry_3 = 0 |- _ => subst add_carry_3 end.
  match goal with H : sub_borrow_1 = 0 |- _ => subst sub_borrow_1 end.
  destruct (div_res n_lo n_hi d_0 d_1 d_2 d_3 q_0 q_1 q_2 q_3 mul_carry_0 mul_carry_1 mul_carry_2 mul_carry_3
    mul_carry_4 mul_carry_5 mul_carry_6 prod_0 prod_1 prod_2 prod_3 prod_4 prod_5 prod_6 prod_7
    add_carry_0 add_carry_1 add_carry_2 0 sub_borrow_0 0 r_lo r_hi) as (Hd & Hq & Hr); [first [assumption|reflexivity]..|].
  destruct (le4_split q_0 q_1 q_2 q_3) as (Hlo & Hhi & _); [assumption..|].
  assert (Hrl : (r_lo + B16 * r_hi) mod B16 = r_lo /\ (r_lo + B16 * r_hi) / B16 = r_hi)
    by (match goal with H1 : 0 <= r_lo < 65536, H2 : 0 <= r_hi < 65536 |- _ => clear - H1 H2; unfold B16; lia end).
  destruct Hrl as [Hrl Hrh]. rewrite Hq in Hlo, Hhi. rewrite Hr in Hrl, Hrh. unfold le4 in *.
  assert (Hd0 : (d_0 + d_1 * 256 + B16 * (d_2 + d_3 * 256) =? 0) = false)
    by (apply Z.eqb_neq; intros E0; rewrite E0 in Hd; discriminate Hd).
  clear Hd Hq Hr.
  assert (wf (d_0 + d_1 * 256)) by (apply wf_small, bytes16; assumption).
  assert (wf (d_2 + d_3 * 256)) by (apply wf_small, bytes16; assumption).
  give (U32StoreDivRemFpImm src_off (d_0 + d_1 * 256) (d_2 + d_3 * 256) dst_off dst_rem_off) (St ((pc + 2) mod P) fp)
    [Acc pc inst_prev_clock (Q 22 src_off (d_0 + d_1 * 256) (d_2 + d_3 * 256)) (Q 22 src_off (d_0 + d_1 * 256) (d_2 + d_3 * 256));
     Acc ((pc + 1) mod P) inst_prev_clock (Q dst_off dst_rem_off 0 0) (Q dst_off dst_rem_off 0 0);
     Acc ((fp + src_off) mod P) op0_prev_clock_lo (Q n_lo 0 0 0) (Q n_lo 0 0 0);
     Acc (((fp + src_off) mod P + 1) mod P) op0_prev_clock_hi (Q n_hi 0 0 0) (Q n_hi 0 0 0);
     Acc ((fp + dst_off) mod P) dst_prev_clock_lo (Q dst_prev_val_lo 0 0 0) (Q (q_0 + q_1 * 256) 0 0 0);
     Acc (((fp + dst_off) mod P + 1) mod P) dst_prev_clock_hi (Q dst_prev_val_hi 0 0 0) (Q (q_2 + q_3 * 256) 0 0 0);
     Acc ((fp + dst_rem_off) mod P) dst_rem_prev_clock_lo (Q dst_rem_prev_val_lo 0 0 0) (Q r_lo 0 0 0);
     Acc (((fp + dst_rem_off) mod P + 1) mod P) dst_rem_prev_clock_hi (Q dst_rem_prev_val_hi 0 0 0) (Q r_hi 0 0 0)]; byt.
  - pc2.
  - isa1. rewrite Hd0. oks. isa_go. rewrite Hlo, Hhi, Hrl, Hrh. reflexivity.
  - clocks_tac.
Qed.

(** *** Bitwise operations *)
Lemma op_col x b k : wf x -> 0 <= b < 1000 -> 0 <= k < 1000 -> (x - b) mod P = k -> x = b + k.
Proof. intros Hx Hb Hk H. unfold wf, P in *. lia. Qed.
Ltac bw_in :=
  repeat match goal with H : 0 <= _ < 256 /\ 0 <= _ < 256 /\ _ |- _ =>
    let A := fresh "A" in let B := fresh "B" in let C := fresh "Hbw" in destruct H as (A & B & C) end.
Ltac bw_sub :=
  repeat match goal with
  | H : _ = 0 /\ ?z = _ \/ _ = 1 /\ _ \/ _ |- _ =>
    destruct H as [[H ?E]|[[H ?E]|[H ?E]]]; try discriminate H; clear H; subst z
  end.

Lemma u32_store_bitwise_fp_fp_sound row :
  length row = 29%nat -> Forall wf row -> nth 0 row 0 = 1 ->
  satisfied (evaluate C_u32_store_bitwise_fp_fp row) ->
  sound_row (evaluate C_u32_store_bitwise_fp_fp row) (row_regs row) (row_clock row).
Proof.
  intros Hlen Hw He Hs.
  destruct row as
   [|enabler [|pc [|fp [|clock [|inst_prev_clock [|opcode_constant [|src0_off [|src1_off [|dst_off
   [|op0_val_0 [|op0_val_1 [|op0_val_2 [|op0_val_3 [|op0_prev_clock_lo [|op0_prev_clock_hi
   [|op1_val_0 [|op1_val_1 [|op1_val_2 [|op1_val_3 [|op1_prev_clock_lo [|op1_prev_clock_hi
   [|dst_prev_val_lo [|dst_prev_val_hi [|dst_val_0 [|dst_val_1 [|dst_val_2 [|dst_val_3
   [|dst_prev_clock_lo [|dst_prev_clock_hi [|zz zs]]]]]]]]]]]]]]]]]]]]]]]]]]]]]]; try discriminate Hlen; clear Hlen.
  unfold row_regs, row_clock. cbn [nth] in *. subst enabler.
  change (evaluate C_u32_store_bitwise_fp_fp _) with (u32_store_bitwise_fp_fp 1 pc fp clock inst_prev_clock opcode_constant src0_off src1_off dst_off op0_val_0 op0_val_1 op0_val_2 op0_val_3 op0_prev_clock_lo op0_prev_clock_hi op1_val_0 op1_val_1 op1_val_2 op1_val_3 op1_prev_clock_lo op1_prev_clock_hi dst_prev_val_lo dst_prev_val_hi dst_val_0 dst_val_1 dst_val_2 dst_val_3 dst_prev_clock_lo dst_prev_clock_hi) in *.
  open_row u32_store_bitwise_fp_fp Hs. ones; bools.
  smallmod. bw_in.
  assert (Hop : opcode_constant = 36 \/ opcode_constant = 37 \/ opcode_constant = 38).
  { match goal with H : (opcode_constant - _) mod P = 0 /\ dst_val_0 = _ \/ _ |- _ =>
      destruct H as [[H _]|[[H _]|[H _]]]; apply op_col in H; try assumption; try (split; [discriminate|reflexivity]) end; tauto. }
  destruct Hop as [->|[->| ->]]; bw_sub.
  - destruct (and_le4 op0_val_0 op0_val_1 op0_val_2 op0_val_3 op1_val_0 op1_val_1 op1_val_2 op1_val_3) as (Hop & Z0 & Z1 & Z2 & Z3); [assumption..|].
    destruct (le4_split (Z.land op0_val_0 op1_val_0) (Z.land op0_val_1 op1_val_1) (Z.land op0_val_2 op1_val_2) (Z.land op0_val_3 op1_val_3)) as (Hlo & Hhi & _); [assumption..|].
    rewrite <- Hop in Hlo, Hhi. unfold le4 in Hlo, Hhi. clear Hop.
    give (U32StoreAndFpFp src0_off src1_off dst_off) (St ((pc + 1) mod P) fp)
    [Acc pc inst_prev_clock (Q 36 src0_off src1_off dst_off) (Q 36 src0_off src1_off dst_off);
     Acc ((fp + src0_off) mod P) op0_prev_clock_lo (Q (op0_val_0 + op0_val_1 * 256) 0 0 0) (Q (op0_val_0 + op0_val_1 * 256) 0 0 0);
     Acc (((fp + src0_off) mod P + 1) mod P) op0_prev_clock_hi (Q (op0_val_2 + op0_val_3 * 256) 0 0 0) (Q (op0_val_2 + op0_val_3 * 256) 0 0 0);
     Acc ((fp + src1_off) mod P) op1_prev_clock_lo (Q (op1_val_0 + op1_val_1 * 256) 0 0 0) (Q (op1_val_0 + op1_val_1 * 256) 0 0 0);
     Acc (((fp + src1_off) mod P + 1) mod P) op1_prev_clock_hi (Q (op1_val_2 + op1_val_3 * 256) 0 0 0) (Q (op1_val_2 + op1_val_3 * 256) 0 0 0);
     Acc ((fp + dst_off) mod P) dst_prev_clock_lo (Q dst_prev_val_lo 0 0 0) (Q ((Z.land op0_val_0 op1_val_0) + (Z.land op0_val_1 op1_val_1) * 256) 0 0 0);
     Acc (((fp + dst_off) mod P + 1) mod P) dst_prev_clock_hi (Q dst_prev_val_hi 0 0 0) (Q ((Z.land op0_val_2 op1_val_2) + (Z.land op0_val_3 op1_val_3) * 256) 0 0 0)]; byt.
    + isa1. oks. isa_go. rewrite Hlo, Hhi. reflexivity.
    + clocks_tac.
  - destruct (or_le4 op0_val_0 op0_val_1 op0_val_2 op0_val_3 op1_val_0 op1_val_1 op1_val_2 op1_val_3) as (Hop & Z0 & Z1 & Z2 & Z3); [assumption..|].
    destruct (le4_split (Z.lor op0_val_0 op1_val_0) (Z.lor op0_val_1 op1_val_1) (Z.lor op0_val_2 op1_val_2) (Z.lor op0_val_3 op1_val_3)) as (Hlo & Hhi & _); [assumption..|].
    rewrite <- Hop in Hlo, Hhi. unfold le4 in Hlo, Hhi. clear Hop.
    give (U32StoreOrFpFp src0_off src1_off dst_off) (St ((pc + 1) mod P) fp)
    [Acc pc inst_prev_clock (Q 37 src0_off src1_off dst_off) (Q 37 src0_off src1_off dst_off);
     Acc ((fp + src0_off) mod P) op0_prev_clock_lo (Q (op0_val_0 + op0_val_1 * 256) 0 0 0) (Q (op0_val_0 + op0_val_1 * 256) 0 0 0);
     Acc (((fp + src0_off) mod P + 1) mod P) op0_prev_clock_hi (Q (op0_val_2 + op0_val_3 * 256) 0 0 0) (Q (op0_val_2 + op0_val_3 * 256) 0 0 0);
     Acc ((fp + src1_off) mod P) op1_prev_clock_lo (Q (op1_val_0 + op1_val_1 * 256) 0 0 0) (Q (op1_val_0 + op1_val_1 * 256) 0 0 0);
     Acc (((fp + src1_off) mod P + 1) mod P) op1_prev_clock_hi (Q (op1_val_2 + op1_val_3 * 256) 0 0 0) (Q (op1_val_2 + op1_val_3 * 256) 0 0 0);
     Acc ((fp + dst_off) mod P) dst_prev_clock_lo (Q dst_prev_val_lo 0 0 0) (Q ((Z.lor op0_val_0 op1_val_0) + (Z.lor op0_val_1 op1_val_1) * 256) 0 0 0);
     Acc (((fp + dst_off) mod P + 1) mod P) dst_prev_clock_hi (Q dst_prev_val_hi 0 0 0) (Q ((Z.lor op0_val_2 op1_val_2) + (Z.lor op0_val_3 op1_val_3) * 256) 0 0 0)]; byt.
    + isa1. oks. isa_go. rewrite Hlo, Hhi. reflexivity.
    + clocks_tac.
  - destruct (xor_le4 op0_val_0 op0_val_1 op0_val_2 op0_val_3 op1_val_0 op1_val_1 op1_val_2 op1_val_3) as (Hop & Z0 & Z1 & Z2 & Z3); [assumption..|].
    destruct (le4_split (Z.lxor op0_val_0 op1_val_0) (Z.lxor op0_val_1 op1_val_1) (Z.lxor op0_val_2 op1_val_2) (Z.lxor op0_val_3 op1_val_3)) as (Hlo & Hhi & _); [assumption..|].
    rewrite <- Hop in Hlo, Hhi. unfold le4 in Hlo, Hhi. clear Hop.
    give (U32StoreXorFpFp src0_off src1_off dst_off) (St ((pc + 1) mod P) fp)
    [Acc pc inst_prev_clock (Q 38 src0_off src1_off dst_off) (Q 38 src0_off src1_off dst_off);
     Acc ((fp + src0_off) mod P) op0_prev_clock_lo (Q (op0_val_0 + op0_val_1 * 256) 0 0 0) (Q (op0_val_0 + op0_val_1 * 256) 0 0 0);
     Acc (((fp + src0_off) mod P + 1) mod P) op0_prev_clock_hi (Q (op0_val_2 + op0_val_3 * 256) 0 0 0) (Q (op0_val_2 + op0_val_3 * 256) 0 0 0);
     Acc ((fp + src1_off) mod P) op1_prev_clock_lo (Q (op1_val_0 + op1_val_1 * 256) 0 0 0) (Q (op1_val_0 + op1_val_1 * 256) 0 0 0);
     Acc (((fp + src1_off) mod P + 1) mod P) op1_prev_clock_hi (Q (op1_val_2 + op1_val_3 * 256) 0 0 0) (Q (op1_val_2 + op1_val_3 * 256) 0 0 0);
     Acc ((fp + dst_off) mod P) dst_prev_clock_lo (Q dst_prev_val_lo 0 0 0) (Q ((Z.lxor op0_val_0 op1_val_0) + (Z.lxor op0_val_1 op1_val_1) * 256) 0 0 0);
     Acc (((fp + dst_off) mod P + 1) mod P) dst_prev_clock_hi (Q dst_prev_val_hi 0 0 0) (Q ((Z.lxor op0_val_2 op1_val_2) + (Z.lxor op0_val_3 op1_val_3) * 256) 0 0 0)]; byt.
    + isa1. oks. isa_go. rewrite Hlo, Hhi. reflexivity.
    + clocks_tac.
Qed.

Lemma u32_store_bitwise_fp_imm_sound row :
  length row = 26%nat -> Forall wf row -> nth 0 row 0 = 1 ->
  satisfied (evaluate C_u32_store_bitwise_fp_imm row) ->
  sound_row (evaluate C_u32_store_bitwise_fp_imm row) (row_regs row) (row_clock row).
Proof.
  intros Hlen Hw He Hs.
  destruct row as
   [|enabler [|pc [|fp [|clock [|inst_prev_clock [|opcode_constant [|src_off [|imm_0 [|imm_1
   [|imm_2 [|imm_3 [|dst_off [|op0_val_0 [|op0_val_1 [|op0_val_2 [|op0_val_3 [|op0_prev_clock_lo
   [|op0_prev_clock_hi [|dst_prev_val_lo [|dst_prev_val_hi [|dst_val_0 [|dst_val_1 [|dst_val_2
   [|dst_val_3 [|dst_prev_clock_lo [|dst_prev_clock_hi [|zz zs]]]]]]]]]]]]]]]]]]]]]]]]]]]; try discriminate Hlen; clear Hlen.
  unfold row_regs, row_clock. cbn [nth] in *. subst enabler.
  change (evaluate C_u32_store_bitwise_fp_imm _) with (u32_store_bitwise_fp_imm 1 pc fp clock inst_prev_clock opcode_constant src_off imm_0 imm_1 imm_2 imm_3 dst_off op0_val_0 op0_val_1 op0_val_2 op0_val_3 op0_prev_clock_lo op0_prev_clock_hi dst_prev_val_lo dst_prev_val_hi dst_val_0 dst_val_1 dst_val_2 dst_val_3 dst_prev_clock_lo dst_prev_clock_hi) in *.
  open_row u32_store_bitwise_fp_imm Hs. ones; bools.
  smallmod. bw_in.
  assert (wf (imm_0 + imm_1 * 256)) by (apply wf_small, bytes16; assumption).
  assert (wf (imm_2 + imm_3 * 256)) by (apply wf_small, bytes16; assumption).
  assert (Hop : opcode_constant = 39 \/ opcode_constant = 40 \/ opcode_constant = 41).
  { match goal with H : (opcode_constant - _) mod P = 0 /\ dst_val_0 = _ \/ _ |- _ =>
      destruct H as [[H _]|[[H _]|[H _]]]; apply op_col in H; try assumption; try (split; [discriminate|reflexivity]) end; tauto. }
  destruct Hop as [->|[->| ->]]; bw_sub.
  - destruct (and_le4 op0_val_0 op0_val_1 op0_val_2 op0_val_3 imm_0 imm_1 imm_2 imm_3) as (Hop & Z0 & Z1 & Z2 & Z3); [assumption..|].
    destruct (le4_split (Z.land op0_val_0 imm_0) (Z.land op0_val_1 imm_1) (Z.land op0_val_2 imm_2) (Z.land op0_val_3 imm_3)) as (Hlo & Hhi & _); [assumption..|].
    rewrite <- Hop in Hlo, Hhi. unfold le4 in Hlo, Hhi. clear Hop.
    give (U32StoreAndFpImm src_off (imm_0 + imm_1 * 256) (imm_2 + imm_3 * 256) dst_off) (St ((pc + 2) mod P) fp)
    [Acc pc inst_prev_clock (Q 39 src_off (imm_0 + imm_1 * 256) (imm_2 + imm_3 * 256)) (Q 39 src_off (imm_0 + imm_1 * 256) (imm_2 + imm_3 * 256));
     Acc ((pc + 1) mod P) inst_prev_clock (Q dst_off 0 0 0) (Q dst_off 0 0 0);
     Acc ((fp + src_off) mod P) op0_prev_clock_lo (Q (op0_val_0 + op0_val_1 * 256) 0 0 0) (Q (op0_val_0 + op0_val_1 * 256) 0 0 0);
     Acc (((fp + src_off) mod P + 1) mod P) op0_prev_clock_hi (Q (op0_val_2 + op0_val_3 * 256) 0 0 0) (Q (op0_val_2 + op0_val_3 * 256) 0 0 0);
     Acc ((fp + dst_off) mod P) dst_prev_clock_lo (Q dst_prev_val_lo 0 0 0) (Q ((Z.land op0_val_0 imm_0) + (Z.land op0_val_1 imm_1) * 256) 0 0 0);
     Acc (((fp + dst_off) mod P + 1) mod P) dst_prev_clock_hi (Q dst_prev_val_hi 0 0 0) (Q ((Z.land op0_val_2 imm_2) + (Z.land op0_val_3 imm_3) * 256) 0 0 0)]; byt.
    + pc2.
    + isa1. oks. isa_go. rewrite Hlo, Hhi. reflexivity.
    + clocks_tac.
  - destruct (or_le4 op0_val_0 op0_val_1 op0_val_2 op0_val_3 imm_0 imm_1 imm_2 imm_3) as (Hop & Z0 & Z1 & Z2 & Z3); [assumption..|].
    destruct (le4_split (Z.lor op0_val_0 imm_0) (Z.lor op0_val_1 imm_1) (Z.lor op0_val_2 imm_2) (Z.lor op0_val_3 imm_3)) as (Hlo & Hhi & _); [assumption..|].
    rewrite <- Hop in Hlo, Hhi. unfold le4 in Hlo, Hhi. clear Hop.
    give (U32StoreOrFpImm src_off (imm_0 + imm_1 * 256) (imm_2 + imm_3 * 256) dst_off) (St ((pc + 2) mod P) fp)
    [Acc pc inst_prev_clock (Q 40 src_off (imm_0 + imm_1 * 256) (imm_2 + imm_3 * 256)) (Q 40 src_off (imm_0 + imm_1 * 256) (imm_2 + imm_3 * 256));
     Acc ((pc + 1) mod P) inst_prev_clock (Q dst_off 0 0 0) (Q dst_off 0 0 0);
     Acc ((fp + src_off) mod P) op0_prev_clock_lo (Q (op0_val_0 + op0_val_1 * 256) 0 0 0) (Q (op0_val_0 + op0_val_1 * 256) 0 0 0);
     Acc (((fp + src_off) mod P + 1) mod P) op0_prev_clock_hi (Q (op0_val_2 + op0_val_3 * 256) 0 0 0) (Q (op0_val_2 + op0_val_3 * 256) 0 0 0);
     Acc ((fp + dst_off) mod P) dst_prev_clock_lo (Q dst_prev_val_lo 0 0 0) (Q ((Z.lor op0_val_0 imm_0) + (Z.lor op0_val_1 imm_1) * 256) 0 0 0);
     Acc (((fp + dst_off) mod P + 1) mod P) dst_prev_clock_hi (Q dst_prev_val_hi 0 0 0) (Q ((Z.lor op0_val_2 imm_2) + (Z.lor op0_val_3 imm_3) * 256) 0 0 0)]; byt.
    + pc2.
    + isa1. oks. isa_go. rewrite Hlo, Hhi. reflexivity.
    + clocks_tac.
  - destruct (xor_le4 op0_val_0 op0_val_1 op0_val_2 op0_val_3 imm_0 imm_1 imm_2 imm_3) as (Hop & Z0 & Z1 & Z2 & Z3); [assumption..|].
    destruct (le4_split (Z.lxor op0_val_0 imm_0) (Z.lxor op0_val_1 imm_1) (Z.lxor op0_val_2 imm_2) (Z.lxor op0_val_3 imm_3)) as (Hlo & Hhi & _); [assumption..|].
    rewrite <- Hop in Hlo, Hhi. unfold le4 in Hlo, Hhi. clear Hop.
    give (U32StoreXorFpImm src_off (imm_0 + imm_1 * 256) (imm_2 + imm_3 * 256) dst_off) (St ((pc + 2) mod P) fp)
    [Acc pc inst_prev_clock (Q 41 src_off (imm_0 + imm_1 * 256) (imm_2 + imm_3 * 256)) (Q 41 src_off (imm_0 + imm_1 * 256) (imm_2 + imm_3 * 256));
     Acc ((pc + 1) mod P) inst_prev_clock (Q dst_off 0 0 0) (Q dst_off 0 0 0);
     Acc ((fp + src_off) mod P) op0_prev_clock_lo (Q (op0_val_0 + op0_val_1 * 256) 0 0 0) (Q (op0_val_0 + op0_val_1 * 256) 0 0 0);
     Acc (((fp + src_off) mod P + 1) mod P) op0_prev_clock_hi (Q (op0_val_2 + op0_val_3 * 256) 0 0 0) (Q (op0_val_2 + op0_val_3 * 256) 0 0 0);
     Acc ((fp + dst_off) mod P) dst_prev_clock_lo (Q dst_prev_val_lo 0 0 0) (Q ((Z.lxor op0_val_0 imm_0) + (Z.lxor op0_val_1 imm_1) * 256) 0 0 0);
     Acc (((fp + dst_off) mod P + 1) mod P) dst_prev_clock_hi (Q dst_prev_val_hi 0 0 0) (Q ((Z.lxor op0_val_2 imm_2) + (Z.lxor op0_val_3 imm_3) * 256) 0 0 0)]; byt.
    + pc2.
    + isa1. oks. isa_go. rewrite Hlo, Hhi. reflexivity.
    + clocks_tac.
Qed.

