(** Soundness of the field and control-flow components: a satisfied row is a step. *)
From Coq Require Import ZArith Bool List Lia Permutation.
From Verif Require Import M31 M31Facts Instr InstrFacts Isa Machine Air AirOpcodes AirSpec AirFacts.
Import ListNotations.
Open Scope Z_scope.
Ltac Zify.zify_post_hook ::= Z.div_mod_to_equations.

Ltac isa1 := cbn [isa pc fp]; use_cells.
Ltac perm1 := code_red; cbn [seen stored map app ac_addr ac_new reads writes fst snd pc fp]; use_cells.
Ltac isa_go := isa1; eexists; split; [reflexivity|]; split; [try reflexivity|]; split; [reflexivity|]; split; [fin_reads|fin_perm].

Lemma store_imm_sound row :
  length row = 9%nat -> Forall wf row -> nth 0 row 0 = 1 ->
  satisfied (evaluate C_store_imm row) ->
  sound_row (evaluate C_store_imm row) (row_regs row) (row_clock row).
Proof.
  intros Hlen Hw He Hs.
  destruct row as
   [|enabler [|pc [|fp [|clock [|inst_prev_clock [|off0 [|off2 [|dst_prev_clock [|dst_prev_val
   [|zz zs]]]]]]]]]]; try discriminate Hlen; clear Hlen.
  unfold row_regs, row_clock. cbn [nth] in *. subst enabler.
  change (evaluate C_store_imm _) with (store_imm 1 pc fp clock inst_prev_clock off0 off2 dst_prev_clock dst_prev_val) in *.
  open_row store_imm Hs. ones; bools.
  give (StoreImm off0 off2) (St ((pc + 1) mod P) fp)
    [Acc pc inst_prev_clock (Q 9 off0 off2 0) (Q 9 off0 off2 0);
     Acc ((fp + off2) mod P) dst_prev_clock (Q dst_prev_val 0 0 0) (Q off0 0 0 0)].
  - isa_go.
  - clocks_tac.
Qed.

Lemma store_frame_pointer_sound row :
  length row = 9%nat -> Forall wf row -> nth 0 row 0 = 1 ->
  satisfied (evaluate C_store_frame_pointer row) ->
  sound_row (evaluate C_store_frame_pointer row) (row_regs row) (row_clock row).
Proof.
  intros Hlen Hw He Hs.
  destruct row as
   [|enabler [|pc [|fp [|clock [|inst_prev_clock [|imm [|dst_off [|dst_prev_val [|dst_prev_clock
   [|zz zs]]]]]]]]]]; try discriminate Hlen; clear Hlen.
  unfold row_regs, row_clock. cbn [nth] in *. subst enabler.
  change (evaluate C_store_frame_pointer _) with (store_frame_pointer 1 pc fp clock inst_prev_clock imm dst_off dst_prev_val dst_prev_clock) in *.
  open_row store_frame_pointer Hs. ones; bools.
  give (StoreFramePointer imm dst_off) (St ((pc + 1) mod P) fp)
    [Acc pc inst_prev_clock (Q 43 imm dst_off 0) (Q 43 imm dst_off 0);
     Acc ((fp + dst_off) mod P) dst_prev_clock (Q dst_prev_val 0 0 0) (Q ((fp + imm) mod P) 0 0 0)].
  - isa_go.
  - clocks_tac.
Qed.

Lemma assert_eq_fp_imm_sound row :
  length row = 9%nat -> Forall wf row -> nth 0 row 0 = 1 ->
  satisfied (evaluate C_assert_eq_fp_imm row) ->
  sound_row (evaluate C_assert_eq_fp_imm row) (row_regs row) (row_clock row).
Proof.
  intros Hlen Hw He Hs.
  destruct row as
   [|enabler [|pc [|fp [|clock [|inst_prev_clock [|src0_off [|imm [|op0_prev_clock [|op0_val [|zz
   zs]]]]]]]]]]; try discriminate Hlen; clear Hlen.
  unfold row_regs, row_clock. cbn [nth] in *. subst enabler.
  change (evaluate C_assert_eq_fp_imm _) with (assert_eq_fp_imm 1 pc fp clock inst_prev_clock src0_off imm op0_prev_clock op0_val) in *.
  open_row assert_eq_fp_imm Hs. ones; bools.
  assert (op0_val = imm) as -> by (match goal with H : (_ - _) mod P = 0 |- _ => apply col_eq in H; [rewrite (wf_mod imm) in H|]; assumption end).
  give (AssertEqFpImm src0_off imm) (St ((pc + 1) mod P) fp)
    [Acc pc inst_prev_clock (Q 50 src0_off imm 0) (Q 50 src0_off imm 0);
     Acc ((fp + src0_off) mod P) op0_prev_clock (Q imm 0 0 0) (Q imm 0 0 0)].
  - isa1. rewrite Z.eqb_refl. isa_go.
  - clocks_tac.
Qed.

Lemma call_abs_imm_sound row :
  length row = 11%nat -> Forall wf row -> nth 0 row 0 = 1 ->
  satisfied (evaluate C_call_abs_imm row) ->
  sound_row (evaluate C_call_abs_imm row) (row_regs row) (row_clock row).
Proof.
  intros Hlen Hw He Hs.
  destruct row as
   [|enabler [|pc [|fp [|clock [|inst_prev_clock [|off0 [|off1 [|op0_prev_clock [|op0_prev_val
   [|op0_plus_one_prev_clock [|op0_plus_one_prev_val [|zz zs]]]]]]]]]]]]; try discriminate Hlen; clear Hlen.
  unfold row_regs, row_clock. cbn [nth] in *. subst enabler.
  change (evaluate C_call_abs_imm _) with (call_abs_imm 1 pc fp clock inst_prev_clock off0 off1 op0_prev_clock op0_prev_val op0_plus_one_prev_clock op0_plus_one_prev_val) in *.
  open_row call_abs_imm Hs. ones; bools.
  give (CallAbsImm off0 off1) (St off1 ((fp + off0 + 2) mod P))
    [Acc pc inst_prev_clock (Q 10 off0 off1 0) (Q 10 off0 off1 0);
     Acc ((fp + off0) mod P) op0_prev_clock (Q op0_prev_val 0 0 0) (Q fp 0 0 0);
     Acc (((fp + off0) mod P + 1) mod P) op0_plus_one_prev_clock (Q op0_plus_one_prev_val 0 0 0) (Q ((pc + 1) mod P) 0 0 0)].
  - f_equal. lia.
  - isa_go.
  - clocks_tac.
Qed.

Lemma ret_sound row :
  length row = 9%nat -> Forall wf row -> nth 0 row 0 = 1 ->
  satisfied (evaluate C_ret row) ->
  sound_row (evaluate C_ret row) (row_regs row) (row_clock row).
Proof.
  intros Hlen Hw He Hs.
  destruct row as
   [|enabler [|pc [|fp [|clock [|inst_prev_clock [|fp_min_2_prev_clock [|fp_min_2_val
   [|fp_min_1_prev_clock [|fp_min_1_val [|zz zs]]]]]]]]]]; try discriminate Hlen; clear Hlen.
  unfold row_regs, row_clock. cbn [nth] in *. subst enabler.
  change (evaluate C_ret _) with (ret 1 pc fp clock inst_prev_clock fp_min_2_prev_clock fp_min_2_val fp_min_1_prev_clock fp_min_1_val) in *.
  open_row ret Hs. ones; bools.
  give Ret (St fp_min_1_val fp_min_2_val)
    [Acc pc inst_prev_clock (Q 11 0 0 0) (Q 11 0 0 0);
     Acc ((fp - 2) mod P) fp_min_2_prev_clock (Q fp_min_2_val 0 0 0) (Q fp_min_2_val 0 0 0);
     Acc ((fp - 1) mod P) fp_min_1_prev_clock (Q fp_min_1_val 0 0 0) (Q fp_min_1_val 0 0 0)].
  - isa1. eexists. split; [reflexivity|]. split; [reflexivity|].
    split; [reflexivity|]. split; [fin_reads|].
    perm1.
    apply perm_skip, perm_swap.
  - clocks_tac.
Qed.

Lemma jmp_imm_sound row :
  length row = 7%nat -> Forall wf row -> nth 0 row 0 = 1 ->
  satisfied (evaluate C_jmp_imm row) ->
  sound_row (evaluate C_jmp_imm row) (row_regs row) (row_clock row).
Proof.
  intros Hlen Hw He Hs.
  destruct row as
   [|enabler [|pc [|fp [|clock [|inst_prev_clock [|off0 [|is_rel [|zz zs]]]]]]]]; try discriminate Hlen; clear Hlen.
  unfold row_regs, row_clock. cbn [nth] in *. subst enabler.
  change (evaluate C_jmp_imm _) with (jmp_imm 1 pc fp clock inst_prev_clock off0 is_rel) in *.
  open_row jmp_imm Hs. ones; bools.
  match goal with H : is_rel = 0 \/ is_rel = 1 |- _ => destruct H as [->| ->] end.
  - give (JmpAbsImm off0) (St off0 fp) [Acc pc inst_prev_clock (Q 12 off0 0 0) (Q 12 off0 0 0)].
    + rewrite Z.mul_0_r, Z.add_0_r. smallmod. reflexivity.
    + isa_go.
    + clocks_tac.
  - give (JmpRelImm off0) (St ((pc + off0) mod P) fp) [Acc pc inst_prev_clock (Q 13 off0 0 0) (Q 13 off0 0 0)].
    + f_equal. lia.
    + isa_go.
    + clocks_tac.
Qed.

(** *** Division through the inverse column *)
Lemma inv_col y i : wf y -> y <> 0 -> (y * (i * y - 1)) mod P = 0 -> (i * y) mod P = 1.
Proof.
  intros Hy Hn H. apply mul_zero in H. destruct H as [H|H].
  - rewrite Z.mod_small in H by exact Hy. contradiction.
  - apply mod_sub_zero in H. exact H.
Qed.
Lemma inv_unique y i : wf y -> y <> 0 -> (i * y) mod P = 1 -> i mod P = minv y mod P.
Proof.
  intros Hy Hn H. apply (mul_cancel _ _ y).
  - rewrite Z.mod_small by exact Hy. exact Hn.
  - rewrite H. rewrite Z.mul_comm. symmetry. apply minv_spec. rewrite Z.mod_small by exact Hy. exact Hn.
Qed.

Ltac col H := apply col_eq in H; [|assumption].
Ltac dst d v := assert (Hdst : d = v mod P) by
  (match goal with H : (d - _) mod P = 0 |- _ => apply col_eq in H; [rewrite H; f_equal; ring|assumption] end).

Lemma store_fp_fp_sound row :
  length row = 20%nat -> Forall wf row -> nth 0 row 0 = 1 ->
  satisfied (evaluate C_store_fp_fp row) ->
  ~ ((nth 16 row 0) = 1 /\ (nth 17 row 0) = 1 /\ (nth 11 row 0) = 0) ->
  sound_row (evaluate C_store_fp_fp row) (row_regs row) (row_clock row).
Proof.
  intros Hlen Hw He Hs Hx.
  destruct row as
   [|enabler [|pc [|fp [|clock [|inst_prev_clock [|off0 [|off1 [|off2 [|op0_prev_clock [|op0_val
   [|op1_prev_clock [|op1_val [|op1_inv [|dst_prev_clock [|dst_prev_val [|dst_val [|opcode_flag_0
   [|opcode_flag_1 [|prod [|div [|zz zs]]]]]]]]]]]]]]]]]]]]]; try discriminate Hlen; clear Hlen.
  unfold row_regs, row_clock. cbn [nth] in *. subst enabler.
  change (evaluate C_store_fp_fp _) with (store_fp_fp 1 pc fp clock inst_prev_clock off0 off1 off2 op0_prev_clock op0_val op1_prev_clock op1_val op1_inv dst_prev_clock dst_prev_val dst_val opcode_flag_0 opcode_flag_1 prod div) in *.
  open_row store_fp_fp Hs. ones; bools.
  match goal with H : (prod - _) mod P = 0 |- _ => col H; rename H into Hprod end.
  match goal with H : (div - _) mod P = 0 |- _ => col H; rename H into Hdiv end.
  match goal with H : (op1_val * _) mod P = 0 |- _ => rename H into Hinv end.
  match goal with H : opcode_flag_0 = 0 \/ _ |- _ => destruct H as [->| ->] end;
  match goal with H : opcode_flag_1 = 0 \/ _ |- _ => destruct H as [->| ->] end.
  - dst dst_val (op0_val + op1_val).
    give (StoreAddFpFp off0 off1 off2) (St ((pc + 1) mod P) fp)
      [Acc pc inst_prev_clock (Q 0 off0 off1 off2) (Q 0 off0 off1 off2);
       Acc ((fp + off0) mod P) op0_prev_clock (Q op0_val 0 0 0) (Q op0_val 0 0 0);
       Acc ((fp + off1) mod P) op1_prev_clock (Q op1_val 0 0 0) (Q op1_val 0 0 0);
       Acc ((fp + off2) mod P) dst_prev_clock (Q dst_prev_val 0 0 0) (Q ((op0_val + op1_val) mod P) 0 0 0)].
    + isa_go.
    + clocks_tac.
  - dst dst_val (op0_val - op1_val).
    give (StoreSubFpFp off0 off1 off2) (St ((pc + 1) mod P) fp)
      [Acc pc inst_prev_clock (Q 1 off0 off1 off2) (Q 1 off0 off1 off2);
       Acc ((fp + off0) mod P) op0_prev_clock (Q op0_val 0 0 0) (Q op0_val 0 0 0);
       Acc ((fp + off1) mod P) op1_prev_clock (Q op1_val 0 0 0) (Q op1_val 0 0 0);
       Acc ((fp + off2) mod P) dst_prev_clock (Q dst_prev_val 0 0 0) (Q ((op0_val - op1_val) mod P) 0 0 0)].
    + isa_go.
    + clocks_tac.
  - dst dst_val prod. rewrite Hprod, Zmod_mod in Hdst.
    give (StoreMulFpFp off0 off1 off2) (St ((pc + 1) mod P) fp)
      [Acc pc inst_prev_clock (Q 2 off0 off1 off2) (Q 2 off0 off1 off2);
       Acc ((fp + off0) mod P) op0_prev_clock (Q op0_val 0 0 0) (Q op0_val 0 0 0);
       Acc ((fp + off1) mod P) op1_prev_clock (Q op1_val 0 0 0) (Q op1_val 0 0 0);
       Acc ((fp + off2) mod P) dst_prev_clock (Q dst_prev_val 0 0 0) (Q ((op0_val * op1_val) mod P) 0 0 0)].
    + isa_go.
    + clocks_tac.
  - dst dst_val div. rewrite Hdiv, Zmod_mod in Hdst.
    assert (Hn : op1_val <> 0) by (intros Hz; apply Hx; repeat split; exact Hz).
    apply inv_col in Hinv; [|assumption..].
    rewrite Z.mul_mod in Hdst by discriminate.
    rewrite (inv_unique op1_val op1_inv) in Hdst by assumption.
    rewrite <- Z.mul_mod in Hdst by discriminate.
    give (StoreDivFpFp off0 off1 off2) (St ((pc + 1) mod P) fp)
      [Acc pc inst_prev_clock (Q 3 off0 off1 off2) (Q 3 off0 off1 off2);
       Acc ((fp + off0) mod P) op0_prev_clock (Q op0_val 0 0 0) (Q op0_val 0 0 0);
       Acc ((fp + off1) mod P) op1_prev_clock (Q op1_val 0 0 0) (Q op1_val 0 0 0);
       Acc ((fp + off2) mod P) dst_prev_clock (Q dst_prev_val 0 0 0) (Q ((op0_val * minv op1_val) mod P) 0 0 0)].
    + isa1. apply Z.eqb_neq in Hn. rewrite Hn. isa_go.
    + clocks_tac.
Qed.

Lemma store_fp_imm_sound row :
  length row = 18%nat -> Forall wf row -> nth 0 row 0 = 1 ->
  satisfied (evaluate C_store_fp_imm row) ->
  (nth 15 row 0) = 0 ->
  sound_row (evaluate C_store_fp_imm row) (row_regs row) (row_clock row).
Proof.
  intros Hlen Hw He Hs Hx.
  destruct row as
   [|enabler [|pc [|fp [|clock [|inst_prev_clock [|src_off [|imm [|dst_off [|src_prev_clock
   [|src_val [|imm_inv [|dst_prev_clock [|dst_prev_val [|dst_val [|opcode_flag_0 [|opcode_flag_1
   [|prod [|div [|zz zs]]]]]]]]]]]]]]]]]]]; try discriminate Hlen; clear Hlen.
  unfold row_regs, row_clock. cbn [nth] in *. subst enabler.
  change (evaluate C_store_fp_imm _) with (store_fp_imm 1 pc fp clock inst_prev_clock src_off imm dst_off src_prev_clock src_val imm_inv dst_prev_clock dst_prev_val dst_val opcode_flag_0 opcode_flag_1 prod div) in *.
  open_row store_fp_imm Hs. ones; bools.
  subst opcode_flag_1.
  match goal with H : (prod - _) mod P = 0 |- _ => col H; rename H into Hprod end.
  match goal with H : opcode_flag_0 = 0 \/ _ |- _ => destruct H as [->| ->] end.
  - dst dst_val (src_val + imm).
    give (StoreAddFpImm src_off imm dst_off) (St ((pc + 1) mod P) fp)
      [Acc pc inst_prev_clock (Q 4 src_off imm dst_off) (Q 4 src_off imm dst_off);
       Acc ((fp + src_off) mod P) src_prev_clock (Q src_val 0 0 0) (Q src_val 0 0 0);
       Acc ((fp + dst_off) mod P) dst_prev_clock (Q dst_prev_val 0 0 0) (Q ((src_val + imm) mod P) 0 0 0)].
    + isa_go.
    + clocks_tac.
  - dst dst_val prod. rewrite Hprod, Zmod_mod in Hdst.
    give (StoreMulFpImm src_off imm dst_off) (St ((pc + 1) mod P) fp)
      [Acc pc inst_prev_clock (Q 6 src_off imm dst_off) (Q 6 src_off imm dst_off);
       Acc ((fp + src_off) mod P) src_prev_clock (Q src_val 0 0 0) (Q src_val 0 0 0);
       Acc ((fp + dst_off) mod P) dst_prev_clock (Q dst_prev_val 0 0 0) (Q ((src_val * imm) mod P) 0 0 0)].
    + isa_go.
    + clocks_tac.
Qed.

(** *** Conditional jump *)
Lemma jnz_fp_imm_sound row :
  length row = 12%nat -> Forall wf row -> nth 0 row 0 = 1 ->
  satisfied (evaluate C_jnz_fp_imm row) ->
  sound_row (evaluate C_jnz_fp_imm row) (row_regs row) (row_clock row).
Proof.
  intros Hlen Hw He Hs.
  destruct row as
   [|enabler [|pc [|fp [|clock [|inst_prev_clock [|off0 [|imm [|op0_prev_clock [|op0_val
   [|op0_val_inv [|taken [|pc_new [|zz zs]]]]]]]]]]]]]; try discriminate Hlen; clear Hlen.
  unfold row_regs, row_clock. cbn [nth] in *. subst enabler.
  change (evaluate C_jnz_fp_imm _) with (jnz_fp_imm 1 pc fp clock inst_prev_clock off0 imm op0_prev_clock op0_val op0_val_inv taken pc_new) in *.
  open_row jnz_fp_imm Hs. ones; bools.
  match goal with H : (op0_val * _) mod P = 0 |- _ => rename H into Hnz end.
  match goal with H : (taken - _) mod P = 0 |- _ => col H; rename H into Htk end.
  assert (Hpc : pc_new = (pc + 1 + taken * (imm - 1)) mod P).
  { match goal with H : (pc_new - pc - _ - _) mod P = 0 |- _ => rename H into Hp end.
    apply col_eq; [assumption|]. rewrite <- Hp. f_equal. ring. }
  destruct (Z.eq_dec op0_val 0) as [->|Hn].
  - rewrite Z.mul_0_l, Z.mod_0_l in Htk by discriminate. subst taken.
    rewrite Z.mul_0_l, Z.add_0_r in Hpc.
    give (JnzFpImm off0 imm) (St ((pc + 1) mod P) fp)
      [Acc pc inst_prev_clock (Q 14 off0 imm 0) (Q 14 off0 imm 0);
       Acc ((fp + off0) mod P) op0_prev_clock (Q 0 0 0 0) (Q 0 0 0 0)].
    + isa_go.
    + clocks_tac.
  - assert (taken = 1) as ->.
    { apply mul_zero in Hnz. destruct Hnz as [Hnz|Hnz].
      - rewrite Z.mod_small in Hnz by assumption. contradiction.
      - apply col_eq in Hnz; [|assumption]. exact Hnz. }
    replace (pc + 1 + 1 * (imm - 1)) with (pc + imm) in Hpc by ring.
    give (JnzFpImm off0 imm) (St ((pc + imm) mod P) fp)
      [Acc pc inst_prev_clock (Q 14 off0 imm 0) (Q 14 off0 imm 0);
       Acc ((fp + off0) mod P) op0_prev_clock (Q op0_val 0 0 0) (Q op0_val 0 0 0)].
    + isa1. apply Z.eqb_neq in Hn. rewrite Hn. isa_go.
    + clocks_tac.
Qed.

(** *** Double dereference *)
Lemma dd_op x a b : wf x -> wf a -> wf b -> (b - a) mod P <> 0 ->
  ((x - a) * minv (b - a) * (1 - (x - a) * minv (b - a))) mod P = 0 ->
  (x = a /\ ((x - a) * minv (b - a)) mod P = 0) \/ (x = b /\ ((x - a) * minv (b - a)) mod P = 1).
Proof.
  intros Hx Ha Hb Hn H. pose proof (minv_spec _ Hn) as Hm.
  apply mul_zero in H. destruct H as [H|H].
  - left. split; [|exact H]. apply mul_zero in H. destruct H as [H|H].
    + apply col_eq in H; [|exact Hx]. rewrite wf_mod in H; assumption.
    + exfalso. rewrite Z.mul_mod, H, Z.mul_0_r in Hm by discriminate. discriminate Hm.
  - right. assert (H1 : ((x - a) * minv (b - a)) mod P = 1).
    { apply mod_sub_zero in H. rewrite <- H. reflexivity. }
    split; [|exact H1].
    assert (Hc : (x - a) mod P = (b - a) mod P).
    { apply (mul_cancel _ _ (minv (b - a))).
      - intros Hz. rewrite Z.mul_mod, Hz, Z.mul_0_r in Hm by discriminate. discriminate Hm.
      - rewrite H1, Hm. reflexivity. }
    rewrite <- mod_sub_zero in Hc. replace (x - a - (b - a)) with (x - b) in Hc by ring.
    apply col_eq in Hc; [|exact Hx]. rewrite wf_mod in Hc; assumption.
Qed.
Lemma sel0 w x y a : wf a -> w mod P = 0 -> (a - w * x - (1 - w) * y) mod P = 0 -> a = y mod P.
Proof.
  intros Ha Hw H. apply col_eq; [exact Ha|]. rewrite <- H.
  replace w with (0 + P * (w / P)) by (pose proof (Z.div_mod w P); rewrite Hw in *; unfold P in *; lia).
  replace (a - (0 + P * (w / P)) * x - (1 - (0 + P * (w / P))) * y)
    with (a - y + (w / P * (y - x)) * P) by ring.
  symmetry. apply Z_mod_plus_full.
Qed.
Lemma sel1 w x y a : wf a -> w mod P = 1 -> (a - w * x - (1 - w) * y) mod P = 0 -> a = x mod P.
Proof.
  intros Ha Hw H. apply (sel0 (1 - w) y x); [exact Ha| |].
  - rewrite Zminus_mod, Hw. reflexivity.
  - rewrite <- H. f_equal. ring.
Qed.

Lemma double_deref_fp_imm_sound row :
  length row = 17%nat -> Forall wf row -> nth 0 row 0 = 1 ->
  satisfied (evaluate C_double_deref_fp_imm row) ->
  sound_row (evaluate C_double_deref_fp_imm row) (row_regs row) (row_clock row).
Proof.
  intros Hlen Hw He Hs.
  destruct row as
   [|enabler [|pc [|fp [|clock [|inst_prev_clock [|opcode_constant [|off0 [|off1 [|off2 [|val0
   [|prev_clock0 [|addr1 [|val1 [|prev_clock1 [|addr2 [|prev_val2 [|prev_clock2 [|zz
   zs]]]]]]]]]]]]]]]]]]; try discriminate Hlen; clear Hlen.
  unfold row_regs, row_clock. cbn [nth] in *. subst enabler.
  change (evaluate C_double_deref_fp_imm _) with (double_deref_fp_imm 1 pc fp clock inst_prev_clock opcode_constant off0 off1 off2 val0 prev_clock0 addr1 val1 prev_clock1 addr2 prev_val2 prev_clock2) in *.
  open_row double_deref_fp_imm Hs. ones; bools.
  match goal with H : (_ * minv _ * _) mod P = 0 |- _ => apply dd_op in H; [rename H into Hop|assumption|..] end;
    [|apply wf_small; lia|apply wf_small; lia|discriminate].
  destruct Hop as [[-> Hw]|[-> Hw]].
  - match goal with H : (addr1 - _ - _) mod P = 0 |- _ => apply sel0 in H; [|assumption..]; subst addr1 end.
    match goal with H : (addr2 - _ - _) mod P = 0 |- _ => apply sel0 in H; [|assumption..]; subst addr2 end.
    clear Hw.
    give (StoreDoubleDerefFp off0 off1 off2) (St ((pc + 1) mod P) fp)
      [Acc pc inst_prev_clock (Q 8 off0 off1 off2) (Q 8 off0 off1 off2);
       Acc ((fp + off0) mod P) prev_clock0 (Q val0 0 0 0) (Q val0 0 0 0);
       Acc ((val0 + off1) mod P) prev_clock1 (Q val1 0 0 0) (Q val1 0 0 0);
       Acc ((fp + off2) mod P) prev_clock2 (Q prev_val2 0 0 0) (Q val1 0 0 0)].
    + isa1. isa_go.
    + clocks_tac.
  - match goal with H : (addr1 - _ - _) mod P = 0 |- _ => apply sel1 in H; [|assumption..]; subst addr1 end.
    match goal with H : (addr2 - _ - _) mod P = 0 |- _ => apply sel1 in H; [|assumption..]; subst addr2 end.
    clear Hw.
    give (StoreToDoubleDerefFpImm off0 off1 off2) (St ((pc + 1) mod P) fp)
      [Acc pc inst_prev_clock (Q 44 off0 off1 off2) (Q 44 off0 off1 off2);
       Acc ((fp + off0) mod P) prev_clock0 (Q val0 0 0 0) (Q val0 0 0 0);
       Acc ((fp + off2) mod P) prev_clock1 (Q val1 0 0 0) (Q val1 0 0 0);
       Acc ((val0 + off1) mod P) prev_clock2 (Q prev_val2 0 0 0) (Q val1 0 0 0)].
    + isa1. isa_go.
    + clocks_tac.
Qed.

Lemma double_deref_fp_fp_sound row :
  length row = 19%nat -> Forall wf row -> nth 0 row 0 = 1 ->
  satisfied (evaluate C_double_deref_fp_fp row) ->
  sound_row (evaluate C_double_deref_fp_fp row) (row_regs row) (row_clock row).
Proof.
  intros Hlen Hw He Hs.
  destruct row as
   [|enabler [|pc [|fp [|clock [|inst_prev_clock [|opcode_constant [|off0 [|off1 [|off2 [|val0
   [|prev_clock0 [|val1 [|prev_clock1 [|addr2 [|val2 [|prev_clock2 [|addr3 [|prev_val3
   [|prev_clock3 [|zz zs]]]]]]]]]]]]]]]]]]]]; try discriminate Hlen; clear Hlen.
  unfold row_regs, row_clock. cbn [nth] in *. subst enabler.
  change (evaluate C_double_deref_fp_fp _) with (double_deref_fp_fp 1 pc fp clock inst_prev_clock opcode_constant off0 off1 off2 val0 prev_clock0 val1 prev_clock1 addr2 val2 prev_clock2 addr3 prev_val3 prev_clock3) in *.
  open_row double_deref_fp_fp Hs. ones; bools.
  match goal with H : (_ * minv _ * _) mod P = 0 |- _ => apply dd_op in H; [rename H into Hop|assumption|..] end;
    [|apply wf_small; lia|apply wf_small; lia|discriminate].
  destruct Hop as [[-> Hw]|[-> Hw]].
  - match goal with H : (addr2 - _ - _) mod P = 0 |- _ => apply sel0 in H; [|assumption..]; subst addr2 end.
    match goal with H : (addr3 - _ - _) mod P = 0 |- _ => apply sel0 in H; [|assumption..]; subst addr3 end.
    clear Hw.
    give (StoreDoubleDerefFpFp off0 off1 off2) (St ((pc + 1) mod P) fp)
      [Acc pc inst_prev_clock (Q 42 off0 off1 off2) (Q 42 off0 off1 off2);
       Acc ((fp + off0) mod P) prev_clock0 (Q val0 0 0 0) (Q val0 0 0 0);
       Acc ((fp + off1) mod P) prev_clock1 (Q val1 0 0 0) (Q val1 0 0 0);
       Acc ((val0 + val1) mod P) prev_clock2 (Q val2 0 0 0) (Q val2 0 0 0);
       Acc ((fp + off2) mod P) prev_clock3 (Q prev_val3 0 0 0) (Q val2 0 0 0)].
    + isa1. isa_go.
    + clocks_tac.
  - match goal with H : (addr2 - _ - _) mod P = 0 |- _ => apply sel1 in H; [|assumption..]; subst addr2 end.
    match goal with H : (addr3 - _ - _) mod P = 0 |- _ => apply sel1 in H; [|assumption..]; subst addr3 end.
    clear Hw.
    give (StoreToDoubleDerefFpFp off0 off1 off2) (St ((pc + 1) mod P) fp)
      [Acc pc inst_prev_clock (Q 45 off0 off1 off2) (Q 45 off0 off1 off2);
       Acc ((fp + off0) mod P) prev_clock0 (Q val0 0 0 0) (Q val0 0 0 0);
       Acc ((fp + off1) mod P) prev_clock1 (Q val1 0 0 0) (Q val1 0 0 0);
       Acc ((fp + off2) mod P) prev_clock2 (Q val2 0 0 0) (Q val2 0 0 0);
       Acc ((val0 + val1) mod P) prev_clock3 (Q prev_val3 0 0 0) (Q val2 0 0 0)].
    + isa1. isa_go.
    + clocks_tac.
Qed.

(** *** Comparison by arcs *)
Lemma roots s l u v : (s + l - (u + v)) mod P = 0 -> (s * l - u * v) mod P = 0 ->
  (s mod P = u mod P /\ l mod P = v mod P) \/ (s mod P = v mod P /\ l mod P = u mod P).
Proof.
  intros Hs Hp.
  assert (H : ((s - u) * (s - v)) mod P = 0).
  { replace ((s - u) * (s - v)) with (s * (s + l - (u + v)) - (s * l - u * v)) by ring.
    rewrite Zminus_mod, Z.mul_mod, Hs, Hp by discriminate. rewrite Z.mul_0_r. reflexivity. }
  apply mul_zero in H. rewrite !mod_sub_zero in H.
  destruct H as [H|H]; [left|right]; split; try exact H; apply mod_sub_zero.
  - replace (l - v) with (s + l - (u + v) - (s - u)) by ring.
    rewrite Zminus_mod, Hs. rewrite <- mod_sub_zero in H. rewrite H. reflexivity.
  - replace (l - u) with (s + l - (u + v) - (s - v)) by ring.
    rewrite Zminus_mod, Hs. rewrite <- mod_sub_zero in H. rewrite H. reflexivity.
Qed.
Lemma arcs_le a b s l k01 k02 k12 :
  wf a -> wf b -> 0 <= s -> 0 <= l -> s + l < P - 1 ->
  (k01 = 0 \/ k01 = 1) -> (k02 = 0 \/ k02 = 1) -> (k12 = 0 \/ k12 = 1) ->
  (k01 + k02 + k12 - 1) mod P = 0 ->
  (k01 * (s + l - (a + b - a))) mod P = 0 -> (k01 * (s * l - a * (b - a))) mod P = 0 ->
  (k02 * (s + l - (a - 1 - b))) mod P = 0 -> (k02 * (s * l - a * (- (1) - b))) mod P = 0 ->
  (k12 * (s + l - (b - a - 1 - b))) mod P = 0 -> (k12 * (s * l - (b - a) * (- (1) - b))) mod P = 0 ->
  a <= b.
Proof.
  intros Ha Hb Hs Hl Hsl H1 H2 H3 Hk E1 F1 E2 F2 E3 F3.
  assert (k01 = 1 \/ k02 = 1 \/ k12 = 1) as [->|[->| ->]].
  { destruct H1 as [->| ->]; [|tauto]. destruct H2 as [->| ->]; [|tauto]. destruct H3 as [->| ->]; [|tauto].
    discriminate Hk. }
  - clear H1 H2 H3 Hk E2 F2 E3 F3. apply one_l in E1, F1.
    replace (s + l - (a + b - a)) with (s + l - (a + (b - a))) in E1 by ring.
    pose proof (roots _ _ _ _ E1 F1) as [[G1 G2]|[G1 G2]];
      clear F1; unfold wf, P in *; lia.
  - clear H1 H2 H3 Hk E1 F1 E3 F3. apply one_l in E2, F2.
    replace (s + l - (a - 1 - b)) with (s + l - (a + (- (1) - b))) in E2 by ring.
    pose proof (roots _ _ _ _ E2 F2) as [[G1 G2]|[G1 G2]];
      clear F2; unfold wf, P in *; lia.
  - clear H1 H2 H3 Hk E1 F1 E2 F2. apply one_l in E3, F3.
    replace (s + l - (b - a - 1 - b)) with (s + l - (b - a + (- (1) - b))) in E3 by ring.
    pose proof (roots _ _ _ _ E3 F3) as [[G1 G2]|[G1 G2]];
      clear F3; unfold wf, P in *; lia.
Qed.

Lemma store_le_fp_imm_sound row :
  length row = 22%nat -> Forall wf row -> nth 0 row 0 = 1 ->
  satisfied (evaluate C_store_le_fp_imm row) ->
  ~ ((nth 21 row 0) = 0 /\ (nth 8 row 0) = (nth 6 row 0)) ->
  sound_row (evaluate C_store_le_fp_imm row) (row_regs row) (row_clock row).
Proof.
  intros Hlen Hw He Hs Hx.
  destruct row as
   [|enabler [|pc [|fp [|clock [|inst_prev_clock [|src_off [|imm [|dst_off [|src_val
   [|src_prev_clock [|dst_prev_val [|dst_prev_clock [|a [|b [|keep_0_1 [|keep_0_2 [|keep_1_2
   [|arc_short_lo [|arc_short_hi [|arc_long_lo [|arc_long_hi [|is_le [|zz
   zs]]]]]]]]]]]]]]]]]]]]]]]; try discriminate Hlen; clear Hlen.
  unfold row_regs, row_clock. cbn [nth] in *. subst enabler.
  change (evaluate C_store_le_fp_imm _) with (store_le_fp_imm 1 pc fp clock inst_prev_clock src_off imm dst_off src_val src_prev_clock dst_prev_val dst_prev_clock a b keep_0_1 keep_0_2 keep_1_2 arc_short_lo arc_short_hi arc_long_lo arc_long_hi is_le) in *.
  open_row store_le_fp_imm Hs. ones; bools.
  assert (Hab : a <= b).
  { smallmod.
    assert (Hsh : 0 <= arc_short_lo + arc_short_hi * 10923 <= 715904340)
      by (match goal with H1 : 0 <= arc_short_lo < 65536, H2 : 0 <= arc_short_hi < 65536 |- _ => clear - H1 H2; lia end).
    assert (Hlo : 0 <= arc_long_lo + arc_long_hi * 16384 <= 1073790975)
      by (match goal with H1 : 0 <= arc_long_lo < 65536, H2 : 0 <= arc_long_hi < 65536 |- _ => clear - H1 H2; lia end).
    eapply (arcs_le a b (arc_short_lo + arc_short_hi * 10923) (arc_long_lo + arc_long_hi * 16384)
              keep_0_1 keep_0_2 keep_1_2); try eassumption; clear - Hsh Hlo; unfold P; lia. }
  match goal with H : (a - _ - _) mod P = 0 |- _ => rename H into Ha end.
  match goal with H : (b - _ - _) mod P = 0 |- _ => rename H into Hb end.
  assert (Hle : is_le = if src_val <=? imm then 1 else 0).
  { match goal with H : is_le = 0 \/ is_le = 1 |- _ => destruct H as [->| ->] end.
    - apply sel0 in Ha, Hb; try assumption; try reflexivity. subst a b. smallmod.
      destruct (Z.leb_spec src_val imm) as [Hle|Hle]; [|reflexivity].
      exfalso. apply Hx. split; [reflexivity|clear - Hab Hle; lia].
    - apply sel1 in Ha, Hb; try assumption; try reflexivity. subst a b. smallmod.
      apply Z.leb_le in Hab. rewrite Hab. reflexivity. }
  give (StoreLeFpImm src_off imm dst_off) (St ((pc + 1) mod P) fp)
    [Acc pc inst_prev_clock (Q 48 src_off imm dst_off) (Q 48 src_off imm dst_off);
     Acc ((fp + src_off) mod P) src_prev_clock (Q src_val 0 0 0) (Q src_val 0 0 0);
     Acc ((fp + dst_off) mod P) dst_prev_clock (Q dst_prev_val 0 0 0) (Q (if src_val <=? imm then 1 else 0) 0 0 0)].
  - isa_go.
  - clocks_tac.
Qed.
