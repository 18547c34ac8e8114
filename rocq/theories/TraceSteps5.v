(** Completeness of the rows of the u32 equality test. *)
From Coq Require Import ZArith Bool List Lia Permutation Setoid Morphisms.
From Verif Require Import M31 M31Facts Instr InstrFacts Isa Machine Air AirOpcodes AirSpec AirFacts Adapter Trace TraceSpec TraceFacts TraceSteps2 TraceSteps3.
Import ListNotations.
Open Scope Z_scope.

(** One factor of the flag: 1 when the limbs agree, 0 when they differ. *)
Lemma limb_flag x y : 0 <= x < B16 -> 0 <= y < B16 -> (1 - (y - x) * inv0 (y - x)) mod P = if x =? y then 1 else 0.
Proof.
  intros Hx Hy. unfold B16 in *. destruct (Z.eqb_spec x y) as [->|N].
  - rewrite Z.sub_diag. reflexivity.
  - assert (H : (y - x) mod P <> 0).
    { intros H. apply Z.mod_divide in H; [|discriminate]. destruct H as [k H]. unfold P in H. assert (k = 0) by lia. lia. }
    pose proof (inv0_one _ H) as E. unfold eqm in E. rewrite Zminus_mod, E. reflexivity.
Qed.
Lemma eq_flag x0 x1 y0 y1 : 0 <= x0 < B16 -> 0 <= x1 < B16 -> 0 <= y0 < B16 -> 0 <= y1 < B16 ->
  fld ((1 - (y0 - x0) * inv0 (y0 - x0)) * (1 - (y1 - x1) * inv0 (y1 - x1))) mod P = if x0 + B16 * x1 =? y0 + B16 * y1 then 1 else 0.
Proof.
  intros A B C D. unfold fld. rewrite Z.mod_mod by discriminate. rewrite Zmult_mod, (limb_flag x0 y0), (limb_flag x1 y1) by assumption.
  unfold B16 in *. destruct (Z.eqb_spec x0 y0), (Z.eqb_spec x1 y1), (Z.eqb_spec (x0 + 65536 * x1) (y0 + 65536 * y1)); try reflexivity; lia.
Qed.
Lemma U32StoreEqFpFp_complete a b : complete (U32StoreEqFpFp a b 0).
Proof.
  start0 tr_u32_store_eq_fp_fp. limbs. start1 u32_store_eq_fp_fp. all: try finish1.
  - apply inv0_left.
  - apply inv0_left.
  - apply eq_flag; assumption.
Qed.
