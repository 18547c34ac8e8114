(** Completeness of the rows of the u32 instructions: immediates, sums, differences,
    comparisons. *)
From Coq Require Import ZArith Bool List Lia Permutation Setoid Morphisms.
From Verif Require Import M31 M31Facts Instr InstrFacts Isa Machine Air AirOpcodes AirSpec AirFacts Adapter Trace TraceSpec TraceFacts.
Import ListNotations.
Open Scope Z_scope.

Ltac limbs := repeat match goal with
  | H : ?x < B16, W : wf ?x |- _ =>
    let L := fresh "L" in assert (L : 0 <= x < 65536) by (clear - H W; unfold wf, B16 in *; lia); clear H
  end.
(** [lia] with the range facts only. *)
Ltac rlia :=
  repeat match goal with
  | H : 0 <= _ < _ |- _ => revert H
  | H : 0 <= _ <= _ |- _ => revert H
  | H : @eq Z _ _ |- _ => revert H
  | H : _ < _ |- _ => revert H
  | H : _ <= _ |- _ => revert H
  end; clear; unfold B16, B32, P; intros; lia.
Ltac small :=
  match goal with
  | |- 0 <= ?x mod P < _ => rewrite (Z.mod_small x P) by (rlia); rlia
  | |- ?x mod P = ?y mod P => f_equal; rlia
  | |- ?x mod P = ?y => rewrite (Z.mod_small x P) by (rlia); rlia
  end.
(** A u32 and its limbs. *)
Lemma limbs_of x lo hi k : x = lo + B16 * hi + k * B32 -> 0 <= lo < 65536 -> 0 <= hi < 65536 ->
  (x mod B32) mod B16 = lo /\ x mod B32 / B16 = hi.
Proof.
  intros -> H1 H2. rewrite Z_mod_plus_full. unfold B16, B32.
  rewrite (Z.mod_small (lo + 65536 * hi)) by lia. split.
  - rewrite Z.add_comm, Z.mul_comm, Z.add_comm, Z_mod_plus_full. apply Z.mod_small. lia.
  - rewrite (Z.mul_comm 65536), Z.div_add by discriminate. rewrite (Z.div_small lo) by lia. reflexivity.
Qed.
Lemma limbs_lit lo hi : 0 <= lo < 65536 -> 0 <= hi < 65536 -> (lo + B16 * hi) mod B16 = lo /\ (lo + B16 * hi) / B16 = hi.
Proof. unfold B16. lia. Qed.
Lemma carry16_spec x : 0 <= x < P -> carry16 x = 0 /\ x < 65536 \/ carry16 x = 1 /\ 65536 <= x.
Proof.
  intros H. unfold carry16. rewrite fld_wf by exact H. destruct (Z.ltb_spec 65535 x); [right|left]; split; try reflexivity; lia.
Qed.
Lemma lt01_spec x y : lt01 x y = 1 /\ x < y \/ lt01 x y = 0 /\ y <= x.
Proof. unfold lt01. destruct (Z.ltb_spec x y); [left|right]; split; try reflexivity; lia. Qed.
Ltac put x lo hi k :=
  let E1 := fresh in let E2 := fresh in
  destruct (limbs_of x lo hi k) as [E1 E2]; [unfold B16, B32; ring|rlia|rlia|]; rewrite !E1, !E2; clear E1 E2.

Lemma U32StoreImm_complete a b d : complete (U32StoreImm a b d).
Proof.
  start0 tr_u32_store_imm. limbs. destruct (limbs_lit a b) as [-> ->]; [assumption..|]. start1 u32_store_imm; small.
Qed.
Ltac carry x := let H := fresh in let L := fresh in destruct (carry16_spec x) as [[H L]|[H L]]; [rlia|rewrite !H; clear H|rewrite !H; clear H].
Lemma U32StoreAddFpFp_complete a b d : complete (U32StoreAddFpFp a b d).
Proof.
  start0 tr_u32_store_add_fp_fp. limbs. carry (v + v1).
  - carry (v0 + v2 + 0); smallfld.
    + put (v + B16 * v0 + (v1 + B16 * v2)) (v + v1) (v0 + v2) 0. start1 u32_store_add_fp_fp; small.
    + put (v + B16 * v0 + (v1 + B16 * v2)) (v + v1) (v0 + v2 - 65536) 1. start1 u32_store_add_fp_fp; small.
  - carry (v0 + v2 + 1); smallfld.
    + put (v + B16 * v0 + (v1 + B16 * v2)) (v + v1 - 65536) (v0 + v2 + 1) 0. start1 u32_store_add_fp_fp; small.
    + put (v + B16 * v0 + (v1 + B16 * v2)) (v + v1 - 65536) (v0 + v2 + 1 - 65536) 1. start1 u32_store_add_fp_fp; small.
Qed.
Lemma U32StoreAddFpImm_complete a lo hi d : complete (U32StoreAddFpImm a lo hi d).
Proof.
  start0 tr_u32_store_add_fp_imm. limbs. carry (v + lo).
  - carry (v0 + hi + 0); smallfld.
    + put (v + B16 * v0 + (lo + B16 * hi)) (v + lo) (v0 + hi) 0. start1 u32_store_add_fp_imm; small.
    + put (v + B16 * v0 + (lo + B16 * hi)) (v + lo) (v0 + hi - 65536) 1. start1 u32_store_add_fp_imm; small.
  - carry (v0 + hi + 1); smallfld.
    + put (v + B16 * v0 + (lo + B16 * hi)) (v + lo - 65536) (v0 + hi + 1) 0. start1 u32_store_add_fp_imm; small.
    + put (v + B16 * v0 + (lo + B16 * hi)) (v + lo - 65536) (v0 + hi + 1 - 65536) 1. start1 u32_store_add_fp_imm; small.
Qed.
Lemma fld_lt x : 0 <= x < P -> fld x = x.
Proof. apply fld_wf. Qed.
Ltac borrow x y := let H := fresh in let L := fresh in destruct (lt01_spec x y) as [[H L]|[H L]]; rewrite !H; clear H.
Lemma U32StoreSubFpFp_complete a b d : complete (U32StoreSubFpFp a b d).
Proof.
  start0 tr_u32_store_sub_fp_fp. limbs. borrow v v1.
  - rewrite (fld_lt (v2 + 1)) by rlia. borrow v0 (v2 + 1); smallfld.
    + put (v + B16 * v0 - (v1 + B16 * v2)) (v + 65536 - v1) (v0 - 1 + 65536 - v2) (-1). start1 u32_store_sub_fp_fp; small.
    + put (v + B16 * v0 - (v1 + B16 * v2)) (v + 65536 - v1) (v0 - 1 - v2) 0. start1 u32_store_sub_fp_fp; small.
  - rewrite (fld_lt (v2 + 0)) by rlia. borrow v0 (v2 + 0); smallfld.
    + put (v + B16 * v0 - (v1 + B16 * v2)) (v - v1) (v0 + 65536 - v2) (-1). start1 u32_store_sub_fp_fp; small.
    + put (v + B16 * v0 - (v1 + B16 * v2)) (v - v1) (v0 - v2) 0. start1 u32_store_sub_fp_fp; small.
Qed.
Ltac less := match goal with |- context[?x <? ?y] =>
  destruct (Z.ltb_spec x y) as [Hlt|Hlt]; [|]; try (exfalso; rlia) end.
Lemma U32StoreLtFpFp_complete a b d : complete (U32StoreLtFpFp a b d).
Proof.
  start0 tr_u32_store_lt_fp_fp. limbs. borrow v1 (v + 1); smallfld.
  - borrow v2 (v0 + 1); smallfld; less; start1 u32_store_lt_fp_fp; small.
  - borrow v2 (v0 + 0); smallfld; less; start1 u32_store_lt_fp_fp; small.
Qed.
Lemma U32StoreLtFpImm_complete a lo hi d : complete (U32StoreLtFpImm a lo hi d).
Proof.
  start0 tr_u32_store_lt_fp_imm. limbs. borrow lo (v + 1); smallfld.
  - borrow hi (v0 + 1); smallfld; less; start1 u32_store_lt_fp_imm; small.
  - borrow hi (v0 + 0); smallfld; less; start1 u32_store_lt_fp_imm; small.
Qed.
