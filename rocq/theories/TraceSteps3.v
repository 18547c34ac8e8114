(** Completeness of the rows of the u32 instructions: products, quotients, bitwise
    operations, equality. *)
From Coq Require Import ZArith Bool List Lia Permutation Setoid Morphisms.
From Verif Require Import M31 M31Facts Instr InstrFacts Isa LimbFacts Machine Air AirOpcodes AirSpec AirFacts Adapter Trace TraceSpec TraceFacts TraceSteps2.
Import ListNotations.
Open Scope Z_scope.

Lemma bytes_of v : 0 <= v < 65536 -> exists x0 x1, 0 <= x0 < 256 /\ 0 <= x1 < 256 /\
  lo8 v = x0 /\ shr8 v = x1 /\ hi8 v = x1 /\ v = x0 + x1 * 256.
Proof.
  intros H. exists (v mod 256), (v / 256). unfold lo8, shr8, hi8. rewrite fld_wf by (unfold wf, P; lia).
  rewrite (Z.mod_small (v / 256) 256) by lia. repeat split; try reflexivity; lia.
Qed.
Lemma shift_of x : 0 <= x < P -> exists r c, shr8 x = c /\ 0 <= r < 256 /\ x - c * 256 = r /\ 0 <= c.
Proof.
  intros H. exists (x mod 256), (x / 256). unfold shr8. rewrite fld_wf by exact H.
  repeat split; try reflexivity; lia.
Qed.
Lemma prod_le a b : 0 <= a < 256 -> 0 <= b < 256 -> 0 <= a * b <= 65025.
Proof. nia. Qed.
Lemma wf_byte x : 0 <= x < 256 -> wf x.
Proof. unfold wf, P. lia. Qed.
Lemma wf_carry x : 0 <= x <= 1020 -> wf x.
Proof. unfold wf, P. lia. Qed.
Ltac bytes v x0 x1 :=
  let H0 := fresh "R" in let H1 := fresh "R" in let E0 := fresh in let E1 := fresh in let E2 := fresh in let E := fresh in
  destruct (bytes_of v) as (x0 & x1 & H0 & H1 & E0 & E1 & E2 & E); [assumption|];
  rewrite ?E0, ?E1, ?E2; clear E0 E1 E2; pose proof (wf_byte x0 H0); pose proof (wf_byte x1 H1).
Ltac prods := repeat match goal with
  | Ha : 0 <= ?a < 256, Hb : 0 <= ?b < 256 |- context[?a * ?b] =>
    lazymatch goal with _ : 0 <= a * b <= _ |- _ => fail | _ => pose proof (prod_le a b Ha Hb) end end.
(** One step of a chain of column sums: digit and carry. *)
Record digit (s r c m : Z) : Prop := Digit {
  dg_shr : shr8 s = c; dg_res : s - c * 256 = r; dg_r : 0 <= r < 256; dg_c : 0 <= c <= m }.
Lemma digit_of s m : 0 <= s <= m * 256 + 255 -> m <= 1020 -> exists r c, digit s r c m.
Proof.
  intros H Hm. exists (s mod 256), (s / 256). split; [|lia|lia|lia].
  unfold shr8. rewrite fld_lt by (unfold P; lia). reflexivity.
Qed.
Lemma chain4 s0 s1 s2 s3 : 0 <= s0 <= 65025 -> 0 <= s1 <= 130050 -> 0 <= s2 <= 195075 -> 0 <= s3 <= 260100 ->
  exists r0 c0 r1 c1 r2 c2 r3 c3, digit s0 r0 c0 254 /\ digit (s1 + c0) r1 c1 509 /\
    digit (s2 + c1) r2 c2 764 /\ digit (s3 + c2) r3 c3 1019 /\
    s0 + 256 * s1 + 65536 * s2 + 16777216 * s3 = r0 + r1 * 256 + 65536 * (r2 + r3 * 256) + c3 * 4294967296.
Proof.
  intros H0 H1 H2 H3.
  destruct (digit_of s0 254) as (r0 & c0 & D0); [lia..|]. pose proof D0 as [_ Q0 R0 C0].
  destruct (digit_of (s1 + c0) 509) as (r1 & c1 & D1); [lia..|]. pose proof D1 as [_ Q1 R1 C1].
  destruct (digit_of (s2 + c1) 764) as (r2 & c2 & D2); [lia..|]. pose proof D2 as [_ Q2 R2 C2].
  destruct (digit_of (s3 + c2) 1019) as (r3 & c3 & D3); [lia..|]. pose proof D3 as [_ Q3 R3 C3].
  exists r0, c0, r1, c1, r2, c2, r3, c3. repeat (split; [assumption|]). lia.
Qed.
Ltac take_digit D :=
  let E := fresh in let Q := fresh "Q" in let R := fresh "R" in let C := fresh "C" in
  destruct D as [E Q R C]; rewrite ?E, ?Q; clear E;
  match type of R with 0 <= ?r < _ => pose proof (wf_byte r R) end;
  match type of C with 0 <= ?c <= _ => assert (wf c) by (apply wf_carry; clear - C; lia) end; smallfld.
Ltac finish1 :=
  match goal with
  | H : wf ?x |- 0 <= ?x mod P < _ => rewrite (wf_mod x H); assumption
  | Q : ?e = ?r |- (1 * (?r - (?e))) mod P = 0 => rewrite Q, Z.sub_diag; reflexivity
  | C : 0 <= ?c <= ?m |- 0 <= (?m - ?c) mod P < _ => clear - C; rewrite Z.mod_small; unfold P; lia
  | R0 : 0 <= ?a < 256, R1 : 0 <= ?b < 256 |- (?a + ?b * 256) mod P = _ =>
    clear - R0 R1; apply Z.mod_small; unfold P; lia
  end.
Lemma U32StoreMulFpFp_complete a b d : complete (U32StoreMulFpFp a b d).
Proof.
  start0 tr_u32_store_mul_fp_fp. limbs.
  bytes v x0 x1. bytes v0 x2 x3. bytes v1 y0 y1. bytes v2 y2 y3. subst v v0 v1 v2.
  destruct (chain4 (x0 * y0) (x0 * y1 + x1 * y0) (x0 * y2 + x1 * y1 + x2 * y0) (x0 * y3 + x1 * y2 + x2 * y1 + x3 * y0))
    as (r0 & c0 & r1 & c1 & r2 & c2 & r3 & c3 & D0 & D1 & D2 & D3 & HT); [clear - R R0 R1 R2 R3 R4 R5 R6; prods; lia..|].
  take_digit D0. take_digit D1. take_digit D2. take_digit D3.
  destruct (limbs_of ((x0 + x1 * 256 + B16 * (x2 + x3 * 256)) * (y0 + y1 * 256 + B16 * (y2 + y3 * 256))) (r0 + r1 * 256) (r2 + r3 * 256)
    (c3 + x1 * y3 + x2 * y2 + x3 * y1 + 256 * (x2 * y3 + x3 * y2) + 65536 * (x3 * y3))) as [-> ->].
  { unfold B16, B32. transitivity (x0 * y0 + 256 * (x0 * y1 + x1 * y0) + 65536 * (x0 * y2 + x1 * y1 + x2 * y0)
      + 16777216 * (x0 * y3 + x1 * y2 + x2 * y1 + x3 * y0) + 4294967296 * (x1 * y3 + x2 * y2 + x3 * y1 + 256 * (x2 * y3 + x3 * y2) + 65536 * (x3 * y3))); [ring|].
    rewrite HT. ring. }
  { clear - R7 R8. lia. } { clear - R9 R10. lia. }
  start1 u32_store_mul_fp_fp; finish1.
Qed.
Lemma U32StoreMulFpImm_complete a lo hi d : complete (U32StoreMulFpImm a lo hi d).
Proof.
  start0 tr_u32_store_mul_fp_imm. limbs.
  bytes v x0 x1. bytes v0 x2 x3. bytes lo y0 y1. bytes hi y2 y3. subst v v0 lo hi.
  destruct (chain4 (x0 * y0) (x0 * y1 + x1 * y0) (x0 * y2 + x1 * y1 + x2 * y0) (x0 * y3 + x1 * y2 + x2 * y1 + x3 * y0))
    as (r0 & c0 & r1 & c1 & r2 & c2 & r3 & c3 & D0 & D1 & D2 & D3 & HT); [clear - R R0 R1 R2 R3 R4 R5 R6; prods; lia..|].
  take_digit D0. take_digit D1. take_digit D2. take_digit D3.
  destruct (limbs_of ((x0 + x1 * 256 + B16 * (x2 + x3 * 256)) * (y0 + y1 * 256 + B16 * (y2 + y3 * 256))) (r0 + r1 * 256) (r2 + r3 * 256)
    (c3 + x1 * y3 + x2 * y2 + x3 * y1 + 256 * (x2 * y3 + x3 * y2) + 65536 * (x3 * y3))) as [-> ->].
  { unfold B16, B32. transitivity (x0 * y0 + 256 * (x0 * y1 + x1 * y0) + 65536 * (x0 * y2 + x1 * y1 + x2 * y0)
      + 16777216 * (x0 * y3 + x1 * y2 + x2 * y1 + x3 * y0) + 4294967296 * (x1 * y3 + x2 * y2 + x3 * y1 + 256 * (x2 * y3 + x3 * y2) + 65536 * (x3 * y3))); [ring|].
    rewrite HT. ring. }
  { clear - R7 R8. lia. } { clear - R9 R10. lia. }
  start1 u32_store_mul_fp_imm; finish1.
Qed.


(** Bitwise operations, byte by byte. *)
Lemma lo8_of x y : 0 <= x < 256 -> 0 <= y < 256 -> lo8 (x + y * 256) = x /\ hi8 (x + y * 256) = y.
Proof. intros Hx Hy. unfold lo8, hi8. rewrite fld_lt by (unfold P; lia). lia. Qed.
Ltac in_bitwise k :=
  match goal with |- _ /\ _ /\ _ =>
    repeat match goal with H : wf ?x |- context[?x mod P] => rewrite (wf_mod x H) end; (split; [assumption|]); (split; [assumption|]);
    match k with
    | 0%nat => left; split; reflexivity
    | 1%nat => right; left; split; reflexivity
    | 2%nat => right; right; split; reflexivity
    end end.
Ltac bitwise lem k comp :=
  match goal with
  | |- context[_ (?x0 + ?x1 * 256 + B16 * (?x2 + ?x3 * 256)) (?y0 + ?y1 * 256 + B16 * (?y2 + ?y3 * 256)) mod B16] =>
    let Hop := fresh in let Z0 := fresh "Z" in let Z1 := fresh "Z" in let Z2 := fresh "Z" in let Z3 := fresh "Z" in
    destruct (lem x0 x1 x2 x3 y0 y1 y2 y3) as (Hop & Z0 & Z1 & Z2 & Z3); [assumption..|];
    unfold le4 in Hop; rewrite !Hop; clear Hop;
    match type of Z0 with 0 <= ?z0 < _ => match type of Z1 with 0 <= ?z1 < _ => match type of Z2 with 0 <= ?z2 < _ =>
    match type of Z3 with 0 <= ?z3 < _ =>
      let Hlo := fresh in let Hhi := fresh in
      destruct (le4_split z0 z1 z2 z3) as (Hlo & Hhi & _); [assumption..|];
      unfold le4 in Hlo, Hhi; rewrite !Hlo, !Hhi; clear Hlo Hhi;
      let E1 := fresh in let E2 := fresh in let E3 := fresh in let E4 := fresh in
      destruct (lo8_of z0 z1 Z0 Z1) as [E1 E2]; destruct (lo8_of z2 z3 Z2 Z3) as [E3 E4];
      rewrite !E1, !E2, !E3, !E4; clear E1 E2 E3 E4;
      pose proof (wf_byte z0 Z0); pose proof (wf_byte z1 Z1); pose proof (wf_byte z2 Z2); pose proof (wf_byte z3 Z3)
    end end end end
  end; smallfld; start1 comp; first [in_bitwise k|finish1].

Lemma U32StoreAndFpFp_complete a b d : complete (U32StoreAndFpFp a b d).
Proof.
  start0 tr_u32_store_bitwise_fp_fp. limbs.
  bytes v x0 x1. bytes v0 x2 x3. bytes v1 y0 y1. bytes v2 y2 y3. subst v v0 v1 v2.
  bitwise and_le4 0%nat u32_store_bitwise_fp_fp.
Qed.
Lemma U32StoreAndFpImm_complete a lo hi d : complete (U32StoreAndFpImm a lo hi d).
Proof.
  start0 tr_u32_store_bitwise_fp_imm. limbs.
  bytes v x0 x1. bytes v0 x2 x3. bytes lo y0 y1. bytes hi y2 y3. subst v v0 lo hi.
  bitwise and_le4 0%nat u32_store_bitwise_fp_imm.
Qed.
Lemma U32StoreOrFpFp_complete a b d : complete (U32StoreOrFpFp a b d).
Proof.
  start0 tr_u32_store_bitwise_fp_fp. limbs.
  bytes v x0 x1. bytes v0 x2 x3. bytes v1 y0 y1. bytes v2 y2 y3. subst v v0 v1 v2.
  bitwise or_le4 1%nat u32_store_bitwise_fp_fp.
Qed.
Lemma U32StoreOrFpImm_complete a lo hi d : complete (U32StoreOrFpImm a lo hi d).
Proof.
  start0 tr_u32_store_bitwise_fp_imm. limbs.
  bytes v x0 x1. bytes v0 x2 x3. bytes lo y0 y1. bytes hi y2 y3. subst v v0 lo hi.
  bitwise or_le4 1%nat u32_store_bitwise_fp_imm.
Qed.
Lemma U32StoreXorFpFp_complete a b d : complete (U32StoreXorFpFp a b d).
Proof.
  start0 tr_u32_store_bitwise_fp_fp. limbs.
  bytes v x0 x1. bytes v0 x2 x3. bytes v1 y0 y1. bytes v2 y2 y3. subst v v0 v1 v2.
  bitwise xor_le4 2%nat u32_store_bitwise_fp_fp.
Qed.
Lemma U32StoreXorFpImm_complete a lo hi d : complete (U32StoreXorFpImm a lo hi d).
Proof.
  start0 tr_u32_store_bitwise_fp_imm. limbs.
  bytes v x0 x1. bytes v0 x2 x3. bytes lo y0 y1. bytes hi y2 y3. subst v v0 lo hi.
  bitwise xor_le4 2%nat u32_store_bitwise_fp_imm.
Qed.
