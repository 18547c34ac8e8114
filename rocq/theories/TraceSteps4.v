(** Completeness of the rows of the u32 instructions: quotients and
    remainders. *)
From Coq Require Import ZArith Bool List Lia Permutation Setoid Morphisms.
From Verif Require Import M31 M31Facts Instr InstrFacts Isa Machine Air AirOpcodes AirSpec AirFacts Adapter Trace TraceSpec TraceFacts TraceSteps2 TraceSteps3.
Import ListNotations.
Open Scope Z_scope.

(** Division: the product of quotient and divisor, plus the remainder, is the dividend. *)
Lemma lor_shift n a b : 0 <= n -> 0 <= a < 2 ^ n -> Z.lor a (b * 2 ^ n) = a + b * 2 ^ n.
Proof.
  intros Hn H. assert (E : Z.land a (b * 2 ^ n) = 0).
  { apply Z.bits_inj'. intros k Hk. rewrite Z.land_spec, Z.bits_0, Z.mul_pow2_bits by exact Hn.
    destruct (Z.lt_ge_cases k n).
    - rewrite (Z.testbit_neg_r b) by lia. apply andb_false_r.
    - rewrite <- (Z.mod_small a (2 ^ n)) by exact H. rewrite Z.mod_pow2_bits_high by lia. reflexivity. }
  rewrite Z.add_nocarry_lxor by exact E. symmetry. apply Z.lxor_lor, E.
Qed.
Lemma u32_of_spec lo hi : 0 <= lo < 65536 -> 0 <= hi < 65536 -> u32_of lo hi = lo + 65536 * hi.
Proof.
  intros H1 H2. unfold u32_of. rewrite !fld_lt by (unfold P; lia). rewrite (Z.mod_small (hi * 65536)) by lia.
  change 65536 with (2 ^ 16). rewrite lor_shift by lia. ring.
Qed.
Lemma u16_of_spec lo hi : 0 <= lo < 256 -> 0 <= hi < 256 -> u16_of lo hi = lo + hi * 256.
Proof.
  intros H1 H2. unfold u16_of. rewrite !fld_lt by (unfold P; lia). rewrite (Z.mod_small (hi * 256)) by lia.
  change 256 with (2 ^ 8). rewrite lor_shift by lia. ring.
Qed.
Lemma chain7 s0 s1 s2 s3 s4 s5 s6 : 0 <= s0 <= 65025 -> 0 <= s1 <= 130050 -> 0 <= s2 <= 195075 -> 0 <= s3 <= 260100 ->
  0 <= s4 <= 195075 -> 0 <= s5 <= 130050 -> 0 <= s6 <= 65025 ->
  exists r0 c0 r1 c1 r2 c2 r3 c3 r4 c4 r5 c5 r6 c6, digit s0 r0 c0 254 /\ digit (s1 + c0) r1 c1 509 /\
    digit (s2 + c1) r2 c2 764 /\ digit (s3 + c2) r3 c3 1019 /\ digit (s4 + c3) r4 c4 765 /\
    digit (s5 + c4) r5 c5 510 /\ digit (s6 + c5) r6 c6 255 /\
    s0 + 256 * s1 + 65536 * s2 + 16777216 * s3 + 4294967296 * s4 + 1099511627776 * s5 + 281474976710656 * s6 =
    r0 + r1 * 256 + 65536 * (r2 + r3 * 256) + 4294967296 * (r4 + r5 * 256) + 281474976710656 * (r6 + c6 * 256).
Proof.
  intros H0 H1 H2 H3 H4 H5 H6.
  destruct (digit_of s0 254) as (r0 & c0 & D0); [lia..|]. pose proof D0 as [_ Q0 R0 C0].
  destruct (digit_of (s1 + c0) 509) as (r1 & c1 & D1); [lia..|]. pose proof D1 as [_ Q1 R1 C1].
  destruct (digit_of (s2 + c1) 764) as (r2 & c2 & D2); [lia..|]. pose proof D2 as [_ Q2 R2 C2].
  destruct (digit_of (s3 + c2) 1019) as (r3 & c3 & D3); [lia..|]. pose proof D3 as [_ Q3 R3 C3].
  destruct (digit_of (s4 + c3) 765) as (r4 & c4 & D4); [lia..|]. pose proof D4 as [_ Q4 R4 C4].
  destruct (digit_of (s5 + c4) 510) as (r5 & c5 & D5); [lia..|]. pose proof D5 as [_ Q5 R5 C5].
  destruct (digit_of (s6 + c5) 255) as (r6 & c6 & D6); [lia..|]. pose proof D6 as [_ Q6 R6 C6].
  exists r0, c0, r1, c1, r2, c2, r3, c3, r4, c4, r5, c5, r6, c6. repeat (split; [assumption|]). lia.
Qed.
Lemma bytes_eq v x y : 0 <= v < 65536 -> x = lo8 v -> y = hi8 v -> (0 <= x < 256 /\ 0 <= y < 256) /\ v = x + y * 256.
Proof.
  intros H -> ->. destruct (bytes_of v H) as (x0 & x1 & H0 & H1 & -> & _ & -> & E). repeat split; assumption || lia.
Qed.
Lemma digit_eq s c r m : c = shr8 s -> r = s - c * 256 -> 0 <= s <= m * 256 + 255 -> m <= 1020 -> 0 <= r < 256 /\ 0 <= c <= m.
Proof. intros -> -> H Hm. unfold shr8. rewrite fld_lt by (unfold P; lia). lia. Qed.
Lemma carry_eq x c : c = carry16 x -> 0 <= x < 200000 -> c = 0 /\ x < 65536 \/ c = 1 /\ 65536 <= x.
Proof. intros -> H. apply carry16_spec. unfold P. lia. Qed.
Lemma div_facts n_lo n_hi op1_val_lo op1_val_hi d_0 d_1 d_2 d_3 n_u32 d_u32 q_u32 r_u32 q_lo q_hi r_lo r_hi q_0 q_1 q_2 q_3 prod_0 prod_1_raw prod_2_raw prod_3_raw prod_4_raw prod_5_raw prod_6_raw mul_carry_0 prod_1_with_carry mul_carry_1 prod_2_with_carry mul_carry_2 prod_3_with_carry mul_carry_3 prod_4_with_carry mul_carry_4 prod_5_with_carry mul_carry_5 prod_6_with_carry mul_carry_6 prod_0' prod_1 prod_2 prod_3 prod_4 prod_5 prod_6 add_0_raw add_carry_0 add_1_raw add_carry_1 add_2_raw add_carry_2 add_3_raw add_carry_3 sub_borrow_0 sub_borrow_1 res_lo res_hi sub_check_lo sub_check_hi :
  0 <= n_lo < 65536 ->  0 <= n_hi < 65536 ->  0 <= op1_val_lo < 65536 ->  0 <= op1_val_hi < 65536 ->
  op1_val_lo + B16 * op1_val_hi <> 0 ->
  d_0 = lo8 op1_val_lo ->
  d_1 = hi8 op1_val_lo ->
  d_2 = lo8 op1_val_hi ->
  d_3 = hi8 op1_val_hi ->
  n_u32 = u32_of n_lo n_hi ->
  d_u32 = u32_of op1_val_lo op1_val_hi ->
  q_u32 = (if d_u32 =? 0 then 0 else n_u32 / d_u32) ->
  r_u32 = (if d_u32 =? 0 then 0 else n_u32 mod d_u32) ->
  q_lo = q_u32 mod 65536 ->
  q_hi = q_u32 / 65536 ->
  r_lo = r_u32 mod 65536 ->
  r_hi = r_u32 / 65536 ->
  q_0 = lo8 q_lo ->
  q_1 = hi8 q_lo ->
  q_2 = lo8 q_hi ->
  q_3 = hi8 q_hi ->
  prod_0 = q_0 * d_0 ->
  prod_1_raw = q_0 * d_1 + q_1 * d_0 ->
  prod_2_raw = q_0 * d_2 + q_2 * d_0 + q_1 * d_1 ->
  prod_3_raw = q_0 * d_3 + q_3 * d_0 + q_1 * d_2 + q_2 * d_1 ->
  prod_4_raw = q_1 * d_3 + q_3 * d_1 + q_2 * d_2 ->
  prod_5_raw = q_2 * d_3 + q_3 * d_2 ->
  prod_6_raw = q_3 * d_3 ->
  mul_carry_0 = shr8 prod_0 ->
  prod_1_with_carry = prod_1_raw + mul_carry_0 ->
  mul_carry_1 = shr8 prod_1_with_carry ->
  prod_2_with_carry = prod_2_raw + mul_carry_1 ->
  mul_carry_2 = shr8 prod_2_with_carry ->
  prod_3_with_carry = prod_3_raw + mul_carry_2 ->
  mul_carry_3 = shr8 prod_3_with_carry ->
  prod_4_with_carry = prod_4_raw + mul_carry_3 ->
  mul_carry_4 = shr8 prod_4_with_carry ->
  prod_5_with_carry = prod_5_raw + mul_carry_4 ->
  mul_carry_5 = shr8 prod_5_with_carry ->
  prod_6_with_carry = prod_6_raw + mul_carry_5 ->
  mul_carry_6 = shr8 prod_6_with_carry ->
  prod_0' = prod_0 - mul_carry_0 * 256 ->
  prod_1 = prod_1_with_carry - mul_carry_1 * 256 ->
  prod_2 = prod_2_with_carry - mul_carry_2 * 256 ->
  prod_3 = prod_3_with_carry - mul_carry_3 * 256 ->
  prod_4 = prod_4_with_carry - mul_carry_4 * 256 ->
  prod_5 = prod_5_with_carry - mul_carry_5 * 256 ->
  prod_6 = prod_6_with_carry - mul_carry_6 * 256 ->
  add_0_raw = prod_0' + prod_1 * 256 + r_lo ->
  add_carry_0 = carry16 (add_0_raw) ->
  add_1_raw = prod_2 + prod_3 * 256 + r_hi + add_carry_0 ->
  add_carry_1 = carry16 (add_1_raw) ->
  add_2_raw = prod_4 + prod_5 * 256 + add_carry_1 ->
  add_carry_2 = carry16 (add_2_raw) ->
  add_3_raw = prod_6 + mul_carry_6 * 256 + add_carry_2 ->
  add_carry_3 = carry16 (add_3_raw) ->
  sub_borrow_0 = lt01 (u16_of d_0 d_1) (fld r_lo + 1) ->
  sub_borrow_1 = lt01 (u16_of d_2 d_3) (fld r_hi + fld sub_borrow_0) ->
  res_lo = q_0 + q_1 * 256 ->
  res_hi = q_2 + q_3 * 256 ->
  sub_check_lo = d_0 + d_1 * 256 + sub_borrow_0 * 65536 - r_lo - 1 ->
  sub_check_hi = d_2 + d_3 * 256 + sub_borrow_1 * 65536 - r_hi - sub_borrow_0 ->
  ((0 <= d_0 < 256 /\ 0 <= d_1 < 256) /\ 0 <= d_2 < 256 /\ 0 <= d_3 < 256) /\
  ((0 <= q_0 < 256 /\ 0 <= q_1 < 256) /\ 0 <= q_2 < 256 /\ 0 <= q_3 < 256) /\
  (0 <= prod_0' < 256 /\ 0 <= mul_carry_0 <= 254) /\
  (0 <= prod_1 < 256 /\ 0 <= mul_carry_1 <= 509) /\
  (0 <= prod_2 < 256 /\ 0 <= mul_carry_2 <= 764) /\
  (0 <= prod_3 < 256 /\ 0 <= mul_carry_3 <= 1019) /\
  (0 <= prod_4 < 256 /\ 0 <= mul_carry_4 <= 765) /\
  (0 <= prod_5 < 256 /\ 0 <= mul_carry_5 <= 510) /\
  (0 <= prod_6 < 256 /\ 0 <= mul_carry_6 <= 255) /\
  (q_0 * d_0 - mul_carry_0 * 256 = prod_0' /\
   q_0 * d_1 + q_1 * d_0 + mul_carry_0 - mul_carry_1 * 256 = prod_1 /\
   q_0 * d_2 + q_2 * d_0 + q_1 * d_1 + mul_carry_1 - mul_carry_2 * 256 = prod_2 /\
   q_0 * d_3 + q_3 * d_0 + q_1 * d_2 + q_2 * d_1 + mul_carry_2 - mul_carry_3 * 256 = prod_3 /\
   q_1 * d_3 + q_3 * d_1 + q_2 * d_2 + mul_carry_3 - mul_carry_4 * 256 = prod_4 /\
   q_2 * d_3 + q_3 * d_2 + mul_carry_4 - mul_carry_5 * 256 = prod_5 /\
   q_3 * d_3 + mul_carry_5 - mul_carry_6 * 256 = prod_6) /\
  (op1_val_lo = d_0 + d_1 * 256 /\ op1_val_hi = d_2 + d_3 * 256) /\
  ((n_lo + B16 * n_hi) / (op1_val_lo + B16 * op1_val_hi) mod B16 = q_0 + q_1 * 256 /\
   (n_lo + B16 * n_hi) / (op1_val_lo + B16 * op1_val_hi) / B16 = q_2 + q_3 * 256) /\
  ((n_lo + B16 * n_hi) mod (op1_val_lo + B16 * op1_val_hi) mod B16 = r_lo /\
   (n_lo + B16 * n_hi) mod (op1_val_lo + B16 * op1_val_hi) / B16 = r_hi) /\
  (0 <= r_lo < 65536 /\ 0 <= r_hi < 65536) /\
  (0 <= add_carry_0 <= 1 /\ 0 <= add_carry_1 <= 1 /\ 0 <= add_carry_2 <= 1 /\ add_carry_3 = 0) /\
  (0 <= sub_borrow_0 <= 1 /\ sub_borrow_1 = 0) /\
  (n_lo = prod_0' + prod_1 * 256 + r_lo - add_carry_0 * 65536 /\
   n_hi = prod_2 + prod_3 * 256 + r_hi + add_carry_0 - add_carry_1 * 65536 /\
   prod_4 + prod_5 * 256 + add_carry_1 = add_carry_2 * 65536 /\
   prod_6 + mul_carry_6 * 256 + add_carry_2 = 0) /\
  (0 <= sub_check_lo < 65536 /\ 0 <= sub_check_hi < 65536).
Proof.
  intros Hn0 Hn1 Hv0 Hv1 Hnz Ed_0 Ed_1 Ed_2 Ed_3 En_u32 Ed_u32 Eq_u32 Er_u32 Eq_lo Eq_hi Er_lo Er_hi Eq_0 Eq_1 Eq_2 Eq_3 Eprod_0 Eprod_1_raw Eprod_2_raw Eprod_3_raw Eprod_4_raw Eprod_5_raw Eprod_6_raw Emul_carry_0 Eprod_1_with_carry Emul_carry_1 Eprod_2_with_carry Emul_carry_2 Eprod_3_with_carry Emul_carry_3 Eprod_4_with_carry Emul_carry_4 Eprod_5_with_carry Emul_carry_5 Eprod_6_with_carry Emul_carry_6 Eprod_0' Eprod_1 Eprod_2 Eprod_3 Eprod_4 Eprod_5 Eprod_6 Eadd_0_raw Eadd_carry_0 Eadd_1_raw Eadd_carry_1 Eadd_2_raw Eadd_carry_2 Eadd_3_raw Eadd_carry_3 Esub_borrow_0 Esub_borrow_1 Eres_lo Eres_hi Esub_check_lo Esub_check_hi.
  destruct (bytes_eq _ _ _ Hv0 Ed_0 Ed_1) as [[Hd0 Hd1] HvL]. destruct (bytes_eq _ _ _ Hv1 Ed_2 Ed_3) as [[Hd2 Hd3] HvH].
  clear Ed_0 Ed_1 Ed_2 Ed_3. rewrite u32_of_spec in En_u32, Ed_u32 by assumption.
  assert (HD : op1_val_lo + 65536 * op1_val_hi <> 0) by exact Hnz.
  assert (Hdz : (d_u32 =? 0) = false) by (apply Z.eqb_neq; rewrite Ed_u32; exact HD).
  rewrite Hdz in Eq_u32, Er_u32. clear Hdz.
  change B16 with 65536. rewrite <- En_u32, <- Ed_u32, <- Eq_u32, <- Er_u32.
  assert (Hdm : n_u32 = d_u32 * q_u32 + r_u32) by (rewrite Eq_u32, Er_u32; apply Z.div_mod; rewrite Ed_u32; exact HD).
  assert (Hd : 0 < d_u32) by (clear - Ed_u32 HD Hv0 Hv1; lia).
  assert (Hr : 0 <= r_u32 < d_u32) by (rewrite Er_u32; apply Z.mod_pos_bound; exact Hd).
  assert (Hq : 0 <= q_u32 <= n_u32).
  { assert (0 <= n_u32) by (clear - En_u32 Hn0 Hn1; lia). rewrite Eq_u32. split; [apply Z.div_pos; assumption|].
    apply Z.div_le_upper_bound; [exact Hd|]. clear - H Hd. nia. }
  clear Eq_u32 Er_u32 Hnz HD.
  assert (Hql : 0 <= q_lo < 65536) by (clear - Eq_lo; lia).
  assert (Hqh : 0 <= q_hi < 65536) by (clear - Eq_hi Hq En_u32 Hn0 Hn1; lia).
  assert (Hrl : 0 <= r_lo < 65536) by (clear - Er_lo; lia).
  assert (Hrh : 0 <= r_hi < 65536) by (clear - Er_hi Hr Ed_u32 Hv0 Hv1; lia).
  assert (HqV : q_u32 = q_lo + 65536 * q_hi) by (clear - Eq_lo Eq_hi; lia).
  assert (HrV : r_u32 = r_lo + 65536 * r_hi) by (clear - Er_lo Er_hi; lia).
  destruct (bytes_eq _ _ _ Hql Eq_0 Eq_1) as [[Hq0 Hq1] HqL]. destruct (bytes_eq _ _ _ Hqh Eq_2 Eq_3) as [[Hq2 Hq3] HqH].
  clear Eq_0 Eq_1 Eq_2 Eq_3.
  assert (B0 : 0 <= prod_0 <= 65025) by (clear - Eprod_0 Hd0 Hq0; subst; nia).
  assert (B1 : 0 <= prod_1_raw <= 130050) by (clear - Eprod_1_raw Hd0 Hd1 Hq0 Hq1; subst; nia).
  assert (B2 : 0 <= prod_2_raw <= 195075) by (clear - Eprod_2_raw Hd0 Hd1 Hd2 Hq0 Hq1 Hq2; subst; nia).
  assert (B3 : 0 <= prod_3_raw <= 260100) by (clear - Eprod_3_raw Hd0 Hd1 Hd2 Hd3 Hq0 Hq1 Hq2 Hq3; subst; nia).
  assert (B4 : 0 <= prod_4_raw <= 195075) by (clear - Eprod_4_raw Hd1 Hd2 Hd3 Hq1 Hq2 Hq3; subst; nia).
  assert (B5 : 0 <= prod_5_raw <= 130050) by (clear - Eprod_5_raw Hd2 Hd3 Hq2 Hq3; subst; nia).
  assert (B6 : 0 <= prod_6_raw <= 65025) by (clear - Eprod_6_raw Hd3 Hq3; subst; nia).
  destruct (digit_eq _ _ _ 254 Emul_carry_0 Eprod_0') as [G0 K0]; [clear - B0; lia|lia|].
  destruct (digit_eq _ _ _ 509 Emul_carry_1 Eprod_1) as [G1 K1]; [clear - B1 Eprod_1_with_carry K0; lia|lia|].
  destruct (digit_eq _ _ _ 764 Emul_carry_2 Eprod_2) as [G2 K2]; [clear - B2 Eprod_2_with_carry K1; lia|lia|].
  destruct (digit_eq _ _ _ 1019 Emul_carry_3 Eprod_3) as [G3 K3]; [clear - B3 Eprod_3_with_carry K2; lia|lia|].
  destruct (digit_eq _ _ _ 765 Emul_carry_4 Eprod_4) as [G4 K4]; [clear - B4 Eprod_4_with_carry K3; lia|lia|].
  destruct (digit_eq _ _ _ 510 Emul_carry_5 Eprod_5) as [G5 K5]; [clear - B5 Eprod_5_with_carry K4; lia|lia|].
  destruct (digit_eq _ _ _ 255 Emul_carry_6 Eprod_6) as [G6 K6]; [clear - B6 Eprod_6_with_carry K5; lia|lia|].
  assert (HM : d_u32 * q_u32 = prod_0' + prod_1 * 256 + 65536 * (prod_2 + prod_3 * 256) + 4294967296 * (prod_4 + prod_5 * 256)
    + 281474976710656 * (prod_6 + mul_carry_6 * 256)).
  { transitivity (prod_0 + 256 * prod_1_raw + 65536 * prod_2_raw + 16777216 * prod_3_raw + 4294967296 * prod_4_raw
      + 1099511627776 * prod_5_raw + 281474976710656 * prod_6_raw).
    - rewrite Ed_u32, HqV, HvL, HvH, HqL, HqH, Eprod_0, Eprod_1_raw, Eprod_2_raw, Eprod_3_raw, Eprod_4_raw, Eprod_5_raw, Eprod_6_raw. ring.
    - rewrite Eprod_0', Eprod_1, Eprod_2, Eprod_3, Eprod_4, Eprod_5, Eprod_6, Eprod_1_with_carry, Eprod_2_with_carry,
        Eprod_3_with_carry, Eprod_4_with_carry, Eprod_5_with_carry, Eprod_6_with_carry. ring. }
  pose proof (carry_eq _ _ Eadd_carry_0) as A0. pose proof (carry_eq _ _ Eadd_carry_1) as A1.
  pose proof (carry_eq _ _ Eadd_carry_2) as A2. pose proof (carry_eq _ _ Eadd_carry_3) as A3.
  assert (HT : n_lo + 65536 * n_hi = prod_0' + prod_1 * 256 + 65536 * (prod_2 + prod_3 * 256) + 4294967296 * (prod_4 + prod_5 * 256)
    + 281474976710656 * (prod_6 + mul_carry_6 * 256) + (r_lo + 65536 * r_hi)) by (rewrite <- HM, <- HrV, <- En_u32; exact Hdm).
  assert (HC : (0 <= add_carry_0 <= 1 /\ 0 <= add_carry_1 <= 1 /\ 0 <= add_carry_2 <= 1 /\ add_carry_3 = 0) /\
    (n_lo = prod_0' + prod_1 * 256 + r_lo - add_carry_0 * 65536 /\
     n_hi = prod_2 + prod_3 * 256 + r_hi + add_carry_0 - add_carry_1 * 65536 /\
     prod_4 + prod_5 * 256 + add_carry_1 = add_carry_2 * 65536 /\
     prod_6 + mul_carry_6 * 256 + add_carry_2 = 0)).
  { clear - A0 A1 A2 A3 HT Eadd_0_raw Eadd_1_raw Eadd_2_raw Eadd_3_raw G0 G1 G2 G3 G4 G5 G6 K6 Hrl Hrh Hn0 Hn1.
    assert (0 <= add_0_raw < 200000) by lia. specialize (A0 H).
    assert (0 <= add_1_raw < 200000) by lia. specialize (A1 H0).
    assert (0 <= add_2_raw < 200000) by lia. specialize (A2 H1).
    assert (0 <= add_3_raw < 200000) by lia. specialize (A3 H2).
    set (p01 := prod_0' + prod_1 * 256) in *. set (p23 := prod_2 + prod_3 * 256) in *.
    set (p45 := prod_4 + prod_5 * 256) in *. set (p67 := prod_6 + mul_carry_6 * 256) in *.
    assert (0 <= p01 < 65536) by lia. assert (0 <= p23 < 65536) by lia. assert (0 <= p45 < 65536) by lia. assert (0 <= p67 < 65536) by lia.
    clearbody p01 p23 p45 p67. clear G0 G1 G2 G3 G4 G5 G6 K6 H H0 H1 H2. lia. }
  destruct HC as [HC1 HC2].
  rewrite u16_of_spec in Esub_borrow_0, Esub_borrow_1 by assumption.
  rewrite (fld_lt r_lo) in Esub_borrow_0 by (clear - Hrl; unfold P; lia).
  assert (HB0 : 0 <= sub_borrow_0 <= 1) by (clear - Esub_borrow_0; subst; unfold lt01; destruct (_ <? _); lia).
  rewrite (fld_lt r_hi) in Esub_borrow_1 by (clear - Hrh; unfold P; lia).
  rewrite (fld_lt sub_borrow_0) in Esub_borrow_1 by (clear - HB0; unfold P; lia).
  assert (HB : sub_borrow_1 = 0 /\ 0 <= sub_check_lo < 65536 /\ 0 <= sub_check_hi < 65536).
  { assert (Hlt : r_lo + 65536 * r_hi < op1_val_lo + 65536 * op1_val_hi) by (rewrite <- HrV, <- Ed_u32; apply Hr).
    rewrite <- HvL in Esub_borrow_0, Esub_check_lo. rewrite <- HvH in Esub_borrow_1, Esub_check_hi.
    clear - Esub_borrow_0 Esub_borrow_1 Esub_check_lo Esub_check_hi Hlt Hrl Hrh Hv0 Hv1.
    destruct (lt01_spec op1_val_lo (r_lo + 1)) as [[X Y]|[X Y]]; rewrite X in Esub_borrow_0; subst sub_borrow_0;
    [destruct (lt01_spec op1_val_hi (r_hi + 1)) as [[X' Y']|[X' Y']]|destruct (lt01_spec op1_val_hi (r_hi + 0)) as [[X' Y']|[X' Y']]];
    rewrite X' in Esub_borrow_1; subst; lia. }
  destruct HB as (HB1 & HB2 & HB3).
  rewrite <- Eq_lo, <- Eq_hi, <- Er_lo, <- Er_hi.
  assert (HE : q_0 * d_0 - mul_carry_0 * 256 = prod_0' /\
   q_0 * d_1 + q_1 * d_0 + mul_carry_0 - mul_carry_1 * 256 = prod_1 /\
   q_0 * d_2 + q_2 * d_0 + q_1 * d_1 + mul_carry_1 - mul_carry_2 * 256 = prod_2 /\
   q_0 * d_3 + q_3 * d_0 + q_1 * d_2 + q_2 * d_1 + mul_carry_2 - mul_carry_3 * 256 = prod_3 /\
   q_1 * d_3 + q_3 * d_1 + q_2 * d_2 + mul_carry_3 - mul_carry_4 * 256 = prod_4 /\
   q_2 * d_3 + q_3 * d_2 + mul_carry_4 - mul_carry_5 * 256 = prod_5 /\
   q_3 * d_3 + mul_carry_5 - mul_carry_6 * 256 = prod_6).
  { rewrite <- Eprod_0, <- Eprod_1_raw, <- Eprod_2_raw, <- Eprod_3_raw, <- Eprod_4_raw, <- Eprod_5_raw, <- Eprod_6_raw,
      <- Eprod_1_with_carry, <- Eprod_2_with_carry, <- Eprod_3_with_carry, <- Eprod_4_with_carry, <- Eprod_5_with_carry,
      <- Eprod_6_with_carry, <- Eprod_0', <- Eprod_1, <- Eprod_2, <- Eprod_3, <- Eprod_4, <- Eprod_5, <- Eprod_6.
    repeat split. }
  repeat first [assumption|split]; reflexivity.
Qed.
Ltac conjs := repeat match goal with H : ?A /\ _ |- _ => lazymatch A with _ <= _ => fail | _ < _ => fail | _ => destruct H end end.
Ltac ranges_wf := repeat match goal with
  | H : 0 <= ?x < 256 |- _ => lazymatch goal with _ : wf x |- _ => fail | _ => pose proof (wf_byte x H) end
  | H : 0 <= ?x < 65536 |- _ => lazymatch goal with _ : wf x |- _ => fail
      | _ => assert (wf x) by (clear - H; unfold wf, P; lia) end
  | H : 0 <= ?x <= ?m |- _ => lazymatch goal with _ : wf x |- _ => fail
      | _ => assert (wf x) by (clear - H; unfold wf, P; lia) end
  end.
Ltac finish2 :=
  first [finish1|match goal with
  | Q : ?e = ?r |- (1 * (?e - ?r)) mod P = 0 => rewrite Q, Z.sub_diag; reflexivity
  | H : 0 <= ?x <= 1 |- (1 * ?x * (1 - ?x)) mod P = 0 =>
    let E := fresh in assert (E : x = 0 \/ x = 1) by (clear - H; lia); destruct E as [E|E]; rewrite E; reflexivity
  | Q : ?x = ?e |- (1 * (?x - (?e))) mod P = 0 => rewrite <- Q, Z.sub_diag; reflexivity
  | H : wf ?x |- ?x mod P = ?x => exact (wf_mod x H)
  | Q : 0 <= ?e < 65536 |- 0 <= (?e) mod P < 65536 => rewrite Z.mod_small; [exact Q|clear - Q; unfold P; lia]
  end].
(** Open the row let by let: [sub] substitutes a definition, [ssa] names it. *)
Ltac sub E := lazymatch type of E with ?r = (let x := ?e in @?f x) =>
  let b := eval cbv beta in (f e) in change (r = b) in E end.
Ltac ssa E y := lazymatch type of E with ?r = (let x := ?e in @?f x) =>
  let H := fresh "E" y in
  assert (H : exists y, y = e) by (exists e; reflexivity); destruct H as [y H];
  let b := eval cbv beta in (f y) in rewrite <- H in E; change (r = b) in E end.
Lemma U32StoreDivRemFpFp_complete a b d r : complete (U32StoreDivRemFpFp a b d r).
Proof.
  intros f s e clk p ps cc H Hc b0; cbn [component_of] in Hc;
  match type of Hc with Some ?x = Some _ => assert (cc = x) by congruence; subst cc; clear Hc end;
  subst b0; prep H; unfold same_logup, fractions; shape. limbs.
  cbn [write_row]. match goal with |- context[tr_u32_store_div_fp_fp 1 ?bd] => remember (tr_u32_store_div_fp_fp 1 bd) as row eqn:E end.
  cbv beta iota delta [tr_u32_store_div_fp_fp value prev_value prev_clock address Trace.access iv b_st b_clock b_instr b_prev_clock b_acc
    nth d_addr d_prev d_prev_clock d_val M31.pc M31.fp encode operands map] in E.
  sub E. sub E. sub E. sub E. sub E. sub E. sub E. sub E. sub E. sub E. sub E. sub E. sub E. sub E. sub E. sub E. sub E. sub E. sub E. sub E. sub E. sub E. sub E. sub E. sub E. ssa E d_0. ssa E d_1. ssa E d_2. ssa E d_3. ssa E n_u32. ssa E d_u32. ssa E q_u32. ssa E r_u32. ssa E q_lo. ssa E q_hi. ssa E r_lo. ssa E r_hi. ssa E q_0. ssa E q_1. ssa E q_2. ssa E q_3. ssa E prod_0. ssa E prod_1_raw. ssa E prod_2_raw. ssa E prod_3_raw. ssa E prod_4_raw. ssa E prod_5_raw. ssa E prod_6_raw. ssa E mul_carry_0. ssa E prod_1_with_carry. ssa E mul_carry_1. ssa E prod_2_with_carry. ssa E mul_carry_2. ssa E prod_3_with_carry. ssa E mul_carry_3. ssa E prod_4_with_carry. ssa E mul_carry_4. ssa E prod_5_with_carry. ssa E mul_carry_5. ssa E prod_6_with_carry. ssa E mul_carry_6. ssa E prod_0'. ssa E prod_1. ssa E prod_2. ssa E prod_3. ssa E prod_4. ssa E prod_5. ssa E prod_6. sub E. ssa E add_0_raw. ssa E add_carry_0. ssa E add_1_raw. ssa E add_carry_1. ssa E add_2_raw. ssa E add_carry_2. ssa E add_3_raw. ssa E add_carry_3. ssa E sub_borrow_0. ssa E sub_borrow_1. ssa E res_lo. ssa E res_hi. sub E. sub E. sub E. sub E. sub E. sub E. sub E. sub E. ssa E sub_check_lo. ssa E sub_check_hi.
  assert (Hf := div_facts _ _ _ _ _ _ _ _ _ _ _ _ _ _ _ _ _ _ _ _ _ _ _ _ _ _ _ _ _ _ _ _ _ _ _ _ _ _ _ _ _ _ _ _ _ _ _ _ _ _ _ _ _ _ _ _ _ _ _ _ _ L2 L1 L0 L H0
    Ed_0 Ed_1 Ed_2 Ed_3 En_u32 Ed_u32 Eq_u32 Er_u32 Eq_lo Eq_hi Er_lo Er_hi Eq_0 Eq_1 Eq_2 Eq_3 Eprod_0 Eprod_1_raw Eprod_2_raw Eprod_3_raw Eprod_4_raw Eprod_5_raw Eprod_6_raw Emul_carry_0 Eprod_1_with_carry Emul_carry_1 Eprod_2_with_carry Emul_carry_2 Eprod_3_with_carry Emul_carry_3 Eprod_4_with_carry Emul_carry_4 Eprod_5_with_carry Emul_carry_5 Eprod_6_with_carry Emul_carry_6 Eprod_0' Eprod_1 Eprod_2 Eprod_3 Eprod_4 Eprod_5 Eprod_6 Eadd_0_raw Eadd_carry_0 Eadd_1_raw Eadd_carry_1 Eadd_2_raw Eadd_carry_2 Eadd_3_raw Eadd_carry_3 Esub_borrow_0 Esub_borrow_1 Eres_lo Eres_hi Esub_check_lo Esub_check_hi).
  clear Ed_0 Ed_1 Ed_2 Ed_3 En_u32 Ed_u32 Eq_u32 Er_u32 Eq_lo Eq_hi Er_lo Er_hi Eq_0 Eq_1 Eq_2 Eq_3 Eprod_0 Eprod_1_raw Eprod_2_raw Eprod_3_raw Eprod_4_raw Eprod_5_raw Eprod_6_raw Emul_carry_0 Eprod_1_with_carry Emul_carry_1 Eprod_2_with_carry Emul_carry_2 Eprod_3_with_carry Emul_carry_3 Eprod_4_with_carry Emul_carry_4 Eprod_5_with_carry Emul_carry_5 Eprod_6_with_carry Emul_carry_6 Eprod_0' Eprod_1 Eprod_2 Eprod_3 Eprod_4 Eprod_5 Eprod_6 Eadd_0_raw Eadd_carry_0 Eadd_1_raw Eadd_carry_1 Eadd_2_raw Eadd_carry_2 Eadd_3_raw Eadd_carry_3 Esub_borrow_0 Esub_borrow_1.
  conjs. subst row sub_borrow_1 add_carry_3. cbn [t_cols t_logup map].
  repeat match goal with H : _ mod B16 = _ |- _ => rewrite !H; clear H | H : _ / B16 = _ |- _ => rewrite !H; clear H end.
  subst v1 v2 res_lo res_hi sub_check_lo sub_check_hi. ranges_wf. smallfld.
  start1 u32_store_div_fp_fp; try finish2.
  rewrite wf_mod by assumption. match goal with H : 0 <= mul_carry_6 <= 255 |- _ => clear - H; lia end.
Qed.
Lemma off_col x r : wf r -> fld ((x + r) mod P - x) = r.
Proof. intros H. unfold fld. rewrite Zminus_mod_idemp_l. replace (x + r - x) with r by ring. apply wf_mod, H. Qed.
Lemma U32StoreDivRemFpImm_complete a lo hi d r : complete (U32StoreDivRemFpImm a lo hi d r).
Proof.
  intros f s e clk p ps cc H Hc b0; cbn [component_of] in Hc;
  match type of Hc with Some ?x = Some _ => assert (cc = x) by congruence; subst cc; clear Hc end;
  subst b0; prep H; unfold same_logup, fractions; shape. limbs.
  cbn [write_row]. match goal with |- context[tr_u32_store_div_fp_imm 1 ?bd] => remember (tr_u32_store_div_fp_imm 1 bd) as row eqn:E end.
  cbv beta iota delta [tr_u32_store_div_fp_imm value prev_value prev_clock address Trace.access iv b_st b_clock b_instr b_prev_clock b_acc
    nth d_addr d_prev d_prev_clock d_val M31.pc M31.fp encode operands map] in E.
  sub E. sub E. sub E. sub E. sub E. sub E. sub E. sub E. sub E. sub E. sub E. sub E. sub E. sub E. sub E. sub E. sub E. sub E. sub E. sub E. sub E. sub E. sub E. ssa E d_0. ssa E d_1. ssa E d_2. ssa E d_3. ssa E n_u32. ssa E d_u32. ssa E q_u32. ssa E r_u32. ssa E q_lo. ssa E q_hi. ssa E r_lo. ssa E r_hi. ssa E q_0. ssa E q_1. ssa E q_2. ssa E q_3. ssa E prod_0. ssa E prod_1_raw. ssa E prod_2_raw. ssa E prod_3_raw. ssa E prod_4_raw. ssa E prod_5_raw. ssa E prod_6_raw. ssa E mul_carry_0. ssa E prod_1_with_carry. ssa E mul_carry_1. ssa E prod_2_with_carry. ssa E mul_carry_2. ssa E prod_3_with_carry. ssa E mul_carry_3. ssa E prod_4_with_carry. ssa E mul_carry_4. ssa E prod_5_with_carry. ssa E mul_carry_5. ssa E prod_6_with_carry. ssa E mul_carry_6. ssa E prod_0'. ssa E prod_1. ssa E prod_2. ssa E prod_3. ssa E prod_4. ssa E prod_5. ssa E prod_6. sub E. ssa E add_0_raw. ssa E add_carry_0. ssa E add_1_raw. ssa E add_carry_1. ssa E add_2_raw. ssa E add_carry_2. ssa E add_3_raw. ssa E add_carry_3. ssa E sub_borrow_0. ssa E sub_borrow_1. ssa E res_lo. ssa E res_hi. sub E. sub E. sub E. sub E. sub E. sub E. sub E. sub E. ssa E sub_check_lo. ssa E sub_check_hi.
  assert (N1 : 0 <= v < 65536) by assumption. assert (N2 : 0 <= v0 < 65536) by assumption.
  assert (N3 : 0 <= lo < 65536) by assumption. assert (N4 : 0 <= hi < 65536) by assumption.
  assert (H0 : lo + B16 * hi <> 0) by assumption.
  assert (Hf := div_facts _ _ _ _ _ _ _ _ _ _ _ _ _ _ _ _ _ _ _ _ _ _ _ _ _ _ _ _ _ _ _ _ _ _ _ _ _ _ _ _ _ _ _ _ _ _ _ _ _ _ _ _ _ _ _ _ _ _ _ _ _ N1 N2 N3 N4 H0
    Ed_0 Ed_1 Ed_2 Ed_3 En_u32 Ed_u32 Eq_u32 Er_u32 Eq_lo Eq_hi Er_lo Er_hi Eq_0 Eq_1 Eq_2 Eq_3 Eprod_0 Eprod_1_raw Eprod_2_raw Eprod_3_raw Eprod_4_raw Eprod_5_raw Eprod_6_raw Emul_carry_0 Eprod_1_with_carry Emul_carry_1 Eprod_2_with_carry Emul_carry_2 Eprod_3_with_carry Emul_carry_3 Eprod_4_with_carry Emul_carry_4 Eprod_5_with_carry Emul_carry_5 Eprod_6_with_carry Emul_carry_6 Eprod_0' Eprod_1 Eprod_2 Eprod_3 Eprod_4 Eprod_5 Eprod_6 Eadd_0_raw Eadd_carry_0 Eadd_1_raw Eadd_carry_1 Eadd_2_raw Eadd_carry_2 Eadd_3_raw Eadd_carry_3 Esub_borrow_0 Esub_borrow_1 Eres_lo Eres_hi Esub_check_lo Esub_check_hi).
  clear Ed_0 Ed_1 Ed_2 Ed_3 En_u32 Ed_u32 Eq_u32 Er_u32 Eq_lo Eq_hi Er_lo Er_hi Eq_0 Eq_1 Eq_2 Eq_3 Eprod_0 Eprod_1_raw Eprod_2_raw Eprod_3_raw Eprod_4_raw Eprod_5_raw Eprod_6_raw Emul_carry_0 Eprod_1_with_carry Emul_carry_1 Eprod_2_with_carry Emul_carry_2 Eprod_3_with_carry Emul_carry_3 Eprod_4_with_carry Emul_carry_4 Eprod_5_with_carry Emul_carry_5 Eprod_6_with_carry Emul_carry_6 Eprod_0' Eprod_1 Eprod_2 Eprod_3 Eprod_4 Eprod_5 Eprod_6 Eadd_0_raw Eadd_carry_0 Eadd_1_raw Eadd_carry_1 Eadd_2_raw Eadd_carry_2 Eadd_3_raw Eadd_carry_3 Esub_borrow_0 Esub_borrow_1.
  conjs. subst row sub_borrow_1 add_carry_3. cbn [t_cols t_logup map].
  repeat match goal with H : _ mod B16 = _ |- _ => rewrite !H; clear H | H : _ / B16 = _ |- _ => rewrite !H; clear H end.
  subst lo hi res_lo res_hi sub_check_lo sub_check_hi. ranges_wf. rewrite off_col by assumption. smallfld.
  start1 u32_store_div_fp_imm; try finish2.
  rewrite wf_mod by assumption. match goal with H : 0 <= mul_carry_6 <= 255 |- _ => clear - H; lia end.
Qed.
