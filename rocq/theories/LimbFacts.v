(** Integer arithmetic behind the u32 components. *)
From Coq Require Import ZArith Bool List Lia.
From Verif Require Import M31 M31Facts Isa Air AirOpcodes AirSpec AirFacts.
Import ListNotations.
Open Scope Z_scope.
Ltac Zify.zify_post_hook ::= Z.div_mod_to_equations.

Lemma small16 x : 0 <= x < 65536 -> (x <? B16) = true.
Proof. intros H. apply Z.ltb_lt. unfold B16. lia. Qed.
Lemma bytes16 a b : 0 <= a < 256 -> 0 <= b < 256 -> 0 <= a + b * 256 < 65536.
Proof. lia. Qed.
Lemma bytes_mod a b : 0 <= a < 256 -> 0 <= b < 256 -> (a + b * 256) mod P = a + b * 256.
Proof. intros. apply Z.mod_small. unfold P. lia. Qed.

Lemma add_lo a b c d x y : 0 <= a < 65536 -> 0 <= b < 65536 -> 0 <= c < 65536 -> 0 <= d < 65536 ->
  x = 0 \/ x = 1 -> y = 0 \/ y = 1 ->
  0 <= (a + c - x * 65536) mod P < 65536 -> 0 <= (b + d + x - y * 65536) mod P < 65536 ->
  (a + c - x * 65536) mod P = ((a + B16 * b + (c + B16 * d)) mod B32) mod B16 /\
  (b + d + x - y * 65536) mod P = ((a + B16 * b + (c + B16 * d)) mod B32) / B16.
Proof.
  intros Ha Hb Hc Hd Hx Hy H1 H2.
  assert (E1 : (a + c - x * 65536) mod P = a + c - x * 65536 /\ 0 <= a + c - x * 65536).
  { clear - Ha Hc Hx H1. unfold P in *. destruct Hx as [->| ->]; lia. }
  assert (E2 : (b + d + x - y * 65536) mod P = b + d + x - y * 65536 /\ 0 <= b + d + x - y * 65536).
  { clear - Hb Hd Hx Hy H2. unfold P in *. destruct Hx as [->| ->], Hy as [->| ->]; lia. }
  destruct E1 as [E1 L1], E2 as [E2 L2]. rewrite E1 in *. rewrite E2 in *. clear E1 E2.
  assert (Hs : (a + B16 * b + (c + B16 * d)) mod B32 = (a + c - x * 65536) + B16 * (b + d + x - y * 65536)).
  { symmetry. apply (Z.mod_unique_pos _ _ y); unfold B16, B32 in *; lia. }
  rewrite Hs. unfold B16. split; lia.
Qed.

Lemma sub_lo a b c d x y : 0 <= a < 65536 -> 0 <= b < 65536 -> 0 <= c < 65536 -> 0 <= d < 65536 ->
  x = 0 \/ x = 1 -> y = 0 \/ y = 1 ->
  0 <= (a + x * 65536 - c) mod P < 65536 -> 0 <= (b - x + y * 65536 - d) mod P < 65536 ->
  (a + x * 65536 - c) mod P = ((a + B16 * b - (c + B16 * d)) mod B32) mod B16 /\
  (b - x + y * 65536 - d) mod P = ((a + B16 * b - (c + B16 * d)) mod B32) / B16.
Proof.
  intros Ha Hb Hc Hd Hx Hy H1 H2.
  assert (E1 : (a + x * 65536 - c) mod P = a + x * 65536 - c /\ 0 <= a + x * 65536 - c).
  { clear - Ha Hc Hx H1. unfold P in *. destruct Hx as [->| ->]; lia. }
  assert (E2 : (b - x + y * 65536 - d) mod P = b - x + y * 65536 - d /\ 0 <= b - x + y * 65536 - d).
  { clear - Hb Hd Hx Hy H2. unfold P in *. destruct Hx as [->| ->], Hy as [->| ->]; lia. }
  destruct E1 as [E1 L1], E2 as [E2 L2]. rewrite E1 in *. rewrite E2 in *. clear E1 E2.
  assert (Hs : (a + B16 * b - (c + B16 * d)) mod B32 = (a + x * 65536 - c) + B16 * (b - x + y * 65536 - d)).
  { symmetry. apply (Z.mod_unique_pos _ _ (- y)); unfold B16, B32 in *; lia. }
  rewrite Hs. unfold B16. split; lia.
Qed.

Lemma lt_res a b c d x y : 0 <= a < 65536 -> 0 <= b < 65536 -> 0 <= c < 65536 -> 0 <= d < 65536 ->
  x = 0 \/ x = 1 -> y = 0 \/ y = 1 ->
  0 <= (c - 1 + x * 65536 - a) mod P < 65536 -> 0 <= (d - x + y * 65536 - b) mod P < 65536 ->
  (1 - y) mod P = if (a + B16 * b <? c + B16 * d) then 1 else 0.
Proof.
  intros Ha Hb Hc Hd Hx Hy H1 H2.
  assert (E1 : 0 <= c - 1 + x * 65536 - a < 65536).
  { clear - Ha Hc Hx H1. unfold P in *. destruct Hx as [->| ->]; lia. }
  assert (E2 : 0 <= d - x + y * 65536 - b < 65536).
  { clear - Hb Hd Hx Hy H2. unfold P in *. destruct Hx as [->| ->], Hy as [->| ->]; lia. }
  clear H1 H2. unfold B16.
  destruct (Z.ltb_spec (a + 65536 * b) (c + 65536 * d)) as [H|H];
    destruct Hy as [->| ->]; try reflexivity; exfalso; lia.
Qed.

(** Equality through inverse columns. *)
Lemma eq_flag x y i : 0 <= x < 65536 -> 0 <= y < 65536 -> ((y - x) * (i * (y - x) - 1)) mod P = 0 ->
  (1 - (y - x) * i) mod P = if x =? y then 1 else 0.
Proof.
  intros Hx Hy H. destruct (Z.eqb_spec x y) as [->|Hn].
  - rewrite Z.sub_diag, Z.mul_0_l. reflexivity.
  - apply mul_zero in H. destruct H as [H|H].
    + exfalso. unfold P in H. lia.
    + replace (1 - (y - x) * i) with (- (i * (y - x) - 1)) by ring.
      rewrite Z.mod_opp_l_z; [reflexivity|discriminate|exact H].
Qed.
Lemma eq_res a b c d i j e p :
  0 <= a < 65536 -> 0 <= b < 65536 -> 0 <= c < 65536 -> 0 <= d < 65536 -> wf e -> wf p ->
  ((c - a) * (i * (c - a) - 1)) mod P = 0 -> ((d - b) * (j * (d - b) - 1)) mod P = 0 ->
  (e - (1 - (c - a) * i)) mod P = 0 -> (p - e * (1 - (d - b) * j)) mod P = 0 ->
  p = if a + B16 * b =? c + B16 * d then 1 else 0.
Proof.
  intros Ha Hb Hc Hd He Hp H1 H2 H3 H4.
  apply eq_flag in H1; [|assumption..]. apply eq_flag in H2; [|assumption..].
  apply col_eq in H3; [|assumption]. apply col_eq in H4; [|assumption].
  rewrite H1 in H3. rewrite Z.mul_mod, H2, H3 in H4 by discriminate. unfold B16. rewrite H4.
  destruct (Z.eqb_spec a c) as [->|Hac], (Z.eqb_spec b d) as [->|Hbd].
  - rewrite Z.eqb_refl. reflexivity.
  - destruct (Z.eqb_spec (c + 65536 * b) (c + 65536 * d)) as [He2|]; [exfalso; clear - He2 Hbd; lia|reflexivity].
  - destruct (Z.eqb_spec (a + 65536 * d) (c + 65536 * d)) as [He2|]; [exfalso; clear - He2 Hac; lia|reflexivity].
  - destruct (Z.eqb_spec (a + 65536 * b) (c + 65536 * d)) as [He2|]; [exfalso; clear - He2 Hac Ha Hc; lia|reflexivity].
Qed.

(** Schoolbook multiplication with range-checked carries. *)
Lemma exact x : x mod P = 0 -> - P < x < P -> x = 0.
Proof. unfold P. lia. Qed.
Lemma carry_small c max : wf c -> 0 <= max <= 1019 -> 0 <= (max - c) mod P < 65536 ->
  exists c' k, c = c' + k * P /\ -65536 <= c' <= 1019.
Proof.
  intros Hc Hm H. unfold wf, P in *.
  destruct (Z.le_gt_cases c 1019).
  - exists c, 0. lia.
  - exists (c - 2147483647), 1. lia.
Qed.
Lemma limb_step p cin cin' k r c max :
  0 <= p <= 260100 -> cin = cin' + k * P -> -65536 <= cin' <= 1019 -> 0 <= r < 256 ->
  wf c -> 0 <= max <= 1019 -> 0 <= (max - c) mod P < 65536 ->
  (p + cin - c * 256 - r) mod P = 0 ->
  exists c' k', c = c' + k' * P /\ -65536 <= c' <= 1019 /\ r = p + cin' - c' * 256.
Proof.
  intros Hp Hcin Hb Hr Hc Hm Hmax H.
  destruct (carry_small c max Hc Hm Hmax) as (c' & k' & Hc' & Hb').
  exists c', k'. split; [exact Hc'|]. split; [exact Hb'|].
  assert (E : (p + cin' - c' * 256 - r) mod P = 0).
  { rewrite <- H, Hcin, Hc'. replace (p + (cin' + k * P) - (c' + k' * P) * 256 - r)
      with (p + cin' - c' * 256 - r + (k - k' * 256) * P) by ring.
    symmetry. apply Z_mod_plus_full. }
  apply exact in E; [lia|]. unfold P. lia.
Qed.

Definition le4 (a b c d : Z) : Z := a + b * 256 + B16 * (c + d * 256).
Lemma mul_bytes a b : 0 <= a < 256 -> 0 <= b < 256 -> 0 <= a * b <= 65025.
Proof. intros Ha Hb. split; [nia|]. change 65025 with (255 * 255). apply Z.mul_le_mono_nonneg; lia. Qed.
Lemma le4_split a b c d : 0 <= a < 256 -> 0 <= b < 256 -> 0 <= c < 256 -> 0 <= d < 256 ->
  le4 a b c d mod B16 = a + b * 256 /\ le4 a b c d / B16 = c + d * 256 /\ 0 <= le4 a b c d < B32.
Proof. intros. unfold le4, B16, B32. repeat split; lia. Qed.

Lemma mul_res a0 a1 a2 a3 b0 b1 b2 b3 r0 r1 r2 r3 c0 c1 c2 c3 :
  0 <= a0 < 256 -> 0 <= a1 < 256 -> 0 <= a2 < 256 -> 0 <= a3 < 256 ->
  0 <= b0 < 256 -> 0 <= b1 < 256 -> 0 <= b2 < 256 -> 0 <= b3 < 256 ->
  0 <= r0 < 256 -> 0 <= r1 < 256 -> 0 <= r2 < 256 -> 0 <= r3 < 256 ->
  wf c0 -> wf c1 -> wf c2 -> wf c3 ->
  0 <= (254 - c0) mod P < 65536 -> 0 <= (509 - c1) mod P < 65536 ->
  0 <= (764 - c2) mod P < 65536 -> 0 <= (1019 - c3) mod P < 65536 ->
  (r0 - (a0 * b0 - c0 * 256)) mod P = 0 ->
  (r1 - (a0 * b1 + a1 * b0 + c0 - c1 * 256)) mod P = 0 ->
  (r2 - (a0 * b2 + a1 * b1 + a2 * b0 + c1 - c2 * 256)) mod P = 0 ->
  (r3 - (a0 * b3 + a1 * b2 + a2 * b1 + a3 * b0 + c2 - c3 * 256)) mod P = 0 ->
  (le4 a0 a1 a2 a3 * le4 b0 b1 b2 b3) mod B32 = le4 r0 r1 r2 r3.
Proof.
  intros A0 A1 A2 A3 D0 D1 D2 D3 R0 R1 R2 R3 W0 W1 W2 W3 M0 M1 M2 M3 E0 E1 E2 E3.
  pose proof (mul_bytes a0 b0 A0 D0) as P00. pose proof (mul_bytes a0 b1 A0 D1) as P01.
  pose proof (mul_bytes a0 b2 A0 D2) as P02. pose proof (mul_bytes a0 b3 A0 D3) as P03.
  pose proof (mul_bytes a1 b0 A1 D0) as P10. pose proof (mul_bytes a1 b1 A1 D1) as P11.
  pose proof (mul_bytes a1 b2 A1 D2) as P12. pose proof (mul_bytes a2 b0 A2 D0) as P20.
  pose proof (mul_bytes a2 b1 A2 D1) as P21. pose proof (mul_bytes a3 b0 A3 D0) as P30.
  assert (N : forall x, x mod P = 0 -> (- x) mod P = 0)
    by (intros x Hx; rewrite Z.mod_opp_l_z; [reflexivity|discriminate|exact Hx]).
  apply N in E0, E1, E2, E3.
  replace (- (r0 - (a0 * b0 - c0 * 256))) with (a0 * b0 + 0 - c0 * 256 - r0) in E0 by ring.
  replace (- (r1 - (a0 * b1 + a1 * b0 + c0 - c1 * 256)))
    with ((a0 * b1 + a1 * b0) + c0 - c1 * 256 - r1) in E1 by ring.
  replace (- (r2 - (a0 * b2 + a1 * b1 + a2 * b0 + c1 - c2 * 256)))
    with ((a0 * b2 + a1 * b1 + a2 * b0) + c1 - c2 * 256 - r2) in E2 by ring.
  replace (- (r3 - (a0 * b3 + a1 * b2 + a2 * b1 + a3 * b0 + c2 - c3 * 256)))
    with ((a0 * b3 + a1 * b2 + a2 * b1 + a3 * b0) + c2 - c3 * 256 - r3) in E3 by ring.
  assert (G10 : 0 <= (a0 * b0) <= 260100) by (clear - P00; lia).
  destruct (limb_step _ _ 0 0 _ _ 254 G10 eq_refl ltac:(split; discriminate) R0 W0 ltac:(split; discriminate) M0 E0) as (d0 & k0 & K0 & B0 & F0).
  assert (G11 : 0 <= (a0 * b1 + a1 * b0) <= 260100) by (clear - P01 P10; lia).
  destruct (limb_step _ _ d0 k0 _ _ 509 G11 K0 B0 R1 W1 ltac:(split; discriminate) M1 E1) as (d1 & k1 & K1 & B1 & F1).
  assert (G12 : 0 <= (a0 * b2 + a1 * b1 + a2 * b0) <= 260100) by (clear - P02 P11 P20; lia).
  destruct (limb_step _ _ d1 k1 _ _ 764 G12 K1 B1 R2 W2 ltac:(split; discriminate) M2 E2) as (d2 & k2 & K2 & B2 & F2).
  assert (G13 : 0 <= (a0 * b3 + a1 * b2 + a2 * b1 + a3 * b0) <= 260100) by (clear - P03 P12 P21 P30; lia).
  destruct (limb_step _ _ d2 k2 _ _ 1019 G13 K2 B2 R3 W3 ltac:(split; discriminate) M3 E3) as (d3 & k3 & K3 & B3 & F3).
  symmetry. apply (Z.mod_unique_pos _ _
    (d3 + (a1 * b3 + a2 * b2 + a3 * b1) + 256 * (a2 * b3 + a3 * b2) + 65536 * (a3 * b3))).
  - apply le4_split; assumption.
  - unfold le4, B16, B32. rewrite F0, F1, F2, F3. ring.
Qed.

Lemma div_res a_lo a_hi d0 d1 d2 d3 q0 q1 q2 q3 m0 m1 m2 m3 m4 m5 m6
    p0 p1 p2 p3 p4 p5 p6 p7 c0 c1 c2 c3 s0 s1 r_lo r_hi :
  0 <= d0 < 256 -> 0 <= d1 < 256 -> 0 <= d2 < 256 -> 0 <= d3 < 256 ->
  0 <= q0 < 256 -> 0 <= q1 < 256 -> 0 <= q2 < 256 -> 0 <= q3 < 256 ->
  0 <= p0 < 256 -> 0 <= p1 < 256 -> 0 <= p2 < 256 -> 0 <= p3 < 256 ->
  0 <= p4 < 256 -> 0 <= p5 < 256 -> 0 <= p6 < 256 -> 0 <= p7 < 256 ->
  0 <= a_lo < 65536 -> 0 <= a_hi < 65536 -> 0 <= r_lo < 65536 -> 0 <= r_hi < 65536 ->
  wf m0 -> wf m1 -> wf m2 -> wf m3 -> wf m4 -> wf m5 -> wf m6 ->
  0 <= (254 - m0) mod P < 65536 -> 0 <= (509 - m1) mod P < 65536 ->
  0 <= (764 - m2) mod P < 65536 -> 0 <= (1019 - m3) mod P < 65536 ->
  0 <= (765 - m4) mod P < 65536 -> 0 <= (510 - m5) mod P < 65536 -> 0 <= (255 - m6) mod P < 65536 ->
  c0 = 0 \/ c0 = 1 -> c1 = 0 \/ c1 = 1 -> c2 = 0 \/ c2 = 1 -> wf c3 -> s0 = 0 \/ s0 = 1 -> wf s1 ->
  (q0 * d0 - m0 * 256 - p0) mod P = 0 ->
  (q0 * d1 + q1 * d0 + m0 - m1 * 256 - p1) mod P = 0 ->
  (q0 * d2 + q2 * d0 + q1 * d1 + m1 - m2 * 256 - p2) mod P = 0 ->
  (q0 * d3 + q3 * d0 + q1 * d2 + q2 * d1 + m2 - m3 * 256 - p3) mod P = 0 ->
  (q1 * d3 + q3 * d1 + q2 * d2 + m3 - m4 * 256 - p4) mod P = 0 ->
  (q2 * d3 + q3 * d2 + m4 - m5 * 256 - p5) mod P = 0 ->
  (q3 * d3 + m5 - m6 * 256 - p6) mod P = 0 ->
  (m6 - p7) mod P = 0 ->
  (a_lo - (p0 + p1 * 256 + r_lo - c0 * 65536)) mod P = 0 ->
  (a_hi - (p2 + p3 * 256 + r_hi + c0 - c1 * 65536)) mod P = 0 ->
  (p4 + p5 * 256 + c1 - c2 * 65536) mod P = 0 ->
  (p6 + p7 * 256 + c2 - c3 * 65536) mod P = 0 ->
  c3 mod P = 0 -> s1 mod P = 0 ->
  0 <= (d0 + d1 * 256 + s0 * 65536 - r_lo - 1) mod P < 65536 ->
  0 <= (d2 + d3 * 256 + s1 * 65536 - r_hi - s0) mod P < 65536 ->
  let n := a_lo + B16 * a_hi in let d := le4 d0 d1 d2 d3 in let r := r_lo + B16 * r_hi in
  0 < d /\ le4 q0 q1 q2 q3 = n / d /\ r = n mod d.
Proof.
  intros D0 D1 D2 D3 Q0 Q1 Q2 Q3 Y0 Y1 Y2 Y3 Y4 Y5 Y6 Y7 NL NH RL RH W0 W1 W2 W3 W4 W5 W6
    M0 M1 M2 M3 M4 M5 M6 C0 C1 C2 C3 S0 S1 E0 E1 E2 E3 E4 E5 E6 E7 F0 F1 F2 F3 G3 G4 L0 L1 n d r.
  rewrite Z.mod_small in G3, G4 by assumption. subst c3 s1.
  (* the product *)
  pose proof (mul_bytes q0 d0 Q0 D0) as P00. pose proof (mul_bytes q0 d1 Q0 D1) as P01.
  pose proof (mul_bytes q0 d2 Q0 D2) as P02. pose proof (mul_bytes q0 d3 Q0 D3) as P03.
  pose proof (mul_bytes q1 d0 Q1 D0) as P10. pose proof (mul_bytes q1 d1 Q1 D1) as P11.
  pose proof (mul_bytes q1 d2 Q1 D2) as P12. pose proof (mul_bytes q1 d3 Q1 D3) as P13.
  pose proof (mul_bytes q2 d0 Q2 D0) as P20. pose proof (mul_bytes q2 d1 Q2 D1) as P21.
  pose proof (mul_bytes q2 d2 Q2 D2) as P22. pose proof (mul_bytes q2 d3 Q2 D3) as P23.
  pose proof (mul_bytes q3 d0 Q3 D0) as P30. pose proof (mul_bytes q3 d1 Q3 D1) as P31.
  pose proof (mul_bytes q3 d2 Q3 D2) as P32. pose proof (mul_bytes q3 d3 Q3 D3) as P33.
  replace (q0 * d0 - m0 * 256 - p0) with (q0 * d0 + 0 - m0 * 256 - p0) in E0 by ring.
  assert (G10 : 0 <= (q0 * d0) <= 260100) by (clear - P00; lia).
  destruct (limb_step _ _ 0 0 _ _ 254 G10 eq_refl ltac:(split; discriminate) Y0 W0 ltac:(split; discriminate) M0 E0) as (t0 & k0 & K0 & B0 & X0).
  assert (G11 : 0 <= (q0 * d1 + q1 * d0) <= 260100) by (clear - P01 P10; lia).
  destruct (limb_step _ _ t0 k0 _ _ 509 G11 K0 B0 Y1 W1 ltac:(split; discriminate) M1 E1) as (t1 & k1 & K1 & B1 & X1).
  assert (G12 : 0 <= (q0 * d2 + q2 * d0 + q1 * d1) <= 260100) by (clear - P02 P20 P11; lia).
  destruct (limb_step _ _ t1 k1 _ _ 764 G12 K1 B1 Y2 W2 ltac:(split; discriminate) M2 E2) as (t2 & k2 & K2 & B2 & X2).
  assert (G13 : 0 <= (q0 * d3 + q3 * d0 + q1 * d2 + q2 * d1) <= 260100) by (clear - P03 P30 P12 P21; lia).
  destruct (limb_step _ _ t2 k2 _ _ 1019 G13 K2 B2 Y3 W3 ltac:(split; discriminate) M3 E3) as (t3 & k3 & K3 & B3 & X3).
  assert (G14 : 0 <= (q1 * d3 + q3 * d1 + q2 * d2) <= 260100) by (clear - P13 P31 P22; lia).
  destruct (limb_step _ _ t3 k3 _ _ 765 G14 K3 B3 Y4 W4 ltac:(split; discriminate) M4 E4) as (t4 & k4 & K4 & B4 & X4).
  assert (G15 : 0 <= (q2 * d3 + q3 * d2) <= 260100) by (clear - P23 P32; lia).
  destruct (limb_step _ _ t4 k4 _ _ 510 G15 K4 B4 Y5 W5 ltac:(split; discriminate) M5 E5) as (t5 & k5 & K5 & B5 & X5).
  assert (G16 : 0 <= (q3 * d3) <= 260100) by (clear - P33; lia).
  destruct (limb_step _ _ t5 k5 _ _ 255 G16 K5 B5 Y6 W6 ltac:(split; discriminate) M6 E6) as (t6 & k6 & K6 & B6 & X6).
  assert (X7 : p7 = t6).
  { apply col_eq in E7; [|exact W6]. rewrite Z.mod_small in E7 by (unfold P; lia).
    clear - E7 K6 B6 Y7. unfold P in *. lia. }
  assert (Hq : le4 q0 q1 q2 q3 * d =
    p0 + p1 * 256 + B16 * (p2 + p3 * 256) + B32 * (p4 + p5 * 256 + B16 * (p6 + p7 * 256))).
  { unfold d, le4, B16, B32. rewrite X7, X0, X1, X2, X3, X4, X5, X6. ring. }
  clear E0 E1 E2 E3 E4 E5 E6 E7 X0 X1 X2 X3 X4 X5 X6 X7 K0 K1 K2 K3 K4 K5 K6 B0 B1 B2 B3 B4 B5 B6
    P00 P01 P02 P03 P10 P11 P12 P13 P20 P21 P22 P23 P30 P31 P32 P33 M0 M1 M2 M3 M4 M5 M6
    W0 W1 W2 W3 W4 W5 W6.
  (* the sum *)
  apply exact in F0; [|clear - Y0 Y1 NL RL C0; unfold P; lia].
  apply exact in F1; [|clear - Y2 Y3 NH RH C0 C1; unfold P; lia].
  apply exact in F2; [|clear - Y4 Y5 C1 C2; unfold P; lia].
  apply exact in F3; [|clear - Y6 Y7 C2; unfold P; lia].
  assert (Z6 : p6 = 0 /\ p7 = 0 /\ c2 = 0) by (clear - F3 Y6 Y7 C2; lia).
  destruct Z6 as (-> & -> & ->).
  assert (Z4 : p4 = 0 /\ p5 = 0 /\ c1 = 0) by (clear - F2 Y4 Y5 C1; lia).
  destruct Z4 as (-> & -> & ->).
  assert (Hn : n = le4 q0 q1 q2 q3 * d + r).
  { rewrite Hq. unfold n, r, B16, B32. clear - F0 F1. lia. }
  (* the comparison *)
  assert (Hr : 0 <= r < d).
  { assert (V0 : 0 <= d0 + d1 * 256 + s0 * 65536 - r_lo - 1 < 65536).
    { clear - L0 D0 D1 RL S0. unfold P in *. destruct S0 as [->| ->]; lia. }
    assert (V1 : 0 <= d2 + d3 * 256 - r_hi - s0).
    { clear - L1 D2 D3 RH S0. unfold P in *. destruct S0 as [->| ->]; lia. }
    unfold r, d, le4, B16. clear - V0 V1 RL RH. lia. }
  split; [clear - Hr; lia|]. split.
  - apply (Z.div_unique_pos n d (le4 q0 q1 q2 q3) r Hr). rewrite Hn. ring.
  - apply (Z.mod_unique_pos n d (le4 q0 q1 q2 q3) r Hr). rewrite Hn. ring.
Qed.

(** Bitwise operations byte by byte. *)
Lemma tb_split x y k n : 0 <= k -> 0 <= x < 2 ^ k -> 0 <= n ->
  Z.testbit (x + y * 2 ^ k) n = if n <? k then Z.testbit x n else Z.testbit y (n - k).
Proof.
  intros Hk Hx Hn. destruct (Z.ltb_spec n k) as [H|H].
  - rewrite <- (Z.mod_pow2_bits_low _ k n H). rewrite Z_mod_plus_full, Z.mod_small by exact Hx. reflexivity.
  - replace n with (n - k + k) at 1 by ring. rewrite <- Z.div_pow2_bits by lia.
    rewrite Z.div_add by (apply Z.pow_nonzero; lia). rewrite Z.div_small by exact Hx. reflexivity.
Qed.
Section Bits.
  Variable op : Z -> Z -> Z.
  Variable opb : bool -> bool -> bool.
  Hypothesis op_spec : forall x y n, 0 <= n -> Z.testbit (op x y) n = opb (Z.testbit x n) (Z.testbit y n).
  Hypothesis op_byte : forall x y k, 0 <= k -> 0 <= x < 2 ^ k -> 0 <= y < 2 ^ k -> 0 <= op x y < 2 ^ k.
  Lemma op_split x0 x1 y0 y1 k : 0 <= k -> 0 <= x0 < 2 ^ k -> 0 <= y0 < 2 ^ k ->
    op (x0 + x1 * 2 ^ k) (y0 + y1 * 2 ^ k) = op x0 y0 + op x1 y1 * 2 ^ k.
  Proof.
    intros Hk Hx Hy. apply Z.bits_inj'. intros n Hn.
    rewrite op_spec by exact Hn. rewrite !tb_split; auto.
    destruct (Z.ltb_spec n k); rewrite op_spec; try reflexivity; lia.
  Qed.
  Lemma op_le4 x0 x1 x2 x3 y0 y1 y2 y3 :
    0 <= x0 < 256 -> 0 <= x1 < 256 -> 0 <= x2 < 256 -> 0 <= x3 < 256 ->
    0 <= y0 < 256 -> 0 <= y1 < 256 -> 0 <= y2 < 256 -> 0 <= y3 < 256 ->
    op (le4 x0 x1 x2 x3) (le4 y0 y1 y2 y3) = le4 (op x0 y0) (op x1 y1) (op x2 y2) (op x3 y3) /\
    0 <= op x0 y0 < 256 /\ 0 <= op x1 y1 < 256 /\ 0 <= op x2 y2 < 256 /\ 0 <= op x3 y3 < 256.
  Proof.
    intros X0 X1 X2 X3 Y0 Y1 Y2 Y3.
    split; [|change 256 with (2 ^ 8) in *; split; [|split; [|split]]; apply op_byte; lia].
    unfold le4, B16.
    replace (x0 + x1 * 256 + 65536 * (x2 + x3 * 256)) with ((x0 + x1 * 2 ^ 8) + (x2 + x3 * 2 ^ 8) * 2 ^ 16) by ring.
    replace (y0 + y1 * 256 + 65536 * (y2 + y3 * 256)) with ((y0 + y1 * 2 ^ 8) + (y2 + y3 * 2 ^ 8) * 2 ^ 16) by ring.
    rewrite (op_split _ _ _ _ 16) by lia. rewrite !op_split by lia. ring.
  Qed.
End Bits.
Lemma byte_bound x k : 0 <= k -> 0 <= x -> (forall n, k <= n -> Z.testbit x n = false) -> 0 <= x < 2 ^ k.
Proof.
  intros Hk Hx H. split; [exact Hx|].
  destruct (Z.eq_dec x 0) as [->|Hn]; [apply Z.pow_pos_nonneg; lia|].
  apply Z.log2_lt_pow2; [lia|].
  destruct (Z.lt_ge_cases (Z.log2 x) k) as [Hl|Hl]; [exact Hl|].
  pose proof (Z.bit_log2 x ltac:(lia)) as Hb. rewrite H in Hb by exact Hl. discriminate.
Qed.
Lemma high_bits x k n : 0 <= k -> 0 <= x < 2 ^ k -> k <= n -> Z.testbit x n = false.
Proof.
  intros Hk Hx Hn. rewrite <- (Z.mod_small x (2 ^ k)) by exact Hx. apply Z.mod_pow2_bits_high. lia.
Qed.
Lemma and_le4 x0 x1 x2 x3 y0 y1 y2 y3 :
  0 <= x0 < 256 -> 0 <= x1 < 256 -> 0 <= x2 < 256 -> 0 <= x3 < 256 ->
  0 <= y0 < 256 -> 0 <= y1 < 256 -> 0 <= y2 < 256 -> 0 <= y3 < 256 ->
  Z.land (le4 x0 x1 x2 x3) (le4 y0 y1 y2 y3) = le4 (Z.land x0 y0) (Z.land x1 y1) (Z.land x2 y2) (Z.land x3 y3) /\
  0 <= Z.land x0 y0 < 256 /\ 0 <= Z.land x1 y1 < 256 /\ 0 <= Z.land x2 y2 < 256 /\ 0 <= Z.land x3 y3 < 256.
Proof.
  apply (op_le4 Z.land andb).
  - intros. apply Z.land_spec.
  - intros x y k Hk Hx Hy. apply byte_bound; [exact Hk|apply Z.land_nonneg; lia|].
    intros n Hn. rewrite Z.land_spec, (high_bits x k n Hk Hx Hn). reflexivity.
Qed.
Lemma or_le4 x0 x1 x2 x3 y0 y1 y2 y3 :
  0 <= x0 < 256 -> 0 <= x1 < 256 -> 0 <= x2 < 256 -> 0 <= x3 < 256 ->
  0 <= y0 < 256 -> 0 <= y1 < 256 -> 0 <= y2 < 256 -> 0 <= y3 < 256 ->
  Z.lor (le4 x0 x1 x2 x3) (le4 y0 y1 y2 y3) = le4 (Z.lor x0 y0) (Z.lor x1 y1) (Z.lor x2 y2) (Z.lor x3 y3) /\
  0 <= Z.lor x0 y0 < 256 /\ 0 <= Z.lor x1 y1 < 256 /\ 0 <= Z.lor x2 y2 < 256 /\ 0 <= Z.lor x3 y3 < 256.
Proof.
  apply (op_le4 Z.lor orb).
  - intros. apply Z.lor_spec.
  - intros x y k Hk Hx Hy. apply byte_bound; [exact Hk|apply Z.lor_nonneg; lia|].
    intros n Hn. rewrite Z.lor_spec, (high_bits x k n Hk Hx Hn), (high_bits y k n Hk Hy Hn). reflexivity.
Qed.
Lemma xor_le4 x0 x1 x2 x3 y0 y1 y2 y3 :
  0 <= x0 < 256 -> 0 <= x1 < 256 -> 0 <= x2 < 256 -> 0 <= x3 < 256 ->
  0 <= y0 < 256 -> 0 <= y1 < 256 -> 0 <= y2 < 256 -> 0 <= y3 < 256 ->
  Z.lxor (le4 x0 x1 x2 x3) (le4 y0 y1 y2 y3) = le4 (Z.lxor x0 y0) (Z.lxor x1 y1) (Z.lxor x2 y2) (Z.lxor x3 y3) /\
  0 <= Z.lxor x0 y0 < 256 /\ 0 <= Z.lxor x1 y1 < 256 /\ 0 <= Z.lxor x2 y2 < 256 /\ 0 <= Z.lxor x3 y3 < 256.
Proof.
  apply (op_le4 Z.lxor xorb).
  - intros. apply Z.lxor_spec.
  - intros x y k Hk Hx Hy. apply byte_bound; [exact Hk|apply Z.lxor_nonneg; lia|].
    intros n Hn. rewrite Z.lxor_spec, (high_bits x k n Hk Hx Hn), (high_bits y k n Hk Hy Hn). reflexivity.
Qed.
