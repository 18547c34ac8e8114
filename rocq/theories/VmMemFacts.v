(** The two-vector memory refines a flat map. *)
From Coq Require Import ZArith Bool List Lia.
From Verif Require Import M31 M31Facts Instr VmMem.
Import ListNotations.
Open Scope Z_scope.
Ltac Zify.zify_post_hook ::= Z.div_mod_to_equations.

Lemma zlen_nonneg {A} (l : list A) : 0 <= zlen l.
Proof. unfold zlen. lia. Qed.
Lemma zlen_app {A} (l l' : list A) : zlen (l ++ l') = zlen l + zlen l'.
Proof. unfold zlen. rewrite app_length. lia. Qed.
Lemma zlen_cons {A} (x : A) l : zlen (x :: l) = 1 + zlen l.
Proof. unfold zlen. cbn [length]. lia. Qed.

Lemma nset_length {A} (l : list A) i v : length (nset l i v) = length l.
Proof. revert i; induction l as [|h t IH]; intros [|k]; cbn; auto. Qed.

Lemma nth_nset {A} (l : list A) i j v :
  (i < length l)%nat -> nth_error (nset l i v) j = if Nat.eqb j i then Some v else nth_error l j.
Proof.
  revert i j; induction l as [|h t IH]; intros i j H; cbn [length] in H; [lia|].
  destruct i as [|i]; destruct j as [|j]; cbn; auto. apply IH. lia.
Qed.

Lemma zset_length {A} (l : list A) i v : zlen (zset l i v) = zlen l.
Proof. unfold zlen, zset. rewrite nset_length. reflexivity. Qed.

Lemma znth_zset {A} (l : list A) i j v :
  0 <= i < zlen l -> znth (zset l i v) j = if j =? i then Some v else znth l j.
Proof.
  intros H. unfold znth, zset. destruct (Z.ltb_spec j 0).
  - destruct (Z.eqb_spec j i); [lia|reflexivity].
  - rewrite nth_nset by (unfold zlen in H; lia).
    destruct (Z.eqb_spec j i); destruct (Nat.eqb_spec (Z.to_nat j) (Z.to_nat i)); try lia; reflexivity.
Qed.

Lemma znth_in {A} (l : list A) i : 0 <= i < zlen l -> exists v, znth l i = Some v.
Proof.
  intros H. unfold znth. destruct (Z.ltb_spec i 0); [lia|].
  destruct (nth_error l (Z.to_nat i)) eqn:E; [eauto|].
  apply nth_error_None in E. unfold zlen in H. lia.
Qed.
Lemma znth_out {A} (l : list A) i : i < 0 \/ zlen l <= i -> znth l i = None.
Proof.
  intros H. unfold znth. destruct (Z.ltb_spec i 0); [reflexivity|].
  apply nth_error_None. unfold zlen in H. lia.
Qed.
Lemma znth_some {A} (l : list A) i v : znth l i = Some v -> 0 <= i < zlen l.
Proof.
  intros H. destruct (Z_lt_le_dec i 0); [rewrite znth_out in H; [discriminate|lia]|].
  destruct (Z_lt_le_dec i (zlen l)); [lia|]. rewrite znth_out in H; [discriminate|lia].
Qed.
Lemma znth_app1 {A} (l l' : list A) i : i < zlen l -> znth (l ++ l') i = znth l i.
Proof.
  intros H. unfold znth. destruct (Z.ltb_spec i 0); [reflexivity|].
  apply nth_error_app1. unfold zlen in H. lia.
Qed.
Lemma znth_app2 {A} (l l' : list A) i : zlen l <= i -> znth (l ++ l') i = znth l' (i - zlen l).
Proof.
  intros H. assert (Hn := zlen_nonneg l). unfold znth. destruct (Z.ltb_spec i 0); [lia|].
  destruct (Z.ltb_spec (i - zlen l) 0); [lia|].
  rewrite nth_error_app2 by (unfold zlen in *; lia). f_equal. unfold zlen. lia.
Qed.
Lemma nth_error_repeat_lt {A} (x : A) n k : (k < n)%nat -> nth_error (repeat x n) k = Some x.
Proof. revert k; induction n as [|n IH]; intros [|k] H; cbn; try lia; auto. apply IH. lia. Qed.
Lemma znth_repeat {A} (x : A) n k : 0 <= k < Z.of_nat n -> znth (repeat x n) k = Some x.
Proof.
  intros H. unfold znth. destruct (Z.ltb_spec k 0); [lia|]. apply nth_error_repeat_lt. lia.
Qed.

Lemma zgrow_length l n : zlen l <= n -> zlen (zgrow l n) = n.
Proof. intros H. unfold zgrow. rewrite zlen_app. unfold zlen at 2. rewrite repeat_length. lia. Qed.
Lemma znth_zgrow l n i :
  zlen l <= n -> 0 <= i < n ->
  znth (zgrow l n) i = Some (match znth l i with Some v => v | None => qzero end).
Proof.
  intros Hn Hi. unfold zgrow. destruct (Z_lt_le_dec i (zlen l)).
  - rewrite znth_app1 by lia. destruct (znth_in l i) as [v Hv]; [lia|]. rewrite Hv. reflexivity.
  - rewrite znth_app2 by lia. rewrite (znth_out l i) by lia. apply znth_repeat. lia.
Qed.

(** The two vectors never meet: they cover disjoint address ranges. *)
Definition minv_ok (m : mem) : Prop := zlen (locals m) + zlen (heap m) <= MAX_ADDRESS + 1.

Lemma valid_addr_spec a : valid_addr a = true <-> a <= MAX_ADDRESS.
Proof. unfold valid_addr. destruct (Z.ltb_spec MAX_ADDRESS a); cbn; split; intros; lia || discriminate. Qed.
Lemma valid_addr_false a : valid_addr a = false <-> MAX_ADDRESS < a.
Proof. unfold valid_addr. destruct (Z.ltb_spec MAX_ADDRESS a); cbn; split; intros; lia || discriminate. Qed.

Lemma raw_log m a v : raw (log m a v) = raw m.
Proof. reflexivity. Qed.

(** Cells outside the address space read as zero (and are never stored). *)
Lemma raw_out m a : minv_ok m -> a < 0 \/ MAX_ADDRESS < a -> raw m a = qzero.
Proof.
  unfold minv_ok. intros Hi H. unfold raw.
  assert (H1 := zlen_nonneg (locals m)). assert (H2 := zlen_nonneg (heap m)).
  rewrite znth_out by lia. rewrite znth_out by lia. reflexivity.
Qed.

Theorem insert_no_trace_spec m a v :
  minv_ok m -> 0 <= a <= MAX_ADDRESS ->
  exists m', insert_no_trace a v m = (m', Ok tt) /\ minv_ok m' /\ mtrace m' = mtrace m /\
    zlen (locals m) <= zlen (locals m') /\
    (forall b, raw m' b = if b =? a then v else raw m b).
Proof.
  intros Hinv Ha. unfold insert_no_trace.
  assert (Hv : valid_addr a = true) by (apply valid_addr_spec; lia).
  rewrite Hv. cbn [negb]. unfold minv_ok in *.
  assert (HL := zlen_nonneg (locals m)). assert (HH := zlen_nonneg (heap m)).
  destruct (Z.ltb_spec a (zlen (locals m))) as [H1|H1];
  [|destruct (Z.ltb_spec (MAX_ADDRESS - a) (zlen (heap m))) as [H2|H2];
    [|destruct (Z.ltb_spec (a - zlen (locals m)) (MAX_ADDRESS - a - zlen (heap m))) as [H3|H3]]];
  eexists; (split; [reflexivity|]); cbn [locals heap mtrace];
  rewrite ?zset_length; rewrite ?zgrow_length by lia;
  (split; [lia|]); (split; [reflexivity|]); (split; [lia|]); intros b; unfold raw; cbn [locals heap].
  - rewrite znth_zset by lia. destruct (Z.eqb_spec b a); reflexivity.
  - destruct (Z.eqb_spec b a) as [->|Hne].
    + rewrite znth_out by lia. rewrite znth_zset by lia. rewrite Z.eqb_refl. reflexivity.
    + destruct (znth (locals m) b); [reflexivity|]. rewrite znth_zset by lia.
      destruct (Z.eqb_spec (MAX_ADDRESS - b) (MAX_ADDRESS - a)); [lia|reflexivity].
  - rewrite znth_zset by (rewrite zgrow_length by lia; lia).
    destruct (Z.eqb_spec b a) as [->|Hne]; [reflexivity|].
    destruct (Z_lt_le_dec b 0).
    { rewrite (znth_out (zgrow _ _) b), (znth_out (locals m) b) by (rewrite ?zgrow_length by lia; lia).
      reflexivity. }
    destruct (Z_lt_le_dec b (a + 1)).
    + rewrite znth_zgrow by lia. destruct (znth (locals m) b) eqn:E; [reflexivity|].
      rewrite znth_out by lia. reflexivity.
    + rewrite (znth_out (zgrow _ _) b), (znth_out (locals m) b) by (rewrite ?zgrow_length by lia; lia).
      reflexivity.
  - destruct (Z.eqb_spec b a) as [->|Hne].
    + rewrite znth_out by lia. rewrite znth_zset by (rewrite zgrow_length by lia; lia).
      rewrite Z.eqb_refl. reflexivity.
    + destruct (znth (locals m) b) eqn:E; [reflexivity|].
      rewrite znth_zset by (rewrite zgrow_length by lia; lia).
      destruct (Z.eqb_spec (MAX_ADDRESS - b) (MAX_ADDRESS - a)); [lia|].
      destruct (Z_lt_le_dec (MAX_ADDRESS - b) 0).
      { rewrite (znth_out (zgrow _ _)), (znth_out (heap m)) by (rewrite ?zgrow_length by lia; lia).
        reflexivity. }
      destruct (Z_lt_le_dec (MAX_ADDRESS - b) (MAX_ADDRESS - a + 1)).
      * rewrite znth_zgrow by lia. reflexivity.
      * rewrite (znth_out (zgrow _ _)), (znth_out (heap m)) by (rewrite ?zgrow_length by lia; lia).
        reflexivity.
Qed.

Lemma insert_no_trace_bad m a v :
  MAX_ADDRESS < a -> insert_no_trace a v m = (m, Err (EMem (AddressOutOfBounds a))).
Proof. intros H. unfold insert_no_trace. apply valid_addr_false in H. rewrite H. reflexivity. Qed.

Theorem insert_spec m a v :
  minv_ok m -> 0 <= a <= MAX_ADDRESS ->
  exists m', insert a v m = (m', Ok tt) /\ minv_ok m' /\ mtrace m' = mtrace m ++ [En a v] /\
    zlen (locals m) <= zlen (locals m') /\
    (forall b, raw m' b = if b =? a then v else raw m b).
Proof.
  intros Hi Ha. destruct (insert_no_trace_spec m a v Hi Ha) as (m1 & E & Hi1 & Ht & Hl & Hr).
  unfold insert. rewrite E. eexists. split; [reflexivity|]. split; [exact Hi1|].
  split; [cbn; rewrite Ht; reflexivity|]. split; [exact Hl|exact Hr].
Qed.

Lemma insert_bad m a v :
  MAX_ADDRESS < a -> insert a v m = (m, Err (EMem (AddressOutOfBounds a))).
Proof. intros H. unfold insert. rewrite insert_no_trace_bad by exact H. reflexivity. Qed.

(** Felt view of a cell and the condition for reading it. *)
Definition felt (m : mem) (a : Z) : Z := q0 (raw m a).
Definition readable (m : mem) (a : Z) : Prop := a <= MAX_ADDRESS /\ qprojb (raw m a) = true.

Lemma get_data_ok m a : readable m a -> get_data a m = (log m a (raw m a), Ok (felt m a)).
Proof.
  intros [H1 H2]. unfold get_data, get_qm31. apply valid_addr_spec in H1. rewrite H1.
  cbn [negb]. rewrite H2. reflexivity.
Qed.
Lemma get_data_cases m a :
  (readable m a /\ get_data a m = (log m a (raw m a), Ok (felt m a))) \/
  (~ readable m a /\ exists e, get_data a m = (m, Err e)).
Proof.
  destruct (valid_addr a) eqn:E1.
  - destruct (qprojb (raw m a)) eqn:E2.
    + left. assert (readable m a) by (split; [apply valid_addr_spec; exact E1|exact E2]).
      split; [assumption|apply get_data_ok; assumption].
    + right. split; [intros [_ H]; congruence|]. unfold get_data, get_qm31. rewrite E1. cbn [negb].
      rewrite E2. eauto.
  - right. split; [intros [H _]; apply valid_addr_spec in H; congruence|].
    unfold get_data, get_qm31. rewrite E1. cbn [negb]. eauto.
Qed.
Lemma get_data_no_trace_cases m a :
  (readable m a /\ get_data_no_trace a m = (m, Ok (felt m a))) \/
  (~ readable m a /\ exists e, get_data_no_trace a m = (m, Err e)).
Proof.
  destruct (get_data_cases m a) as [[H E]|[H [e E]]].
  - left. split; [exact H|]. unfold get_data_no_trace. unfold get_data in E.
    destruct (get_qm31 m a); [|discriminate]. injection E as _ E2. rewrite E2. reflexivity.
  - right. split; [exact H|]. unfold get_data_no_trace. unfold get_data in E.
    destruct (get_qm31 m a); [discriminate|]. eauto.
Qed.

(** Limb arithmetic. *)
Lemma u32_of_limbs_spec lo hi :
  0 <= lo < 65536 -> 0 <= hi -> u32_of_limbs lo hi = lo + 65536 * hi.
Proof.
  intros Hlo Hhi. unfold u32_of_limbs.
  assert (Hz : Z.land (Z.shiftl hi 16) lo = 0).
  { apply Z.bits_inj'. intros n Hn. rewrite Z.land_spec, Z.bits_0.
    destruct (Z_lt_le_dec n 16).
    - rewrite Z.shiftl_spec_low by lia. reflexivity.
    - assert (Z.testbit lo n = false) as ->; [|apply andb_false_r].
      destruct (Z.eq_dec lo 0) as [->|]; [apply Z.bits_0|].
      apply Z.bits_above_log2; [lia|]. apply Z.log2_lt_pow2; [lia|].
      apply Z.lt_le_trans with (2 ^ 16); [cbn; lia|]. apply Z.pow_le_mono_r; lia. }
  rewrite <- Z.lxor_lor by exact Hz. rewrite <- Z.add_nocarry_lxor by exact Hz.
  rewrite Z.shiftl_mul_pow2 by lia. change (2 ^ 16) with 65536. lia.
Qed.

Lemma land_mask v : Z.land v U32_LIMB_MASK = v mod 65536.
Proof. change U32_LIMB_MASK with (Z.ones 16). rewrite Z.land_ones by lia. reflexivity. Qed.
Lemma shiftr16 v : Z.shiftr v 16 = v / 65536.
Proof. rewrite Z.shiftr_div_pow2 by lia. reflexivity. Qed.

Lemma limbs_ok_spec lo hi : limbs_ok lo hi = true <-> lo < 65536 /\ hi < 65536.
Proof.
  unfold limbs_ok, U32_LIMB_MASK.
  destruct (Z.ltb_spec 65535 lo), (Z.ltb_spec 65535 hi); cbn; split; intros; lia || discriminate.
Qed.
