(** Completeness of the rows of the control and field-element instructions. *)
From Coq Require Import ZArith Bool List Lia Permutation Setoid Morphisms.
From Verif Require Import M31 M31Facts Instr InstrFacts Isa Machine Air AirOpcodes AirSpec AirFacts Adapter Trace TraceSpec TraceFacts.
Import ListNotations.
Open Scope Z_scope.

Lemma StoreImm_complete a b : complete (StoreImm a b).
Proof. start tr_store_imm store_imm. Qed.
Lemma StoreFramePointer_complete a b : complete (StoreFramePointer a b).
Proof. start tr_store_frame_pointer store_frame_pointer. Qed.
Lemma CallAbsImm_complete a b : complete (CallAbsImm a b).
Proof. start tr_call_abs_imm call_abs_imm. Qed.
Lemma JmpAbsImm_complete a : complete (JmpAbsImm a).
Proof. start tr_jmp_imm jmp_imm. Qed.
Lemma JmpRelImm_complete a : complete (JmpRelImm a).
Proof. start tr_jmp_imm jmp_imm. Qed.
Lemma perm6 {A} (a b c d e f : A) : Permutation [a; b; c; d; e; f] [a; b; e; f; c; d].
Proof. apply perm_skip, perm_skip. apply (Permutation_app_comm [c; d] [e; f]). Qed.
Lemma Ret_complete : complete Ret.
Proof.
  start0 tr_ret.
  split; [split; [reflexivity|wf_all|reflexivity|reflexivity|reflexivity
    |eval_row ret; split; cbn [a_cons a_ents]; all_in; try look1; try modz
    |eval_row ret; tuples_go|eval_row ret]|eval_row ret; same_go].
  cbv beta iota zeta delta [tuples mem_tuples reg_tuples a_ents filter re_rel rel_eqb map norm re_mult
    re_vals width pad flat_map app qlist ac_addr ac_prev ac_old ac_new pc fp q0 q1 q2 q3].
  etransitivity; [apply perm6|]. apply perm_eq.
  repeat (apply (f_equal2 (@cons _)) || apply (f_equal2 (@pair _ _))); try reflexivity; smallmod; try reflexivity; try modz.
Qed.
Lemma AssertEqFpImm_complete a b : complete (AssertEqFpImm a b).
Proof. start tr_assert_eq_fp_imm assert_eq_fp_imm. subst. rewrite Z.sub_diag. reflexivity. Qed.
Lemma JnzFpImm_complete a b : complete (JnzFpImm a b).
Proof.
  start0 tr_jnz_fp_imm. destruct (Z.eqb_spec v 0) as [E|E].
  - subst v. start1 jnz_fp_imm.
  - start1 jnz_fp_imm.
    assert (Hv : v mod P <> 0) by (rewrite wf_mod; assumption).
    apply (eqm_zero _ (1 * (1 - 1))); [|reflexivity].
    apply eqm_P_mul; [reflexivity|]. apply eqm_P_sub; [reflexivity|].
    unfold fld. rewrite eqm_mod. apply inv0_one, Hv.
Qed.
Lemma StoreAddFpFp_complete a b d : complete (StoreAddFpFp a b d).
Proof. start tr_store_fp_fp store_fp_fp; invs. Qed.
Lemma StoreSubFpFp_complete a b d : complete (StoreSubFpFp a b d).
Proof. start tr_store_fp_fp store_fp_fp; invs. Qed.
Lemma StoreMulFpFp_complete a b d : complete (StoreMulFpFp a b d).
Proof. start tr_store_fp_fp store_fp_fp; invs. Qed.
Lemma StoreDivFpFp_complete a b d : complete (StoreDivFpFp a b d).
Proof.
  start tr_store_fp_fp store_fp_fp; try invs.
  unfold inv0. smallfld.
  match goal with |- context[?x =? 0] => destruct (Z.eqb_spec x 0); [contradiction|] end. modz.
Qed.
Lemma StoreAddFpImm_complete a b d : complete (StoreAddFpImm a b d).
Proof. start tr_store_fp_imm store_fp_imm; invs. Qed.
Lemma StoreMulFpImm_complete a b d : complete (StoreMulFpImm a b d).
Proof. start tr_store_fp_imm store_fp_imm; invs. Qed.
(** The opcode selector of the double dereferences. *)
Lemma sel_inv k : k mod P <> 0 -> exists i, minv k = i /\ eqm P (k * i) 1.
Proof. intros H. exists (minv k). split; [reflexivity|]. unfold eqm. rewrite (minv_spec k H). reflexivity. Qed.
Ltac selector k :=
  let i := fresh "i" in let Hi := fresh "Hi" in let E := fresh "Esel" in
  destruct (sel_inv k) as (i & E & Hi); [discriminate|].
Ltac sel_done := match goal with H : eqm P (_ * _) 1 |- _ =>
  first [apply eqm_wf; [unfold fld; rewrite ?eqm_mod, H; apply eqm_ring; ring|apply mod_wf]
        |apply (eqm_zero _ 0); [rewrite H; apply eqm_ring; ring|reflexivity]] end.
Lemma StoreDoubleDerefFp_complete a b d : complete (StoreDoubleDerefFp a b d).
Proof. selector (44 - 8). start0 tr_double_deref_fp_imm. start1 double_deref_fp_imm. Qed.
Lemma StoreToDoubleDerefFpImm_complete a b d : complete (StoreToDoubleDerefFpImm a b d).
Proof. selector (44 - 8). start0 tr_double_deref_fp_imm. start1 double_deref_fp_imm; sel_done. Qed.
Lemma StoreDoubleDerefFpFp_complete a b d : complete (StoreDoubleDerefFpFp a b d).
Proof. selector (45 - 42). start0 tr_double_deref_fp_fp. start1 double_deref_fp_fp. Qed.
Lemma StoreToDoubleDerefFpFp_complete a b d : complete (StoreToDoubleDerefFpFp a b d).
Proof. selector (45 - 42). start0 tr_double_deref_fp_fp. start1 double_deref_fp_fp; sel_done. Qed.

(** The three arcs 0..x, x..y, y..P-1, sorted. *)
Lemma sort3_arcs x y z : 0 <= x -> 0 <= y -> 0 <= z -> x + y + z = P - 1 ->
  exists s l k ts tl t, sort3 (x, 0) (y, 1) (z, 2) = (((s, ts), (l, tl)), (k, t)) /\
    0 <= s < 715827883 /\ 0 <= l < 1073741824 /\
    (t = 2 /\ s + l = x + y /\ s * l = x * y \/ t = 1 /\ s + l = x + z /\ s * l = x * z \/ t = 0 /\ s + l = y + z /\ s * l = y * z).
Proof.
  intros Hx Hy Hz Hs. unfold P in Hs. unfold sort3, sort2. cbn [fst snd].
  repeat match goal with |- context[?a <? ?b] => destruct (Z.ltb_spec a b); cbn [fst snd] end;
  do 6 eexists; (split; [reflexivity|]); (split; [lia|]); (split; [lia|]);
  first [left; split; [reflexivity|]; split; ring|right; left; split; [reflexivity|]; split; ring|right; right; split; [reflexivity|]; split; ring].
Qed.
Lemma wf_small x : 0 <= x < 65536 -> wf x.
Proof. unfold wf, P. lia. Qed.
Lemma short_cols s : 0 <= s < 715827883 ->
  0 <= s mod PRIME_OVER_3_HIGH < 65536 /\ 0 <= s / PRIME_OVER_3_HIGH < 65536 /\
  s mod PRIME_OVER_3_HIGH + s / PRIME_OVER_3_HIGH * 10923 = s.
Proof. unfold PRIME_OVER_3_HIGH. lia. Qed.
Lemma long_cols s : 0 <= s < 1073741824 ->
  0 <= s mod PRIME_OVER_2_HIGH < 65536 /\ 0 <= s / PRIME_OVER_2_HIGH < 65536 /\
  s mod PRIME_OVER_2_HIGH + s / PRIME_OVER_2_HIGH * 16384 = s.
Proof. unfold PRIME_OVER_2_HIGH. lia. Qed.
Lemma mult_P x k : x = k * P -> x mod P = 0.
Proof. intros ->. apply Z_mod_mult. Qed.
Lemma StoreLeFpImm_complete a b d : complete (StoreLeFpImm a b d).
Proof.
  start0 tr_store_le_fp_imm.
  assert (Hb : 0 <= b < P) by assumption. assert (Hv : 0 <= v < P) by assumption.
  destruct (Z.leb_spec v b); smallfld.
  - rewrite Z.max_r by lia.
    destruct (sort3_arcs v (b - v) (P - 1 - b)) as (s & l & k & ts & tl & t & -> & Hs & Hl & Ht); [lia..|].
    cbn [fst snd]. destruct (short_cols s Hs) as (Hs0 & Hs1 & Es). destruct (long_cols l Hl) as (Hl0 & Hl1 & El).
    set (s0 := s mod PRIME_OVER_3_HIGH) in *. set (s1 := s / PRIME_OVER_3_HIGH) in *.
    set (l0 := l mod PRIME_OVER_2_HIGH) in *. set (l1 := l / PRIME_OVER_2_HIGH) in *.
    clearbody s0 s1 l0 l1. clear Hs Hl. subst s l.
    assert (wf s0) by (apply wf_small; assumption). assert (wf s1) by (apply wf_small; assumption).
    assert (wf l0) by (apply wf_small; assumption). assert (wf l1) by (apply wf_small; assumption).
    smallfld. destruct Ht as [(-> & Hsum & Hprod)|[(-> & Hsum & Hprod)|(-> & Hsum & Hprod)]]; cbn [Z.eqb Pos.eqb];
    smallfld; start1 store_le_fp_imm; rewrite ?(wf_mod s0), ?(wf_mod s1), ?(wf_mod l0), ?(wf_mod l1) by assumption; try assumption.
    all: first [rewrite Hprod|rewrite Hsum].
    + apply (mult_P _ 0). ring.
    + apply (mult_P _ 0). ring.
    + apply (mult_P _ 1). ring.
    + apply (mult_P _ v). ring.
    + apply (mult_P _ 1). ring.
    + apply (mult_P _ (b - v)). ring.
  - rewrite Z.max_r by lia.
    destruct (sort3_arcs b (v - b) (P - 1 - v)) as (s & l & k & ts & tl & t & -> & Hs & Hl & Ht); [lia..|].
    cbn [fst snd]. destruct (short_cols s Hs) as (Hs0 & Hs1 & Es). destruct (long_cols l Hl) as (Hl0 & Hl1 & El).
    set (s0 := s mod PRIME_OVER_3_HIGH) in *. set (s1 := s / PRIME_OVER_3_HIGH) in *.
    set (l0 := l mod PRIME_OVER_2_HIGH) in *. set (l1 := l / PRIME_OVER_2_HIGH) in *.
    clearbody s0 s1 l0 l1. clear Hs Hl. subst s l.
    assert (wf s0) by (apply wf_small; assumption). assert (wf s1) by (apply wf_small; assumption).
    assert (wf l0) by (apply wf_small; assumption). assert (wf l1) by (apply wf_small; assumption).
    smallfld. destruct Ht as [(-> & Hsum & Hprod)|[(-> & Hsum & Hprod)|(-> & Hsum & Hprod)]]; cbn [Z.eqb Pos.eqb];
    smallfld; start1 store_le_fp_imm; rewrite ?(wf_mod s0), ?(wf_mod s1), ?(wf_mod l0), ?(wf_mod l1) by assumption; try assumption.
    all: first [rewrite Hprod|rewrite Hsum].
    + apply (mult_P _ 0). ring.
    + apply (mult_P _ 0). ring.
    + apply (mult_P _ 1). ring.
    + apply (mult_P _ b). ring.
    + apply (mult_P _ 1). ring.
    + apply (mult_P _ (v - b)). ring.
Qed.
