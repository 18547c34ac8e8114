(** All instructions together, and the padding rows. *)
From Coq Require Import ZArith Bool List Lia Permutation.
From Verif Require Import M31 M31Facts Instr InstrFacts Isa Machine Air AirOpcodes AirSpec AirFacts AirCheck Adapter Trace TraceSpec TraceFacts
  TraceSteps1 TraceSteps2 TraceSteps3 TraceSteps4 TraceSteps5.
Import ListNotations.
Open Scope Z_scope.

Lemma all_complete i : provable i = true -> complete i.
Proof.
  destruct i; cbn [provable]; intros H; try discriminate H.
  all: first
    [ apply AssertEqFpImm_complete | apply CallAbsImm_complete | apply JmpAbsImm_complete | apply JmpRelImm_complete
    | apply JnzFpImm_complete | apply Ret_complete | apply StoreImm_complete | apply StoreAddFpFp_complete
    | apply StoreSubFpFp_complete | apply StoreMulFpFp_complete | apply StoreDivFpFp_complete
    | apply StoreAddFpImm_complete | apply StoreMulFpImm_complete | apply StoreDoubleDerefFp_complete
    | apply StoreToDoubleDerefFpImm_complete | apply StoreDoubleDerefFpFp_complete | apply StoreToDoubleDerefFpFp_complete
    | apply StoreFramePointer_complete | apply StoreLeFpImm_complete
    | apply U32StoreImm_complete | apply U32StoreAddFpFp_complete | apply U32StoreAddFpImm_complete
    | apply U32StoreSubFpFp_complete | apply U32StoreLtFpFp_complete | apply U32StoreLtFpImm_complete
    | apply U32StoreMulFpFp_complete | apply U32StoreMulFpImm_complete
    | apply U32StoreAndFpFp_complete | apply U32StoreOrFpFp_complete | apply U32StoreXorFpFp_complete
    | apply U32StoreAndFpImm_complete | apply U32StoreOrFpImm_complete | apply U32StoreXorFpImm_complete
    | apply U32StoreDivRemFpFp_complete | apply U32StoreDivRemFpImm_complete
    | apply Z.eqb_eq in H; subst; apply U32StoreEqFpFp_complete ].
Qed.

(** Padding rows, component by component. *)
Definition tuple_eqb (x y : Z * list Z) : bool :=
  (fst x =? fst y) && if list_eq_dec Z.eq_dec (snd x) (snd y) then true else false.
Definition same_entryb (x y : Air.entry) : bool :=
  rel_eqb (re_rel x) (re_rel y) && (tuple_eqb (norm x) (norm y) || (fst (norm x) =? 0) && (fst (norm y) =? 0)).
Fixpoint all2b {A B} (f : A -> B -> bool) (l : list A) (m : list B) : bool :=
  match l, m with
  | [], [] => true
  | x :: l, y :: m => f x y && all2b f l m
  | _, _ => false
  end.
Lemma all2b_ok {A B} (f : A -> B -> bool) (R : A -> B -> Prop) : (forall x y, f x y = true -> R x y) ->
  forall l m, all2b f l m = true -> Forall2 R l m.
Proof.
  intros Hf. induction l as [|x l IH]; intros [|y m] H; cbn in H; try discriminate H; constructor.
  - apply andb_prop in H. apply Hf, H.
  - apply andb_prop in H. apply IH, H.
Qed.
Definition padb (c : component) : bool :=
  let row := fill c 0 pad_bundle in
  (length row =? n_columns c)%nat && forallb wfb row && satisfiedb (evaluate c row) &&
  forallb (fun e => match re_rel e with Registers | Memory => fst (norm e) =? 0 | _ => true end) (a_ents (evaluate c row)) &&
  all2b (all2b same_entryb) (fractions c 0 pad_bundle) (pairs (a_ents (evaluate c row))).
Lemma padb_all c : padb c = true.
Proof. destruct c; vm_compute; reflexivity. Qed.
Lemma rel_eqb_ok a b : rel_eqb a b = true -> a = b.
Proof. destruct a, b; intros H; reflexivity || discriminate H. Qed.
Lemma same_entryb_ok x y : same_entryb x y = true -> same_entry x y.
Proof.
  unfold same_entryb, same_entry. intros H. apply andb_prop in H. destruct H as [H1 H2]. split; [apply rel_eqb_ok, H1|].
  apply orb_prop in H2. destruct H2 as [H|H]; [left|right].
  - unfold tuple_eqb in H. apply andb_prop in H. destruct H as [A B]. destruct (norm x) as [m v], (norm y) as [n w]. cbn [fst snd] in *.
    apply Z.eqb_eq in A. destruct (list_eq_dec Z.eq_dec v w); [congruence|discriminate B].
  - apply andb_prop in H. destruct H as [A B]. split; apply Z.eqb_eq; assumption.
Qed.
Lemma pad_facts c : let row := fill c 0 pad_bundle in
  length row = n_columns c /\ Forall wf row /\ satisfied (evaluate c row) /\
  (forall r, r = Registers \/ r = Memory -> Forall (fun t => fst t = 0) (tuples r (evaluate c row))) /\
  same_logup c 0 pad_bundle.
Proof.
  intros row. pose proof (padb_all c) as H. unfold padb in H. fold row in H.
  apply andb_prop in H. destruct H as [H H5]. apply andb_prop in H. destruct H as [H H4].
  apply andb_prop in H. destruct H as [H H3]. apply andb_prop in H. destruct H as [H1 H2].
  split; [apply PeanoNat.Nat.eqb_eq, H1|]. split; [apply wfb_all, H2|]. split; [apply satisfiedb_ok, H3|]. split.
  - intros r Hr. apply Forall_forall. intros t Ht. unfold tuples in Ht. apply in_map_iff in Ht. destruct Ht as (e & <- & He).
    apply filter_In in He. destruct He as [He Hre]. apply rel_eqb_ok in Hre. rewrite forallb_forall in H4. specialize (H4 e He).
    destruct Hr as [-> | ->]; rewrite Hre in H4; apply Z.eqb_eq, H4.
  - unfold same_logup. fold row. revert H5. apply all2b_ok. apply all2b_ok. exact same_entryb_ok.
Qed.

(** The destination of a comparison of two operands is taken from the wrong column. *)
Lemma eq_fp_fp_wrong f s a b d e clk p ps : executed f s (U32StoreEqFpFp a b d) e clk p ps -> d <> 0 ->
  ~ Permutation (tuples Memory (evaluate C_u32_store_eq_fp_fp
      (fill C_u32_store_eq_fp_fp 1 (bundle_of f s (U32StoreEqFpFp a b d) e clk p ps))))
    (mem_tuples clk (code_accs f (pc s) (U32StoreEqFpFp a b d) p ++ data_accs f e ps)).
Proof.
  intros H Hd. prep H. shape. columns tr_u32_store_eq_fp_fp. smallfld. eval_row u32_store_eq_fp_fp. intros Hp.
  match type of Hp with Permutation (tuples Memory ?A) (mem_tuples _ (?c :: ?r)) =>
    assert (Hin : In (1, [pc0; clk; 24; a; b; d]) (tuples Memory A)) by
      (eapply Permutation_in; [apply Permutation_sym; exact Hp|]; right; left; reflexivity);
    clear Hp
  end.
  unfold tuples in Hin. cbn [a_ents filter re_rel rel_eqb] in Hin. apply in_map_iff in Hin. destruct Hin as (x & Ex & Hx).
  assert (Hd' : nth 5 (snd (norm x)) 0 = d) by (rewrite Ex; reflexivity). clear Ex. apply Hd. rewrite <- Hd'.
  repeat (destruct Hx as [<-|Hx]; [reflexivity|]). destruct Hx.
Qed.
(** The prover and the constraints disagree about the next program counter of a comparison
    with an immediate. *)
Lemma eq_fp_imm_wrong f s a lo hi d e clk p ps : executed f s (U32StoreEqFpImm a lo hi d) e clk p ps ->
  ~ same_logup C_u32_store_eq_fp_imm 1 (bundle_of f s (U32StoreEqFpImm a lo hi d) e clk p ps).
Proof.
  intros H. unfold same_logup, fractions. prep H. shape. columns tr_u32_store_eq_fp_imm. smallfld. eval_row u32_store_eq_fp_imm. intros Hs.
  cbn [pairs] in Hs. inversion Hs as [|x0 y0 l0 m0 Hs1 _ E1 E2]. clear Hs E1 E2.
  inversion Hs1 as [|x1 y1 l1 m1 _ Hs2 E3 E4]. clear Hs1. inversion Hs2 as [|x2 y2 l2 m2 Hs3 _ E5 E6]. clear Hs2.
  destruct Hs3 as [_ [Hs3|[Hs3 _]]]; [|discriminate Hs3]. cbn [norm re_mult re_vals re_rel width pad map] in Hs3.
  injection Hs3 as E. clear - E.
  assert (K : (pc0 + 1 + 1 - (pc0 + 1)) mod P = 0) by (rewrite Zminus_mod, E, Z.sub_diag; reflexivity).
  replace (pc0 + 1 + 1 - (pc0 + 1)) with 1 in K by ring. discriminate K.
Qed.
