(** Lemmas and tactics for the completeness of the rows. *)
From Coq Require Import ZArith Bool List Lia Permutation Setoid Morphisms.
From Verif Require Import M31 M31Facts Instr InstrFacts Isa Machine Air AirOpcodes AirSpec AirFacts Adapter Trace TraceSpec.
Import ListNotations.
Open Scope Z_scope.

Lemma fld_wf x : wf x -> fld x = x.
Proof. intros H. unfold fld. apply wf_mod, H. Qed.
Lemma fld_mod x : fld (x mod P) = x mod P.
Proof. apply fld_wf, mod_wf. Qed.
Lemma fld_is_wf x : wf (fld x).
Proof. apply mod_wf. Qed.

(** Code words. *)
Lemma nth_canon (enc : list Z) k j : nth j (enc ++ repeat 0 k) 0 = nth j enc 0.
Proof.
  destruct (Nat.lt_ge_cases j (length enc)) as [H|H].
  - apply app_nth1, H.
  - rewrite app_nth2 by exact H. rewrite (nth_overflow enc) by exact H.
    generalize (j - length enc)%nat as n. induction k; intros [|n]; cbn; auto.
Qed.
Lemma canonical_one f a i : size_m31 i <=? 4 = true -> canonical f a i ->
  f a = Q (nth 0 (encode i) 0) (nth 1 (encode i) 0) (nth 2 (encode i) 0) (nth 3 (encode i) 0).
Proof.
  intros Hs [k H]. unfold code_addrs in H. rewrite Hs in H. cbn [flat_map] in H. rewrite app_nil_r in H.
  rewrite <- !(nth_canon (encode i) k), <- H. destruct (f a). reflexivity.
Qed.
Lemma canonical_two f a i : size_m31 i <=? 4 = false -> canonical f a i ->
  f a = Q (nth 0 (encode i) 0) (nth 1 (encode i) 0) (nth 2 (encode i) 0) (nth 3 (encode i) 0) /\
  f ((a + 1) mod P) = Q (nth 4 (encode i) 0) (nth 5 (encode i) 0) (nth 6 (encode i) 0) (nth 7 (encode i) 0).
Proof.
  intros Hs [k H]. unfold code_addrs in H. rewrite Hs in H. cbn [flat_map] in H. rewrite app_nil_r in H.
  rewrite <- !(nth_canon (encode i) k), <- H. destruct (f a), (f ((a + 1) mod P)). split; reflexivity.
Qed.

Lemma in_cons2 {A} (R : A -> Prop) x l : (forall a, In a (x :: l) -> R a) -> R x /\ (forall a, In a l -> R a).
Proof. intros H. split; [apply H; left; reflexivity|intros a Ha; apply H; right; exact Ha]. Qed.

(** Range checks of clocks. *)
Lemma rc20_ok clk p : 0 < clk < P -> fresh_clock clk p -> 0 <= (clk - p - 1) mod P < 1048576.
Proof. intros H [H1 H2]. rewrite Z.mod_small; unfold P in *; lia. Qed.
Lemma fresh_wf clk p : 0 < clk < P -> fresh_clock clk p -> wf p.
Proof. intros H [H1 H2]. unfold wf. lia. Qed.
Lemma clk_wf clk : 0 < clk < P -> wf clk.
Proof. unfold wf. lia. Qed.

(** Congruence modulo P. *)
Lemma eq_eqm a b : eqm P a b -> a mod P = b mod P.
Proof. exact (fun H => H). Qed.
Lemma eqm_zero a b : eqm P a b -> b mod P = 0 -> a mod P = 0.
Proof. unfold eqm. congruence. Qed.
Lemma eqm_wf a b : eqm P a b -> wf b -> a mod P = b.
Proof. unfold eqm. intros ->. apply wf_mod. Qed.
Lemma eqm_mod a : eqm P (a mod P) a.
Proof. apply Zmod_eqm. Qed.
Lemma eqm_ring a b : a = b -> eqm P a b.
Proof. intros ->. reflexivity. Qed.
#[global] Instance eqm_P_equiv : Equivalence (eqm P) := eqm_setoid P.
#[global] Instance eqm_P_add : Proper (eqm P ==> eqm P ==> eqm P) Z.add := Zplus_eqm P.
#[global] Instance eqm_P_sub : Proper (eqm P ==> eqm P ==> eqm P) Z.sub := Zminus_eqm P.
#[global] Instance eqm_P_mul : Proper (eqm P ==> eqm P ==> eqm P) Z.mul := Zmult_eqm P.
#[global] Instance eqm_P_opp : Proper (eqm P ==> eqm P) Z.opp := Zopp_eqm P.

(** [E mod P = 0], [a mod P = b mod P] or [a mod P = b] for polynomials of reduced terms. *)
Ltac eqm_go := unfold fld in *; rewrite ?eqm_mod; apply eqm_ring; ring.
Ltac modz :=
  try reflexivity;
  match goal with
  | |- ?e mod P = 0 => apply (eqm_zero e 0); [eqm_go|reflexivity]
  | |- ?a mod P = ?b mod P => apply eq_eqm; eqm_go
  | |- ?a mod P = ?b => apply eqm_wf; [eqm_go|assumption || apply mod_wf || apply fld_is_wf]
  | |- ?b = ?a mod P => symmetry; apply eqm_wf; [eqm_go|assumption || apply mod_wf || apply fld_is_wf]
  end.

(** From [executed] to explicit registers, operands, cells and clocks. *)
Ltac take_eff H :=
  match type of H with
  | (if ?c then _ else _) = Some _ => let E := fresh "Eok" in destruct c eqn:E; try discriminate H; take_eff H
  | Some ?x = Some ?e => assert (e = x) by congruence; clear H; subst e
  end.
Ltac split_bools :=
  repeat match goal with
  | H : _ && _ = true |- _ => apply andb_true_iff in H; destruct H
  | H : (_ <? _) = true |- _ => apply Z.ltb_lt in H
  | H : negb _ = true |- _ => apply negb_true_iff in H
  | H : (_ =? _) = true |- _ => apply Z.eqb_eq in H
  | H : (_ =? _) = false |- _ => apply Z.eqb_neq in H
  end.
Ltac take_felts H :=
  repeat (apply in_cons2 in H; let H1 := fresh "Hcell" in let H2 := fresh "Hwf" in destruct H as [[H1 H2] H];
    match type of H2 with wf (q0 (?f ?a)) =>
      let v := fresh "v" in unfold is_felt in H1; set (v := q0 (f a)) in *; clearbody v end); clear H.
Ltac take_code H :=
  match type of H with canonical ?f ?a ?i =>
    let b := eval cbv in (size_m31 i <=? 4) in
    match b with
    | true => apply canonical_one in H; [|reflexivity]
    | false => apply canonical_two in H; [|reflexivity]; let H' := fresh "Hcode" in destruct H as [H' H]
    end
  end;
  repeat match goal with H : ?f _ = Q (nth _ _ _) _ _ _ |- _ =>
    cbn [encode operands nth opcode] in H; unfold mfrom in H;
    match type of H with context[?k mod P] => change (k mod P) with k in H end end.
Ltac prep H :=
  let Hclk := fresh "Hclk" in let Hpc := fresh "Hpc" in let Hfp := fresh "Hfp" in let Hiw := fresh "Hiw" in
  let Heff := fresh "Heff" in let Hfelt := fresh "Hfelt" in let Hcode := fresh "Hcode" in
  let Hprev := fresh "Hprev" in let Hlen := fresh "Hlen" in
  match type of H with executed ?f ?s ?i ?e ?clk ?p ?ps =>
    destruct s as [pc0 fp0];
    destruct H as [Hclk [Hpc Hfp] Hiw Heff Hfelt Hcode Hprev Hlen]; cbn [pc fp] in *;
    unfold iwf in Hiw; cbn [operands] in Hiw;
    cbv beta iota zeta delta [isa pc fp] in Heff; take_eff Heff; split_bools;
    cbn [reads writes next map fst app length] in *;
    repeat (destruct ps as [|? ps]; [discriminate Hlen|]); (destruct ps; [|discriminate Hlen]); clear Hlen;
    take_code Hcode; take_felts Hfelt; brk
  end;
  match goal with H : 0 < ?clk < P |- _ =>
    pose proof (clk_wf clk H);
    repeat match goal with H' : fresh_clock clk ?p |- _ =>
      lazymatch goal with _ : wf p |- _ => fail | _ => pose proof (fresh_wf clk p H H') end end end.
(** Explicit bundle and accesses. *)
Ltac shape :=
  unfold bundle_of, code_accs, data_accs, fill; try code_red;
  cbn [seen stored map app fst snd reads writes next with_clocks pc fp];
  use_cells; cbn [ac_addr ac_prev ac_old ac_new q0].
Ltac smallfld :=
  repeat match goal with
  | H : wf ?x |- context[fld ?x] => rewrite (fld_wf x H)
  | |- context[fld (?x mod P)] => rewrite (fld_mod x)
  | |- context[fld 0] => change (fld 0) with 0
  | |- context[fld 1] => change (fld 1) with 1
  end.
(** Flags computed from the opcode. *)
Ltac flags :=
  repeat match goal with
  | |- context[opcode ?i] => let v := eval cbv in (opcode i) in change (opcode i) with v
  | |- context[mfrom ?o] => let v := eval cbv in (mfrom o) in change (mfrom o) with v
  | |- context[if ?o =? 11 then 0 else ?o' - 0] =>
    let x := constr:(if o =? 11 then 0 else o' - 0) in let v := eval cbv in x in change x with v
  | |- context[Z.max 0 (?o - 4)] => let x := constr:(Z.max 0 (o - 4)) in let v := eval cbv in x in change x with v
  | |- context[unless_ret ?o ?c] => let x := constr:(unless_ret o c) in let v := eval cbv in x in change x with v
  | |- context[imm_of ?i] => let x := constr:(imm_of i) in let v := eval cbn [imm_of] in x in change x with v
  end;
  repeat match goal with
  | |- context[Zpos ?n / 2] => let v := eval cbv in (Zpos n / 2) in change (Zpos n / 2) with v
  | |- context[Zpos ?n mod 2] => let v := eval cbv in (Zpos n mod 2) in change (Zpos n mod 2) with v
  | |- context[0 / 2] => change (0 / 2) with 0
  | |- context[0 mod 2] => change (0 mod 2) with 0
  end;
  repeat match goal with
  | |- context[fld (Zpos ?n)] => let v := eval cbv in (fld (Zpos n)) in change (fld (Zpos n)) with v
  end.
Lemma inv0_left v : (v * (fld (inv0 v) * v - 1)) mod P = 0.
Proof.
  unfold inv0. destruct (Z.eqb_spec (fld v) 0) as [E|E].
  - apply (eqm_zero _ (0 * (fld 0 * v - 1))); [|reflexivity]. apply eqm_P_mul; [exact E|reflexivity].
  - apply (eqm_zero _ (v * (1 - 1))); [|rewrite Z.mul_0_r; reflexivity].
    apply eqm_P_mul; [reflexivity|]. apply eqm_P_sub; [|reflexivity].
    unfold fld. rewrite !eqm_mod. unfold eqm. rewrite Z.mul_comm.
    unfold fld in E. rewrite <- (Zmult_mod_idemp_l v). rewrite minv_spec; [reflexivity|]. rewrite Z.mod_mod; [exact E|discriminate].
Qed.
Lemma inv0_right v : (fld (inv0 v) * (fld (inv0 v) * v - 1)) mod P = 0.
Proof.
  unfold inv0. destruct (Z.eqb_spec (fld v) 0) as [E|E]; [reflexivity|].
  apply (eqm_zero _ (minv (fld v) * (1 - 1))); [|rewrite Z.mul_0_r; reflexivity].
  apply eqm_P_mul; [unfold fld; apply eqm_mod|]. apply eqm_P_sub; [|reflexivity].
  unfold fld. rewrite !eqm_mod. unfold eqm. rewrite Z.mul_comm.
  unfold fld in E. rewrite <- (Zmult_mod_idemp_l v). rewrite minv_spec; [reflexivity|]. rewrite Z.mod_mod; [exact E|discriminate].
Qed.
Ltac named_inv := repeat match goal with E : minv ?k = ?i |- context[minv ?k] => rewrite !E end.
Ltac columns tr :=
  cbv beta iota zeta delta [write_row tr t_cols t_logup]; named_inv; unfold value, prev_value, prev_clock, address, Trace.access, iv;
  cbn [b_st b_clock b_instr b_prev_clock b_acc nth d_addr d_prev d_prev_clock d_val M31.pc M31.fp encode operands map]; flags.
Ltac look1 :=
  match goal with
  | |- lookup_ok (RE Registers _ _) => right; exact Logic.I
  | |- lookup_ok (RE Memory _ _) => right; exact Logic.I
  | |- lookup_ok (RE RC20 _ [?c - ?p - 1]) => right; cbn [norm snd re_rel re_vals width pad map in_table]; apply rc20_ok; assumption
  | |- lookup_ok (RE _ _ _) => right; cbn [norm snd re_rel re_vals width pad map in_table]
  end.
Ltac all_in := repeat (apply Forall_cons; [|]); try apply Forall_nil.
Ltac wf_all := repeat (apply Forall_cons; [first [assumption|apply mod_wf|apply fld_is_wf|exact wf0|exact wf1|idtac]|]); try apply Forall_nil.
Ltac tuples_go :=
  cbv beta iota zeta delta [tuples mem_tuples reg_tuples a_ents filter re_rel rel_eqb map norm re_mult
    re_vals width pad flat_map app qlist ac_addr ac_prev ac_old ac_new pc fp q0 q1 q2 q3];
  repeat (apply (f_equal2 (@cons _)) || apply (f_equal2 (@pair _ _)));
  try reflexivity; smallmod; try reflexivity; try modz.
(** The fractions are the entries of the row. *)
Ltac same_go :=
  cbn [pairs]; repeat (apply Forall2_cons; [|]); try apply Forall2_nil;
  (split; [reflexivity|left]);
  cbv beta iota zeta delta [re_rel norm re_mult re_vals width pad map];
  repeat (apply (f_equal2 (@cons _)) || apply (f_equal2 (@pair _ _)));
  try reflexivity; try modz.
Ltac eval_row c := cbn [evaluate on_row]; cbv beta iota zeta delta [c]; named_inv; cbn [a_cons a_ents].

Definition complete (i : instr) : Prop :=
  forall f s e clk p ps c, executed f s i e clk p ps -> component_of i = Some c ->
  let b := bundle_of f s i e clk p ps in
  faithful c (fill c 1 b) s clk (next e) (code_accs f (pc s) i p ++ data_accs f e ps) /\ same_logup c 1 b.
(** [start0]: up to the columns of the row; [start1]: split into the obligations. *)
Ltac start0 tr :=
  intros f s e clk p ps cc H Hc b0; cbn [component_of] in Hc;
  match type of Hc with Some ?x = Some _ => assert (cc = x) by congruence; subst cc; clear Hc end;
  subst b0; prep H; unfold same_logup, fractions; shape; columns tr; smallfld.
Ltac start1 c :=
  split; [split; [reflexivity|wf_all|reflexivity|reflexivity|reflexivity
    |eval_row c; split; cbn [a_cons a_ents]; all_in; try look1; try modz
    |eval_row c; tuples_go|eval_row c; apply perm_eq; tuples_go]|eval_row c; same_go].
Ltac start tr c := start0 tr; start1 c.
Lemma inv0_one v : v mod P <> 0 -> eqm P (v * inv0 v) 1.
Proof.
  intros H. unfold inv0. destruct (Z.eqb_spec (fld v) 0) as [E|E]; [contradiction|].
  unfold fld, eqm in *. rewrite <- (Zmult_mod_idemp_l v). rewrite minv_spec; [reflexivity|]. rewrite Z.mod_mod; [exact E|discriminate].
Qed.
Lemma inv0_zero v : v mod P = 0 -> inv0 v = 0.
Proof. intros H. unfold inv0, fld. rewrite H. reflexivity. Qed.
Ltac invs := first [apply inv0_left|apply inv0_right].
