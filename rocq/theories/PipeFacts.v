(** The pipelines keep what functions do, when the checks pass. *)
From Coq Require Import ZArith Bool String List Arith Lia.
From Verif Require Import M31 Isa Mir MirSem MirPasses MirFacts MirLocalFacts MirFuseFacts MirBranchFacts MirSim MirConst MirConstFacts
  MirDce MirDceFacts MirSsa MirSsaFacts MirSsaMap MirCopy MirCopyFacts MirCse MirCseFacts MirLegalFacts MirPhi MirPhiSeq MirPhiFacts
  SrcFacts MirType MirTypeFacts CgLink CgRun MirSroa SroaSpec SroaWhole SroaCheck PipeLift Pipe PipeCheck Prop_Mir Prop_Const Prop_Copy Prop_Cse Prop_Dce Prop_Phi.
Import ListNotations.
Open Scope nat_scope.

(** ** The checks. *)
Lemma all_instrs_in : forall f c, all_instrs f c = true -> forall b i, In b (f_blocks f) -> In i (b_instrs b) -> c i = true.
Proof.
  intros f c H b i Hb Hi. unfold all_instrs in H. rewrite forallb_forall in H. specialize (H b Hb). rewrite forallb_forall in H. auto.
Qed.
Lemma lit_below_sound : forall m v a, lit_below m v = true -> v = Lit a -> match a with LInt n => (0 <= n < m)%Z | _ => True end.
Proof.
  intros m v a H ->. cbn [lit_below] in H. destruct a; auto. apply andb_true_iff in H. destruct H as [H1 H2].
  apply Z.leb_le in H1. apply Z.ltb_lt in H2. split; assumption.
Qed.
Lemma lits_fit_sound : forall op l r, lits_fit_ok op l r = true -> lits_fit op l r.
Proof.
  intros op l r H. unfold lits_fit_ok in H. apply andb_true_iff in H. destruct H as [H1 H2].
  assert (PB : (P < B32)%Z) by reflexivity.
  assert (K : forall v a, lit_below (if felt_cmp op then P else B32) v = true -> v = Lit a -> u32_lit a /\ (felt_cmp op = true -> felt_lit a)).
  { intros v a Hv E. pose proof (lit_below_sound _ _ _ Hv E) as L. destruct a as [n| |]; cbn [u32_lit felt_lit]; auto.
    destruct (felt_cmp op); split; try lia; intro X; try discriminate X; lia. }
  split; [intros a E; now destruct (K _ _ H1 E)|]. split; [intros a E; now destruct (K _ _ H2 E)|].
  intro F. split; intros a E; [destruct (K _ _ H1 E) | destruct (K _ _ H2 E)]; auto.
Qed.
Lemma binary_lits_sound : forall op d l r, binary_lits_ok (IBinary op d l r) = true -> lits_fit op l r.
Proof. intros op d l r H. exact (lits_fit_sound _ _ _ H). Qed.
Lemma typed_lit_sound : forall t a, typed_lit_ok t (Lit a) = true -> typed_lit t a.
Proof.
  intros t a H. destruct t; cbn [typed_lit_ok] in H; cbn [typed_lit]; auto; pose proof (lit_below_sound _ _ _ H eq_refl) as L; destruct a; auto.
Qed.
Lemma const_ready_sound : forall f, const_ready f = true -> phis_first f /\ lits_in_range f /\ single_results f.
Proof.
  intros f H. unfold const_ready in H. apply andb_true_iff in H. destruct H as [H0 H].
  split; [exact (phis_first_sound f H0)|]. split; intros b i Hb Hi; pose proof (all_instrs_in _ _ H b i Hb Hi) as K; cbv beta in K;
    rewrite !andb_true_iff in K; destruct K as ((K1 & K2) & K3).
  - destruct i; auto.
    + destruct source; auto. exact (typed_lit_sound _ _ K3).
    + exact (lits_fit_sound _ _ _ K1).
    + intros p l Hp. rewrite forallb_forall in K3. exact (typed_lit_sound _ _ (K3 _ Hp)).
  - now apply Nat.leb_le.
Qed.
Lemma rets_apart_sound : forall f, rets_apart f = true -> forall r, In r (f_rets f) -> ~ In r (all_dests f).
Proof.
  intros f H r Hr K. unfold rets_apart in H. rewrite forallb_forall in H. specialize (H r Hr). rewrite forallb_forall in H.
  unfold all_dests in K. apply in_flat_map in K. destruct K as (b & Hb & K). specialize (H b Hb). rewrite forallb_forall in H.
  unfold blk_dests in K. apply in_flat_map in K. destruct K as (i & Hi & K). specialize (H i Hi). apply mem_nat_iff in K. rewrite K in H. discriminate.
Qed.
Lemma copy_ready_sound : forall f, copy_ready f = true -> ssa f /\ phis_first f /\ forall r, In r (f_rets f) -> ~ In r (all_dests f).
Proof.
  intros f H. unfold copy_ready in H. rewrite !andb_true_iff in H. destruct H as ((H1 & H2) & H3).
  split; [exact (ssa_ok_sound f H1)|]. split; [exact (phis_first_sound f H2) | exact (rets_apart_sound f H3)].
Qed.
Lemma types_in : forall sg f, types_ok sg f = true -> forall b i, In b (f_blocks f) -> In i (b_instrs b) -> result_ok sg f i = true.
Proof. intros sg f H b i Hb Hi. unfold types_ok in H. rewrite forallb_forall in H. specialize (H b Hb). rewrite forallb_forall in H. auto. Qed.
Lemma types_keys : forall sg f, types_ok sg f = true -> keys_typed f.
Proof.
  intros sg f H b i d0 Hb Hi Hk Hd. pose proof (types_in _ _ H b i Hb Hi) as K.
  destruct i as [| |op d l r| | | | | | | | | | | | | | | |]; try (discriminate K); try (exfalso; apply Hk; reflexivity);
    cbn in Hd; injection Hd as <-; cbn [result_ok] in K; apply has_ty_eq in K; (eexists; split; [exact K|]); cbn [key_type]; try reflexivity.
  destruct op; reflexivity.
Qed.
Lemma types_arrays : forall sg f, types_ok sg f = true -> no_keyed_arrays f.
Proof. intros sg f H b d es t c Hb Hi. pose proof (types_in _ _ H b _ Hb Hi) as K. discriminate K. Qed.
Lemma fuse_safe_sound : forall op l r, fuse_safe_ok op l r = true -> fuse_safe op l r.
Proof.
  intros op l r H X. unfold fuse_safe_ok in H. rewrite X in H. cbn [negb orb] in H. apply andb_true_iff in H. destruct H as [H1 H2]. split.
  - destruct op; try discriminate H1; auto.
  - intros [A B]. rewrite A, B in H2. discriminate.
Qed.
Lemma fuse_ready_sound : forall f, fuse_ready f = true -> phis_first f /\
  forall b is op c l r x y, In b (f_blocks f) -> b_instrs b = is ++ [IBinary op c l r] ->
     b_term b = TIf (Op c) x y -> fusible op = true -> fuse_safe op l r.
Proof.
  intros f H. unfold fuse_ready in H. apply andb_true_iff in H. destruct H as [H1 H]. split; [exact (phis_first_sound f H1)|].
  intros b is op c l r x y Hb Ei Et Hf. rewrite forallb_forall in H. specialize (H b Hb). rewrite Et, Ei, rev_app_distr in H. cbn [rev app] in H.
  rewrite Nat.eqb_refl, Hf in H. cbn [andb negb orb] in H. exact (fuse_safe_sound _ _ _ H).
Qed.
Lemma oval_eqb_eq : forall a b, oval_eqb a b = true -> a = b.
Proof.
  intros [a|] [b|] H; cbn in H; try discriminate; auto. f_equal. destruct a as [[]| |], b as [[]| |]; cbn in H; try discriminate; auto.
  - apply Z.eqb_eq in H. now subst.
  - apply eqb_prop in H. now subst.
  - apply Nat.eqb_eq in H. now subst.
Qed.
Lemma phis_stable_sound : forall f, phis_stable_ok f = true -> phis_stable f.
Proof.
  intros f H p b blk d t ss p' _ (pb & Ep & Hb) Eb Hi Ei. unfold phis_stable_ok in H. rewrite forallb_forall in H.
  assert (Hp : In p (seq 0 (length (f_blocks f)))). { apply in_seq. split; [lia|]. cbn. apply nth_error_Some. congruence. }
  specialize (H p Hp). rewrite Ei in H. rewrite forallb_forall in H.
  assert (Ht : In b (targets_of f p)) by (unfold targets_of; rewrite Ep; exact Hb).
  specialize (H b Ht). rewrite Eb in H. rewrite forallb_forall in H. exact (oval_eqb_eq _ _ (H _ Hi)).
Qed.
Lemma dce_ready_sound : forall f, dce_ready f = true -> phis_first f /\ phis_stable f /\ no_arrays f.
Proof.
  intros f H. unfold dce_ready in H. rewrite !andb_true_iff in H. destruct H as ((H1 & H2) & H3).
  split; [exact (phis_first_sound f H1)|]. split; [exact (phis_stable_sound f H2)|].
  intros b d es t c Hb Hi. pose proof (all_instrs_in _ _ H3 b _ Hb Hi) as K. discriminate K.
Qed.
Lemma same_sig_sound : forall f g, same_sig f g = true -> sig f = sig g /\ exists ps rs, sig f = (Some ps, Some rs).
Proof.
  intros f g H. unfold same_sig in H. destruct (sig f) as [[ps|] [rs|]], (sig g) as [[qs|] [ts|]]; try discriminate.
  apply andb_true_iff in H. destruct H as [H1 H2]. apply tysb_eq in H1, H2. subst. eauto.
Qed.

(** ** The pipelines. *)
Lemma phi_stage_keeps : forall T h sg f0 f g, valid_hashes h -> phi_stage h sg f0 f = true -> phi_elim (h_phis h f) f = Some g ->
  keeps T sg f g /\ calls_fit sg g = true /\ ids_below g /\ sig f0 = sig f /\ sig f0 = sig g /\ exists ps rs, sig f0 = (Some ps, Some rs).
Proof.
  intros T h sg f0 f g Vh H E. unfold phi_stage in H. rewrite E in H. rewrite !andb_true_iff in H. destruct H as ((H1 & H2) & ((H3 & H4) & H5)).
  destruct (same_sig_sound _ _ H2) as [S1 S2]. destruct (same_sig_sound _ _ H5) as [S3 _].
  split; [|split; [exact H3|]; split; [exact (ids_ok_sound _ H4)|]; auto].
  unfold phi_ready in H1. rewrite !andb_true_iff in H1. destruct H1 as (((((R1 & R2) & R3) & R4) & R5) & R6).
  pose proof (ssa_ok_sound _ R1) as Q1. pose proof (phi_preds_sound _ R4) as Q4.
  destruct (phi_elim_same f (h_phis h f) Q1 (phis_first_sound _ R2) Q4 (phi_order_sound _ R5) (forward_sound _ R6) (proj2 (Vh f))) as (g' & E' & K).
  assert (g' = g) by congruence. subst g'. intros W HW fuel args ps r Hp Ha Fr Hc.
  apply (K unit W fuel args tt r); [|destruct r; try destruct Fr; exact Logic.I | exact Hc].
  exact (types_branch_values unit W sg f args tt ps HW Q1 Q4 R3 Hp Ha).
Qed.
Lemma no_opt_keeps : forall T h sg f g, valid_hashes h -> no_opt_ready h sg f = true -> no_opt h f = Some g ->
  keeps T sg f g /\ calls_fit sg g = true /\ ids_below g /\ sig f = sig g /\ exists ps rs, sig f = (Some ps, Some rs).
Proof.
  intros T h sg f g Vh H E. destruct (phi_stage_keeps T h sg f f g Vh H E) as (A & B & C & D & F). auto.
Qed.

(** Results only, from here on: the optimizations remove failures. *)
Definition gives (f g : func) : Prop := forall (W : world unit) fuel args r, call_fn W f fuel args tt = ROk r -> call_fn W g fuel args tt = ROk r.
Lemma gives_trans : forall f g h, gives f g -> gives g h -> gives f h.
Proof. intros f g h A B W fuel args r H. apply B, A, H. Qed.
Lemma same_gives : forall f g, same_behaviour f g -> gives f g.
Proof. intros f g H W fuel args r E. rewrite (H unit W fuel args tt); congruence. Qed.
Lemma then_some : forall A B (o : option A) (k : A -> option B) b, then_ o k = Some b -> exists a, o = Some a /\ k a = Some b.
Proof. intros A B [a|] k b H; [eauto | discriminate]. Qed.

Lemma sroa_ready_same : forall f g, sroa_pass f = Some g -> sroa_ready f g = true -> same_behaviour f g.
Proof.
  intros f g E H. unfold sroa_ready in H. apply orb_true_iff in H. destruct H as [H|H].
  - rewrite (sroa_none f (proj1 (negb_true_iff _) H)) in E. injection E as <-. intros S W fuel args s _. reflexivity.
  - rewrite !andb_true_iff in H. destruct H as ((A & B) & C). destruct (wf_ok_sound _ A) as (Q1 & Q2 & Q3 & Q4).
    exact (closed_same f g E Q1 Q2 Q3 Q4 (arrays_ok_sound _ _ B) (closed_ok_sound _ C)).
Qed.
Lemma standard_keeps : forall h sg f g, valid_hashes h -> standard_ready h sg f = true -> standard h f = Some g ->
  keeps False sg f g /\ calls_fit sg g = true /\ ids_below g /\ sig f = sig g /\ exists ps rs, sig f = (Some ps, Some rs).
Proof.
  intros h sg f g Vh H E. unfold standard in E. unfold standard_ready in H.
  apply then_some in E. destruct E as (f0 & E0 & E). rewrite E0 in H. cbn [on] in H.
  apply andb_true_iff in H. destruct H as [H' H]. apply andb_true_iff in H'. destruct H' as [C0 C1]. apply then_some in E. destruct E as (f1 & E1 & E). rewrite E1 in H. cbn [on] in H.
  apply andb_true_iff in H. destruct H as [C2 H]. apply then_some in E. destruct E as (f2 & E2 & E). rewrite E2 in H. cbn [on] in H.
  apply andb_true_iff in H. destruct H as [C3 H]. apply then_some in E. destruct E as (f3 & E3 & E). rewrite E3 in H. cbn [on] in H.
  apply andb_true_iff in H. destruct H as [C4 H]. apply then_some in E. destruct E as (f4 & E4 & E). rewrite E4 in H. cbn [on] in H.
  apply andb_true_iff in H. destruct H as [C5 H]. cbv zeta in E, H.
  apply andb_true_iff in H. destruct H as [C6 H]. apply then_some in E. destruct E as (f6 & E6 & E). rewrite E6 in H. cbn [on] in H.
  apply andb_true_iff in H. destruct H as [C7 H].
  apply andb_true_iff in H. destruct H as [C8 H]. apply then_some in E. destruct E as (f8 & E8 & E). rewrite E8 in H. cbn [on] in H.
  destruct (phi_stage_keeps False h sg f f8 g Vh H E) as (K & Kc & Ki & S1 & S2 & S3).
  split; [|auto].
  assert (G : gives f f8).
  { apply gives_trans with f0; [exact (same_gives _ _ (sroa_ready_same _ _ E0 C0))|].
    apply gives_trans with f1.
    { apply same_gives, (C31_arithmetic_simplify_partial f0 f1 E1). intros b op d l r Hb Hi.
      pose proof (all_instrs_in _ _ C1 b _ Hb Hi) as X. cbv beta iota in X. apply andb_true_iff in X. destruct X as [X1 X2].
      split; [now apply negb_true_iff | exact (binary_lits_sound _ _ _ _ X1)]. }
    apply gives_trans with f2.
    { destruct (const_prop f1) as [f2'| |] eqn:Ec; try discriminate E2. injection E2 as ->. destruct (const_ready_sound _ C2) as (P1 & P2 & P3).
      exact (same_gives _ _ (C37_same f1 f2 Ec P1 P2 P3)). }
    apply gives_trans with f3.
    { apply same_gives, (C31_constant_folding_partial f2 f3 E3). intros b op d l r Hb Hi.
      exact (binary_lits_sound op d l r (all_instrs_in _ _ C3 b _ Hb Hi)). }
    apply gives_trans with f4.
    { destruct (copy_ready_sound _ C4) as (P1 & P2 & P3). apply same_gives. exact (C35_same f3 _ f4 P1 P2 P3 (proj1 (Vh f3)) E4). }
    apply gives_trans with (local_cse f4).
    { unfold cse_ok in C5. rewrite !andb_true_iff in C5. destruct C5 as ((P0 & PT) & PE). destruct (copy_ready_sound _ P0) as (P1 & P2 & P3).
      apply Nat.eqb_eq in PE. intros W fuel args r X. exact (C36_results_partial f4 P1 P2 P3 (types_keys _ _ PT) (types_arrays _ _ PT) PE unit W fuel args tt r X). }
    apply gives_trans with f6.
    { apply same_gives. apply (C33_simplify_branches (local_cse f4) f6); [|exact E6]. intros b Hb op l r x y Et. unfold branch_ready in C6.
      rewrite forallb_forall in C6. specialize (C6 b Hb). rewrite Et in C6. exact (lits_fit_sound _ _ _ C6). }
    apply gives_trans with (fuse_cmp f6).
    { destruct (fuse_ready_sound _ C7) as [P1 P2]. exact (same_gives _ _ (C32_fuse_cmp_partial f6 P1 P2)). }
    destruct (dce_ready_sound _ C8) as (P1 & P2 & P3). intros W fuel args r X.
    exact (C34_results_partial (fuse_cmp f6) f8 E8 P1 P2 unit W fuel args tt r (or_intror P3) X). }
  intros W HW fuel args ps r Hp Ha Fr Hc. destruct r as [v| | |]; try destruct Fr.
  unfold sig in S1. injection S1 as S1 _. rewrite S1 in Hp. exact (K W HW fuel args ps (ROk v) Hp Ha Logic.I (G W fuel args v Hc)).
Qed.

(** ** Modules. *)
Lemma optimize_all : forall pl (R : func -> func -> Prop) ms ms', (forall f g, In f (map snd ms) -> pl f = Some g -> R f g) ->
  optimize pl ms = Some ms' -> Forall2 (fun m m' => fst m = fst m' /\ R (snd m) (snd m')) ms ms'.
Proof.
  intros pl R. induction ms as [|[n f] ms IH]; intros ms' H E; cbn [optimize] in E; [injection E as <-; constructor|].
  apply then_some in E. destruct E as (g & E1 & E). apply then_some in E. destruct E as (r & E2 & E). injection E as <-.
  constructor; [split; [reflexivity | apply H; [now left | exact E1]]|]. apply IH; [|exact E2]. intros f' g' Hf. apply H. now right.
Qed.
