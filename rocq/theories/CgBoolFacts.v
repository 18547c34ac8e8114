(** The sequences for [&&], [||] and [!]. *)
From Coq Require Import ZArith Bool String List Lia.
From Verif Require Import M31 M31Facts Instr Isa Mir MirSem MirIsa Cg CgSpec CgPassFacts CgStepFacts.
Import ListNotations.
Open Scope Z_scope.

(** The truth of an operand: constants are true unless zero, a slot is true unless it
    holds zero. *)
Definition is_true (L : layout) (m : Z -> Z) (s : state) (v : value) (b : bool) : Prop :=
  match v with
  | Lit (LInt n) => b = negb (n =? 0)
  | Lit (LBool c) => b = c
  | Op i => exists o n, slots L i = Some (o, n) /\ b = negb (m (slot s o) =? 0)
  | _ => False
  end.
(** The operand is not stored in the destination slot. *)
Definition elsewhere (L : layout) (s : state) (d : Z) (v : value) : Prop :=
  forall i o n, v = Op i -> slots L i = Some (o, n) -> slot s o <> slot s d.

Section Bools.
Variable M : machine.
Variable lab : string -> option Z.
Hypothesis lab_ok : forall l b, lab l = Some b -> 0 <= b < P.

Lemma run_imm : forall a n d r z m s,
  placed (code M) lab a (CI (StoreImm (mfrom n) (mfrom d)) None :: r) z -> pc s = a ->
  0 <= a -> z < P -> fits M a z (fp s) ->
  msteps M m s (upds m [(slot s d, mfrom n)]) (St (a + 1) (fp s)) /\ placed (code M) lab (a + 1) r z.
Proof.
  intros a n d r z m s H Hpc Ha Hz F.
  eapply (run_plain M lab lab_ok) in H; [|exact Hpc|exact Ha|exact Hz|exact F|reflexivity|reflexivity].
  cbn [writes] in H. rewrite slot_mfrom in H. exact H.
Qed.

(** A conditional jump on an operand. *)
Lemma run_branch : forall v t st u is st' a r z m s b,
  branch_nz v t st = COk (u, is, st') -> placed (code M) lab a (is ++ r) z -> pc s = a ->
  0 <= a -> z < P -> fits M a z (fp s) ->
  is_true (lay st) m s v b ->
  st' = st /\ exists a1, placed (code M) lab a1 r z /\ a <= a1 /\
    (b = true -> exists c, lab t = Some c /\ msteps M m s m (St c (fp s))) /\
    (b = false -> msteps M m s m (St a1 (fp s))).
Proof.
  intros v t st u is st' a r z m s b H HP Hpc Ha Hz F T. unfold branch_nz in H.
  assert (Hs : s = St a (fp s)) by (rewrite <- Hpc; destruct s; reflexivity).
  assert (J : forall is, is = [CI (JmpRelImm 0) (Some t)] -> placed (code M) lab a (is ++ r) z -> b = true ->
     exists a1, placed (code M) lab a1 r z /\ a <= a1 /\
    (b = true -> exists c, lab t = Some c /\ msteps M m s m (St c (fp s))) /\
    (b = false -> msteps M m s m (St a1 (fp s)))).
  { intros is0 -> HP0 ->. cbn [app] in HP0.
    destruct (run_jump M lab lab_ok _ _ _ _ m s HP0 Hpc F) as (c & L & R & K).
    exists (a + 1). split; auto. split; [lia|]. split; [|discriminate]. intros _. exists c. auto. }
  assert (N : placed (code M) lab a r z -> b = false ->
     exists a1, placed (code M) lab a1 r z /\ a <= a1 /\
    (b = true -> exists c, lab t = Some c /\ msteps M m s m (St c (fp s))) /\
    (b = false -> msteps M m s m (St a1 (fp s)))).
  { intros HP0 ->. exists a. split; auto. split; [lia|]. split; [discriminate|]. intros _.
    rewrite <- Hs. constructor. }
  destruct v as [[n|c|]|i|]; cbn [truthiness is_true] in *; try discriminate; try (destruct T; fail).
  - subst b. destruct (negb (n =? 0)).
    + apply emit_ok in H. destruct H as (-> & ->). split; auto. apply (J _ eq_refl); auto.
    + apply ret_ok in H. destruct H as (_ & -> & ->). split; auto.
  - subst b. destruct c.
    + apply emit_ok in H. destruct H as (-> & ->). split; auto. apply (J _ eq_refl); auto.
    + apply ret_ok in H. destruct H as (_ & -> & ->). split; auto.
  - take H o i0 s0 E. apply offset_ok in E. destruct E as (-> & -> & n0 & E).
    apply emit_ok in H. destruct H as (-> & ->). split; auto. cbn [app] in HP.
    destruct T as (o' & n' & T & ->). rewrite E in T. injection T as <- <-.
    destruct (run_jnz M lab lab_ok _ _ _ _ _ m s HP Hpc Ha Hz F) as (c & L & K & R).
    exists (a + 1). split; auto. split; [lia|].
    replace (slot s (mfrom o)) with (slot s o) in R by (unfold slot at 2; rewrite slot_mfrom; auto).
    destruct (m (slot s o) =? 0); cbn [negb]; (split; [|auto]; try discriminate).
    intros _. exists c. auto.
Qed.

(** A state reached by jumping to a label whose instructions follow. *)
Lemma placed_label : forall a l r z, placed (code M) lab a (CL l :: r) z ->
  lab l = Some a /\ placed (code M) lab a r z.
Proof. intros a l r z H. exact H. Qed.

Lemma put_get : forall (m : Z -> Z) c v, upds m [(c, v)] c = v.
Proof. intros. cbn. rewrite Z.eqb_refl. reflexivity. Qed.
Lemma put_other : forall (m : Z -> Z) c v b, b <> c -> upds m [(c, v)] b = m b.
Proof. intros. cbn. destruct (Z.eqb_spec b c); [contradiction|]. reflexivity. Qed.
Lemma is_true_put : forall L m s v b d x, is_true L m s v b -> elsewhere L s d v ->
  is_true L (upds m [(slot s d, x)]) s v b.
Proof.
  intros L m s [[n|c|]|i|] b d x T E; cbn [is_true] in *; auto.
  destruct T as (o & n & T & ->). exists o, n. split; auto.
  rewrite put_other; auto. exact (E i o n eq_refl T).
Qed.
Lemma is_true_lay : forall L L' m s v b, slots L = slots L' -> is_true L m s v b -> is_true L' m s v b.
Proof. intros L L' m s [[n|c|]|i|] b H T; cbn [is_true] in *; auto. rewrite <- H. exact T. Qed.
Lemma is_true_fp : forall L m s s' v b, fp s' = fp s -> is_true L m s v b -> is_true L m s' v b.
Proof. intros L m s s' [[n|c|]|i|] b H T; cbn [is_true] in *; auto. unfold slot in *. rewrite H. exact T. Qed.

Definition leaves (m : Z -> Z) (s : state) (z d : Z) (b : bool) : Prop :=
  exists m', msteps M m s m' (St z (fp s)) /\ m' (slot s d) = bz b /\
    (forall c, c <> slot s d -> m' c = m c).

(** From the label of the success branch: store 1, end. *)
Lemma run_one : forall a t d e z m s s0, placed (code M) lab a
    (CL t :: CI (StoreImm (mfrom 1) (mfrom d)) None :: CL e :: []) z ->
  s = St a (fp s0) -> 0 <= a -> z < P -> fits M a z (fp s0) ->
  lab t = Some a /\ lab e = Some z /\
  msteps M m s (upds m [(slot s0 d, 1)]) (St z (fp s0)).
Proof.
  intros a t d e z m s s0 H -> Ha Hz F. destruct H as (L & H).
  destruct (run_imm a 1 d _ z m (St a (fp s0)) H eq_refl Ha Hz F) as (R & K).
  destruct K as (Le & <-). auto.
Qed.

Lemma or_ok : forall d l r st u is st' a z m s x y,
  sc_or d l r st = COk (u, is, st') -> placed (code M) lab a is z -> pc s = a ->
  0 <= a -> z < P -> fits M a z (fp s) ->
  is_true (lay st) m s l x -> is_true (lay st) m s r y ->
  elsewhere (lay st) s d l -> elsewhere (lay st) s d r ->
  leaves m s z d (x || y).
Proof.
  intros d l r st u is st' a z m s x y H HP Hpc Ha Hz F Tl Tr El Er. unfold sc_or in H.
  take H u0 i0 s0 E0. apply out_ok in E0. destruct E0 as (-> & ->).
  take H t i1 s1 E1. apply fresh_ok in E1. destruct E1 as (-> & -> & V1).
  take H e i2 s2 E2. apply fresh_ok in E2. destruct E2 as (-> & -> & V2).
  take H u3 i3 s3 E3. take H u4 i4 s4 E4.
  take H u5 i5 s5 E5. apply emit_ok in E5. destruct E5 as (-> & ->).
  take H u6 i6 s6 E6. apply label_ok in E6. destruct E6 as (-> & ->).
  take H u7 i7 s7 E7. apply out_ok in E7. destruct E7 as (-> & ->).
  apply label_ok in H. destruct H as (-> & ->).
  set (lt := numbered "or_true" (lbl st)) in *. set (le := numbered "or_end" (lbl s1)) in *.
  cbn [app] in HP.
  destruct (run_imm a 0 d _ z m s HP Hpc Ha Hz F) as (R0 & HP1).
  change (mfrom 0) with 0 in R0. set (m0 := upds m [(slot s d, 0)]) in *.
  set (sa := St (a + 1) (fp s)) in *.
  assert (Ll : slots (lay st) = slots (lay s2)) by (rewrite V2, V1; auto).
  destruct (run_branch l lt s2 u3 i3 s3 (a + 1) _ z m0 sa x E3 HP1 eq_refl ltac:(lia) Hz ltac:(fit F)) as (-> & a1 & HP2 & Ha1 & Tx & Fx).
  { apply (is_true_lay (lay st)); auto. apply (is_true_fp _ _ s); auto. apply is_true_put; auto. }
  change (fp sa) with (fp s) in Tx, Fx.
  destruct (run_branch r lt s2 u4 i4 s4 a1 _ z m0 (St a1 (fp s)) y E4 HP2 eq_refl ltac:(lia) Hz ltac:(fit F)) as (-> & a2 & HP3 & Ha2 & Ty & Fy).
  { apply (is_true_lay (lay st)); auto. apply (is_true_fp _ _ s); auto. apply is_true_put; auto. }
  cbn [fp] in Ty, Fy. cbn [app] in HP3.
  destruct (run_jump M lab lab_ok _ _ _ _ m0 (St a2 (fp s)) HP3 eq_refl ltac:(fit F)) as (be & Lb & Rj & HP4). cbn [fp] in Rj.
  destruct (run_one _ _ d _ z m0 (St (a2 + 1) (fp s)) s HP4 eq_refl ltac:(lia) Hz ltac:(fit F)) as (Lt & Le & R1).
  assert (be = z) by congruence. subst be.
  assert (D1 : m0 (slot s d) = 0) by apply put_get.
  assert (K : forall c, c <> slot s d -> m0 c = m c) by (intros; apply put_other; auto).
  unfold leaves. destruct x; cbn [orb].
  - destruct (Tx eq_refl) as (c & Lc & Rc). assert (c = a2 + 1) by congruence. subst c.
    eexists. split; [eapply msteps_trans; [exact R0|]; eapply msteps_trans; [exact Rc|exact R1]|].
    split; [apply put_get|]. intros c Hc. rewrite put_other; auto.
  - destruct y.
    + destruct (Ty eq_refl) as (c & Lc & Rc). assert (c = a2 + 1) by congruence. subst c.
      eexists. split; [eapply msteps_trans; [exact R0|]; eapply msteps_trans; [exact (Fx eq_refl)|];
                       eapply msteps_trans; [exact Rc|exact R1]|].
      split; [apply put_get|]. intros c Hc. rewrite put_other; auto.
    + eexists. split; [eapply msteps_trans; [exact R0|]; eapply msteps_trans; [exact (Fx eq_refl)|];
                       eapply msteps_trans; [exact (Fy eq_refl)|exact Rj]|]. auto.
Qed.

Lemma and_ok : forall d l r st u is st' a z m s x y,
  sc_and d l r st = COk (u, is, st') -> placed (code M) lab a is z -> pc s = a ->
  0 <= a -> z < P -> fits M a z (fp s) ->
  is_true (lay st) m s l x -> is_true (lay st) m s r y ->
  elsewhere (lay st) s d l -> elsewhere (lay st) s d r ->
  leaves m s z d (x && y).
Proof.
  intros d l r st u is st' a z m s x y H HP Hpc Ha Hz F Tl Tr El Er. unfold sc_and in H.
  take H u0 i0 s0 E0. apply out_ok in E0. destruct E0 as (-> & ->).
  take H c i1 s1 E1. apply fresh_ok in E1. destruct E1 as (-> & -> & V1).
  take H t i2 s2 E2. apply fresh_ok in E2. destruct E2 as (-> & -> & V2).
  take H e i3 s3 E3. apply fresh_ok in E3. destruct E3 as (-> & -> & V3).
  set (lc := numbered "and_check_right" (lbl st)) in *. set (lt := numbered "and_true" (lbl s1)) in *.
  set (le := numbered "and_end" (lbl s2)) in *. cbn [app] in HP.
  destruct (run_imm a 0 d _ z m s HP Hpc Ha Hz F) as (R0 & HP1).
  change (mfrom 0) with 0 in R0. set (m0 := upds m [(slot s d, 0)]) in *.
  assert (D1 : m0 (slot s d) = 0) by apply put_get.
  assert (K : forall c, c <> slot s d -> m0 c = m c) by (intros; apply put_other; auto).
  assert (Ll : slots (lay st) = slots (lay s3)) by (rewrite V3, V2, V1; auto).
  (* the part behind the check of the left operand *)
  assert (CH : forall st0 u is st1 a1, lay st0 = lay s3 ->
    (label lc ;;; branch_nz r lt ;;; jump le ;;; label lt ;;; store_imm 1 d ;;; label le) st0 = COk (u, is, st1) ->
    placed (code M) lab a1 is z -> a <= a1 ->
    lab lc = Some a1 /\ lab le = Some z /\
    exists m', msteps M m0 (St a1 (fp s)) m' (St z (fp s)) /\ m' (slot s d) = bz y /\
      (forall c, c <> slot s d -> m' c = m c)).
  { clear H HP1 R0. intros st0 v isx st1 a1 V H HP1 Ha1.
    take H w0 j0 x0 E0. apply label_ok in E0. destruct E0 as (-> & ->).
    take H u4 i4 s4 E4.
    take H u5 i5 s5 E5. apply emit_ok in E5. destruct E5 as (-> & ->).
    take H u6 i6 s6 E6. apply label_ok in E6. destruct E6 as (-> & ->).
    take H u7 i7 s7 E7. apply out_ok in E7. destruct E7 as (-> & ->).
    apply label_ok in H. destruct H as (-> & ->). cbn [app] in HP1.
    destruct HP1 as (Lc & HP2).
    destruct (run_branch r lt st0 u4 i4 s4 a1 _ z m0 (St a1 (fp s)) y E4 HP2 eq_refl ltac:(lia) Hz ltac:(fit F)) as (-> & a2 & HP3 & Ha2 & Ty & Fy).
    { apply (is_true_lay (lay st)); [congruence|]. apply (is_true_fp _ _ s); auto. apply is_true_put; auto. }
    cbn [fp] in Ty, Fy. cbn [app] in HP3.
    destruct (run_jump M lab lab_ok _ _ _ _ m0 (St a2 (fp s)) HP3 eq_refl ltac:(fit F)) as (be & Lb & Rj & HP4). cbn [fp] in Rj.
    destruct (run_one _ _ d _ z m0 (St (a2 + 1) (fp s)) s HP4 eq_refl ltac:(lia) Hz ltac:(fit F)) as (Lt & Le & R1).
    assert (be = z) by congruence. subst be. split; auto. split; auto. destruct y.
    - destruct (Ty eq_refl) as (c & Lc' & Rc). assert (c = a2 + 1) by congruence. subst c.
      eexists. split; [eapply msteps_trans; [exact Rc|exact R1]|].
      split; [apply put_get|]. intros c Hc. rewrite put_other; auto.
    - eexists. split; [eapply msteps_trans; [exact (Fy eq_refl)|exact Rj]|]. auto. }
  unfold leaves. destruct l as [[n|b|]|i|]; cbn [truthiness is_true] in *; try discriminate; try (destruct Tl; fail).
  - subst x. destruct (negb (n =? 0)); cbn [andb].
    + destruct (CH s3 _ _ _ (a + 1) eq_refl H HP1 ltac:(lia)) as (_ & _ & m' & R & D).
      exists m'. split; auto. eapply msteps_trans; eauto.
    + apply label_ok in H. destruct H as (-> & ->). destruct HP1 as (_ & Ez). cbn [placed] in Ez. rewrite Ez in R0. exists m0. split; [exact R0|split; [exact D1|exact K]].
  - subst x. destruct b; cbn [andb].
    + destruct (CH s3 _ _ _ (a + 1) eq_refl H HP1 ltac:(lia)) as (_ & _ & m' & R & D).
      exists m'. split; auto. eapply msteps_trans; eauto.
    + apply label_ok in H. destruct H as (-> & ->). destruct HP1 as (_ & Ez). cbn [placed] in Ez. rewrite Ez in R0. exists m0. split; [exact R0|split; [exact D1|exact K]].
  - take H o i0 s0 E0. apply offset_ok in E0. destruct E0 as (-> & -> & n0 & E0).
    take H u5 i5 s5 E5. apply emit_ok in E5. destruct E5 as (-> & ->).
    take H u6 i6 s6 E6. apply emit_ok in E6. destruct E6 as (-> & ->). cbn [app] in HP1.
    destruct Tl as (o' & n' & Tl & ->). rewrite Ll, E0 in Tl. injection Tl as <- <-.
    destruct (run_jnz M lab lab_ok _ _ _ _ _ m0 (St (a + 1) (fp s)) HP1 eq_refl ltac:(lia) Hz ltac:(fit F)) as (b & Lb & HP2 & Rb).
    cbn [fp] in Rb.
    destruct (run_jump M lab lab_ok _ _ _ _ m0 (St (a + 1 + 1) (fp s)) HP2 eq_refl ltac:(fit F)) as (be & Le & Rj & HP4). cbn [fp] in Rj.
    destruct (CH s3 _ _ _ (a + 1 + 1 + 1) eq_refl H HP4 ltac:(lia)) as (Lc & Lz & m' & R & D & K').
    assert (b = a + 1 + 1 + 1) by congruence. assert (be = z) by congruence. subst b be.
    replace (slot (St (a + 1) (fp s)) (mfrom o)) with (slot s o) in Rb by (unfold slot at 2; cbn [fp]; rewrite slot_mfrom; auto).
    rewrite K in Rb by (apply (El i o n0 eq_refl); congruence).
    destruct (m (slot s o) =? 0); cbn [negb andb].
    + exists m0. split; [|split; [exact D1|exact K]]. eapply msteps_trans; [exact R0|]. eapply msteps_trans; eauto.
    + exists m'. split; auto. eapply msteps_trans; [exact R0|]. eapply msteps_trans; eauto.
Qed.

Lemma not_ok : forall d v st u is st' a z m s x,
  sc_not d v st = COk (u, is, st') -> placed (code M) lab a is z -> pc s = a ->
  0 <= a -> z < P -> fits M a z (fp s) ->
  is_true (lay st) m s v x -> leaves m s z d (negb x).
Proof.
  intros d v st u is st' a z m s x H HP Hpc Ha Hz F T. unfold sc_not in H.
  take H c i1 s1 E1. apply fresh_ok in E1. destruct E1 as (-> & -> & V1).
  take H t i2 s2 E2. apply fresh_ok in E2. destruct E2 as (-> & -> & V2).
  set (lz := numbered "not_zero" (lbl st)) in *. set (le := numbered "not_end" (lbl s1)) in *. cbn [app] in HP.
  assert (IMM : forall n b, out (StoreImm (mfrom n) (mfrom d)) s2 = COk (u, is, st') -> mfrom n = bz b -> leaves m s z d b).
  { intros n b K Hn. apply out_ok in K. destruct K as (-> & ->).
    destruct (run_imm a n d _ z m s HP Hpc Ha Hz F) as (R & <-). rewrite Hn in R. eexists. split; [exact R|].
    split; [apply put_get|]. intros. apply put_other; auto. }
  destruct v as [[n|b|]|i|]; cbn [is_true] in *; try discriminate; try (destruct T; fail).
  - subst x. rewrite negb_involutive. apply (IMM _ _ H). destruct (n =? 0); reflexivity.
  - subst x. apply (IMM _ _ H). destruct b; reflexivity.
  - take H o i0 s0 E0. apply offset_ok in E0. destruct E0 as (-> & -> & n0 & E0).
    take H u5 i5 s5 E5. apply emit_ok in E5. destruct E5 as (-> & ->).
    take H u6 i6 s6 E6. apply out_ok in E6. destruct E6 as (-> & ->).
    take H u7 i7 s7 E7. apply emit_ok in E7. destruct E7 as (-> & ->).
    take H u8 i8 s8 E8. apply label_ok in E8. destruct E8 as (-> & ->).
    take H u9 i9 s9 E9. apply out_ok in E9. destruct E9 as (-> & ->).
    apply label_ok in H. destruct H as (-> & ->). cbn [app] in HP.
    destruct T as (o' & n' & T & ->). rewrite V2, V1, T in E0. injection E0 as -> ->.
    destruct (run_jnz M lab lab_ok _ _ _ _ _ m s HP Hpc Ha Hz F) as (b & Lb & HP1 & Rb).
    replace (slot s (mfrom o)) with (slot s o) in Rb by (unfold slot at 2; rewrite slot_mfrom; auto).
    destruct (run_imm _ 1 d _ z m (St (a + 1) (fp s)) HP1 eq_refl ltac:(lia) Hz ltac:(fit F)) as (R1 & HP2).
    destruct (run_jump M lab lab_ok _ _ _ _ (upds m [(slot s d, 1)]) (St (a + 1 + 1) (fp s)) HP2 eq_refl ltac:(fit F)) as (be & Lj & Rj & HP3).
    destruct HP3 as (Lz & HP4).
    destruct (run_imm _ 0 d _ z m (St (a + 1 + 1 + 1) (fp s)) HP4 eq_refl ltac:(lia) Hz ltac:(fit F)) as (R2 & (Le & Ez)).
    change (mfrom 1) with 1 in *. change (mfrom 0) with 0 in *.
    cbn [fp] in *. change (slot (St (a + 1) (fp s)) d) with (slot s d) in *.
    change (slot (St (a + 1 + 1 + 1) (fp s)) d) with (slot s d) in *.
    assert (b = a + 1 + 1 + 1) by congruence. assert (be = z) by congruence. subst b be.
    unfold leaves. destruct (m (slot s o) =? 0); cbn [negb].
    + eexists. split; [eapply msteps_trans; [exact Rb|]; eapply msteps_trans; [exact R1|exact Rj]|].
      split; [apply put_get|]. intros. apply put_other; auto.
    + rewrite Ez in R2. eexists. split; [eapply msteps_trans; [exact Rb|exact R2]|].
      split; [apply put_get|]. intros. apply put_other; auto.
Qed.
End Bools.
