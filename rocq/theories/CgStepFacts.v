(** Executing placed code; inverting emission. *)
From Coq Require Import ZArith Bool String List Lia.
From Verif Require Import M31 M31Facts Instr InstrFacts Isa Mir MirSem MirIsa MirIsaFacts Cg CgLink CgSpec CgPassFacts.
Import ListNotations.
Open Scope Z_scope.

(** ** Emission *)
Lemma bind_ok : forall A B (c : M A) (k : A -> M B) s b is s',
  bind c k s = COk (b, is, s') ->
  exists a i1 s1 i2, c s = COk (a, i1, s1) /\ k a s1 = COk (b, i2, s') /\ is = (i1 ++ i2)%list.
Proof.
  intros A B c k s b is s' H. unfold bind in H. destruct (c s) as [[[a i1] s1]| |]; try discriminate.
  destruct (k a s1) as [[[b' i2] s2]| |] eqn:E; try discriminate.
  injection H as <- <- <-. exists a, i1, s1, i2. auto.
Qed.
Lemma ret_ok : forall A (a : A) s b is s', ret a s = COk (b, is, s') -> b = a /\ is = [] /\ s' = s.
Proof. intros A a s b is s' H. injection H as <- <- <-. auto. Qed.
Lemma emit_ok : forall i t s b is s', emit i t s = COk (b, is, s') -> is = [CI i t] /\ s' = s.
Proof. intros. injection H as <- <- <-. auto. Qed.
Lemma out_ok : forall i s b is s', out i s = COk (b, is, s') -> is = [CI i None] /\ s' = s.
Proof. intros. injection H as <- <- <-. auto. Qed.
Lemma label_ok : forall n s b is s', label n s = COk (b, is, s') -> is = [CL n] /\ s' = s.
Proof. intros. injection H as <- <- <-. auto. Qed.
Lemma offset_ok : forall v s o is s', offset v s = COk (o, is, s') ->
  is = [] /\ s' = s /\ exists n, slots (lay s) v = Some (o, n).
Proof.
  intros v s o is s' H. unfold offset in H. destruct (slots (lay s) v) as [[x n]|]; [|discriminate].
  injection H as <- <- <-. eauto.
Qed.
Lemma fresh_ok : forall p s n is s', fresh p s = COk (n, is, s') ->
  is = [] /\ n = numbered p (lbl s) /\ lay s' = lay s.
Proof. intros. injection H as <- <- <-. auto. Qed.
Lemma reserve_ok : forall n s o is s', reserve n s = COk (o, is, s') ->
  is = [] /\ o = frame (lay s) /\ s' = with_lay s (set_frame (lay s) (frame (lay s) + n)).
Proof. intros. injection H as <- <- <-. auto. Qed.
Lemma get_lay_ok : forall s L is s', get_lay s = COk (L, is, s') -> L = lay s /\ is = [] /\ s' = s.
Proof. intros. injection H as <- <- <-. auto. Qed.

(** Take one step of an emission apart. *)
Ltac take H a is s E :=
  let i2 := fresh "is" in
  let E2 := fresh "E" in
  apply bind_ok in H; destruct H as (a & is & s & i2 & E & H & E2); match type of E2 with ?x = _ => subst x end.

(** ** Machine steps *)
Lemma fits_sub : forall M a z f a' z', fits M a z f -> a <= a' -> z' <= z -> fits M a' z' f.
Proof. intros M a z f a' z' H A B x X. apply H. lia. Qed.
Ltac fit F := eapply fits_sub; [exact F|lia|lia].
Lemma jump_pc : forall a b, 0 <= b < P -> (a + (b - a) mod P) mod P = b.
Proof. intros a b H. rewrite Zplus_mod_idemp_r. replace (a + (b - a)) with b by lia. apply Z.mod_small; auto. Qed.
Section Steps.
Variable M : machine.
Variable lab : string -> option Z.

Lemma msteps_trans : forall m s m1 s1 m2 s2,
  msteps M m s m1 s1 -> msteps M m1 s1 m2 s2 -> msteps M m s m2 s2.
Proof. intros m s m1 s1 m2 s2 H. revert m2 s2. induction H; intros; auto. econstructor; eauto. Qed.
Lemma msteps_one : forall m s i e, fp_min M (pc s) <= fp s <= fp_max M ->
  code M (pc s) = Some i -> isa i m s = Some e -> msteps M m s (upds m (writes e)) (next e).
Proof.
  intros m s i e H C E. econstructor; [|constructor]. split; auto. exists i, e. auto.
Qed.
Lemma mtraps_after : forall m s m1 s1, msteps M m s m1 s1 -> mtraps M m1 s1 -> mtraps M m s.
Proof.
  intros m s m1 s1 H (m' & s' & H1 & H2). exists m', s'. split; auto. eapply msteps_trans; eauto.
Qed.
Lemma mtraps_here : forall m s i, fp_min M (pc s) <= fp s <= fp_max M ->
  code M (pc s) = Some i -> isa i m s = None -> mtraps M m s.
Proof. intros m s i H C E. exists m, s. split; [constructor|]. split; auto. exists i. auto. Qed.

Lemma placed_app : forall x y a z, placed (code M) lab a (x ++ y) z <->
  exists b, placed (code M) lab a x b /\ placed (code M) lab b y z.
Proof.
  induction x as [|[i t|l] x IH]; intros y a z; cbn [app placed].
  - split; [intros H; exists a; auto|]. intros (b & <- & H). auto.
  - rewrite IH. split.
    + intros (H & b & H1 & H2). exists b. auto.
    + intros (b & (H & H1) & H2). split; auto. exists b. auto.
  - rewrite IH. split.
    + intros (H & b & H1 & H2). exists b. auto.
    + intros (b & (H & H1) & H2). split; auto. exists b. auto.
Qed.
Lemma size_pos : forall i, 1 <= size_qm31 i <= 2.
Proof. intros i. destruct (size_qm31_cases i) as [[-> _]|[-> _]]; lia. Qed.
Lemma placed_le : forall is a z, placed (code M) lab a is z -> a <= z.
Proof.
  induction is as [|[i t|l] is IH]; intros a z H; cbn in H.
  - lia.
  - destruct H as (_ & H). apply IH in H. pose proof (size_pos i). lia.
  - destruct H as (_ & H). auto.
Qed.

Hypothesis lab_ok : forall l b, lab l = Some b -> 0 <= b < P.

Lemma small_pc : forall a n, 0 <= a -> a + n < P -> 0 <= n -> (a + n) mod P = a + n.
Proof. intros. apply Z.mod_small. lia. Qed.

(** One unlabelled instruction that goes on behind itself. *)
Lemma run_plain : forall a i r z m s e, placed (code M) lab a (CI i None :: r) z -> pc s = a ->
  0 <= a -> z < P -> fits M a z (fp s) ->
  isa i m s = Some e -> next e = goes_on s (size_qm31 i) ->
  msteps M m s (upds m (writes e)) (St (a + size_qm31 i) (fp s)) /\
  placed (code M) lab (a + size_qm31 i) r z.
Proof.
  intros a i r z m s e (C & H) Hpc Ha Hz F E N. split; auto.
  assert (X : next e = St (a + size_qm31 i) (fp s)).
  { rewrite N. unfold goes_on. rewrite Hpc, small_pc; auto; pose proof (size_pos i);
    apply placed_le in H; lia. }
  rewrite <- X. pose proof (size_pos i). apply placed_le in H.
  rewrite <- Hpc in C. refine (msteps_one m s i e _ C E). apply F. lia.
Qed.
(** Jumps. *)
Lemma run_jump : forall a l r z m s, placed (code M) lab a (CI (JmpRelImm 0) (Some l) :: r) z -> pc s = a ->
  fits M a z (fp s) ->
  exists b, lab l = Some b /\ msteps M m s m (St b (fp s)) /\ placed (code M) lab (a + 1) r z.
Proof.
  intros a l r z m s ((b & j & L & J & C) & H) Hpc F.
  assert (F' : fp_min M (pc s) <= fp s <= fp_max M).
  { apply F. apply placed_le in H. change (size_qm31 (JmpRelImm 0)) with 1 in H. lia. }
  exists b. split; auto. split; auto.
  cbn [aimed] in J. injection J as <-. rewrite <- Hpc in C.
  assert (X := msteps_one m s _ (Eff [] [] [] (St b (fp s))) F' C).
  apply X. cbn [isa]. rewrite Hpc, jump_pc by eauto. reflexivity.
Qed.
Lemma run_jnz : forall a c l r z m s, placed (code M) lab a (CI (JnzFpImm c 0) (Some l) :: r) z -> pc s = a ->
  0 <= a -> z < P -> fits M a z (fp s) ->
  exists b, lab l = Some b /\ placed (code M) lab (a + 1) r z /\
    msteps M m s m (St (if m (slot s c) =? 0 then a + 1 else b) (fp s)).
Proof.
  intros a c l r z m s ((b & j & L & J & C) & H) Hpc Ha Hz F.
  assert (F' : fp_min M (pc s) <= fp s <= fp_max M).
  { apply F. apply placed_le in H. change (size_qm31 (JnzFpImm c 0)) with 1 in H. lia. }
  exists b. split; auto. split; auto.
  cbn [aimed] in J. injection J as <-. rewrite <- Hpc in C.
  assert (X := msteps_one m s _ (Eff [slot s c] [] [] (St (if m (slot s c) =? 0 then a + 1 else b) (fp s))) F' C).
  apply X. cbn [isa]. unfold slot. rewrite Hpc. apply placed_le in H.
  change (size_qm31 (JnzFpImm c 0)) with 1 in H.
  rewrite (small_pc a 1) by lia. rewrite jump_pc by eauto. destruct (m ((fp s + c) mod P) =? 0); reflexivity.
Qed.
End Steps.
