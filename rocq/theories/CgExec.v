(** Executing rewritten code: the items of a function after operand de-duplication. *)
From Coq Require Import ZArith Bool String List Lia.
From Verif Require Import M31 M31Facts Instr InstrFacts Isa SpaceFacts Mir MirSem MirIsa MirIsaFacts
  Cg CgLink CgSpec CgPassFacts CgStepFacts CgLinkFacts.
Import ListNotations.
Open Scope Z_scope.

(** Instructions that continue behind themselves. *)
Definition straight (i : instr) : bool :=
  match i with Ret | CallAbsImm _ _ | JmpAbsImm _ | JmpRelImm _ | JnzFpImm _ _ => false | _ => true end.
Lemma straight_next : forall i m s e, straight i = true -> isa i m s = Some e -> next e = goes_on s (size_qm31 i).
Proof.
  intros i m s e S H. destruct i; try discriminate S; cbn [isa] in H;
    repeat match type of H with context [if ?c then _ else _] => destruct c; try discriminate end;
    injection H as <-; reflexivity.
Qed.
Lemma straight_canon : forall i, straight i = true -> straight (canon i) = true.
Proof.
  intros i H. destruct i; try exact H; cbn [canon];
    repeat match goal with |- context [if ?c then _ else _] => destruct c end; reflexivity.
Qed.
(** Items that rewriting leaves alone. *)
Definition stable (x : item) : bool :=
  match x with
  | CL _ => true
  | CI (Ret | CallAbsImm _ _ | JmpAbsImm _ | JmpRelImm _ | JnzFpImm _ _ | StoreImm _ _
       | StoreAddFpImm _ _ _ | U32StoreImm _ _ _) _ => true
  | _ => false
  end.
Lemma expand_stable : forall is f, forallb stable is = true -> expand f is = is.
Proof.
  induction is as [|[i t|l] is IH]; intros f H; cbn [forallb] in H; auto; apply andb_true_iff in H; destruct H as (H & H1).
  - cbn [expand]. destruct i; try discriminate H; cbn; rewrite IH; auto.
  - cbn. rewrite IH; auto.
Qed.
Fixpoint fend (f : Z) (is : list item) : Z :=
  match is with
  | [] => f
  | CL _ :: r => fend f r
  | CI i t :: r => fend (snd (dedup1 f (i, t))) r
  end.
Lemma fend_app : forall x y f, fend f (x ++ y) = fend (fend f x) y.
Proof. induction x as [|[i t|l] x IH]; intros; cbn; auto. Qed.
Lemma expand_app : forall x y f, expand f (x ++ y) = expand f x ++ expand (fend f x) y.
Proof. induction x as [|[i t|l] x IH]; intros y f; cbn; auto; rewrite IH; auto. rewrite app_assoc. auto. Qed.
Lemma fend_le : forall is f, f <= fend f is.
Proof. induction is as [|[i t|l] is IH]; intros f; cbn; auto; try lia. pose proof (dedup1_le f (i, t)). specialize (IH (snd (dedup1 f (i, t)))). lia. Qed.
Lemma fend_dedup : forall is f, fend f is = snd (dedup f (fst (split 0 is))).
Proof.
  induction is as [|[i t|l] is IH]; intros f; cbn [fend split fst dedup snd]; auto.
  rewrite (split_code is 1%nat). apply IH.
Qed.

Lemma mod16 : forall x y, x < B16 -> y < B16 -> 0 <= x -> 0 <= y -> 0 <= x + B16 * y < B32.
Proof. unfold B16, B32. intros. lia. Qed.

Set Default Proof Using "All".
Section Exec.
Variable M : machine.
Variable lab : string -> option Z.
Hypothesis lab_ok : forall l b, lab l = Some b -> 0 <= b < P.
Hypothesis code_ok : forall a i, code M a = Some i -> (0 <= a < P /\ 0 <= fp_min M a) /\ iwf i.
(** Frames span less than [NS] slots below and less than [FS] slots above the frame
    pointer, which is at least [LO], and do not wrap around. *)
Variable FS : Z.
Variables NS LO : Z.
Hypothesis FS_lo : 0 <= NS <= LO /\ NS <= FS.
Hypothesis FS_hi : fp_max M + FS < P.

Lemma slot_lin : forall s k, LO <= fp s <= fp_max M -> - NS <= k <= FS -> slot s k = fp s + k.
Proof. intros s k H K. unfold slot. apply Z.mod_small. lia. Qed.

(** Memory stays a memory of field elements. *)
Lemma upds_felts : forall ws m, felts m -> Forall (fun w : Z * Z => 0 <= snd w < P) ws -> felts (upds m ws).
Proof.
  induction ws as [|[x v] ws IH]; intros m Hm H; cbn; auto. inversion H as [|? ? H1 H2]; subst. apply IH; auto.
  intros a. destruct (a =? x); [exact H1|apply Hm].
Qed.
Lemma step_felts : forall i m s e, iwf i -> 0 <= pc s < P -> 0 <= fp s < P -> felts m -> isa i m s = Some e ->
  felts (upds m (writes e)).
Proof.
  intros i m s e Hi Hp Hf Hm E. destruct (isa_space i m s e (conj Hp Hf) Hi Hm E) as (_ & W).
  apply upds_felts; auto. eapply Forall_impl; [|exact W]. intros w (_ & X). exact X.
Qed.
Lemma msteps_felts : forall m s m' s', msteps M m s m' s' -> felts m -> felts m'.
Proof.
  intros m s m' s' H. induction H; intros Hm; auto. apply IHmsteps.
  destruct H as (F & i & e & C & E & -> & ->). destruct (code_ok _ _ C) as (A & B).
  eapply step_felts; eauto; lia.
Qed.

(** [is], rewritten with temporaries from slot [FL] on, sits at [a] to [z]. *)
Variable FL : Z.
Hypothesis FL_ok : 0 <= FL.
Definition xp (a : Z) (is : list item) (z : Z) : Prop :=
  0 <= a /\ z < P /\ (forall x, a <= x < z -> fp_min M x <= LO) /\ exists F, FL <= F /\ fend F is <= FS /\ placed (code M) lab a (expand F is) z.

Lemma xp_le : forall a is z, xp a is z -> a <= z.
Proof. intros a is z (_ & _ & _ & F & _ & _ & H). eapply placed_le; eauto. Qed.
Lemma xp_range : forall a is z, xp a is z -> 0 <= a <= z /\ z < P.
Proof. intros a is z H. pose proof (xp_le _ _ _ H). destruct H as (A & B & _). lia. Qed.
Lemma xp_app : forall x y a z, xp a (x ++ y) z -> exists b, xp a x b /\ xp b y z.
Proof.
  intros x y a z (A & B & G & F & C & D & H). rewrite expand_app in H. apply placed_app in H. destruct H as (b & H1 & H2).
  rewrite fend_app in D. pose proof (fend_le y (fend F x)). pose proof (fend_le x F).
  apply placed_le in H1 as L1. apply placed_le in H2 as L2.
  exists b. split; (split; [lia|]; split; [lia|]; split; [intros; apply G; lia|]); [exists F|exists (fend F x)]; (split; [lia|]; split; [lia|auto]).
Qed.
Lemma xp_nil : forall a z, xp a [] z -> a = z.
Proof. intros a z (_ & _ & _ & F & _ & _ & H). exact H. Qed.
Lemma xp_label : forall a l r z, xp a (CL l :: r) z -> lab l = Some a /\ xp a r z.
Proof.
  intros a l r z (A & B & G & F & C & D & H). cbn in H. destruct H as (L & H). split; auto.
  split; auto. split; auto. split; auto. exists F. auto.
Qed.
Lemma xp_stable : forall is a z, forallb stable is = true -> xp a is z -> placed (code M) lab a is z.
Proof. intros is a z H (_ & _ & _ & F & _ & _ & K). rewrite expand_stable in K; auto. Qed.
Lemma xp_cons : forall x r a z, xp a (x :: r) z -> exists b, xp a [x] b /\ xp b r z.
Proof. intros x r a z H. apply (xp_app [x] r). exact H. Qed.

(** A sequence of straight instructions. *)
Lemma run_seq : forall l a z r m s, placed (code M) lab a (map (fun i => CI i None) l ++ r) z -> pc s = a ->
  0 <= a -> z < P -> fits M a z (fp s) -> forallb straight l = true ->
  match CgSpec.seq l m s with
  | Some (m', s') => msteps M m s m' s' /\ s' = St (a + total l) (fp s)
  | None => mtraps M m s
  end.
Proof.
  induction l as [|i l IH]; intros a z r m s H Hpc Ha Hz F S; cbn [CgSpec.seq].
  - split; [constructor|]. unfold total. cbn [fold_right]. rewrite Z.add_0_r, <- Hpc. destruct s; reflexivity.
  - cbn [forallb] in S. apply andb_true_iff in S. destruct S as (S & S1).
    destruct (isa i m s) as [e|] eqn:E.
    + destruct (run_plain M lab lab_ok a i _ z m s e H Hpc Ha Hz F E (straight_next _ _ _ _ S E)) as (R & K).
      assert (N : next e = St (a + size_qm31 i) (fp s)).
      { rewrite (straight_next _ _ _ _ S E). unfold goes_on. rewrite Hpc. f_equal. apply Z.mod_small.
        pose proof (size_pos i). apply placed_le in K. lia. }
      rewrite N in *. pose proof (size_pos i).
      specialize (IH (a + size_qm31 i) z r (upds m (writes e)) (St (a + size_qm31 i) (fp s)) K eq_refl ltac:(lia) Hz ltac:(fit F) S1).
      destruct (CgSpec.seq l (upds m (writes e)) (St (a + size_qm31 i) (fp s))) as [[m' s']|].
      * destruct IH as (R1 & ->). split; [eapply msteps_trans; eauto|]. cbn [total fold_right fp]. f_equal. unfold total. lia.
      * eapply mtraps_after; eauto.
    + destruct H as (C & H). apply placed_le in H. pose proof (size_pos i). rewrite <- Hpc in C. eapply mtraps_here; eauto. apply F. lia.
Qed.
Lemma dedup1_straight : forall F i, straight i = true ->
  map as_item (fst (dedup1 F (i, None))) = map (fun i => CI i None) (map (fun x => canon (fst x)) (fst (dedup1 F (i, None)))) /\
  forallb straight (map (fun x => canon (fst x)) (fst (dedup1 F (i, None)))) = true.
Proof.
  intros F i H.
  assert (S : forallb (fun x => straight (fst x) && match snd x with None => true | _ => false end) (fst (dedup1 F (i, None))) = true).
  { destruct i; try discriminate H; cbn [dedup1 fst]; try reflexivity; unfold dup1, dup2;
    match goal with |- context [if ?c then _ else _] => destruct c end; reflexivity. }
  generalize dependent (fst (dedup1 F (i, None))). intros l S. rewrite map_map.
  induction l as [|[j [t|]] l IH]; cbn in S |- *; [auto| |].
  - rewrite andb_false_r in S. discriminate.
  - rewrite andb_true_r in S. apply andb_true_iff in S. destruct S as (S1 & S2). destruct (IH S2) as (-> & ->).
    rewrite straight_canon by auto. auto.
Qed.

Variable b : Z.
Hypothesis b_ok : LO <= b <= fp_max M.

Lemma xp_fits : forall a z, (forall x, a <= x < z -> fp_min M x <= LO) -> fits M a z b.
Proof. intros a z H x X. specialize (H x X). lia. Qed.
(** One straight instruction whose second source, if it has one, lies below [FL]. *)
Definition second_ok (i : instr) : Prop :=
  forall y n, second i = Some (y, n) -> exists k, y = mfrom k /\ - NS <= k /\ k + n <= FL.
Lemma temps_fine : forall F i, FL <= F -> snd (dedup1 F (i, None)) <= FS -> second_ok i ->
  temps_apart F (i, None) (St 0 b).
Proof.
  intros F i HF HS H y n k j E K J. cbn [fst] in E. destruct (H _ _ E) as (o & -> & O1 & O2).
  replace (slot (St 0 b) (mfrom o + j)) with (slot (St 0 b) (o + j)).
  - rewrite !slot_lin; cbn [fp]; lia.
  - unfold slot, mfrom. cbn [fp].
    replace (b + (o mod P + j)) with (b + j + o mod P) by lia. rewrite Zplus_mod_idemp_r. f_equal. lia.
Qed.
Lemma run1 : forall a i z m, xp a [CI i None] z -> straight i = true -> felts m -> second_ok i ->
  match isa i m (St a b) with
  | Some e => exists m', msteps M m (St a b) m' (St z b) /\
                (forall c, c < b + FL -> m' c = upds m (writes e) c)
  | None => (forall x d, i <> U32StoreMulFpImm x 0 0 d) -> mtraps M m (St a b)
  end.
Proof.
  intros a i z m (A & B & G & F & C & D & H) S Hm H2.
  assert (D' : snd (dedup1 F (i, None)) <= FS) by exact D.
  pose proof (temps_fine F i C D' H2) as T.
  assert (T' : temps_apart F (i, None) (St a b)) by exact T.
  cbn [expand] in H. destruct (dedup1_straight F i S) as (E1 & E2). rewrite E1 in H.
  pose proof (run_seq _ a z _ m (St a b) H eq_refl A B (xp_fits _ _ G) E2) as R.
  destruct (isa i m (St a b)) as [e|] eqn:E.
  - destruct (rewrite_ok F i None (St a b) m e Hm T' E) as (m' & s' & Es & Ag & _).
    rewrite Es in R. destruct R as (R & ->).
    assert (Ez : a + total (map (fun x => canon (fst x)) (fst (dedup1 F (i, None)))) = z).
    { clear - H. rewrite app_nil_r in H. revert a H.
      induction (map (fun x => canon (fst x)) (fst (dedup1 F (i, None)))) as [|j l IH]; intros a H; cbn in H.
      - unfold total. cbn. lia.
      - destruct H as (_ & H). apply IH in H. unfold total in *. cbn [fold_right]. lia. }
    rewrite Ez in R. exists m'. split; [exact R|]. intros c Hc. apply Ag. intros k K. rewrite slot_lin; cbn [fp]; lia.
  - intros N. rewrite (rewrite_none F i None (St a b) m Hm T' E N) in R. exact R.
Qed.
End Exec.
Lemma xp_fit : forall M lab FS LO FL a is z b, LO <= b <= fp_max M -> xp M lab FS LO FL a is z -> fits M a z b.
Proof. intros M lab FS LO FL a is z b B (_ & _ & G & _) x X. specialize (G x X). lia. Qed.
