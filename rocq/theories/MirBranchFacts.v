(** SimplifyBranches on a whole function. *)
From Coq Require Import ZArith Bool String List Lia.
From Verif Require Import M31 Isa Mir MirSem MirPasses MirFacts MirLocalFacts.
Import ListNotations.
Open Scope Z_scope.

(** The terminators whose literals do not fit their type are excluded. *)
Definition term_fit (t : term) : Prop := forall op l r a b, t = TCmp op l r a b -> lits_fit op l r.

(** How a block may change: instructions kept, terminator kept or simplified. *)
Definition bstep (b c : block) : Prop :=
  b_instrs c = b_instrs b /\ (b_term c = b_term b \/ simplify_term (b_term b) = BTo (b_term c)).

Lemma bstep_refl : forall b, bstep b b. Proof. split; auto. Qed.
Lemma bstep_preds : forall b c p, bstep b c -> bstep b (Block (b_instrs c) (b_term c) p).
Proof. intros b c p [H1 H2]. split; auto. Qed.
Lemma bstep_add : forall b c p, bstep b c -> bstep b (add_pred p c).
Proof. intros b c p H. unfold add_pred. destruct (mem_nat p (b_preds c)); [|apply bstep_preds]; auto. Qed.
Lemma bstep_remove : forall b c p, bstep b c -> bstep b (remove_pred p c).
Proof. intros b c p H. apply bstep_preds; auto. Qed.

Lemma upd_nth_Forall2 : forall A B (R : A -> B -> Prop) (g : B -> B) n l r,
  (forall a b, R a b -> R a (g b)) -> Forall2 R l r -> Forall2 R l (upd_nth n g r).
Proof.
  intros A B R g n l r H F. revert n. induction F; intros [|n]; cbn; constructor; auto.
Qed.
Lemma upd_nth_at : forall A B (R : A -> B -> Prop) (g : B -> B) n l r,
  Forall2 R l r ->
  (forall a b, nth_error l n = Some a -> nth_error r n = Some b -> R a b -> R a (g b)) ->
  Forall2 R l (upd_nth n g r).
Proof.
  intros A B R g n l r F. revert n. induction F; intros [|n] H1; cbn; constructor; auto.
Qed.
Lemma fold_upd_Forall2 : forall A B C (R : A -> B -> Prop) (g : C -> nat) (h : B -> B) cs l r,
  (forall a b, R a b -> R a (h b)) -> Forall2 R l r ->
  Forall2 R l (fold_left (fun l x => upd_nth (g x) h l) cs r).
Proof.
  induction cs as [|c cs IH]; intros l r H F; cbn; auto. apply IH; auto. apply upd_nth_Forall2; auto.
Qed.
Lemma upd_nth_length : forall A n (g : A -> A) l, length (upd_nth n g l) = length l.
Proof. induction n; intros g [|a l]; cbn; auto. Qed.

Lemma simplify_term_jump : forall t u, simplify_term t = BTo u -> exists n, u = TJump n.
Proof.
  intros t u H. destruct t; cbn in H; try discriminate.
  - destruct cond; try discriminate. destruct (as_bool l) as [[]|]; try discriminate; injection H as <-; eauto.
  - destruct left; try discriminate. destruct right; try discriminate.
    destruct (eval_binary_op op l l0) as [c| |]; try discriminate.
    destruct c as [|[]|]; try discriminate; injection H as <-; eauto.
Qed.

Lemma nth_upd_same : forall A (g : A -> A) n l a, nth_error l n = Some a ->
  nth_error (upd_nth n g l) n = Some (g a).
Proof. induction n; intros [|x l] a H; cbn in *; try discriminate; [congruence|auto]. Qed.
Lemma nth_upd_other : forall A (g : A -> A) n k l, n <> k ->
  nth_error (upd_nth n g l) k = nth_error l k.
Proof. induction n; intros [|k] [|x l] N; cbn; auto; try congruence. Qed.

Lemma nth_fold_preds : forall (h : block -> block) id xs bs b,
  (forall c, b_instrs (h c) = b_instrs c /\ b_term (h c) = b_term c) ->
  nth_error bs id = Some b ->
  exists c, nth_error (fold_left (fun l x => upd_nth x h l) xs bs) id = Some c /\
            b_instrs c = b_instrs b /\ b_term c = b_term b.
Proof.
  intros h id xs. induction xs as [|x xs IH]; intros bs b Hh H; cbn.
  - eauto.
  - destruct (Nat.eq_dec x id) as [->|N].
    + destruct (IH _ _ Hh (nth_upd_same _ h _ _ _ H)) as (c & E & E1 & E2).
      destruct (Hh b). exists c. repeat split; congruence.
    + apply IH; auto. rewrite nth_upd_other; auto.
Qed.

Lemma set_term_edges_step : forall id t bs orig b0 b,
  Forall2 bstep orig bs -> nth_error orig id = Some b0 -> nth_error bs id = Some b ->
  simplify_term (b_term b) = BTo t ->
  Forall2 bstep orig (set_terminator_with_edges id t bs).
Proof.
  intros id t bs orig b0 b F H0 H Ht. unfold set_terminator_with_edges. rewrite H.
  apply (fold_upd_Forall2 _ _ _ bstep (fun x => x)); [intros; apply bstep_add; auto|].
  pose proof (nth_fold_preds (remove_pred id) id (targets (b_term b)) bs b
                ltac:(split; reflexivity) H) as (c & Ec & Ei & Et).
  apply upd_nth_at.
  - apply (fold_upd_Forall2 _ _ _ bstep (fun x => x)); [intros; apply bstep_remove|]; auto.
  - intros a d Ha Hd [S1 S2]. rewrite Ec in Hd. injection Hd as <-. split; [exact S1|].
    cbn [set_term b_term]. right.
    destruct S2 as [S2|S2].
    + rewrite <- S2, Et. exact Ht.
    + exfalso. destruct (simplify_term_jump _ _ S2) as (n & En). rewrite Et in En.
      rewrite En in Ht. discriminate.
Qed.

Lemma simplify_block_step : forall orig bs id bs',
  Forall2 bstep orig bs -> simplify_block bs id = Some bs' -> Forall2 bstep orig bs'.
Proof.
  intros orig bs id bs' F H. unfold simplify_block in H.
  destruct (nth_error bs id) as [b|] eqn:E; [|injection H as <-; auto].
  destruct (simplify_term (b_term b)) as [t| |] eqn:Et; try discriminate.
  - injection H as <-.
    assert (exists b0, nth_error orig id = Some b0) as (b0 & E0).
    { clear -F E. revert id E. induction F; intros [|n] E; cbn in *; try discriminate; eauto. }
    eapply set_term_edges_step; eauto.
  - injection H as <-; auto.
Qed.

Lemma fold_opt_inv : forall A B (P : A -> Prop) (g : A -> B -> option A) l a a',
  (forall x b y, P x -> g x b = Some y -> P y) -> P a -> fold_opt g l a = Some a' -> P a'.
Proof.
  induction l as [|b l IH]; intros a a' H Pa E; cbn in E; [injection E as <-; auto|].
  destruct (g a b) eqn:Eg; [|discriminate]. eauto.
Qed.

Lemma simplify_branches_same : forall f g,
  (forall b, In b (f_blocks f) -> term_fit (b_term b)) ->
  simplify_branches f = Some g -> same_behaviour f g.
Proof.
  intros f g Hfit H. unfold simplify_branches in H.
  destruct (fold_opt _ _ _) as [bs|] eqn:E; [|discriminate]. injection H as <-.
  assert (F : Forall2 bstep (f_blocks f) bs).
  { eapply (fold_opt_inv _ _ (fun l => Forall2 bstep (f_blocks f) l)); [|apply Forall2_refl, bstep_refl|exact E].
    intros x b y Hx Hy. eapply simplify_block_step; eauto. }
  apply lockstep; try reflexivity. cbn [with_blocks f_blocks].
  clear E. revert Hfit. induction F as [|b c bs cs S F IH]; intro Hfit; constructor.
  - destruct S as [S1 S2]. split.
    + rewrite S1. apply Forall2_refl, instr_ok_refl.
    + destruct S2 as [-> |S2]; [apply term_ok_refl|].
      apply simplify_term_ok; auto. apply Hfit. left; auto.
  - apply IH. intros; apply Hfit; right; auto.
Qed.
