(** General facts about the MIR semantics: block-by-block simulation. *)
From Coq Require Import ZArith Bool String List Lia.
From Verif Require Import M31 Isa Mir MirSem MirPasses.
Import ListNotations.
Open Scope Z_scope.

(** ** Results. *)
Lemma rbind_ok : forall A B (r : res A) (k : A -> res B) b,
  rbind r k = ROk b -> exists a, r = ROk a /\ k a = ROk b.
Proof. intros A B [a| | |] k b H; cbn in H; try discriminate. exists a; auto. Qed.

Lemma rbind_not_stuck : forall A B (r : res A) (k : A -> res B),
  rbind r k <> RStuck -> r <> RStuck.
Proof. intros A B [a| | |] k H E; try discriminate. apply H; reflexivity. Qed.

Lemma of_opt_ok : forall A (o : option A) a, of_opt o = ROk a <-> o = Some a.
Proof. intros A [x|] a; cbn; split; intro H; congruence. Qed.

(** Two computations agree wherever the first is defined. *)
Definition rle {A} (a b : res A) : Prop := a <> RStuck -> b = a.
Lemma rle_refl : forall A (a : res A), rle a a.
Proof. intros A a _; reflexivity. Qed.
Lemma rle_stuck : forall A (b : res A), rle RStuck b.
Proof. intros A b H; destruct H; reflexivity. Qed.
Lemma rle_bind : forall A B (a b : res A) (k l : A -> res B),
  rle a b -> (forall x, a = ROk x -> rle (k x) (l x)) -> rle (rbind a k) (rbind b l).
Proof.
  intros A B a b k l H K N. destruct a as [x| | |].
  - rewrite (H ltac:(discriminate)). cbn in *. apply K; auto.
  - rewrite (H ltac:(discriminate)). reflexivity.
  - destruct N; reflexivity.
  - rewrite (H ltac:(discriminate)). reflexivity.
Qed.
Lemma rle_trans : forall A (a b c : res A), rle a b -> rle b c -> rle a c.
Proof. unfold rle; intros A a b c H K N. specialize (H N). subst b. auto. Qed.

(** ** Instruction by instruction, block by block. *)
Definition instr_ok (i j : minstr) : Prop :=
  is_phi i = is_phi j /\ (is_phi i = true -> j = i) /\
  forall S (W : world S) tys e s, rle (exec W tys e s i) (exec W tys e s j).
Definition term_ok (t u : term) : Prop :=
  forall e rets, rle (exec_term e rets t) (exec_term e rets u).
Definition block_ok (b c : block) : Prop :=
  Forall2 instr_ok (b_instrs b) (b_instrs c) /\ term_ok (b_term b) (b_term c).

Lemma instr_ok_refl : forall i, instr_ok i i.
Proof. intro i. split; [reflexivity|split; [reflexivity|intros; apply rle_refl]]. Qed.
Lemma term_ok_refl : forall t, term_ok t t.
Proof. intros t e rets; apply rle_refl. Qed.

Lemma Forall2_refl : forall A (R : A -> A -> Prop), (forall a, R a a) -> forall l, Forall2 R l l.
Proof. intros A R H; induction l; constructor; auto. Qed.

Lemma block_ok_refl : forall b, block_ok b b.
Proof.
  intro b. split; [apply Forall2_refl, instr_ok_refl | apply term_ok_refl].
Qed.

Lemma span_phi_ok : forall is js, Forall2 instr_ok is js ->
  fst (span_phi js) = fst (span_phi is) /\ Forall2 instr_ok (snd (span_phi is)) (snd (span_phi js)).
Proof.
  induction 1 as [|i j is js H HF [IH1 IH2]].
  - cbn; auto.
  - destruct H as [Hp [Hq Hr]].
    destruct (is_phi i) eqn:Ei.
    + rewrite (Hq eq_refl). destruct i; try discriminate. cbn. rewrite IH1. auto.
    + assert (A : span_phi (i :: is) = ([], i :: is)) by (destruct i; try discriminate; reflexivity).
      assert (B : span_phi (j :: js) = ([], j :: js)) by (destruct j; try discriminate; reflexivity).
      rewrite A, B; cbn. split; auto. constructor; auto. split; [congruence|].
      split; [intro; congruence|exact Hr].
Qed.

Lemma exec_list_ok : forall S (W : world S) tys is js, Forall2 instr_ok is js ->
  forall e s, rle (exec_list W tys e s is) (exec_list W tys e s js).
Proof.
  intros S W tys. induction 1 as [|i j is js H HF IH]; intros e s.
  - apply rle_refl.
  - cbn. apply rle_bind; [apply H | intros x _; apply IH].
Qed.

Lemma run_ok : forall S (W : world S) f g,
  f_types g = f_types f -> f_rets g = f_rets f ->
  Forall2 block_ok (f_blocks f) (f_blocks g) ->
  forall fuel prev cur e s, rle (run W f fuel prev cur e s) (run W g fuel prev cur e s).
Proof.
  intros S W f g Ht Hr HB. induction fuel as [|k IH]; intros prev cur e s.
  - apply rle_refl.
  - cbn [run]. rewrite Ht, Hr.
    destruct (nth_error (f_blocks f) cur) as [b|] eqn:Eb; [|apply rle_stuck].
    assert (exists c, nth_error (f_blocks g) cur = Some c /\ block_ok b c) as (c & Ec & Hc).
    { clear -HB Eb. revert cur Eb. induction HB; intros [|n] Eb; cbn in *; try discriminate.
      - injection Eb as <-; eauto. - eauto. }
    rewrite Ec. destruct Hc as [Hi Htm].
    destruct (span_phi_ok _ _ Hi) as [E1 E2]. rewrite E1.
    apply rle_bind; [apply rle_refl|intros e1 _].
    apply rle_bind; [apply exec_list_ok, E2|intros x _].
    apply rle_bind; [apply Htm|intros n _].
    destruct n as [b'|vs]; [apply IH|apply rle_refl].
Qed.

Lemma lockstep : forall f g,
  f_entry g = f_entry f -> f_params g = f_params f -> f_types g = f_types f ->
  f_rets g = f_rets f -> Forall2 block_ok (f_blocks f) (f_blocks g) ->
  same_behaviour f g.
Proof.
  intros f g He Hp Ht Hr HB S W fuel args s. unfold call_fn. rewrite He, Hp.
  destruct (bind_all _ _ _) as [e|]; [|intro H; destruct H; reflexivity].
  apply run_ok; auto.
Qed.

Lemma omap_Forall2 : forall A B (g : A -> option B) l r,
  omap g l = Some r -> Forall2 (fun a b => g a = Some b) l r.
Proof.
  induction l as [|a l IH]; intros r H; cbn in H.
  - injection H as <-; constructor.
  - destruct (g a) eqn:Ea; [|discriminate]. destruct (omap g l); [|discriminate].
    injection H as <-. constructor; auto.
Qed.

Lemma rewrite_all_ok : forall fi f g,
  rewrite_all fi f = Some g ->
  (forall b i j, In b (f_blocks f) -> In i (b_instrs b) -> fi i = Some j -> instr_ok i j) ->
  same_behaviour f g.
Proof.
  intros fi f g H HI. unfold rewrite_all in H.
  destruct (omap (rewrite_block fi) (f_blocks f)) as [bs|] eqn:E; [|discriminate].
  injection H as <-. apply lockstep; try reflexivity. cbn [with_blocks f_blocks].
  apply omap_Forall2 in E.
  induction E as [|b c bs cs Hb HE IH]; constructor.
  - unfold rewrite_block in Hb.
    destruct (omap fi (b_instrs b)) as [is|] eqn:Ei; [|discriminate]. injection Hb as <-.
    split; [|apply term_ok_refl]. cbn [b_instrs].
    apply omap_Forall2 in Ei.
    assert (HX : forall i j, In i (b_instrs b) -> fi i = Some j -> instr_ok i j)
      by (intros; eapply HI; eauto; left; reflexivity).
    clear -Ei HX. induction Ei; constructor; [apply HX; auto; left; auto|].
    apply IHEi. intros; apply HX; auto; right; auto.
  - apply IH. intros b' i j HB; apply (HI b'). right; exact HB.
Qed.
