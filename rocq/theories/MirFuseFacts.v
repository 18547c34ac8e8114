(** Fusing a comparison into the branch that tests it. *)
From Coq Require Import ZArith Bool String List Lia.
From Verif Require Import M31 Isa Mir MirSem MirPasses MirFacts MirLocalFacts MirSim.
Import ListNotations.
Open Scope Z_scope.

(** A comparison against zero that the branch instruction can express: on felts or
    booleans, and against something that is not an integer literal. *)
Definition int_lit (v : value) : bool := match v with Lit (LInt _) => true | _ => false end.
Definition fuse_safe (op : binop) (l r : value) : Prop :=
  xorb (is_zero l) (is_zero r) = true ->
  (op = Eq \/ op = Neq) /\ ~ (int_lit l = true /\ int_lit r = true).

Lemma is_zero_cases : forall v, is_zero v = true -> v = Lit (LInt 0) \/ v = Lit (LBool false).
Proof.
  intros [l|i|] H; cbn in H; try discriminate. destruct l as [n|[]|]; try discriminate; auto.
  apply Z.eqb_eq in H. subst; auto.
Qed.
Lemma truth_any : forall e v,
  int_lit v = false ->
  match eval_any e v with
  | Some (VFelt z) => truth e v = Some (negb (z =? 0))
  | Some (VBool b) => truth e v = Some b
  | _ => True
  end.
Proof.
  intros e [l|i|] H; cbn in *; auto.
  - destruct l; cbn in *; auto; discriminate.
  - destruct (e i) as [x|]; auto. destruct x; auto. destruct (wfb z); auto.
Qed.

Lemma fuse_term_ok : forall e rets op l r a b,
  fusible op = true -> fuse_safe op l r ->
  rle (rbind (eval_bin e op l r) (fun x =>
         match x with VBool c => ROk (NGo (if c then a else b)) | _ => RStuck end))
      (exec_term e rets (fuse_term op l r a b)).
Proof.
  intros e rets op l r a b Hf Hs.
  destruct (xorb (is_zero l) (is_zero r)) eqn:Ex.
  2:{ assert (fuse_term op l r a b = TCmp op l r a b) as ->.
      { unfold fuse_term. destruct op; try discriminate;
          destruct (is_zero l), (is_zero r); try discriminate; reflexivity. }
      cbn [exec_term]. assert (branch_op op = true) as -> by (destruct op; auto). apply rle_refl. }
  destruct (Hs Ex) as [Ho Hi].
  assert (K : forall z v, is_zero z = true -> is_zero v = false -> ~ (int_lit z = true /\ int_lit v = true) ->
     match eval_any e z, eval_any e v with
     | Some (VFelt p), Some (VFelt q) => p = 0 /\ truth e v = Some (negb (q =? 0))
     | Some (VBool p), Some (VBool q) => p = false /\ truth e v = Some q
     | _, _ => True
     end).
  { intros z v Hz Hv Hn. destruct (is_zero_cases _ Hz) as [-> | ->]; cbn [eval_any].
    - change (0 mod P) with 0.
      assert (N : int_lit v = false) by (destruct (int_lit v) eqn:E; auto; destruct Hn; auto).
      pose proof (truth_any e v N) as T. destruct (eval_any e v) as [x|]; auto.
      destruct x; auto.
    - destruct (int_lit v) eqn:E.
      + destruct v as [[]| |]; try discriminate. cbn. auto.
      + pose proof (truth_any e v E) as T. destruct (eval_any e v) as [x|]; auto. destruct x; auto. }
  destruct (is_zero l) eqn:El, (is_zero r) eqn:Er; try discriminate; clear Ex Hs.
  - specialize (K l r El Er Hi).
    destruct Ho as [-> | ->]; cbn [fuse_term exec_term]; unfold eval_bin, eval_opnd; cbn [op_type];
      unfold fuse_term; rewrite El, Er; cbn [exec_term];
      destruct (eval_any e l) as [x|]; cbn [of_opt rbind]; try apply rle_stuck;
      destruct (eval_any e r) as [y|]; cbn [of_opt rbind]; try apply rle_stuck;
      destruct x, y; cbn [sem_bin rbind]; try apply rle_stuck;
      destruct K as [-> ->]; cbn [of_opt rbind];
      try (match goal with |- context [0 =? ?z] => rewrite (Z.eqb_sym 0 z); destruct (z =? 0) end; apply rle_refl);
      match goal with |- context [Bool.eqb false ?z] => destruct z; apply rle_refl end.
  - specialize (K r l Er El ltac:(tauto)).
    destruct Ho as [-> | ->]; cbn [fuse_term exec_term]; unfold eval_bin, eval_opnd; cbn [op_type];
      unfold fuse_term; rewrite El, Er; cbn [exec_term];
      destruct (eval_any e l) as [x|]; cbn [of_opt rbind]; try apply rle_stuck;
      destruct (eval_any e r) as [y|]; cbn [of_opt rbind]; try apply rle_stuck;
      destruct x, y; cbn [sem_bin rbind]; try apply rle_stuck;
      destruct K as [-> ->]; cbn [of_opt rbind];
      try (match goal with |- context [?z =? 0] => destruct (z =? 0) end; apply rle_refl);
      match goal with |- context [Bool.eqb ?z false] => destruct z; apply rle_refl end.
Qed.

Lemma not_term_ok : forall e rets v a b,
  rle (rbind (rbind (of_opt (eval_any e v)) (sem_un Not)) (fun x =>
         match x with VBool c => ROk (NGo (if c then a else b)) | _ => RStuck end))
      (exec_term e rets (TIf v b a)).
Proof.
  intros e rets v a b. cbn [exec_term].
  destruct (eval_any e v) as [x|] eqn:E; cbn [of_opt rbind]; [|apply rle_stuck].
  destruct x as [z|z|c| |l|l|z]; cbn [sem_un rbind]; try apply rle_stuck.
  assert (N : int_lit v = false) by (destruct v as [[]| |]; auto; discriminate).
  pose proof (truth_any e v N) as T. rewrite E in T. rewrite T. cbn.
  destruct c; apply rle_refl.
Qed.

(** ** A value used once, by a terminator, is used nowhere else. *)
Lemma use_count_app : forall l1 l2 f v, f_blocks f = l1 ++ l2 ->
  use_count f v = (use_count (with_blocks f l1) v + use_count (with_blocks f l2) v)%nat.
Proof.
  intros l1 l2 f v E. unfold use_count. rewrite E. cbn [with_blocks f_blocks]. clear E.
  induction l1 as [|b l1 IH]; cbn; auto. rewrite IH. lia.
Qed.
Lemma mem_nat_in : forall v l, mem_nat v l = true <-> In v l.
Proof.
  intros v l. unfold mem_nat. rewrite existsb_exists. split.
  - intros (x & Hx & E). apply Nat.eqb_eq in E. subst; auto.
  - intro H. exists v. rewrite Nat.eqb_refl. auto.
Qed.
Lemma filter_zero : forall A (p : A -> bool) l, length (filter p l) = 0%nat ->
  forall a, In a l -> p a = false.
Proof.
  induction l as [|x l IH]; cbn; intros H a Ha; [tauto|]. destruct Ha as [->|Ha].
  - destruct (p a); cbn in H; auto; lia.
  - destruct (p x); cbn in H; auto; lia.
Qed.
Lemma use_count_zero : forall f v, use_count f v = 0%nat ->
  forall b, In b (f_blocks f) ->
    (forall i, In i (b_instrs b) -> ~ In v (uses i)) /\ ~ In v (term_uses (b_term b)).
Proof.
  intros f v. unfold use_count. induction (f_blocks f) as [|c l IH]; cbn; intros H b Hb; [tauto|].
  destruct Hb as [<-|Hb]; [|apply IH; auto; lia].
  split.
  - intros i Hi U. apply mem_nat_in in U.
    rewrite (filter_zero _ (fun i => mem_nat v (uses i)) (b_instrs c)) in U; auto; [discriminate|lia].
  - intro U. apply mem_nat_in in U. rewrite U in H. lia.
Qed.
Lemma use_once : forall f v k blk,
  use_count f v = 1%nat -> nth_error (f_blocks f) k = Some blk -> In v (term_uses (b_term blk)) ->
  (forall b i, In b (f_blocks f) -> In i (b_instrs b) -> ~ In v (uses i)) /\
  (forall k' b, nth_error (f_blocks f) k' = Some b -> In v (term_uses (b_term b)) -> k' = k).
Proof.
  intros f v k blk H Hk Hu.
  destruct (nth_error_split _ _ Hk) as (l1 & l2 & E & L).
  rewrite (use_count_app l1 (blk :: l2) f v E) in H.
  assert (E2 : use_count (with_blocks f (blk :: l2)) v =
     (length (filter (fun i => mem_nat v (uses i)) (b_instrs blk)) + 1 + use_count (with_blocks f l2) v)%nat).
  { unfold use_count. cbn. apply mem_nat_in in Hu. rewrite Hu. reflexivity. }
  rewrite E2 in H. clear E2.
  assert (Z1 : use_count (with_blocks f l1) v = 0%nat) by lia.
  assert (Z2 : use_count (with_blocks f l2) v = 0%nat) by lia.
  assert (Z3 : length (filter (fun i => mem_nat v (uses i)) (b_instrs blk)) = 0%nat) by lia.
  split.
  - intros b i Hb Hi. rewrite E in Hb. apply in_app_iff in Hb. destruct Hb as [Hb|[<-|Hb]].
    + exact (proj1 (use_count_zero _ _ Z1 b Hb) i Hi).
    + intro U. apply mem_nat_in in U. rewrite (filter_zero _ _ _ Z3 _ Hi) in U. discriminate.
    + exact (proj1 (use_count_zero _ _ Z2 b Hb) i Hi).
  - intros k' b Hk' U. destruct (Nat.lt_trichotomy k' k) as [Lt|[Eq|Gt]]; auto; exfalso.
    + rewrite E, nth_error_app1 in Hk' by lia.
      apply (proj2 (use_count_zero _ _ Z1 b (nth_error_In _ _ Hk'))); auto.
    + rewrite E, nth_error_app2 in Hk' by lia.
      destruct (k' - length l1)%nat as [|n] eqn:En; [lia|]. cbn in Hk'.
      apply (proj2 (use_count_zero _ _ Z2 b (nth_error_In _ _ Hk'))); auto.
Qed.

Lemma unsnoc_app : forall A (l : list A) i x, unsnoc l = Some (i, x) -> l = i ++ [x].
Proof.
  induction l as [|a l IH]; intros i x H; [discriminate|].
  cbn in H. destruct l as [|b l].
  - injection H as <- <-. reflexivity.
  - destruct (unsnoc (b :: l)) as [[j y]|] eqn:E; [|discriminate].
    injection H as <- <-. rewrite (IH j y eq_refl). reflexivity.
Qed.

(** ** The pass. *)
Section Fuse.
  Variable f : func.
  Let once c := Nat.eqb (use_count f c) 1.

  (** The instruction folded into the terminator of [blk], with its destination. *)
  Definition fused (blk : block) : option (list minstr * minstr * nat * nat * nat) :=
    match b_term blk with
    | TIf (Op c) a b =>
      if once c then
        match unsnoc (b_instrs blk) with
        | Some (is, IBinary op d l r) =>
          if Nat.eqb d c && fusible op then Some (is, IBinary op d l r, c, a, b) else None
        | Some (is, IUnary Not d s) => if Nat.eqb d c then Some (is, IUnary Not d s, c, a, b) else None
        | _ => None
        end
      else None
    | _ => None
    end.
  Definition new_term (i : minstr) (a b : nat) : term :=
    match i with
    | IBinary op _ l r => fuse_term op l r a b
    | IUnary _ _ s => TIf s b a
    | _ => TUnreachable
    end.
  Lemma fuse_block_eq : forall blk, fuse_block once blk =
    match fused blk with
    | Some (is, i, c, a, b) => Block is (new_term i a b) (b_preds blk)
    | None => blk
    end.
  Proof.
    intro blk. unfold fuse_block, fused. destruct (b_term blk) as [|cond t e| | |]; auto. destruct cond as [|i|]; auto.
    destruct (once i); auto. destruct (unsnoc (b_instrs blk)) as [[is j]|]; auto.
    destruct j; auto; [destruct op; auto|]; destruct (Nat.eqb dest i); auto.
    cbn. destruct (fusible op); auto.
  Qed.

  Definition folded_ok (i : minstr) (c : nat) : Prop :=
    (exists op l r, i = IBinary op c l r /\ fusible op = true) \/ (exists s, i = IUnary Not c s).
  Lemma fused_spec : forall blk is i c a b, fused blk = Some (is, i, c, a, b) ->
    b_instrs blk = is ++ [i] /\ b_term blk = TIf (Op c) a b /\ use_count f c = 1%nat /\ folded_ok i c.
  Proof.
    intros blk is i c a b H. unfold fused in H.
    destruct (b_term blk) as [|cond t e| | |] eqn:Et; try discriminate.
    destruct cond as [|v|]; try discriminate.
    destruct (once v) eqn:Eo; try discriminate. unfold once in Eo. apply Nat.eqb_eq in Eo.
    destruct (unsnoc (b_instrs blk)) as [[js j]|] eqn:Eu; try discriminate.
    apply unsnoc_app in Eu. unfold folded_ok.
    destruct j; try discriminate.
    - destruct op; try discriminate.
      destruct (Nat.eqb dest v) eqn:E1; try discriminate. injection H as <- <- <- <- <-.
      apply Nat.eqb_eq in E1. subst dest. eauto 8.
    - destruct (Nat.eqb dest v) eqn:E1; try discriminate. cbn in H.
      destruct (fusible op) eqn:E2; try discriminate. injection H as <- <- <- <- <-.
      apply Nat.eqb_eq in E1. subst dest. repeat split; eauto 9.
  Qed.

  (** What the folded instruction computes. *)
  Definition cond_val (e : env) (i : minstr) : res val :=
    match i with
    | IBinary op _ l r => eval_bin e op l r
    | IUnary op _ s => rbind (of_opt (eval_any e s)) (sem_un op)
    | _ => RStuck
    end.
  Definition dropped (v : nat) : Prop :=
    exists k blk is i a b, nth_error (f_blocks f) k = Some blk /\ fused blk = Some (is, i, v, a, b).
  Definition finv (k pos : nat) (e : env) : Prop :=
    forall blk is i c a b, nth_error (f_blocks f) k = Some blk ->
      pos = length (b_instrs blk) -> fused blk = Some (is, i, c, a, b) ->
      exists x, cond_val e i = ROk x /\ e c = Some x.

  Lemma dropped_unused : forall v, dropped v ->
    forall b i, In b (f_blocks f) -> In i (b_instrs b) -> ~ In v (uses i).
  Proof.
    intros v (k & blk & is & i & a & b & Hk & Hf). destruct (fused_spec _ _ _ _ _ _ Hf) as (_ & Et & U & _).
    apply (use_once f v k blk U Hk). rewrite Et. cbn; auto.
  Qed.
  Lemma dropped_term : forall v k blk, dropped v -> nth_error (f_blocks f) k = Some blk ->
    In v (term_uses (b_term blk)) -> exists is i a b, fused blk = Some (is, i, v, a, b).
  Proof.
    intros v k blk (k' & blk' & is & i & a & b & Hk' & Hf) Hk U.
    destruct (fused_spec _ _ _ _ _ _ Hf) as (_ & Et & Uc & _).
    assert (k = k').
    { apply (proj2 (use_once f v k' blk' Uc Hk' ltac:(rewrite Et; cbn; auto)) k blk); auto. }
    subst k'. rewrite Hk in Hk'. injection Hk' as <-. eauto.
  Qed.

  Lemma cond_val_agree : forall m e e' i, (forall v, In v (uses i) -> e' v = e v) ->
    rrel m eq (cond_val e i) (cond_val e' i).
  Proof.
    intros m e e' i H. destruct i; cbn [cond_val]; try exact I.
    - apply rrel_bind with (R := eq); [|intros x ? _ _ <-; apply rrel_eq_refl].
      apply rrel_of_opt. apply (vsim_agree e e' source). intros j Hj. apply H. exact Hj.
    - apply eval_bin_sim; apply vsim_agree; intros j Hj; apply H; cbn; apply in_app_iff; auto.
  Qed.

  Hypothesis Hphis : phis_first f.
  Hypothesis Hsafe : forall blk is op c l r a b, In blk (f_blocks f) ->
    fused blk = Some (is, IBinary op c l r, c, a, b) -> fuse_safe op l r.

  Lemma keep_same : forall b pos i, is_phi i = false ->
    (forall v, In v (uses i) -> ~ dropped v) ->
    keep_ok f (fuse_cmp f) true dropped finv (fun _ _ => True) b pos i i.
  Proof.
    intros b pos i Hp Hu. split; [|split; [|split]]; auto.
    intros S W s e e' _ _ HR. apply effect_agree; auto.
  Qed.

  Lemma lsim_same : forall b is pos,
    (forall i v, In i is -> In v (uses i) -> ~ dropped v) ->
    forall tl tl', lsim f (fuse_cmp f) true dropped finv (fun _ _ => True) b (pos + length is) tl tl' ->
    lsim f (fuse_cmp f) true dropped finv (fun _ _ => True) b pos (is ++ tl) (is ++ tl').
  Proof.
    induction is as [|i is IH]; intros pos H tl tl' HT.
    - cbn in *. rewrite Nat.add_0_r in HT. exact HT.
    - cbn [app]. cbn [length] in HT. rewrite <- plus_n_Sm in HT.
      assert (HT' : lsim f (fuse_cmp f) true dropped finv (fun _ _ => True) b (S pos) (is ++ tl) (is ++ tl'))
        by (apply IH; auto; intros; eapply H; eauto; right; auto).
      destruct (is_phi i) eqn:Ei.
      + destruct i; try discriminate. apply ls_phi; auto. split; [reflexivity|].
        intros p blk e e' x _ _ _ HR. unfold phi_val. cbn [fst snd].
        destruct (src_from p sources) as [v|] eqn:Es; [|discriminate].
        intro E. apply (proj1 (vsim_agree e e' v ltac:(
          intros j Hj; apply HR; apply (H _ _ (or_introl eq_refl)); cbn;
          apply in_flat_map; exists v; split; auto;
          clear -Es; induction sources as [|[q w] r IHr]; cbn in *; [discriminate|];
          destruct (Nat.eqb p q); [injection Es as <-; auto|right; auto])) _ _ E).
      + apply ls_keep; auto. apply keep_same; auto. intros; eapply H; eauto. left; auto.
  Qed.

  Lemma fuse_sim : forall S (W : world S) fuel args s,
    rrel true eq (call_fn W f fuel args s) (call_fn W (fuse_cmp f) fuel args s).
  Proof.
    intros S0 W0 fuel0 args0 s0.
    apply (sim_calls f (fuse_cmp f) true dropped finv (fun _ _ => True)); auto.
    - (* inv_step *)
      intros S W b blk pos i e s e1 s1 _ Hb Hi Hp _ Ex blk' is j c a0 b0 Hb' Hpos Hf.
      rewrite Hb in Hb'. injection Hb' as <-.
      destruct (fused_spec _ _ _ _ _ _ Hf) as (Ei & Et & Uc & Ho).
      assert (j = i).
      { rewrite Ei, app_length in Hpos. cbn in Hpos. rewrite Ei in Hi.
        rewrite nth_error_app2 in Hi by lia. replace (pos - length is)%nat with 0%nat in Hi by lia.
        cbn in Hi. congruence. }
      subst j.
      assert (NU : ~ In c (uses i)).
      { apply (dropped_unused c) with (b := blk).
        - exists b, blk, is, i, a0, b0; auto.
        - eapply nth_error_In; eauto.
        - eapply nth_error_In; eauto. }
      assert (HC : exists x, cond_val e i = ROk x /\ e1 = upd e c x).
      { unfold exec in Ex. destruct Ho as [(op & l & r & -> & _)|(v & ->)];
          cbn [effect dests cond_val] in *.
        - destruct (eval_bin e op l r) as [x| | |]; try discriminate. cbn in Ex.
          injection Ex as <- _. eauto.
        - destruct (rbind (of_opt (eval_any e v)) (sem_un Not)) as [x| | |]; try discriminate. cbn in Ex.
          injection Ex as <- _. eauto. }
      destruct HC as (x & HC & ->). exists x. split.
      + pose proof (cond_val_agree true e (upd e c x) i) as A. rewrite HC in A.
        destruct A as (y & A & <-); auto.
        intros v Hv. unfold upd. destruct (Nat.eqb_spec v c); auto. subst. contradiction.
      + unfold upd. rewrite Nat.eqb_refl. reflexivity.
    - (* inv_edge *)
      intros b blk b' blk' e e1 Hb Hb' _ _ _ blk2 is j c a0 b0 Hb2 Hpos Hf.
      rewrite Hb' in Hb2. injection Hb2 as <-.
      destruct (fused_spec _ _ _ _ _ _ Hf) as (Ei & _ & _ & Ho).
      exfalso. pose proof (nphis_len blk') as L.
      destruct (snd (span_phi (b_instrs blk'))) as [|? ?] eqn:Er; [|cbn in L; lia].
      pose proof (span_phi_app (b_instrs blk')) as A. rewrite Er, app_nil_r in A.
      assert (In j (b_instrs blk')) by (rewrite Ei; apply in_app_iff; cbn; auto).
      rewrite A in H. apply in_map_iff in H. destruct H as (q & <- & _).
      destruct Ho as [(op & l & r & X & _)|(v & X)]; discriminate.
    - (* inv_entry *)
      intros blk args e Hb Hn _ blk2 is j c a0 b0 Hb2 Hpos Hf.
      rewrite Hb in Hb2. injection Hb2 as <-.
      destruct (fused_spec _ _ _ _ _ _ Hf) as (Ei & _ & _ & Ho).
      rewrite Ei, app_length in Hpos. cbn in Hpos. lia.
    - (* blocks *)
      intros b blk Hb. exists (fuse_block once blk). split; [|split].
      { cbn [fuse_cmp with_blocks f_blocks]. apply map_nth_error. exact Hb. }
      + rewrite fuse_block_eq. destruct (fused blk) as [[[[[is i] c] a0] b0]|] eqn:Ef.
        * destruct (fused_spec _ _ _ _ _ _ Ef) as (Ei & Et & Uc & Ho). cbn [b_instrs].
          rewrite Ei. rewrite <- (app_nil_r is) at 2. apply lsim_same.
          { intros j v Hj Hv D. apply (dropped_unused v D blk j); auto.
            - eapply nth_error_In; eauto.
            - rewrite Ei. apply in_app_iff; auto. }
          apply ls_drop; [|constructor]. split; [|split].
          -- destruct Ho as [(op & l & r & -> & _)|(v & ->)]; reflexivity.
          -- intros d Hd. assert (d = c) as ->.
             { destruct Ho as [(op & l & r & -> & _)|(v & ->)]; cbn in Hd; destruct Hd; auto; contradiction. }
             exists b, blk, is, i, a0, b0; auto.
          -- intros S W s e _ _. destruct Ho as [(op & l & r & -> & Hfu)|(v & ->)]; cbn [effect].
             ++ pose proof (eval_bin_fuel e op l r) as NF.
                assert (NT : eval_bin e op l r <> RTrap).
                { unfold eval_bin. destruct (eval_opnd e op l); cbn; try discriminate.
                  destruct (eval_opnd e op r); cbn; try discriminate.
                  destruct op; try discriminate; destruct v, v0; discriminate. }
                destruct (eval_bin e op l r); cbn; auto; congruence.
             ++ destruct (eval_any e v) as [x|]; cbn; auto. destruct x; cbn; auto.
        * rewrite <- (app_nil_r (b_instrs blk)). apply lsim_same; [|constructor].
          intros j v Hj Hv D. apply (dropped_unused v D blk j); auto. eapply nth_error_In; eauto.
      + (* terminator *)
        rewrite fuse_block_eq. destruct (fused blk) as [[[[[is i] c] a0] b0]|] eqn:Ef.
        * destruct (fused_spec _ _ _ _ _ _ Ef) as (Ei & Et & Uc & Ho). cbn [b_term].
          intros e e' HI HR. destruct (HI blk is i c a0 b0 Hb eq_refl Ef) as (x & Hx & Hc).
          assert (AG : forall v, In v (uses i) -> e' v = e v).
          { intros v Hv. apply HR. intro D. apply (dropped_unused v D blk i); auto.
            - eapply nth_error_In; eauto.
            - rewrite Ei. apply in_app_iff; cbn; auto. }
          pose proof (cond_val_agree true e e' i AG) as A. rewrite Hx in A. destruct A as (y & A & <-).
          rewrite Et. cbn [exec_term truth]. rewrite Hc.
          apply rrel_true. destruct Ho as [(op & l & r & -> & Hfu)|(v & ->)]; cbn [new_term cond_val] in *.
          -- eapply rle_trans; [|eapply fuse_term_ok; eauto].
             ++ rewrite A. destruct x; cbn; try apply rle_stuck; try apply rle_refl.
                ** exfalso. clear -Hx Hfu. unfold eval_bin in Hx.
                   destruct (eval_opnd e op l); [|discriminate]. destruct (eval_opnd e op r); [|discriminate].
                   cbn in Hx. destruct op; try discriminate; destruct v, v0; discriminate.
                ** exfalso. clear -Hx Hfu. unfold eval_bin in Hx.
                   destruct (eval_opnd e op l); [|discriminate]. destruct (eval_opnd e op r); [|discriminate].
                   cbn in Hx. destruct op; try discriminate; destruct v, v0; discriminate.
             ++ eapply Hsafe; eauto. eapply nth_error_In; eauto.
          -- eapply rle_trans; [|apply (not_term_ok e' _ v a0 b0)].
             rewrite A. destruct x; cbn; try apply rle_stuck; try apply rle_refl.
             ++ exfalso. clear -Hx. destruct (eval_any e v) as [y|]; [|discriminate]. destruct y; discriminate.
             ++ exfalso. clear -Hx. destruct (eval_any e v) as [y|]; [|discriminate]. destruct y; discriminate.
        * intros e e' _ HR.
          assert (AG : forall v, In v (term_uses (b_term blk)) -> e' v = e v).
          { intros v Hv. apply HR. intro D. destruct (dropped_term v b blk D Hb Hv) as (? & ? & ? & ? & E).
            congruence. }
          clear -AG. cbn [fuse_cmp with_blocks f_types f_rets].
          destruct (b_term blk); cbn [exec_term term_uses] in *; try apply rrel_eq_refl.
          -- rewrite (truth_sim_agree e e' cond); auto. apply rrel_eq_refl.
          -- destruct (branch_op op); [|exact Logic.I].
             apply rrel_bind with (R := eq); [|intros x ? _ _ <-; apply rrel_eq_refl].
             apply eval_bin_sim; apply vsim_agree; intros; apply AG; apply in_app_iff; auto.
          -- destruct (omap _ _) as [ts|]; [|exact Logic.I]. cbn [of_opt rbind].
             apply rrel_bind with (R := eq); [|intros x ? _ _ <-; apply rrel_eq_refl].
             apply rrel_of_opt. intros x Hx. rewrite <- (map_id values).
             apply (eval_list_sim e e' (fun v => v) ts values x); auto.
             intros v Hv. apply vsim_agree. intros i Hi. apply AG. apply in_flat_map. eauto.
  Qed.
End Fuse.
