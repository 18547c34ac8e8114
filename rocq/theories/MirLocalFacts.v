(** Facts about constant evaluation and the one-instruction passes. *)
From Coq Require Import ZArith Bool String List Lia.
From Verif Require Import M31 M31Facts Isa IsaFacts Mir MirSem MirPasses MirFacts.
Import ListNotations.
Open Scope Z_scope.

(** A literal that fits its Rust type, and one that is a canonical felt. *)
Definition u32_lit (l : lit) : Prop := match l with LInt n => 0 <= n < B32 | _ => True end.
Definition felt_lit (l : lit) : Prop := match l with LInt n => 0 <= n < P | _ => True end.
Definition felt_cmp (op : binop) : bool := match op with Eq | Neq => true | _ => false end.

Lemma modP_mod : forall x, (x mod P) mod P = x mod P.
Proof. intro x. apply Z.mod_mod. discriminate. Qed.
Lemma modB_small : forall x, 0 <= x < B32 -> x mod B32 = x.
Proof. intros; apply Z.mod_small; auto. Qed.
Lemma modB_mod : forall x, (x mod B32) mod B32 = x mod B32.
Proof. intro x. apply Z.mod_mod. discriminate. Qed.
Lemma B32_pow : B32 = 2 ^ 32. Proof. reflexivity. Qed.

Lemma eval_binary_ok : forall op a b c e,
  eval_binary_op op a b = EvLit c -> u32_lit a -> u32_lit b ->
  (felt_cmp op = true -> felt_lit a /\ felt_lit b) ->
  exists x, eval_bin e op (Lit a) (Lit b) = ROk x /\ lit_as (result_type op) c = Some x.
Proof.
  intros op a b c e H Ha Hb Hf.
  destruct op, a as [n|p|], b as [m|q|]; cbn [eval_binary_op] in H; try discriminate;
    cbn [u32_lit] in Ha, Hb;
    unfold eval_bin, eval_opnd; cbn [op_type eval_as eval_any lit_as of_opt rbind sem_bin].
  - injection H as <-. eexists; split; [reflexivity|]. cbn [lit_as result_type].
    unfold madd, msub, mmul, mfrom. rewrite modP_mod. reflexivity.
  - injection H as <-. eexists; split; [reflexivity|]. cbn [lit_as result_type].
    unfold madd, msub, mmul, mfrom. rewrite modP_mod. reflexivity.
  - injection H as <-. eexists; split; [reflexivity|]. cbn [lit_as result_type].
    unfold madd, msub, mmul, mfrom. rewrite modP_mod. reflexivity.
  - destruct (m =? 0); [discriminate|]. unfold mdiv, mfrom in H.
    destruct (m mod P =? 0) eqn:Em; [discriminate|].
    injection H as <-. eexists; split; [reflexivity|].
    cbn [lit_as result_type]. unfold mmul. rewrite modP_mod. reflexivity.
  - injection H as <-. destruct (Hf eq_refl) as [H1 H2]. cbn in H1, H2.
    rewrite !Z.mod_small by auto. eexists; split; reflexivity.
  - injection H as <-. destruct (Hf eq_refl) as [H1 H2]. cbn in H1, H2.
    rewrite !Z.mod_small by auto. eexists; split; reflexivity.
  - injection H as <-. eexists; split; reflexivity.
  - injection H as <-. eexists; split; reflexivity.
  - injection H as <-. rewrite !(modB_small n), !(modB_small m) by auto.
    eexists; split; [reflexivity|]. cbn [lit_as result_type]. rewrite modB_mod; reflexivity.
  - injection H as <-. rewrite !(modB_small n), !(modB_small m) by auto.
    eexists; split; [reflexivity|]. cbn [lit_as result_type]. rewrite modB_mod; reflexivity.
  - injection H as <-. rewrite !(modB_small n), !(modB_small m) by auto.
    eexists; split; [reflexivity|]. cbn [lit_as result_type]. rewrite modB_mod; reflexivity.
  - rewrite !(modB_small n), !(modB_small m) by auto.
    destruct (m =? 0) eqn:Em; [discriminate|]. injection H as <-.
    eexists; split; [reflexivity|]. cbn [lit_as result_type]. rewrite modB_small; [reflexivity|].
    apply Z.eqb_neq in Em. split; [apply Z.div_pos; lia|].
    apply Z.le_lt_trans with n; [|lia]. apply Z.div_le_upper_bound; nia.
  - rewrite !(modB_small n), !(modB_small m) by auto.
    destruct (m =? 0) eqn:Em; [discriminate|]. injection H as <-.
    eexists; split; [reflexivity|]. cbn [lit_as result_type]. rewrite modB_small; [reflexivity|].
    apply Z.eqb_neq in Em. pose proof (Z.mod_pos_bound n m ltac:(lia)). lia.
  - injection H as <-. rewrite !(modB_small n), !(modB_small m) by auto. eexists; split; reflexivity.
  - injection H as <-. rewrite !(modB_small n), !(modB_small m) by auto. eexists; split; reflexivity.
  - injection H as <-. rewrite !(modB_small n), !(modB_small m) by auto. eexists; split; reflexivity.
  - injection H as <-. rewrite !(modB_small n), !(modB_small m) by auto. eexists; split; reflexivity.
  - injection H as <-. rewrite !(modB_small n), !(modB_small m) by auto. eexists; split; reflexivity.
  - injection H as <-. rewrite !(modB_small n), !(modB_small m) by auto. eexists; split; reflexivity.
  - injection H as <-. rewrite !(modB_small n), !(modB_small m) by auto.
    eexists; split; [reflexivity|]. cbn [lit_as result_type]. rewrite modB_small; [reflexivity|].
    apply land32; auto.
  - injection H as <-. rewrite !(modB_small n), !(modB_small m) by auto.
    eexists; split; [reflexivity|]. cbn [lit_as result_type]. rewrite modB_small; [reflexivity|].
    apply lor32; auto.
  - injection H as <-. rewrite !(modB_small n), !(modB_small m) by auto.
    eexists; split; [reflexivity|]. cbn [lit_as result_type]. rewrite modB_small; [reflexivity|].
    apply lxor32; auto.
Qed.

Lemma eval_unary_ok : forall op a c e,
  eval_unary_op op a = Some c ->
  exists x, rbind (of_opt (eval_any e (Lit a))) (sem_un op) = ROk x /\
            lit_as (match op with Not => TBool | Neg => TFelt end) c = Some x.
Proof.
  intros [|] [n|b|] c e H; cbn in H; try discriminate; injection H as <-.
  - eexists; split; reflexivity.
  - eexists; split; [reflexivity|]. cbn [lit_as].
    unfold mneg, mfrom. rewrite modP_mod. reflexivity.
Qed.

(** When evaluation panics. *)
Lemma eval_binary_panic : forall op a b,
  eval_binary_op op a b = EvPanic <->
  op = Div /\ exists n m, a = LInt n /\ b = LInt m /\ m <> 0 /\ m mod P = 0.
Proof.
  intros op a b. split.
  - intro H. destruct op, a as [n|p|], b as [m|q|]; cbn in H; try discriminate;
      try (destruct (m =? 0); discriminate).
    destruct (m =? 0) eqn:E; [discriminate|]. unfold mdiv, mfrom in H.
    destruct (m mod P =? 0) eqn:E2; [|discriminate].
    split; [reflexivity|]. exists n, m. apply Z.eqb_neq in E. apply Z.eqb_eq in E2. auto.
  - intros (-> & n & m & -> & -> & H & K). cbn.
    apply Z.eqb_neq in H. rewrite H. unfold mdiv, mfrom. rewrite K. reflexivity.
Qed.

(** ** Replacing an operation by an assignment. *)
Lemma assign_ok : forall op d l r v,
  (forall e x, eval_bin e op l r = ROk x -> eval_as e (result_type op) v = Some x) ->
  (forall e, eval_bin e op l r <> RTrap) ->
  (forall e, eval_bin e op l r <> RFuel) ->
  instr_ok (IBinary op d l r) (IAssign d v (result_type op)).
Proof.
  intros op d l r v H HT HF. split; [reflexivity|]. split; [discriminate|].
  intros S W tys e s. unfold exec. cbn [effect dests].
  destruct (eval_bin e op l r) as [x| | |] eqn:E.
  - rewrite (H _ _ E). apply rle_refl.
  - destruct (HT _ E).
  - apply rle_stuck.
  - destruct (HF _ E).
Qed.

Lemma sem_bin_fuel : forall op a b, sem_bin op a b <> RFuel.
Proof.
  intros op a b. destruct op, a, b; cbn; try discriminate;
    match goal with |- (if ?c then _ else _) <> _ => destruct c; discriminate | _ => idtac end.
Qed.
Lemma eval_bin_fuel : forall e op l r, eval_bin e op l r <> RFuel.
Proof.
  intros. unfold eval_bin. destruct (eval_opnd e op l); cbn; [|discriminate].
  destruct (eval_opnd e op r); cbn; [|discriminate]. apply sem_bin_fuel.
Qed.

Lemma value_eqb_eq : forall a b, value_eqb a b = true <-> a = b.
Proof.
  intros [[n|x|]|i|] [[m|y|]|j|]; cbn; split; intro H; try discriminate; try congruence; auto.
  - apply Z.eqb_eq in H; congruence.
  - injection H as ->; apply Z.eqb_refl.
  - apply Bool.eqb_prop in H; congruence.
  - injection H as ->; apply Bool.eqb_reflx.
  - apply Nat.eqb_eq in H; congruence.
  - injection H as ->; apply Nat.eqb_refl.
Qed.

Lemma wfb_iff : forall z, wfb z = true <-> 0 <= z < P.
Proof. intro z. unfold wfb. rewrite andb_true_iff, Z.leb_le, Z.ltb_lt. tauto. Qed.
Lemma u32b_iff : forall z, u32b z = true <-> 0 <= z < B32.
Proof. intro z. unfold u32b. rewrite andb_true_iff, Z.leb_le, Z.ltb_lt. tauto. Qed.

Lemma P_pos : 0 < P. Proof. reflexivity. Qed.
Lemma B32_pos : 0 < B32. Proof. reflexivity. Qed.

(** What a typed position can deliver. *)
Lemma eval_felt : forall e v x, eval_as e TFelt v = Some x -> exists z, x = VFelt z /\ 0 <= z < P.
Proof.
  intros e [[n|b|]|i|] x H; cbn in H; try discriminate.
  - injection H as <-. eexists; split; [reflexivity|]. apply Z.mod_pos_bound, P_pos.
  - destruct (e i) as [y|]; [|discriminate]. destruct y; try discriminate.
    destruct (wfb z) eqn:E; [|discriminate]. injection H as <-.
    eexists; split; [reflexivity|]. apply wfb_iff; auto.
Qed.
Lemma eval_u32 : forall e v x, eval_as e TU32 v = Some x -> exists z, x = VU32 z /\ 0 <= z < B32.
Proof.
  intros e [[n|b|]|i|] x H; cbn in H; try discriminate.
  - injection H as <-. eexists; split; [reflexivity|]. apply Z.mod_pos_bound, B32_pos.
  - destruct (e i) as [y|]; [|discriminate]. destruct y; try discriminate.
    destruct (u32b z) eqn:E; [|discriminate]. injection H as <-.
    eexists; split; [reflexivity|]. apply u32b_iff; auto.
Qed.
Lemma eval_bool : forall e v x, eval_as e TBool v = Some x -> exists b, x = VBool b.
Proof.
  intros e [[n|b|]|i|] x H; cbn in H; try discriminate.
  - injection H as <-. eauto.
  - destruct (e i) as [y|]; [|discriminate]. destruct y; try discriminate.
    injection H as <-; eauto.
Qed.

(** ** ArithmeticSimplify. *)
Definition left_identity_bad (op : binop) (l : value) : bool :=
  match op with
  | Sub | U32Sub => value_eqb l (Lit (LInt 0))
  | Div | U32Div => value_eqb l (Lit (LInt 1))
  | _ => false
  end.

Definition lits_fit (op : binop) (l r : value) : Prop :=
  (forall a, l = Lit a -> u32_lit a) /\ (forall a, r = Lit a -> u32_lit a) /\
  (felt_cmp op = true -> (forall a, l = Lit a -> felt_lit a) /\ (forall a, r = Lit a -> felt_lit a)).

(** The value of the operation is the value it is replaced by. *)
Definition value_for (op : binop) (l r v : value) : Prop :=
  forall e, (forall x, eval_bin e op l r = ROk x -> eval_as e (result_type op) v = Some x) /\
            eval_bin e op l r <> RTrap.

Lemma value_for_ok : forall op d l r v,
  value_for op l r v -> instr_ok (IBinary op d l r) (IAssign d v (result_type op)).
Proof.
  intros op d l r v H. apply assign_ok; intros; try apply H; auto. apply eval_bin_fuel.
Qed.

Ltac typed_eval :=
  match goal with
  | H : eval_as ?e TFelt ?v = Some ?x |- _ =>
    destruct (eval_felt _ _ _ H) as (? & -> & ?)
  | H : eval_as ?e TU32 ?v = Some ?x |- _ =>
    destruct (eval_u32 _ _ _ H) as (? & -> & ?)
  | H : eval_as ?e TBool ?v = Some ?x |- _ =>
    destruct (eval_bool _ _ _ H) as (? & ->)
  end.

Lemma felt_small : forall z, 0 <= z < P -> z mod P = z.
Proof. intros; apply Z.mod_small; auto. Qed.

Lemma identity_right : forall op l i, identity_value op = Some i -> value_for op l (Lit i) l.
Proof.
  intros op l i Hi e. unfold eval_bin, eval_opnd.
  destruct op; cbn in Hi; try discriminate; injection Hi as <-; cbn [op_type result_type];
    match goal with |- context [eval_as e ?t l] => destruct (eval_as e t l) as [y|] eqn:E end;
    cbn [of_opt rbind]; (split; [intros x Hx|]); try discriminate; typed_eval;
    cbn [eval_as lit_as of_opt rbind sem_bin] in *;
    try (injection Hx as <-); try rewrite E.
  all: try (intro X; discriminate X).
  - change (0 mod P) with 0. rewrite Z.add_0_r, felt_small by auto. reflexivity.
  - change (0 mod P) with 0. rewrite Z.sub_0_r, felt_small by auto. reflexivity.
  - change (1 mod P) with 1. rewrite Z.mul_1_r, felt_small by auto. reflexivity.
  - replace (minv (1 mod P)) with 1 by reflexivity.
    rewrite Z.mul_1_r, felt_small by auto. reflexivity.
  - rewrite andb_true_r. reflexivity.
  - rewrite orb_false_r. reflexivity.
  - change (0 mod B32) with 0. rewrite Z.add_0_r, modB_small by auto. reflexivity.
  - change (0 mod B32) with 0. rewrite Z.sub_0_r, modB_small by auto. reflexivity.
  - change (1 mod B32) with 1. rewrite Z.mul_1_r, modB_small by auto. reflexivity.
  - change (1 mod B32) with 1. rewrite Z.div_1_r. reflexivity.
Qed.

Local Opaque Z.add Z.mul Z.modulo.
Lemma identity_left : forall op r i, identity_value op = Some i ->
  left_identity_bad op (Lit i) = false -> value_for op (Lit i) r r.
Proof.
  intros op r i Hi Hb e. unfold eval_bin, eval_opnd.
  destruct op; cbn in Hi; try discriminate; injection Hi as <-; try discriminate;
    cbn [op_type result_type eval_as lit_as];
    match goal with |- context [eval_as e ?t r] => destruct (eval_as e t r) as [y|] eqn:E end;
    cbn [of_opt rbind]; (split; [intros x Hx|]); try discriminate; typed_eval;
    cbn [eval_as lit_as of_opt rbind sem_bin] in *;
    try (injection Hx as <-); try rewrite E.
  all: try (intro X; discriminate X).
  - change (0 mod P) with 0. rewrite Z.add_0_l, felt_small by auto. reflexivity.
  - change (1 mod P) with 1. rewrite Z.mul_1_l, felt_small by auto. reflexivity.
  - reflexivity.
  - reflexivity.
  - change (0 mod B32) with 0. rewrite Z.add_0_l, modB_small by auto. reflexivity.
  - change (1 mod B32) with 1. rewrite Z.mul_1_l, modB_small by auto. reflexivity.
Qed.

Local Transparent Z.add Z.mul Z.modulo.
Lemma absorbing_ok : forall op l r a, absorbing_value op = Some a ->
  l = Lit a \/ r = Lit a -> value_for op l r (Lit a).
Proof.
  intros op l r a Ha Hlr e. unfold eval_bin, eval_opnd.
  destruct op; cbn in Ha; try discriminate; injection Ha as <-; cbn [op_type result_type];
    destruct Hlr as [-> | ->]; cbn [eval_as lit_as of_opt rbind];
    match goal with |- context [eval_as e ?t ?w] => destruct (eval_as e t w) as [y|] eqn:E end;
    cbn [of_opt rbind]; (split; [intros x Hx|]); try discriminate; typed_eval;
    cbn [eval_as lit_as of_opt rbind sem_bin] in *; try (injection Hx as <-);
    try (intro X; discriminate X); try reflexivity.
  - rewrite Z.mul_0_r. reflexivity.
  - rewrite andb_false_r. reflexivity.
  - rewrite orb_true_r. reflexivity.
  - rewrite Z.mul_0_r. reflexivity.
Qed.

Lemma self_ok : forall op i c,
  match op with
  | Eq | U32Eq => c = LBool true
  | Neq | U32Neq => c = LBool false
  | Sub | U32Sub => c = LInt 0
  | _ => False
  end -> value_for op (Op i) (Op i) (Lit c).
Proof.
  intros op i c H e. unfold eval_bin, eval_opnd.
  destruct op; try contradiction; subst c; cbn [op_type result_type].
  - destruct (eval_as e TFelt (Op i)) eqn:E; cbn [of_opt rbind]; [typed_eval|split; [intros x X|]; discriminate].
    cbn. rewrite Z.sub_diag. split; [intros y X; injection X as <-; reflexivity|discriminate].
  - destruct (eval_any e (Op i)) as [v|] eqn:E; cbn [of_opt rbind]; [|split; [intros x X|]; discriminate].
    destruct v; cbn; try (split; [intros x X|]; discriminate).
    + rewrite Z.eqb_refl. split; [intros x X; injection X as <-; reflexivity|discriminate].
    + rewrite Bool.eqb_reflx. split; [intros x X; injection X as <-; reflexivity|discriminate].
  - destruct (eval_any e (Op i)) as [v|] eqn:E; cbn [of_opt rbind]; [|split; [intros x X|]; discriminate].
    destruct v; cbn; try (split; [intros x X|]; discriminate).
    + rewrite Z.eqb_refl. split; [intros x X; injection X as <-; reflexivity|discriminate].
    + rewrite Bool.eqb_reflx. split; [intros x X; injection X as <-; reflexivity|discriminate].
  - destruct (eval_as e TU32 (Op i)) eqn:E; cbn [of_opt rbind]; [typed_eval|split; [intros x X|]; discriminate].
    cbn. rewrite Z.sub_diag. split; [intros y X; injection X as <-; reflexivity|discriminate].
  - destruct (eval_as e TU32 (Op i)) eqn:E; cbn [of_opt rbind]; [typed_eval|split; [intros x X|]; discriminate].
    cbn. rewrite Z.eqb_refl. split; [intros y X; injection X as <-; reflexivity|discriminate].
  - destruct (eval_as e TU32 (Op i)) eqn:E; cbn [of_opt rbind]; [typed_eval|split; [intros x X|]; discriminate].
    cbn. rewrite Z.eqb_refl. split; [intros y X; injection X as <-; reflexivity|discriminate].
Qed.

Lemma literals_ok : forall op a b c,
  eval_binary_op op a b = EvLit c -> lits_fit op (Lit a) (Lit b) ->
  value_for op (Lit a) (Lit b) (Lit c).
Proof.
  intros op a b c H (H1 & H2 & H3) e.
  destruct (eval_binary_ok op a b c e H (H1 _ eq_refl) (H2 _ eq_refl)) as (x & E & F).
  { intro K. destruct (H3 K); auto. }
  rewrite E. split; [intros y Y; injection Y as <-; exact F|discriminate].
Qed.

Lemma is_lit_eq : forall o v, is_lit o v = true <-> exists l, o = Some l /\ v = Lit l.
Proof.
  intros [l|] v; cbn.
  - rewrite value_eqb_eq. split; [intros ->; eauto|intros (m & E & ->); congruence].
  - split; [discriminate|intros (m & E & _); discriminate].
Qed.

Lemma try_simplify_ok : forall op l r v,
  try_simplify op l r = SAssign v -> left_identity_bad op l = false -> lits_fit op l r ->
  value_for op l r v.
Proof.
  intros op l r v H Hb Hf. unfold try_simplify in H.
  destruct (is_lit (identity_value op) l) eqn:E1.
  { injection H as <-. apply is_lit_eq in E1. destruct E1 as (i & Ei & ->).
    apply identity_left; auto. }
  destruct (is_lit (identity_value op) r) eqn:E2.
  { injection H as <-. apply is_lit_eq in E2. destruct E2 as (i & Ei & ->).
    apply identity_right; auto. }
  destruct (is_lit (absorbing_value op) l || is_lit (absorbing_value op) r) eqn:E3.
  { apply orb_true_iff in E3.
    assert (exists a, absorbing_value op = Some a /\ (l = Lit a \/ r = Lit a)) as (a & Ea & Hlr).
    { destruct E3 as [E|E]; apply is_lit_eq in E; destruct E as (a & Ea & ->); eauto. }
    rewrite Ea in H. injection H as <-. apply absorbing_ok; auto. }
  assert (HL : forall a b, l = Lit a -> r = Lit b ->
            match eval_binary_op op a b with
            | EvLit c => SAssign (Lit c) | EvNo => SNone | EvPanic => SPanic end = SAssign v ->
            value_for op l r v).
  { intros a b -> -> K. destruct (eval_binary_op op a b) eqn:E; try discriminate.
    injection K as <-. eapply literals_ok; eauto. }
  clear E1 E2 E3.
  destruct l as [a|i|], r as [b|j|]; try (destruct op; discriminate).
  - eapply HL; eauto; destruct op; exact H.
  - destruct op; try discriminate; destruct (Nat.eqb i j) eqn:E; try discriminate;
      apply Nat.eqb_eq in E; subst j; injection H as <-; apply self_ok; reflexivity.
Qed.

Lemma simplify_instr_ok : forall i j, simplify_instr i = Some j ->
  (forall op d l r, i = IBinary op d l r -> left_identity_bad op l = false /\ lits_fit op l r) ->
  instr_ok i j.
Proof.
  intros i j H K. destruct i; cbn in H; try (injection H as <-; apply instr_ok_refl).
  destruct (try_simplify op left right) eqn:E; try discriminate; injection H as <-.
  - destruct (K _ _ _ _ eq_refl). apply value_for_ok. apply try_simplify_ok; auto.
  - apply instr_ok_refl.
Qed.

(** ** ConstantFolding. *)
Lemma fold_instr_ok : forall i j, fold_instr i = Some j ->
  (forall op d l r, i = IBinary op d l r -> lits_fit op l r) ->
  instr_ok i j.
Proof.
  intros i j H K.
  destruct i; cbn in H; try (injection H as <-; apply instr_ok_refl).
  - destruct source as [a|v|]; try (injection H as <-; apply instr_ok_refl).
    destruct (eval_unary_op op a) eqn:E; [|injection H as <-; apply instr_ok_refl].
    injection H as <-. split; [reflexivity|]. split; [discriminate|].
    intros S W tys e s. destruct (eval_unary_ok op a l e E) as (x & E1 & E2).
    unfold exec. cbn [effect dests eval_as]. rewrite E1, E2. apply rle_refl.
  - destruct left as [a|v|]; try (injection H as <-; apply instr_ok_refl).
    destruct right as [b|v|]; try (injection H as <-; apply instr_ok_refl).
    destruct (eval_binary_op op a b) eqn:E; try discriminate; injection H as <-;
      [|apply instr_ok_refl].
    apply value_for_ok. apply literals_ok; auto. eapply K; reflexivity.
Qed.

(** ** SimplifyBranches. *)
Lemma simplify_term_ok : forall t u, simplify_term t = BTo u ->
  (forall op l r a b, t = TCmp op l r a b -> lits_fit op l r) -> term_ok t u.
Proof.
  intros t u H K e rets. destruct t; cbn in H; try discriminate.
  - destruct cond as [l|v|]; try discriminate.
    destruct l as [n|b|]; cbn in H; try discriminate; [apply rle_stuck|].
    destruct b; injection H as <-; apply rle_refl.
  - destruct left as [a|v|]; try discriminate. destruct right as [b|v|]; try discriminate.
    destruct (eval_binary_op op a b) as [l| |] eqn:E; try discriminate.
    destruct l as [n|c|]; try discriminate.
    specialize (K _ _ _ _ _ eq_refl).
    pose proof (literals_ok _ _ _ _ E K e) as [H1 H2]. cbn [exec_term].
    destruct (branch_op op) eqn:Eb; [|apply rle_stuck].
    destruct K as (K1 & K2 & K3).
    destruct (eval_binary_ok op a b _ e E (K1 _ eq_refl) (K2 _ eq_refl)) as (x & Ex & Lx).
    { intro X; destruct (K3 X); auto. }
    rewrite Ex. assert (x = VBool c) as ->.
    { destruct op; try discriminate; cbn in Lx; congruence. }
    cbn. destruct c; injection H as <-; apply rle_refl.
Qed.
