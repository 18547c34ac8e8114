(** Constant propagation: termination, and soundness of what it finds. *)
From Coq Require Import ZArith Bool String List Lia.
From Verif Require Import M31 M31Facts Isa IsaFacts Mir MirSem MirReach MirPasses MirFacts MirLocalFacts MirSim MirSsa MirSsaFacts MirSsaMap MirConst.
Import ListNotations.
Open Scope nat_scope.

Lemma lit_eqb_eq : forall a b, lit_eqb a b = true <-> a = b.
Proof.
  intros [n|b|] [m|c|]; cbn; split; intro H; try discriminate; auto.
  - apply Z.eqb_eq in H. subst; auto.
  - injection H as ->. apply Z.eqb_refl.
  - apply eqb_prop in H. subst; auto.
  - injection H as ->. apply eqb_reflx.
Qed.
Lemma lat_eqb_eq : forall a b, lat_eqb a b = true <-> a = b.
Proof.
  intros [|x|] [|y|]; cbn; split; intro H; try discriminate; auto.
  - apply lit_eqb_eq in H. subst; auto.
  - injection H as ->. apply lit_eqb_eq; auto.
Qed.

(** ** Termination. *)
Definition height (x : lat) : nat := match x with Unknown => 2 | Const _ => 1 | NonConst => 0 end.
Definition idest (i : minstr) : list nat := match dest i with Some d => [d] | None => [] end.
Definition total (is : list minstr) (st : astate) : nat :=
  fold_right (fun i n => match dest i with Some d => height (st d) | None => 0 end + n) 0 is.

Lemma merge_height : forall a b, merge a b <> a -> height (merge a b) < height a.
Proof.
  intros [|x|] [|y|] H; cbn in *; try congruence; try lia.
  destruct (lit_eqb x y); cbn; try congruence. lia.
Qed.
Lemma total_set : forall is st d x, height x <= height (st d) -> total is (aset st d x) <= total is st.
Proof.
  induction is as [|i is IH]; intros st d x H; cbn; auto. specialize (IH st d x H).
  unfold total in IH. destruct (dest i) as [c|]; [|auto]. unfold aset at 1. destruct (Nat.eqb_spec c d); subst; lia.
Qed.
Lemma total_set_lt : forall is st d x i, In i is -> dest i = Some d -> height x < height (st d) ->
  total is (aset st d x) < total is st.
Proof.
  induction is as [|j is IH]; intros st d x i Hi Di H; [destruct Hi|]. cbn. destruct Hi as [->|Hi].
  - rewrite Di. pose proof (total_set is st d x ltac:(lia)) as K. unfold total in K.
    unfold aset at 1. rewrite Nat.eqb_refl. lia.
  - specialize (IH st d x i Hi Di H). unfold total in IH. destruct (dest j) as [c|]; [|auto].
    unfold aset at 1. destruct (Nat.eqb_spec c d); subst; lia.
Qed.
Lemma round_total : forall all is st ch st' ch', (forall i, In i is -> In i all) ->
  round is st ch = Some (st', ch') ->
  total all st' <= total all st /\ (ch = false -> ch' = true -> total all st' < total all st).
Proof.
  intros all is. induction is as [|i is IH]; intros st ch st' ch' Hin H; cbn in H.
  - injection H as <- <-. split; auto. intros -> E. discriminate.
  - assert (Hin' : forall j, In j is -> In j all) by (intros; apply Hin; right; auto).
    destruct (dest i) as [d|] eqn:Ed; [|eapply IH; eauto].
    destruct (eval_lat st i) as [new|]; [|discriminate].
    destruct (lat_eqb (merge (st d) new) (st d)) eqn:E; [eapply IH; eauto|].
    assert (N : merge (st d) new <> st d) by (intro K; apply lat_eqb_eq in K; congruence).
    destruct (IH _ _ _ _ Hin' H) as [A _].
    pose proof (total_set_lt all st d _ i (Hin i (or_introl eq_refl)) Ed (merge_height _ _ N)). split; lia.
Qed.
Lemma rounds_fuel : forall n is st, total is st < n -> rounds n is st <> CFuel.
Proof.
  induction n as [|n IH]; intros is st H; [lia|]. cbn.
  destruct (round is st false) as [[st' ch]|] eqn:E; [|discriminate].
  destruct ch; [|discriminate]. apply IH.
  destruct (round_total is is st false st' true (fun _ h => h) E) as [_ K]. specialize (K eq_refl eq_refl). lia.
Qed.
Lemma total_le : forall is st, total is st <= 2 * length is.
Proof.
  induction is as [|i is IH]; intro st; [cbn; lia|]. specialize (IH st). unfold total in *. cbn [fold_right length].
  destruct (dest i) as [d|]; [destruct (st d); cbn [height]|]; lia.
Qed.
Theorem const_prop_ends : forall f, const_prop f <> CFuel.
Proof.
  intros f H. unfold const_prop, analyse in H.
  pose proof (rounds_fuel (S (2 * length (instrs f))) (instrs f) (init f)) as K.
  pose proof (total_le (instrs f) (init f)).
  destruct (rounds _ _ _); try discriminate. apply K; auto. lia.
Qed.

(** ** The result is a fixed point. *)
Definition stable (st : astate) (i : minstr) : Prop :=
  forall d, dest i = Some d -> exists new, eval_lat st i = Some new /\ merge (st d) new = st d.
Lemma round_keeps_true : forall is st st' ch, round is st true = Some (st', ch) -> ch = true.
Proof.
  induction is as [|i is IH]; intros st st' ch H; cbn in H; [congruence|].
  destruct (dest i) as [d|]; [|eauto]. destruct (eval_lat st i) as [new|]; [|discriminate].
  destruct (lat_eqb _ _); eauto.
Qed.
Lemma round_stable : forall is st st', round is st false = Some (st', false) ->
  st' = st /\ forall i, In i is -> stable st i.
Proof.
  induction is as [|i is IH]; intros st st' H; cbn in H.
  - injection H as <-. split; auto. intros i [].
  - destruct (dest i) as [d|] eqn:Ed.
    + destruct (eval_lat st i) as [new|] eqn:En; [|discriminate].
      destruct (lat_eqb (merge (st d) new) (st d)) eqn:E.
      * apply lat_eqb_eq in E. destruct (IH _ _ H) as [-> K]. split; auto.
        intros j [<-|Hj]; auto. intros d' Hd. assert (d' = d) by congruence. subst. eauto.
      * apply round_keeps_true in H. discriminate.
    + destruct (IH _ _ H) as [-> K]. split; auto. intros j [<-|Hj]; auto. intros d' Hd. congruence.
Qed.
Lemma merge_nonconst : forall x, merge NonConst x = NonConst.
Proof. reflexivity. Qed.
Lemma round_nonconst : forall v is st ch st' ch', round is st ch = Some (st', ch') -> st v = NonConst -> st' v = NonConst.
Proof.
  intros v is. induction is as [|i is IH]; intros st ch st' ch' H Hv; cbn in H; [congruence|].
  destruct (dest i) as [d|]; [|eauto]. destruct (eval_lat st i) as [new|]; [|discriminate].
  destruct (lat_eqb _ _); [eauto|]. apply (IH _ _ _ _ H). unfold aset.
  destruct (Nat.eqb_spec v d); subst; auto. rewrite Hv. reflexivity.
Qed.
Lemma rounds_spec : forall n is st st', rounds n is st = CDone st' ->
  (forall i, In i is -> stable st' i) /\ forall v, st v = NonConst -> st' v = NonConst.
Proof.
  induction n as [|n IH]; intros is st st' H; cbn in H; [discriminate|].
  destruct (round is st false) as [[st1 ch]|] eqn:E; [|discriminate]. destruct ch.
  - destruct (IH _ _ _ H) as [A B]. split; auto. intros v Hv. apply B. eapply round_nonconst; eauto.
  - injection H as <-. destruct (round_stable _ _ _ E) as [-> A]. auto.
Qed.
Lemma analyse_spec : forall n f st, analyse n f = CDone st ->
  (forall b i, In b (f_blocks f) -> In i (b_instrs b) -> stable st i) /\
  (forall v, In v (f_params f) -> st v = NonConst).
Proof.
  intros n f st H. destruct (rounds_spec _ _ _ _ H) as [A B]. split.
  - intros b i Hb Hi. apply A. unfold instrs. apply in_flat_map. eauto.
  - intros v Hv. apply B. unfold init. assert (mem_nat v (f_params f) = true) as ->; auto.
    unfold mem_nat. apply existsb_exists. exists v. rewrite Nat.eqb_refl. auto.
Qed.

(** ** Meaning of the findings. *)
(** [l] denotes [x], in canonical form. *)
Definition denotes (l : lit) (x : val) : Prop :=
  match l, x with
  | LInt n, VFelt z => z = n /\ (0 <= n < P)%Z
  | LInt n, VU32 z => z = n /\ (0 <= n < B32)%Z
  | LBool b, VBool c => c = b
  | LUnit, VUnit => True
  | _, _ => False
  end.
Definition agrees (a : lat) (x : val) : Prop :=
  match a with Unknown => False | Const l => denotes l x | NonConst => True end.
(** Literals are in range at the type they are used at. *)
Definition typed_lit (t : ty) (l : lit) : Prop :=
  match t, l with
  | TFelt, LInt n => (0 <= n < P)%Z
  | TU32, LInt n => (0 <= n < B32)%Z
  | _, _ => True
  end.
Definition lits_in_range (f : func) : Prop :=
  forall b i, In b (f_blocks f) -> In i (b_instrs b) ->
    match i with
    | IAssign _ (Lit l) t => typed_lit t l
    | IPhi _ t ss => forall p l, In (p, Lit l) ss -> typed_lit t l
    | IBinary op _ l r => lits_fit op l r
    | _ => True
    end.
(** Calls with several results. *)
Definition single_results (f : func) : Prop :=
  forall b i, In b (f_blocks f) -> In i (b_instrs b) -> length (dests i) <= 1.

Lemma P_lt_B32 : (P < B32)%Z. Proof. reflexivity. Qed.
Lemma denotes_as : forall l x t, denotes l x -> shape t x = true -> lit_as t l = Some x.
Proof.
  intros [n|b|] x t H S; destruct x; cbn in H; try contradiction; destruct t; cbn in S; try discriminate; cbn [lit_as].
  - destruct H as [-> H]. rewrite Z.mod_small; auto.
  - destruct H as [-> H]. rewrite Z.mod_small; auto.
  - subst; auto.
  - auto.
Qed.
Lemma as_denotes : forall l x t, typed_lit t l -> lit_as t l = Some x -> denotes l x.
Proof.
  intros [n|b|] x t T H; destruct t; cbn in H; try discriminate; injection H as <-; cbn in *; auto.
  - rewrite Z.mod_small; auto.
  - rewrite Z.mod_small; auto.
Qed.
Lemma denotes_any : forall l x, denotes l x -> (forall z, x <> VU32 z) -> forall e, eval_any e (Lit l) = Some x.
Proof.
  intros [n|b|] x H N e; destruct x; cbn in H; try contradiction; cbn [eval_any].
  - destruct H as [-> H]. rewrite Z.mod_small; auto.
  - destruct (N z); auto.
  - subst; auto.
  - auto.
Qed.
Lemma shape_denotes : forall l x, denotes l x -> forall t, lit_as t l = Some x -> shape t x = true.
Proof.
  intros [n|b|] x H t E; destruct x; cbn in H; try contradiction; destruct t; cbn in E; try discriminate; cbn [shape]; auto.
  - destruct H as [-> H]. unfold wfb. apply andb_true_iff. split; [apply Z.leb_le|apply Z.ltb_lt]; lia.
  - destruct H as [-> H]. unfold u32b. apply andb_true_iff. split; [apply Z.leb_le|apply Z.ltb_lt]; lia.
Qed.

Section Sound.
  Variables (f : func) (st : astate).
  Hypothesis Hst : forall b i, In b (f_blocks f) -> In i (b_instrs b) -> stable st i.
  Hypothesis Hpar : forall v, In v (f_params f) -> st v = NonConst.
  Hypothesis Hlits : lits_in_range f.
  Hypothesis Hone : single_results f.

  Definition ainv (e : env) : Prop := forall v x, e v = Some x -> agrees (st v) x.

  Lemma rewrite_vsim : forall e v, ainv e -> vsim e e v (rewrite_val st v).
  Proof.
    intros e [l|i|] H; split; intros; auto; cbn [rewrite_val] in *.
    - cbn in H0. destruct (e i) as [y|] eqn:E; [|discriminate]. destruct (shape t y) eqn:Es; [|discriminate].
      injection H0 as ->. pose proof (H i x E) as A. destruct (st i) as [|l|] eqn:El; cbn in A; try contradiction.
      + cbn. apply denotes_as; auto.
      + cbn. rewrite E, Es. auto.
    - pose proof H0 as H1. cbn in H0. destruct (e i) as [y|] eqn:E; [|discriminate].
      assert (y = x /\ forall z, x <> VU32 z).
      { destruct y; try (injection H0 as <-; split; [reflexivity|discriminate]).
        - destruct (wfb z); [|discriminate]. injection H0 as <-. split; [reflexivity|discriminate].
        - discriminate. }
      destruct H2 as [-> N]. pose proof (H i x E) as A. destruct (st i) as [|l|] eqn:El; cbn in A; try contradiction; auto.
      apply denotes_any; auto.
  Qed.
  (** A known operand has the known value. *)
  Lemma known_sim : forall e v l, ainv e -> known st v = Some l ->
    (forall t x, eval_as e t v = Some x -> lit_as t l = Some x) /\
    (forall x, eval_any e v = Some x -> eval_any e (Lit l) = Some x).
  Proof.
    intros e v l H K. pose proof (rewrite_vsim e v H) as [A B]. destruct v as [m|i|]; cbn in K |- *.
    - injection K as <-. auto.
    - unfold known, val_lat in K. destruct (st i) as [|k|] eqn:E; try discriminate. injection K as ->.
      cbn [rewrite_val] in A, B. rewrite E in A, B. auto.
    - discriminate.
  Qed.
  Lemma known_range : forall e v l op x, ainv e -> known st v = Some l -> eval_opnd e op v = Some x ->
    (forall a, v = Lit a -> u32_lit a) -> (felt_cmp op = true -> forall a, v = Lit a -> felt_lit a) ->
    u32_lit l /\ (felt_cmp op = true -> felt_lit l).
  Proof.
    intros e v l op x H K E U F. destruct v as [m|i|].
    - cbn in K. injection K as <-. auto.
    - unfold known, val_lat in K. destruct (st i) as [|k|] eqn:Es; try discriminate. injection K as ->.
      assert (exists y, e i = Some y /\ (felt_cmp op = true -> forall z, y <> VU32 z)).
      { unfold eval_opnd in E. destruct (op_type op) eqn:Eo.
        - cbn in E. destruct (e i) as [y|]; [|discriminate]. exists y. split; auto. destruct op; discriminate.
        - cbn in E. destruct (e i) as [y|]; [|discriminate]. exists y. split; auto. intros _ z ->. discriminate. }
      destruct H0 as (y & Ey & Ny). pose proof (H i y Ey) as A. rewrite Es in A. cbn in A.
      pose proof P_lt_B32.
      destruct l as [n|b|]; cbn; auto. destruct y; cbn in A; try contradiction; destruct A as [-> A].
      + split; [lia|]. intros _. auto.
      + split; auto. intro Fc. destruct (Ny Fc n). reflexivity.
    - discriminate.
  Qed.

  Lemma bin_denotes : forall op a b c, eval_binary_op op a b = EvLit c -> u32_lit a -> u32_lit b ->
    forall x, lit_as (result_type op) c = Some x -> denotes c x.
  Proof.
    intros op a b c H Ha Hb x Hx. apply (as_denotes c x (result_type op)); auto.
    pose proof P_pos as HP. assert (HB : (0 < B32)%Z) by reflexivity.
    destruct op, a as [n|p|], b as [m|q|]; cbn [eval_binary_op] in H; try discriminate;
      cbn [u32_lit] in Ha, Hb; cbn [result_type typed_lit]; try (injection H as <-; exact Logic.I).
    - injection H as <-. apply Z.mod_pos_bound; auto.
    - injection H as <-. apply Z.mod_pos_bound; auto.
    - injection H as <-. apply Z.mod_pos_bound; auto.
    - destruct (m =? 0)%Z; [discriminate|]. unfold mdiv in H. destruct (_ =? 0)%Z; [discriminate|]. injection H as <-.
      apply Z.mod_pos_bound; auto.
    - injection H as <-. apply Z.mod_pos_bound; auto.
    - injection H as <-. apply Z.mod_pos_bound; auto.
    - injection H as <-. apply Z.mod_pos_bound; auto.
    - destruct (m =? 0)%Z eqn:Em; [discriminate|]. injection H as <-. apply Z.eqb_neq in Em.
      split; [apply Z.div_pos; lia|]. apply Z.le_lt_trans with n; [|lia]. apply Z.div_le_upper_bound; nia.
    - destruct (m =? 0)%Z eqn:Em; [discriminate|]. injection H as <-. apply Z.eqb_neq in Em.
      pose proof (Z.mod_pos_bound n m ltac:(lia)). lia.
    - injection H as <-. apply land32; auto.
    - injection H as <-. apply lor32; auto.
    - injection H as <-. apply lxor32; auto.
  Qed.

  (** The values an instruction computes agree with what was found for it. *)
  Lemma agree_merge : forall a new x, merge a new = a -> agrees new x -> agrees a x.
  Proof.
    intros [|l|] [|k|] x H A; cbn in *; try contradiction; try discriminate; auto.
    destruct (lit_eqb l k) eqn:E; [|discriminate]. apply lit_eqb_eq in E. subst; auto.
  Qed.
  Lemma val_agrees : forall e t v x, ainv e -> (forall l, v = Lit l -> typed_lit t l) ->
    eval_as e t v = Some x -> agrees (val_lat st v) x.
  Proof.
    intros e t [l|i|] x H T E; cbn in E |- *.
    - eapply as_denotes; eauto.
    - destruct (e i) as [y|] eqn:Ei; [|discriminate]. destruct (shape t y); [|discriminate]. injection E as <-. eauto.
    - discriminate.
  Qed.
  Lemma known_none : forall e op v x, ainv e -> known st v = None -> eval_opnd e op v = Some x -> op_nonconst st v = true.
  Proof.
    intros e op [l|i|] x H K E; cbn in K.
    - discriminate.
    - assert (exists y, e i = Some y) as (y & Ey).
      { unfold eval_opnd in E. destruct (op_type op); cbn in E; destruct (e i); eauto; discriminate. }
      pose proof (H i y Ey) as A. unfold known, val_lat in K. cbn. destruct (st i); cbn in *; try contradiction; auto. discriminate.
    - unfold eval_opnd in E. destruct (op_type op); discriminate.
  Qed.
  Lemma effect_agrees : forall S (W : world S) e s i new x s', ainv e -> lits_in_range f ->
    (exists b, In b (f_blocks f) /\ In i (b_instrs b)) -> is_phi i = false ->
    eval_lat st i = Some new -> effect W (f_types f) e s i = ROk ([x], s') -> agrees new x.
  Proof.
    intros S W e s i new x s' HA HL (b & Hb & Hi) Np HE Ef. specialize (HL b i Hb Hi).
    destruct i; cbn [eval_lat] in HE; try (injection HE as <-; exact Logic.I); try discriminate.
    - injection HE as <-. cbn [effect] in Ef. apply rbind_ok in Ef. destruct Ef as (y & Ey & Ef). injection Ef as <- <-.
      destruct (eval_as e t source) as [z|] eqn:Ez; [|discriminate]. cbn in Ey. injection Ey as <-.
      eapply val_agrees; eauto. intros l ->. exact HL.
    - cbn [effect] in Ef. apply rbind_ok in Ef. destruct Ef as (y & Ey & Ef). injection Ef as <- <-.
      apply rbind_ok in Ey. destruct Ey as (z & Ez & Ey).
      destruct (eval_any e source) as [z'|] eqn:Ez'; [|discriminate]. cbn in Ez. injection Ez as ->.
      assert (KN : forall l, val_lat st source = Const l -> eval_any e (Lit l) = Some z).
      { intros l Hl. apply (known_sim e source l HA); auto. unfold known. rewrite Hl. reflexivity. }
      assert (G : forall l, val_lat st source = Const l ->
        agrees (match eval_unary_op op l with Some c => Const c | None => NonConst end) y).
      { intros l Hl. destruct (eval_unary_op op l) as [c|] eqn:Ec; [|exact Logic.I]. cbn.
        destruct (eval_unary_ok op l c e Ec) as (y' & E1 & E2). rewrite (KN l Hl) in E1. cbn in E1.
        rewrite Ey in E1. injection E1 as <-. apply (as_denotes c y _) in E2; auto.
        destruct op, l; cbn in Ec; try discriminate; injection Ec as <-; cbn; auto. apply Z.mod_pos_bound. reflexivity. }
      destruct source as [l|i|].
      + injection HE as <-. apply (G l). reflexivity.
      + cbn [val_lat] in HE, G. destruct (st i) as [|l|] eqn:El.
        * exfalso. cbn in Ez'. destruct (e i) as [u|] eqn:Eu; [|discriminate].
          pose proof (HA i u Eu) as A. rewrite El in A. exact A.
        * injection HE as <-. apply (G l). reflexivity.
        * injection HE as <-. exact Logic.I.
      + injection HE as <-. exact Logic.I.
    - cbn [effect] in Ef. apply rbind_ok in Ef. destruct Ef as (y & Ey & Ef). injection Ef as <- <-.
      unfold eval_bin in Ey. apply rbind_ok in Ey. destruct Ey as (u & Eu & Ey). apply rbind_ok in Ey.
      destruct Ey as (w & Ew & Ey).
      destruct (eval_opnd e op left) as [u'|] eqn:Eu'; [|discriminate]. injection Eu as ->.
      destruct (eval_opnd e op right) as [w'|] eqn:Ew'; [|discriminate]. injection Ew as ->.
      destruct HL as (L1 & L2 & L3).
      destruct (known st left) as [a|] eqn:Ka; [destruct (known st right) as [c|] eqn:Kc|].
      + destruct (eval_binary_op op a c) as [r| |] eqn:Er; try discriminate; injection HE as <-; [|exact Logic.I].
        destruct (known_range e left a op u HA Ka Eu' L1 (fun h => proj1 (L3 h))) as [U1 F1].
        destruct (known_range e right c op w HA Kc Ew' L2 (fun h => proj2 (L3 h))) as [U2 F2].
        destruct (eval_binary_ok op a c r e Er U1 U2 (fun h => conj (F1 h) (F2 h))) as (y' & E1 & E2).
        assert (Q : eval_bin e op (Lit a) (Lit c) = ROk y).
        { destruct (known_sim e left a HA Ka) as [S1 S2]. destruct (known_sim e right c HA Kc) as [S3 S4].
          unfold eval_bin, eval_opnd in *. destruct (op_type op) as [t|].
          - cbn [eval_as]. rewrite (S1 _ _ Eu'), (S3 _ _ Ew'). exact Ey.
          - rewrite (S2 _ Eu'), (S4 _ Ew'). exact Ey. }
        rewrite Q in E1. injection E1 as <-. cbn. eapply bin_denotes; eauto.
      + rewrite (known_none e op right w HA Kc Ew'), orb_true_r in HE. injection HE as <-. exact Logic.I.
      + rewrite (known_none e op left u HA Ka Eu') in HE. destruct (known st right); injection HE as <-; exact Logic.I.
  Qed.
  Lemma join_agrees : forall a b x, agrees a x \/ agrees b x -> agrees (join a b) x.
  Proof.
    intros [|l|] [|k|] x H; cbn in *; try tauto. destruct (lit_eqb l k) eqn:E; [|exact Logic.I].
    apply lit_eqb_eq in E. subst. tauto.
  Qed.
  Lemma phi_lat_agrees : forall ss acc x, (agrees acc x \/ exists p v, In (p, v) ss /\ agrees (val_lat st v) x) ->
    agrees (phi_lat st acc ss) x.
  Proof.
    induction ss as [|[p v] ss IH]; intros acc x H; cbn.
    - destruct H as [H|(p & v & [] & _)]. exact H.
    - assert (J : agrees (join acc (val_lat st v)) x \/ exists q w, In (q, w) ss /\ agrees (val_lat st w) x).
      { destruct H as [H|(q & w & [E|Hin] & A)].
        - left. apply join_agrees; auto.
        - injection E as <- <-. left. apply join_agrees; auto.
        - right. eauto. }
      destruct (lat_eqb (join acc (val_lat st v)) NonConst) eqn:E.
      + apply lat_eqb_eq in E. rewrite E. exact Logic.I.
      + apply IH. exact J.
  Qed.
  Lemma phi_agrees : forall b d t ss p e x, In b (f_blocks f) -> In (IPhi d t ss) (b_instrs b) -> ainv e ->
    phi_val e (Some p) (d, t, ss) = Some x -> agrees (st d) x.
  Proof.
    intros b d t ss p e x Hb Hi HA H. unfold phi_val in H. cbn [fst snd] in H.
    destruct (src_from p ss) as [v|] eqn:Es; [|discriminate].
    destruct (Hst b _ Hb Hi d eq_refl) as (new & En & Em). cbn in En. injection En as <-.
    eapply agree_merge; eauto. apply phi_lat_agrees. right.
    assert (Hv : In (p, v) ss).
    { clear -Es. induction ss as [|[q w] ss IH]; cbn in Es; [discriminate|]. destruct (Nat.eqb_spec p q).
      - injection Es as ->. subst. left; auto.
      - right; auto. }
    exists p, v. split; auto. apply (val_agrees e t v x HA); auto. intros l ->. eapply (Hlits b _ Hb Hi); eauto.
  Qed.

  Lemma bind_agrees : forall ds e vs e1, bind_all e ds vs = Some e1 -> ainv e ->
    (forall k d x, nth_error ds k = Some d -> nth_error vs k = Some x -> agrees (st d) x) -> ainv e1.
  Proof.
    induction ds as [|d ds IH]; intros e [|x vs] e1 H HA HK; cbn in H; try discriminate.
    - injection H as <-. auto.
    - apply (IH _ _ _ H).
      + intros v y Hv. unfold upd in Hv. destruct (Nat.eqb_spec v d); [|auto]. injection Hv as <-. subst.
        apply (HK 0 d x); auto.
      + intros k d' y Hd Hy. apply (HK (S k) d' y); auto.
  Qed.
  Lemma enter_agrees : forall b blk p e e1, nth_error (f_blocks f) b = Some blk -> ainv e ->
    enter e p (fst (span_phi (b_instrs blk))) = Some e1 -> ainv e1.
  Proof.
    intros b blk p e e1 Hb HA HE. unfold enter in HE.
    destruct (omap (phi_val e p) _) as [vs|] eqn:Ev; [|discriminate].
    eapply bind_agrees; eauto. intros k d x Hd Hx.
    rewrite nth_error_map in Hd. destruct (nth_error (fst (span_phi (b_instrs blk))) k) as [ph|] eqn:Ek; [|discriminate].
    injection Hd as <-.
    assert (Hv : phi_val e p ph = Some x).
    { clear -Ev Ek Hx. revert vs k Ev Ek Hx. induction (fst (span_phi (b_instrs blk))) as [|q l IH]; intros vs k Ev Ek Hx.
      - destruct k; discriminate.
      - cbn [omap] in Ev. destruct (phi_val e p q) as [y|] eqn:Ey; [|discriminate].
        destruct (omap (phi_val e p) l) as [ys|]; [|discriminate]. injection Ev as <-. destruct k; cbn in *.
        + congruence.
        + eapply IH; eauto. }
    destruct p as [p|]; [|discriminate]. destruct ph as [[d t] ss]. cbn [fst].
    eapply phi_agrees; eauto; [eapply nth_error_In; eauto|].
    rewrite (span_phi_app (b_instrs blk)). apply in_or_app. left. apply in_map_iff.
    exists (d, t, ss). split; auto. eapply nth_error_In; eauto.
  Qed.
  Lemma step_agrees : forall S (W : world S) b blk pos i e s e1 s1,
    nth_error (f_blocks f) b = Some blk -> nth_error (b_instrs blk) pos = Some i ->
    ainv e -> exec W (f_types f) e s i = ROk (e1, s1) -> ainv e1.
  Proof.
    intros S W b blk pos i e s e1 s1 Hb Hi HA Ex. apply nth_error_In in Hb. apply nth_error_In in Hi.
    unfold exec in Ex. apply rbind_ok in Ex. destruct Ex as ([vs s2] & Ef & Ex). cbn [fst snd] in Ex.
    destruct (bind_all e (dests i) vs) as [e2|] eqn:Eb; [|discriminate]. cbn in Ex. injection Ex as <- <-.
    pose proof (Hone blk i Hb Hi) as L1.
    destruct (dests i) as [|d [|d2 ds]] eqn:Ed; cbn in L1; try lia.
    - destruct vs; [|discriminate]. cbn in Eb. injection Eb as <-. auto.
    - destruct vs as [|x [|y vs]]; cbn in Eb; try discriminate. injection Eb as <-.
      assert (Di : dest i = Some d) by (unfold dest; rewrite Ed; auto).
      destruct (Hst blk i Hb Hi d Di) as (new & En & Em).
      intros v y Hv. unfold upd in Hv. destruct (Nat.eqb_spec v d); [|auto]. injection Hv as <-. subst v.
      eapply agree_merge; eauto. eapply effect_agrees; eauto.
      destruct i; auto. discriminate.
  Qed.
  Lemma entry_agrees : forall args e, bind_all (fun _ => None) (f_params f) args = Some e -> ainv e.
  Proof.
    intros args e H. eapply bind_agrees; eauto.
    - intros v x Hx. discriminate.
    - intros k d x Hd _. rewrite Hpar; [exact Logic.I|]. eapply nth_error_In; eauto.
  Qed.

  Theorem reached_agrees : forall S (W : world S) args s0 b k e s,
    reached W f args s0 b k e s -> ainv e.
  Proof.
    induction 1.
    - eapply enter_agrees; eauto. eapply entry_agrees; eauto.
    - eapply step_agrees; eauto.
    - eapply enter_agrees; [| |eassumption]; eauto.
  Qed.

  Theorem rewrite_same : phis_first f -> same_behaviour f (rewrite_uses st f).
  Proof.
    intros Hp S W fuel args s. apply rrel_true.
    apply sim_calls with (X := fun _ => False) (I := fun _ _ e => ainv e) (okW := fun _ _ => True); auto.
    - intros S0 W0 b blk pos i e s0 e1 s1 _ Q1 Q2 _ Q4 Q5. eapply step_agrees; eauto.
    - intros b blk b' blk' e e1 Q1 Q2 _ Q4 Q5. eapply enter_agrees; eauto.
    - intros blk args0 e _ _ Q. eapply entry_agrees; eauto.
    - intros b blk Hb. eexists. split.
      { unfold rewrite_uses. cbn [with_blocks f_blocks]. apply map_nth_error. exact Hb. }
      cbn [bmap b_instrs b_term]. split.
      + assert (G : forall is pos, (forall i, In i is -> In i (b_instrs blk)) ->
          lsim f (rewrite_uses st f) true (fun _ => False) (fun _ _ e => ainv e) (fun _ _ => True) b pos is
               (map (imap (rewrite_val st) (fun c => c)) is)).
        { induction is as [|i is IH]; intros pos Hin; [constructor|]. cbn [map].
          assert (IH' : lsim f (rewrite_uses st f) true (fun _ => False) (fun _ _ e => ainv e) (fun _ _ => True) b (Datatypes.S pos) is
               (map (imap (rewrite_val st) (fun c => c)) is)) by (apply IH; intros; apply Hin; right; auto).
          destruct (is_phi i) eqn:Ep.
          - destruct i; try discriminate. cbn [imap]. apply ls_phi; auto. split; [reflexivity|].
            intros p pblk e e' x _ _ HI HR. unfold phi_val. cbn [fst snd].
            assert (SM : src_from p (map (fun s0 : nat * value => (fst s0, rewrite_val st (snd s0))) sources)
                         = option_map (rewrite_val st) (src_from p sources)).
            { clear. induction sources as [|[q w] ss IHs]; cbn; auto. destruct (Nat.eqb p q); auto. }
            rewrite SM. destruct (src_from p sources) as [v|]; [|discriminate]. cbn [option_map]. intro E.
            apply (proj1 (rewrite_vsim e v HI)) in E. clear -E HR.
            destruct (rewrite_val st v) as [l|j|]; cbn in *; auto. rewrite (HR j); auto.
          - apply ls_keep; auto. split; auto. split; [destruct i; auto|]. split; [destruct i; auto|].
            intros S0 W0 s0 e e' _ HI HR. apply effect_sim; auto.
            + intros v Hv. destruct (rewrite_vsim e v HI) as [A B]. split; intros.
              * apply A in H. destruct (rewrite_val st v) as [l|j|]; cbn in *; auto. rewrite (HR j); auto.
              * apply B in H. destruct (rewrite_val st v) as [l|j|]; cbn in *; auto. rewrite (HR j); auto.
            + intros c x _ Hx. rewrite (HR c); auto. }
        apply G; auto.
      + intros e e' HI HR.
        assert (EQ : forall v, truth e' v = truth e v).
        { intro v. apply truth_sim_agree. intros j _. apply HR. auto. }
        assert (VS : forall v, vsim e e' v v).
        { intro v. apply vsim_agree. intros j _. apply HR. auto. }
        change (f_rets (rewrite_uses st f)) with (f_rets f). change (f_types (rewrite_uses st f)) with (f_types f).
        destruct (b_term blk) as [x|c x y|op l r x y|vs|]; cbn [exec_term].
        * apply rrel_eq_refl.
        * rewrite EQ. apply rrel_eq_refl.
        * destruct (branch_op op); [|exact Logic.I]. step_eq; [|apply rrel_eq_refl]. apply eval_bin_sim; apply VS.
        * step_eq; [apply rrel_eq_refl|]. step_eq; [|apply rrel_eq_refl]. apply rrel_of_opt. intros z Hz.
          rewrite <- (map_id vs). eapply (eval_list_sim e e' (fun v => v)); eauto.
        * exact Logic.I.
  Qed.
End Sound.

Theorem analyse_sound : forall n f st, analyse n f = CDone st -> lits_in_range f -> single_results f ->
  forall S (W : world S) args s0 b k e s v l x, reached W f args s0 b k e s ->
    st v = Const l -> e v = Some x -> denotes l x.
Proof.
  intros n f st H HL H1 S W args s0 b k e s v l x HR Hv Hx. destruct (analyse_spec n f st H) as [A B].
  pose proof (reached_agrees f st A B HL H1 S W args s0 b k e s HR v x Hx) as K. rewrite Hv in K. exact K.
Qed.
Theorem const_prop_same : forall f g, const_prop f = CDone g -> phis_first f -> lits_in_range f -> single_results f ->
  same_behaviour f g.
Proof.
  intros f g H Hp HL H1. unfold const_prop in H. destruct (analyse _ f) as [st| |] eqn:E; try discriminate.
  injection H as <-. destruct (analyse_spec _ f st E) as [A B]. apply rewrite_same; auto.
Qed.

(** ** The form of the function is kept. *)
Section Form.
  Variables (st : astate) (f : func).
  Let g := rewrite_uses st f.
  Lemma rw_nth : forall b, nth_error (f_blocks g) b =
    option_map (bmap (imap (rewrite_val st) (fun c => c)) (fun t => t)) (nth_error (f_blocks f) b).
  Proof. intro b. unfold g, rewrite_uses. cbn [with_blocks f_blocks]. apply nth_error_map. Qed.
  Lemma rw_walk : forall l, walk g l -> walk f l.
  Proof.
    induction 1 as [|b b' l blk HW IH Hb Ht]; [exact (w_entry f)|]. rewrite rw_nth in Hb.
    destruct (nth_error (f_blocks f) b) as [c|] eqn:E; [|discriminate]. injection Hb as <-. eapply w_step; eauto.
  Qed.
  Lemma rw_def : forall b k d, def_at f b k d -> def_at g b k d.
  Proof.
    intros b k d (blk & i & H1 & H2 & H3). exists (bmap (imap (rewrite_val st) (fun c => c)) (fun t => t) blk), (imap (rewrite_val st) (fun c => c) i).
    rewrite rw_nth, H1, dests_imap. split; auto. split; auto. cbn [bmap b_instrs]. apply map_nth_error. auto.
  Qed.
  Lemma rw_dom : forall v b k, dom f v b k -> dom g v b k.
  Proof.
    intros v b k H l HW. destruct (H l (rw_walk _ HW)) as [A|[(j & L & A)|(c & j & Hc & A)]].
    - left. exact A.
    - right; left. exists j. split; auto. apply rw_def; auto.
    - right; right. exists c, j. split; auto. apply rw_def; auto.
  Qed.
  Lemma rw_ids : forall x v, In v (val_ids (rewrite_val st x)) -> In v (val_ids x).
  Proof. intros [l|i|] v; cbn; auto. destruct (st i); cbn; auto. Qed.
  Lemma rw_dests : all_dests g = all_dests f.
  Proof.
    unfold all_dests, g, rewrite_uses. cbn [with_blocks f_blocks]. generalize (f_blocks f). intro bs.
    induction bs as [|b bs IH]; cbn [map flat_map]; auto. rewrite IH. f_equal. cbn [bmap b_instrs].
    clear. induction (b_instrs b) as [|i is IH]; cbn; auto. rewrite IH, dests_imap. auto.
  Qed.
  Theorem rewrite_keeps_ssa : ssa f -> ssa g.
  Proof.
    intros [H1 H2]. split.
    - unfold single_def in *. rewrite rw_dests. exact H1.
    - intros b blk' Hb. rewrite rw_nth in Hb. destruct (nth_error (f_blocks f) b) as [blk|] eqn:E; [|discriminate].
      injection Hb as <-. destruct (H2 b blk E) as (U1 & U2 & U3). cbn [bmap b_instrs b_term]. rewrite map_length. split; [|split].
      + intros k i v Hk Np Hv. rewrite nth_error_map in Hk.
        destruct (nth_error (b_instrs blk) k) as [j|] eqn:Ek; [|discriminate]. injection Hk as <-.
        rewrite is_phi_imap in Np. apply rw_dom. apply (U1 k j v Ek Np).
        apply uses_imap in Hv. apply uses_ivals. destruct Hv as [(x & Hx & Hv)|(c & Hc & ->)]; auto.
        left. exists x. split; auto. apply rw_ids; auto.
      + intros k d t ss p pblk v Hk Hp Ht Hs. rewrite rw_nth in Hp.
        destruct (nth_error (f_blocks f) p) as [q|] eqn:Ep; [|discriminate]. injection Hp as <-.
        cbn [bmap b_instrs b_term] in *. rewrite map_length. apply rw_dom.
        rewrite nth_error_map in Hk. destruct (nth_error (b_instrs blk) k) as [j|] eqn:Ek; [|discriminate].
        injection Hk as Hk. destruct j; try discriminate. cbn in Hk. injection Hk as -> -> <-.
        assert (SM : src_from p (map (fun s0 : nat * value => (fst s0, rewrite_val st (snd s0))) sources)
                     = option_map (rewrite_val st) (src_from p sources)).
        { clear. induction sources as [|[q w] ss IHs]; cbn; auto. destruct (Nat.eqb p q); auto. }
        rewrite SM in Hs. destruct (src_from p sources) as [x|] eqn:Ex; [|discriminate]. cbn in Hs. injection Hs as Hs.
        assert (Hin : In v (val_ids x)) by (apply rw_ids; rewrite Hs; cbn; auto).
        destruct x as [|w|]; cbn in Hin; try contradiction. destruct Hin as [->|[]]. eapply U2; eauto.
      + intros v Hv. apply rw_dom. auto.
  Qed.
  Theorem rewrite_keeps_phis : phis_first f -> phis_first g.
  Proof.
    intros H b Hb. unfold g, rewrite_uses in Hb. cbn [with_blocks f_blocks] in Hb. apply in_map_iff in Hb.
    destruct Hb as (c & <- & Hc). specialize (H c Hc). cbn [bmap b_instrs]. clear -H.
    induction (b_instrs c) as [|i is IH]; auto. destruct (is_phi i) eqn:E.
    - destruct i; try discriminate. cbn [map imap span_phi snd] in *. auto.
    - assert (N : forall is, forallb (fun i => negb (is_phi i)) (map (imap (rewrite_val st) (fun c => c)) is) = forallb (fun i => negb (is_phi i)) is).
      { induction is0 as [|j js IH2]; cbn; auto. rewrite is_phi_imap, IH2. auto. }
      assert (S1 : forall j js, is_phi j = false -> span_phi (j :: js) = ([], j :: js)) by (intros [] js Ej; try discriminate; auto).
      rewrite S1 in H by auto. cbn [map]. rewrite S1 by (rewrite is_phi_imap; auto).
      cbn [snd] in *. change (imap (rewrite_val st) (fun c => c) i :: map (imap (rewrite_val st) (fun c => c)) is)
        with (map (imap (rewrite_val st) (fun c => c)) (i :: is)). rewrite N. auto.
  Qed.
End Form.
Theorem const_prop_keeps : forall f g, const_prop f = CDone g -> ssa f -> phis_first f ->
  (forall r, In r (f_rets f) -> ~ In r (all_dests f)) ->
  ssa g /\ phis_first g /\ (forall r, In r (f_rets g) -> ~ In r (all_dests g)).
Proof.
  intros f g H H1 H2 H3. unfold const_prop in H. destruct (analyse _ f) as [st| |]; try discriminate. injection H as <-.
  split; [apply rewrite_keeps_ssa; auto|]. split; [apply rewrite_keeps_phis; auto|].
  rewrite rw_dests. exact H3.
Qed.
