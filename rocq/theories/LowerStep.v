(** What each step of lowering preserves. *)
From Coq Require Import ZArith Bool String List Lia Permutation.
From Verif Require Import M31 Isa Mir MirFacts MirSsaMap MirCopyFacts Src SrcCheck Lower LowerFacts.
Import ListNotations.
Open Scope nat_scope.

(** ** Later states extend earlier ones. *)
Record ext (st st' : lst) : Prop := {
  e_nb : l_nb st <= l_nb st';
  e_cls : refines st st';
  e_tys : forall i t, l_tys st i = Some t -> l_tys st' i = Some t;
  e_body : forall b, exists tl, map (ci st') (l_body st' b) = map (ci st') (l_body st b) ++ tl;
  e_done : forall b, finished st b = true ->
     map (ci st') (l_body st' b) = map (ci st') (l_body st b) /\ ct st' (l_term st' b) = ct st' (l_term st b);
  e_ent : forall x b o, l_ent st x b = Some o -> l_ent st' x b = Some o;
  e_def : forall x b v, finished st b = true -> l_def st x b = Some v ->
     exists v', l_def st' x b = Some v' /\ l_cls st' v' = l_cls st' v;
  e_new : forall x b v, finished st b = true -> l_def st x b = None -> l_def st' x b = Some v ->
     exists o, l_ent st' x b = Some o /\ l_cls st' v = l_cls st' o }.
Lemma ct_fin st' t u : ct st' t = ct st' u ->
  match t with TUnreachable => false | _ => true end = match u with TUnreachable => false | _ => true end.
Proof. intros H. rewrite <- (ct_finished st' t), <- (ct_finished st' u), H. reflexivity. Qed.
Lemma ext_fin st st' b : ext st st' -> finished st b = true -> finished st' b = true.
Proof. intros E F. destruct (e_done _ _ E _ F) as [_ T]. apply ct_fin in T. unfold finished in *. congruence. Qed.
Lemma ext_refl st : (forall i, l_cls st (l_cls st i) = l_cls st i) -> ext st st.
Proof. intros H. constructor; eauto; try congruence. intros b. exists []. rewrite app_nil_r. reflexivity. Qed.
Lemma ext_trans a b c : ext a b -> ext b c -> ext a c.
Proof.
  intros A B. pose proof (e_cls _ _ B) as RB. constructor.
  - pose proof (e_nb _ _ A). pose proof (e_nb _ _ B). lia.
  - eapply refines_trans; [apply (e_cls _ _ A)|exact RB].
  - intros i t H. apply (e_tys _ _ B). apply (e_tys _ _ A). exact H.
  - intros x. destruct (e_body _ _ A x) as (t1 & H1). destruct (e_body _ _ B x) as (t2 & H2).
    exists (map (ci c) t1 ++ t2). rewrite H2, app_assoc. f_equal.
    rewrite <- (map_ext _ _ (fun i => ci_ci b c i RB) (l_body b x)), <- (map_map (ci b) (ci c)), H1, map_app.
    rewrite map_map. f_equal. apply map_ext. intros i. apply ci_ci. exact RB.
  - intros x F. destruct (e_done _ _ A _ F) as [B1 T1]. destruct (e_done _ _ B _ (ext_fin _ _ _ A F)) as [B2 T2].
    split.
    + rewrite B2. eapply ci_mono; eauto.
    + rewrite T2. eapply ct_mono; eauto.
  - intros x y o H. apply (e_ent _ _ B). apply (e_ent _ _ A). exact H.
  - intros x y v F H. destruct (e_def _ _ A _ _ _ F H) as (v1 & D1 & E1).
    destruct (e_def _ _ B _ _ _ (ext_fin _ _ _ A F) D1) as (v2 & D2 & E2). exists v2. split; auto.
    rewrite E2. eapply refines_mono; eauto.
  - intros x y v F N H. pose proof (ext_fin _ _ _ A F) as F1. destruct (l_def b x y) as [w|] eqn:D.
    + destruct (e_new _ _ A _ _ _ F N D) as (o & O & E). exists o. split; [apply (e_ent _ _ B); auto|].
      destruct (e_def _ _ B _ _ _ F1 D) as (v2 & D2 & E2). replace v with v2 by congruence.
      rewrite E2. eapply refines_mono; eauto.
    + eapply e_new; eauto.
Qed.

(** An unfinished block that nothing has happened to. *)
Definition still (st st' : lst) (b : nat) : Prop :=
  finished st' b = false /\ (forall x, l_def st' x b = l_def st x b /\ l_ent st' x b = l_ent st x b) /\
  map (ci st') (l_body st' b) = map (ci st') (l_body st b).
Lemma still_trans a b c x : refines b c -> still a b x -> still b c x -> still a c x.
Proof.
  intros R (_ & D1 & B1) (F2 & D2 & B2). split; auto. split.
  - intros y. destruct (D1 y), (D2 y). split; congruence.
  - rewrite B2. eapply ci_mono; eauto.
Qed.
Definition virgin (st : lst) (b : nat) : Prop :=
  b < l_nb st /\ finished st b = false /\ l_body st b = [] /\ forall x, l_def st x b = None /\ l_ent st x b = None.

Record step (T S P : nat -> Prop) (st st' : lst) : Prop := {
  s_ext : ext st st';
  s_still : forall b, b < l_nb st -> ~ T b -> finished st b = false -> still st st' b;
  s_sealed : forall b, b < l_nb st -> ~ S b -> l_sealed st' b = l_sealed st b;
  s_preds : forall b, b < l_nb st -> ~ P b -> l_preds st' b = l_preds st b }.
Lemma step_trans T S P a b c : step T S P a b -> step T S P b c -> step T S P a c.
Proof.
  intros A B. pose proof (e_nb _ _ (s_ext _ _ _ _ _ A)) as N. constructor.
  - eapply ext_trans; [apply (s_ext _ _ _ _ _ A)|apply (s_ext _ _ _ _ _ B)].
  - intros x L NT F. pose proof (s_still _ _ _ _ _ A x L NT F) as S1.
    eapply still_trans; [apply (e_cls _ _ (s_ext _ _ _ _ _ B))|exact S1|].
    apply (s_still _ _ _ _ _ B); auto; [lia|apply S1].
  - intros x L NS. rewrite (s_sealed _ _ _ _ _ B) by (auto; lia). apply (s_sealed _ _ _ _ _ A); auto.
  - intros x L NS. rewrite (s_preds _ _ _ _ _ B) by (auto; lia). apply (s_preds _ _ _ _ _ A); auto.
Qed.
Lemma step_weak (T S P T' S' P' : nat -> Prop) st st' :
  (forall b, b < l_nb st -> T b -> T' b) -> (forall b, b < l_nb st -> S b -> S' b) -> (forall b, b < l_nb st -> P b -> P' b) ->
  step T S P st st' -> step T' S' P' st st'.
Proof. intros HT HS HP A. destruct A. constructor; auto. Qed.
Lemma step_virgin T S P st st' b : step T S P st st' -> virgin st b -> ~ T b -> virgin st' b.
Proof.
  intros A (L & F & B & D) N. destruct (s_still _ _ _ _ _ A b L N F) as (F' & D' & B').
  pose proof (e_nb _ _ (s_ext _ _ _ _ _ A)). split; [lia|]. split; auto. split.
  - rewrite B in B'. cbn in B'. destruct (l_body st' b); [auto|discriminate].
  - intros x. destruct (D x), (D' x). split; congruence.
Qed.
Definition no : nat -> Prop := fun _ => False.

Lemma rd_ext t st st' : rd t st st' -> ext st st'.
Proof.
  intros R. constructor.
  - rewrite (r_nb _ _ _ R). lia.
  - apply (r_cls _ _ _ R).
  - apply (r_tys _ _ _ R).
  - intros b. exists []. rewrite (r_body _ _ _ R), app_nil_r. reflexivity.
  - intros b _. split; [apply (r_body _ _ _ R)|apply (r_term _ _ _ R)].
  - apply (r_ent _ _ _ R).
  - intros x b v _. apply (r_def _ _ _ R).
  - intros x b v _. apply (r_new _ _ _ R).
Qed.
Lemma rd_step t S st st' : rd t st st' -> (forall b, ~ S b -> l_sealed st' b = l_sealed st b) -> step t S no st st'.
Proof.
  intros R SE. constructor.
  - eapply rd_ext; eauto.
  - intros b L N F. split; [rewrite (rd_finished _ _ _ _ R); auto|]. split.
    + intros x. destruct (r_touch _ _ _ R b F N x). auto.
    + apply (r_body _ _ _ R).
  - auto.
  - intros b L N. rewrite (r_preds _ _ _ R). reflexivity.
Qed.

(** Steps within the current block. *)
Record quiet (st st' : lst) : Prop := {
  q_step : step (eq (l_cur st)) no no st st';
  q_nb : l_nb st' = l_nb st;
  q_cur : l_cur st' = l_cur st;
  q_fin : forall b, finished st' b = finished st b }.
Lemma quiet_trans a b c : quiet a b -> quiet b c -> quiet a c.
Proof.
  intros [A1 A2 A3 A4] [B1 B2 B3 B4]. constructor; try congruence.
  - eapply step_trans; [exact A1|]. rewrite <- A3. exact B1.
Qed.

Section Steps.
Variables (V : nat -> ty) (ps : list nat).
Local Notation inv := (inv V ps).

Lemma quiet_refl st stk : inv st stk -> quiet st st.
Proof.
  intros I. constructor; auto. constructor; auto; [apply ext_refl, (i_idem _ _ _ _ I)|].
  intros b L N F. repeat split; auto.
Qed.
Lemma rd_quiet st st' : rd (eq (l_cur st)) st st' -> l_sealed st' = l_sealed st -> quiet st st'.
Proof.
  intros R S. constructor; [|apply (r_nb _ _ _ R)|apply (r_cur _ _ _ R)|intros b; eapply rd_finished; eauto].
  apply rd_step; auto. intros b _. congruence.
Qed.
Lemma fresh_quiet t st stk : inv st stk -> quiet st (snd (fresh t st)).
Proof. intros I. apply rd_quiet; auto. eapply fresh_rd; eauto. Qed.
Lemma emit_quiet i st stk : inv st stk -> finished st (l_cur st) = false -> quiet st (emit i st).
Proof.
  intros I F. constructor; auto. constructor; auto.
  - constructor; cbn; auto; try congruence; try (intros; eauto; congruence).
    + intros j. apply (i_idem _ _ _ _ I).
    + intros b. upd; [|exists []; rewrite app_nil_r; auto]. exists [ci (emit i st) i]. rewrite map_app. reflexivity.
    + intros b Fb. upd; auto. congruence.
  - intros b L N Fb. split; auto. split; [intros x; split; reflexivity|]. cbn. upd; auto. congruence.
Qed.
Lemma write_quiet x v st stk : inv st stk -> finished st (l_cur st) = false -> quiet st (write x (l_cur st) v st).
Proof.
  intros I F. constructor; auto. constructor; auto.
  - constructor; cbn; auto; try congruence.
    + intros j. apply (i_idem _ _ _ _ I).
    + intros b. exists []. rewrite app_nil_r. auto.
    + intros y b w Fb D. upd; eauto. congruence.
    + intros y b w Fb D D'. upd; try congruence.
  - intros b L N Fb. split; auto. split; auto. intros y. cbn. upd; auto. congruence.
Qed.

(** ** Sealing. *)
Definition tag (b : nat) (l : list (nat * nat)) : list (nat * nat * nat) := map (fun p => (fst p, b, snd p)) l.
Lemma complete_spec b l : forall st st', inv st (tag b l) -> b < l_nb st -> complete b l st = Some st' ->
  inv st' [] /\ rd (fun c => c = b /\ l <> []) st st' /\ l_sealed st' = l_sealed st.
Proof.
  induction l as [|[x o] l IH]; intros st st' I LT; cbn [complete].
  { intros [= <-]. split; auto. split; auto. apply rd_refl, (i_idem _ _ _ _ I). }
  destruct (read_all _ _ st) as [[vs st1]|] eqn:RA; [|discriminate].
  destruct (read_all_spec _ _ _ _ (read_spec V ps (depth st) x) (l_preds st b) _ _ _ _ I (i_preds _ _ _ _ I b) RA) as (I1 & R1 & F1 & S1).
  assert (P1 : l_preds st1 b = l_preds st b) by (rewrite (r_preds _ _ _ R1); auto).
  assert (N1 : l_nb st1 = l_nb st) by (apply (r_nb _ _ _ R1)).
  rewrite <- P1 in F1. pose proof (reads_operands _ _ _ _ _ F1) as OP. rewrite P1 in OP.
  destruct (finish b o _ st1) as [v st2] eqn:FI.
  destruct (finish_spec _ _ _ _ _ _ _ _ _ _ I1 ltac:(lia) OP ltac:(rewrite P1; intros C K; rewrite K in C; cbn in C; auto) FI)
    as (I2 & R2 & C2 & T2 & S2). fold (tag b l) in I2. cbn [fst snd] in C2, T2.
  assert (N2 : l_nb st2 = l_nb st) by (rewrite (r_nb _ _ _ R2); auto).
  set (st3 := match l_def st2 x b with
         | Some w => if negb (Nat.eqb v o) && Nat.eqb w o then write x b v st2 else st2
         | None => st2 end).
  assert (G : inv st3 (tag b l) /\ rd (eq b) st2 st3 /\ l_sealed st3 = l_sealed st2).
  { unfold st3. destruct (l_def st2 x b) as [w|] eqn:D.
    - destruct (negb (Nat.eqb v o) && Nat.eqb w o) eqn:E.
      + apply andb_true_iff in E. destruct E as [_ E]. apply Nat.eqb_eq in E. subst w.
        split; [|split; auto].
        * apply rewrite_inv; auto; [lia|]. intros w W. congruence.
        * eapply rewrite_rd; eauto.
      + split; auto. split; auto. apply rd_refl, (i_idem _ _ _ _ I2).
    - split; auto. split; auto. apply rd_refl, (i_idem _ _ _ _ I2). }
  destruct G as (I3 & R3 & S3). intros C.
  destruct (IH _ _ I3 ltac:(rewrite (r_nb _ _ _ R3); lia) C) as (I4 & R4 & S4).
  split; auto. split; [|congruence].
  eapply rd_trans; [eapply rd_weak; [|exact R1]; intros ? []|].
  eapply rd_trans; [eapply rd_weak; [|exact R2]; intros ? []|].
  eapply rd_trans; [eapply rd_weak; [|exact R3]; intros ? <-; split; congruence|].
  eapply rd_weak; [|exact R4]. intros c [E _]. split; congruence.
Qed.

Variable ord : list (nat * nat) -> list (nat * nat).
Hypothesis ord_perm : forall l, Permutation (ord l) l.
Lemma seal_spec b st st' : inv st [] -> b < l_nb st -> seal ord b st = Some st' ->
  inv st' [] /\ rd (fun c => c = b /\ l_inc st b <> []) st st' /\ l_sealed st' = upf (l_sealed st) b true.
Proof.
  intros I LT C. unfold seal in C.
  set (s0 := Lst _ _ _ _ _ _ _ _ _ _ _ _ _ _) in C.
  assert (I0 : inv s0 (tag b (ord (l_inc st b)))).
  { assert (TG : forall x c o, In (x, c, o) (tag b (ord (l_inc st b))) <-> c = b /\ In (x, o) (l_inc st b)).
    { intros x c o. unfold tag. rewrite in_map_iff. split.
      - intros ([y u] & E & H). cbn in E. injection E as <- <- <-. split; auto. eapply Permutation_in; eauto.
      - intros [-> H]. exists (x, o). split; auto. eapply Permutation_in; [symmetry|]; eauto. }
    assert (SM : forall c, l_sealed st c = true -> l_sealed s0 c = true) by (intros c H; cbn; upd; auto).
    assert (PM : forall x c o, pend st [] x c o -> pend s0 (tag b (ord (l_inc st b))) x c o).
    { intros x c o [H|[]]. unfold pend. rewrite TG. cbn. upd; auto. }
    destruct I. constructor; try assumption.
    - intros x c o H. destruct (i_ent x c o H) as [K|[K1 K2]]; [left; auto|right; auto].
    - intros c p H. destruct (i_phi c p H) as (K1 & K2 & K). split; [auto|split; auto].
      destruct K as [K|[K3 K4]]; [left; apply PM; exact K|right; split; auto].
    - intros x c o [H|H]; apply i_pend; left.
      + cbn in H. upd; auto. destruct H.
      + apply TG in H. destruct H as [-> H]. exact H.
    - intros c x o H. cbn in *. upd; [destruct H|eauto].
    - intros x c o H. apply TG in H. destruct H as [-> H]. cbn. upd; congruence.
    - intros c. cbn. upd; auto. constructor.
    - unfold tag. apply FinFun.Injective_map_NoDup.
      + intros [x o] [y u]. cbn. intros [= -> ->]. reflexivity.
      + eapply Permutation_NoDup; [symmetry; apply ord_perm|]. auto.
    - intros c H. destruct (i_new c H) as (N1 & N2 & N3 & N4 & N5 & N6 & N7).
      assert (c <> b) by (change (l_nb s0) with (l_nb st) in H; lia).
      split; auto. split; auto. split; auto. split; auto. split; auto. cbn. upd; auto. congruence. }
  destruct (complete_spec _ _ _ _ I0 LT C) as (I1 & R1 & S1). split; auto. split; auto.
  assert (R0 : rd (fun c => c = b /\ l_inc st b <> []) st s0).
  { constructor; cbn; auto; try congruence; try (intros; congruence).
    - intros i. apply (i_idem _ _ _ _ I).
    - eauto.
    - intros c H. upd; auto. }
  eapply rd_trans; [exact R0|]. eapply rd_weak; [|exact R1]. intros c [-> N]. split; auto.
  intros E. apply N. rewrite E. pose proof (ord_perm []) as Q. apply Permutation_sym, Permutation_nil in Q. exact Q.
Qed.

(** ** Blocks and edges. *)
Lemma switch_inv b st stk : inv st stk -> inv (switch b st) stk.
Proof. intros I. destruct I. constructor; assumption. Qed.
Lemma switch_step T S P b st stk : inv st stk -> step T S P st (switch b st).
Proof.
  intros I. constructor; auto.
  - constructor; cbn; auto; try congruence; eauto; try (intros; congruence).
    + intros i. apply (i_idem _ _ _ _ I).
    + intros c. exists []. rewrite app_nil_r. reflexivity.
  - intros c L N F. split; auto.
Qed.
Lemma new_block_inv st stk : inv st stk -> inv (snd (new_block st)) stk.
Proof. intros I. destruct I. constructor; try assumption. intros b H. apply i_new. cbn in H. lia. Qed.
Lemma new_block_step T S P st stk : inv st stk -> step T S P st (snd (new_block st)).
Proof.
  intros I. constructor; auto.
  - constructor; cbn; auto; try congruence; eauto; try (intros; congruence).
    + intros i. apply (i_idem _ _ _ _ I).
    + intros c. exists []. rewrite app_nil_r. reflexivity.
  - intros c L N F. split; auto.
Qed.
Lemma new_block_virgin st stk : inv st stk -> virgin (snd (new_block st)) (l_nb st) /\
  l_sealed (snd (new_block st)) (l_nb st) = false /\ l_preds (snd (new_block st)) (l_nb st) = [].
Proof.
  intros I. destruct (i_new _ _ _ _ I (l_nb st) (le_n _)) as (N1 & N2 & N3 & N4 & N5 & N6 & N7).
  split; [|split; auto]. split; [cbn; lia|]. split; [unfold finished; cbn; rewrite N3; auto|]. auto.
Qed.

Lemma connect_in p f c q : In q (connect p f c c) <-> In q (f c) \/ q = p.
Proof.
  unfold connect. destruct (mem_nat p (f c)) eqn:M.
  - split; auto. intros [H| ->]; auto. unfold mem_nat in M. apply existsb_exists in M.
    destruct M as (y & Y & E). apply Nat.eqb_eq in E. congruence.
  - unfold upf. rewrite Nat.eqb_refl. rewrite in_app_iff. cbn. intuition.
Qed.
Lemma connect_other p f c d : d <> c -> connect p f c d = f d.
Proof. intros N. unfold connect. destruct (mem_nat p (f c)); auto. unfold upf. destruct (Nat.eqb_spec d c); congruence. Qed.
Lemma fold_connect p ts : forall f c, (forall q, In q (fold_left (connect p) ts f c) <-> In q (f c) \/ q = p /\ In c ts)
  /\ (~ In c ts -> fold_left (connect p) ts f c = f c).
Proof.
  induction ts as [|t ts IH]; intros f c; cbn [fold_left].
  - split; [intros q; cbn; tauto|auto].
  - destruct (IH (connect p f t) c) as [A B]. split.
    + intros q. rewrite A. destruct (Nat.eq_dec c t) as [->|N].
      * rewrite connect_in. cbn. tauto.
      * rewrite connect_other by auto. cbn. intuition congruence.
    + cbn. intros N. rewrite B by tauto. apply connect_other. intuition.
Qed.
Definition open_for (st : lst) (c : nat) : Prop :=
  c < l_nb st /\ (l_sealed st c = false \/ forall x, l_ent st x c = None).
Lemma set_term_inv b t st : inv st [] -> b < l_nb st -> finished st b = false -> t <> TUnreachable ->
  (forall c, In c (targets t) -> open_for st c) -> inv (set_term b t st) [].
Proof.
  intros I LT F NT O.
  assert (PR : forall c q, In q (l_preds (set_term b t st) c) <-> In q (l_preds st c) \/ q = b /\ In c (targets t)).
  { intros c q. apply fold_connect. }
  assert (PS : forall c, ~ In c (targets t) -> l_preds (set_term b t st) c = l_preds st c).
  { intros c H. apply fold_connect. exact H. }
  assert (FN : forall p, finished st p = true -> finished (set_term b t st) p = true).
  { intros p H. unfold finished in *. cbn. upd; auto. destruct t; congruence. }
  destruct I. constructor; try assumption.
  - intros x c o H. destruct (i_ent x c o H) as [K|(K1 & K2 & K3)]; [left; auto|]. right. split; auto.
    assert (NI : ~ In c (targets t)).
    { intros C. destruct (O c C) as [_ [E|E]]; [congruence|]. specialize (E x). cbn in H. congruence. }
    unfold all_same. rewrite (PS c NI). auto.
  - intros c p H. destruct (i_phi c p H) as (K1 & K2 & K). split; [auto|split; auto].
    destruct K as [K|[K3 K4]]; [left; exact K|right; split; auto].
    assert (NI : ~ In c (targets t)).
    { intros C. destruct (O c C) as [_ [E|E]]; [congruence|]. specialize (E (p_var p)). cbn in K1. congruence. }
    unfold srcs_ok. rewrite (PS c NI). auto.
  - intros c p H. apply PR in H. destruct H as [H|[-> H]]; [apply FN; eauto|].
    unfold finished; cbn. upd; try congruence. destruct t; congruence.
  - intros p c H. apply PR. cbn in H. upd; auto.
  - intros c H. change (l_nb (set_term b t st)) with (l_nb st) in H.
    destruct (i_new c H) as (N1 & N2 & N3 & N4 & N5 & N6 & N7).
    assert (NI : ~ In c (targets t)). { intros C. destruct (O c C). lia. }
    split; auto. split; auto. split; [cbn; upd; auto; lia|]. split; [rewrite PS; auto|]. auto.
Qed.
Lemma set_term_step b t st stk : inv st stk -> finished st b = false ->
  step (eq b) no (fun c => In c (targets t)) st (set_term b t st).
Proof.
  intros I F. constructor; auto.
  - constructor; cbn; auto; try congruence; eauto; try (intros; congruence).
    + intros i. apply (i_idem _ _ _ _ I).
    + intros c. exists []. rewrite app_nil_r. reflexivity.
    + intros c Fc. upd; auto. congruence.
  - intros c L N Fc. split; [|split; auto]. unfold finished in *. cbn. upd; auto. congruence.
  - intros c L N. apply fold_connect. exact N.
Qed.
Lemma virgin_inc st stk b : inv st stk -> virgin st b -> l_inc st b = [].
Proof.
  intros I (_ & _ & _ & D). destruct (l_inc st b) as [|[x o] r] eqn:E; auto. exfalso.
  assert (H : pend st stk x b o) by (left; rewrite E; left; auto).
  apply (i_pend _ _ _ _ I) in H. destruct H as (p & P & PD & PV).
  destruct (i_phi _ _ _ _ I _ _ P) as (K & _). rewrite PV in K. destruct (D x). congruence.
Qed.
End Steps.
