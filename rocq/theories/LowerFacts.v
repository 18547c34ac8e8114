(** SSA construction during lowering: invariants. *)
From Coq Require Import ZArith Bool String List Lia Permutation.
From Verif Require Import M31 Isa Mir MirFacts MirSsaMap MirCopyFacts Src Lower.
Import ListNotations.
Open Scope nat_scope.

Ltac upd := unfold upf, upf2 in *; repeat (match goal with
  | |- context[Nat.eqb ?a ?b] => destruct (Nat.eqb_spec a b)
  | H : context[Nat.eqb ?a ?b] |- _ => destruct (Nat.eqb_spec a b)
  end; cbn [andb] in *; subst).

(** ** Ids up to the equalities of removed phis. *)
Definition cv (st : lst) (v : value) : value := match v with Op i => Op (l_cls st i) | _ => v end.
Definition ci (st : lst) : minstr -> minstr := imap (cv st) (l_cls st).
Definition ct (st : lst) : term -> term := tmap (cv st).

Definition refines (st st' : lst) : Prop := forall i, l_cls st' (l_cls st i) = l_cls st' i.
Lemma refines_mono st st' a b : refines st st' -> l_cls st a = l_cls st b -> l_cls st' a = l_cls st' b.
Proof. intros R H. rewrite <- (R a), <- (R b), H. reflexivity. Qed.
Lemma refines_trans a b c : refines a b -> refines b c -> refines a c.
Proof. intros H K i. rewrite <- (K (l_cls a i)), H. apply K. Qed.
Lemma cv_cv st st' v : refines st st' -> cv st' (cv st v) = cv st' v.
Proof. intros R. destruct v; cbn; auto; try (f_equal; apply R). Qed.
Lemma ci_ci st st' i : refines st st' -> ci st' (ci st i) = ci st' i.
Proof.
  intros R. unfold ci. rewrite imap_comp. apply imap_ext; intros.
  - apply cv_cv; auto.
  - apply R.
Qed.
Lemma ct_ct st st' t : refines st st' -> ct st' (ct st t) = ct st' t.
Proof. intros R. unfold ct. rewrite tmap_comp. apply tmap_ext. intros. apply cv_cv; auto. Qed.
Lemma ci_mono st st' is js : refines st st' -> map (ci st) is = map (ci st) js ->
  map (ci st') is = map (ci st') js.
Proof.
  intros R H. rewrite <- (map_ext _ _ (fun i => ci_ci st st' i R) is), <- (map_ext _ _ (fun i => ci_ci st st' i R) js).
  rewrite <- !(map_map (ci st) (ci st')), H. reflexivity.
Qed.
Lemma ct_mono st st' t u : refines st st' -> ct st t = ct st u -> ct st' t = ct st' u.
Proof. intros R H. rewrite <- (ct_ct _ _ t R), <- (ct_ct _ _ u R), H. reflexivity. Qed.
Lemma ct_finished st t : (match ct st t with TUnreachable => false | _ => true end)
  = (match t with TUnreachable => false | _ => true end).
Proof. destruct t; reflexivity. Qed.

(** ** What reading variables does to the state.  [tch]: unfinished blocks it may visit. *)
Record rd (tch : nat -> Prop) (st st' : lst) : Prop := {
  r_nb : l_nb st' = l_nb st;
  r_preds : l_preds st' = l_preds st;
  r_cur : l_cur st' = l_cur st;
  r_next : l_next st <= l_next st';
  r_tys : forall i t, l_tys st i = Some t -> l_tys st' i = Some t;
  r_cls : refines st st';
  r_body : forall b, map (ci st') (l_body st' b) = map (ci st') (l_body st b);
  r_term : forall b, ct st' (l_term st' b) = ct st' (l_term st b);
  r_ent : forall x b o, l_ent st x b = Some o -> l_ent st' x b = Some o;
  r_ent_def : forall x b v, l_def st x b = Some v -> l_ent st' x b = l_ent st x b;
  r_def : forall x b v, l_def st x b = Some v ->
            exists v', l_def st' x b = Some v' /\ l_cls st' v' = l_cls st' v;
  r_new : forall x b v, l_def st x b = None -> l_def st' x b = Some v ->
            exists o, l_ent st' x b = Some o /\ l_cls st' v = l_cls st' o;
  r_touch : forall b, finished st b = false -> ~ tch b ->
            forall x, l_ent st' x b = l_ent st x b /\ l_def st' x b = l_def st x b;
  r_sealed : forall b, l_sealed st b = true -> l_sealed st' b = true;
  r_one : forall x b p o, l_sealed st b = true -> l_preds st b = [p] -> l_ent st x b = None ->
            l_ent st' x b = Some o -> exists v, l_def st' x p = Some v /\ l_cls st' v = l_cls st' o }.

Lemma rd_finished t st st' b : rd t st st' -> finished st' b = finished st b.
Proof.
  intros R. unfold finished. rewrite <- (ct_finished st' (l_term st' b)), <- (ct_finished st' (l_term st b)).
  rewrite (r_term _ _ _ R). reflexivity.
Qed.
Lemma rd_refl t st : (forall i, l_cls st (l_cls st i) = l_cls st i) -> rd t st st.
Proof. intros H. constructor; eauto; congruence. Qed.
Lemma rd_trans t a b c : rd t a b -> rd t b c -> rd t a c.
Proof.
  intros A B. pose proof (refines_trans _ _ _ (r_cls _ _ _ A) (r_cls _ _ _ B)) as RC.
  constructor.
  - rewrite (r_nb _ _ _ B). apply (r_nb _ _ _ A).
  - rewrite (r_preds _ _ _ B). apply (r_preds _ _ _ A).
  - rewrite (r_cur _ _ _ B). apply (r_cur _ _ _ A).
  - pose proof (r_next _ _ _ A). pose proof (r_next _ _ _ B). lia.
  - intros. eapply r_tys; eauto. eapply r_tys; eauto.
  - exact RC.
  - intros x. rewrite (r_body _ _ _ B). apply (ci_mono b c _ _ (r_cls _ _ _ B)). apply (r_body _ _ _ A).
  - intros x. rewrite (r_term _ _ _ B). apply (ct_mono b c _ _ (r_cls _ _ _ B)). apply (r_term _ _ _ A).
  - intros. eapply r_ent; eauto. eapply r_ent; eauto.
  - intros x bb v H. destruct (r_def _ _ _ A _ _ _ H) as (v' & D & _).
    rewrite (r_ent_def _ _ _ B _ _ _ D). eapply r_ent_def; eauto.
  - intros x bb v H. destruct (r_def _ _ _ A _ _ _ H) as (v' & D & E).
    destruct (r_def _ _ _ B _ _ _ D) as (w & D' & E'). exists w. split; auto. rewrite E'.
    eapply refines_mono; [apply (r_cls _ _ _ B)|exact E].
  - intros x bb v N H. destruct (l_def b x bb) as [w|] eqn:D.
    + destruct (r_new _ _ _ A _ _ _ N D) as (o & O & E).
      destruct (r_def _ _ _ B _ _ _ D) as (w' & D' & E'). exists o. split.
      * eapply r_ent; eauto.
      * assert (w' = v) by congruence. subst. rewrite E'. eapply refines_mono; [apply (r_cls _ _ _ B)|exact E].
    + eapply r_new; eauto.
  - intros bb F N x. destruct (r_touch _ _ _ A bb F N x) as [E1 D1].
    rewrite <- (rd_finished _ _ _ _ A) in F. destruct (r_touch _ _ _ B bb F N x) as [E2 D2].
    split; congruence.
  - intros bb H. eapply r_sealed; eauto. eapply r_sealed; eauto.
  - intros x bb p o S P N H. destruct (l_ent b x bb) as [o1|] eqn:E1.
    + destruct (r_one _ _ _ A x bb p o1 S P N E1) as (v & D & E).
      pose proof (r_ent _ _ _ B _ _ _ E1). destruct (r_def _ _ _ B _ _ _ D) as (v' & D' & E').
      exists v'. split; auto. rewrite E'. replace o with o1 by congruence.
      eapply refines_mono; [apply (r_cls _ _ _ B)|exact E].
    + apply (r_one _ _ _ B x bb p o (r_sealed _ _ _ A _ S)); auto.
      rewrite (r_preds _ _ _ A). exact P.
Qed.
Lemma rd_weak (t u : nat -> Prop) st st' : (forall b, t b -> u b) -> rd t st st' -> rd u st st'.
Proof. intros H R. destruct R. constructor; auto. Qed.
Lemma rd_fin (t u : nat -> Prop) st st' : (forall b, t b -> u b \/ finished st b = true) -> rd t st st' -> rd u st st'.
Proof.
  intros H R. destruct R. constructor; auto. intros b F N. apply r_touch0; auto.
  intros T. destruct (H b T); [auto|congruence].
Qed.

(** ** The invariant.  [ps]: the parameters; [stk]: phis whose operands are being read. *)
Section Inv.
Variables (V : nat -> ty) (ps : list nat).

Definition dests_of (st : lst) (b : nat) : list nat :=
  map p_dest (l_phis st b) ++ flat_map dests (l_body st b).
Fixpoint lookup (q : nat) (ss : list (nat * nat)) : option nat :=
  match ss with [] => None | (p, v) :: r => if Nat.eqb q p then Some v else lookup q r end.
Definition pend (st : lst) (stk : list (nat * nat * nat)) (x b o : nat) : Prop :=
  In (x, o) (l_inc st b) \/ In (x, b, o) stk.
(** The sources of a phi are what the variable is at the end of the predecessors. *)
Definition srcs_ok (st : lst) (x b : nat) (ss : list (nat * nat)) : Prop :=
  forall q, In q (l_preds st b) -> exists v i, l_def st x q = Some v /\ lookup q ss = Some i /\
    l_cls st i = l_cls st v.
(** The variable is the same id at the end of all predecessors. *)
Definition all_same (st : lst) (x b o : nat) : Prop :=
  l_preds st b <> [] /\
  forall q, In q (l_preds st b) -> exists v, l_def st x q = Some v /\ l_cls st v = l_cls st o.
Definition has_phi (st : lst) (x b o : nat) : Prop :=
  exists p, In p (l_phis st b) /\ p_dest p = o /\ p_var p = x.

Record inv (st : lst) (stk : list (nat * nat * nat)) : Prop := {
  i_out : forall i, l_next st <= i -> l_cls st i = i;
  i_in : forall i, i < l_next st -> l_cls st i < l_next st;
  i_idem : forall i, l_cls st (l_cls st i) = l_cls st i;
  i_def_ty : forall x b v, l_def st x b = Some v -> l_tys st v = Some (V x);
  i_loc_ty : forall x v, l_loc st x = Some v -> l_tys st v = Some (V x);
  i_tys : forall i t, l_tys st i = Some t -> i < l_next st;
  i_dest : forall b d, In d (dests_of st b) -> d < l_next st /\ l_cls st d = d /\ ~ In d ps;
  i_one : forall b c d, In d (dests_of st b) -> In d (dests_of st c) -> b = c;
  i_nodup : forall b, NoDup (dests_of st b);
  i_ps : forall d, In d ps -> d < l_next st /\ l_cls st d = d;
  i_ent_def : forall x b o, l_ent st x b = Some o -> exists v, l_def st x b = Some v;
  i_ent_ty : forall x b o, l_ent st x b = Some o -> l_tys st o = Some (V x);
  i_ent : forall x b o, l_ent st x b = Some o ->
            has_phi st x b o \/ l_sealed st b = true /\ all_same st x b o;
  i_phi : forall b p, In p (l_phis st b) ->
            l_ent st (p_var p) b = Some (p_dest p) /\ p_ty p = V (p_var p) /\
            (pend st stk (p_var p) b (p_dest p) \/
             l_sealed st b = true /\ srcs_ok st (p_var p) b (p_src p));
  i_pend : forall x b o, pend st stk x b o -> has_phi st x b o;
  i_inc : forall b x o, In (x, o) (l_inc st b) -> l_sealed st b = false;
  i_stk : forall x b o, In (x, b, o) stk -> l_sealed st b = true;
  i_incd : forall b, NoDup (l_inc st b);
  i_stkd : NoDup stk;
  i_nophi : forall b i, In i (l_body st b) -> is_phi i = false;
  i_preds : forall b p, In p (l_preds st b) -> finished st p = true;
  i_edge : forall p b, In b (targets (l_term st p)) -> In p (l_preds st b);
  i_new : forall b, l_nb st <= b -> l_phis st b = [] /\ l_body st b = [] /\ l_term st b = TUnreachable
            /\ l_preds st b = [] /\ (forall x, l_def st x b = None /\ l_ent st x b = None)
            /\ l_inc st b = [] /\ l_sealed st b = false }.

Lemma def_lt st stk x b v : inv st stk -> l_def st x b = Some v -> v < l_next st.
Proof. intros I H. eapply i_tys; eauto. eapply i_def_ty; eauto. Qed.
Lemma phi_in_dests st b p : In p (l_phis st b) -> In (p_dest p) (dests_of st b).
Proof. intros H. apply in_or_app. left. apply in_map. exact H. Qed.
(** A phi is determined by its id. *)
Lemma nodup_map_eq {A B} (f : A -> B) l a b : NoDup (map f l) -> In a l -> In b l -> f a = f b -> a = b.
Proof.
  induction l as [|c l IH]; cbn; [tauto|]. intros N [->|A1] [->|B1] E; auto.
  - inversion N; subst. exfalso. apply H1. rewrite E. apply in_map. auto.
  - inversion N; subst. exfalso. apply H1. rewrite <- E. apply in_map. auto.
  - inversion N; subst. auto.
Qed.
Lemma nodup_app_l {A} (l m : list A) : NoDup (l ++ m) -> NoDup l.
Proof. induction l; cbn; intros H; [constructor|]. inversion H; subst. constructor; auto. intros K. apply H2. apply in_or_app; auto. Qed.
Lemma phi_unique st stk b c p q : inv st stk -> In p (l_phis st b) -> In q (l_phis st c) ->
  p_dest p = p_dest q -> b = c /\ p = q.
Proof.
  intros I P Q E. assert (b = c).
  { apply (i_one _ _ I b c (p_dest p)); [|rewrite E]; apply phi_in_dests; auto. }
  subst c. split; auto. eapply nodup_map_eq; eauto. eapply nodup_app_l. apply (i_nodup _ _ I b).
Qed.
Lemma block_lt st stk b : inv st stk -> finished st b = true -> b < l_nb st.
Proof.
  intros I F. destruct (Nat.lt_ge_cases b (l_nb st)) as [|G]; auto.
  destruct (i_new _ _ I b G) as (_ & _ & T & _). unfold finished in F. rewrite T in F. discriminate.
Qed.

(** ** Fresh ids and new instructions. *)
Lemma fresh_inv t st stk : inv st stk -> inv (snd (fresh t st)) stk.
Proof.
  intros I. destruct I. constructor; cbn [fresh snd l_nb l_phis l_body l_term l_preds l_next l_tys l_def l_loc l_inc l_sealed l_cur l_ent l_cls]; try assumption.
  - intros i H. apply i_out0. lia.
  - intros i H. destruct (Nat.eq_dec i (l_next st)) as [->|N]; [rewrite i_out0; lia|].
    specialize (i_in0 i ltac:(lia)). lia.
  - intros x b v H. specialize (i_def_ty0 _ _ _ H). upd; auto. exfalso.
    pose proof (i_tys0 _ _ i_def_ty0). lia.
  - intros x v H. specialize (i_loc_ty0 _ _ H). upd; auto. exfalso.
    pose proof (i_tys0 _ _ i_loc_ty0). lia.
  - intros i u H. upd; [lia|]. specialize (i_tys0 _ _ H). lia.
  - intros b d H. specialize (i_dest0 b d H). intuition lia.
  - intros d H. specialize (i_ps0 d H). intuition lia.
  - intros x b v H. specialize (i_ent_ty0 _ _ _ H). upd; auto. exfalso.
    pose proof (i_tys0 _ _ i_ent_ty0). lia.
Qed.
Lemma fresh_rd t tch st stk : inv st stk -> rd tch st (snd (fresh t st)).
Proof.
  intros I. constructor; cbn; auto.
  - intros i u H. upd; auto. exfalso. pose proof (i_tys _ _ I _ _ H). lia.
  - intros i. apply (i_idem _ _ I).
  - eauto.
  - congruence.
  - congruence.
Qed.
Lemma emit_inv0 i st stk : inv st stk -> l_cur st < l_nb st -> is_phi i = false -> dests i = [] -> inv (emit i st) stk.
Proof.
  intros I C NP D. assert (DO : forall b, dests_of (emit i st) b = dests_of st b).
  { intros b. unfold dests_of, emit; cbn. upd; auto. rewrite flat_map_app. cbn. rewrite D, app_nil_r. reflexivity. }
  destruct I. constructor; cbn [emit l_nb l_phis l_body l_term l_preds l_next l_tys l_def l_loc l_inc l_sealed l_cur l_ent l_cls]; try assumption.
  - intros b d. rewrite DO. apply i_dest0.
  - intros b c d. rewrite !DO. apply i_one0.
  - intros b. rewrite DO. apply i_nodup0.
  - intros b j. unfold upf. destruct (Nat.eqb b (l_cur st)); [|apply i_nophi0].
    intros H. apply in_app_or in H. destruct H as [H|[<-|[]]]; auto. eapply i_nophi0; eauto.
  - intros b H. destruct (i_new0 b H) as (N1 & N2 & N3 & N4 & N5 & N6 & N7).
    repeat (split; auto). upd; auto. lia.
Qed.
Lemma emit_inv1 i t st stk : inv st stk -> l_cur st < l_nb st -> is_phi i = false -> dests i = [l_next st] ->
  inv (emit i (snd (fresh t st))) stk.
Proof.
  intros I C NP D. pose proof (fresh_inv t _ _ I) as J. set (st1 := snd (fresh t st)) in *.
  assert (NX : l_next st1 = S (l_next st)) by reflexivity.
  assert (DO : forall b, dests_of (emit i st1) b = dests_of st b ++ if Nat.eqb b (l_cur st) then [l_next st] else []).
  { intros b. unfold dests_of, emit, st1, fresh; cbn. upd; [|rewrite app_nil_r; auto].
    rewrite flat_map_app. cbn. rewrite D, app_nil_r, app_assoc. reflexivity. }
  assert (OUT : forall b, ~ In (l_next st) (dests_of st b)).
  { intros b K. pose proof (i_dest _ _ I _ _ K). lia. }
  destruct J. constructor; cbn [emit l_nb l_phis l_body l_term l_preds l_next l_tys l_def l_loc l_inc l_sealed l_cur l_ent l_cls]; try assumption.
  - intros b d. rewrite DO. intros H. apply in_app_or in H. destruct H as [H|H]; [exact (i_dest0 _ _ H)|].
    upd; [|destruct H]. destruct H as [<-|[]]. repeat split; [lia|apply (i_out _ _ I); lia|].
    intros K. pose proof (i_ps _ _ I _ K). lia.
  - intros b c d. rewrite !DO. intros H K. apply in_app_or in H. apply in_app_or in K.
    destruct H as [H|H], K as [K|K].
    + eapply i_one0; eauto.
    + upd; [|destruct K]. destruct K as [<-|[]]. destruct (OUT _ H).
    + upd; [|destruct H]. destruct H as [<-|[]]. destruct (OUT _ K).
    + upd; auto; try destruct H; try destruct K.
  - intros b. rewrite DO. pose proof (i_nodup _ _ I b) as N. upd; [|rewrite app_nil_r; auto].
    apply (Permutation_NoDup (l := l_next st :: dests_of st (l_cur st))); [apply Permutation_cons_append|].
    constructor; auto.
  - intros b j. unfold upf. destruct (Nat.eqb b (l_cur st1)); [|apply i_nophi0].
    intros H. apply in_app_or in H. destruct H as [H|[<-|[]]]; auto. eapply i_nophi0; eauto.
  - intros b H. destruct (i_new0 b H) as (N1 & N2 & N3 & N4 & N5 & N6 & N7).
    repeat (split; auto). unfold upf. destruct (Nat.eqb_spec b (l_cur st1)); auto.
    subst. exfalso. cbn in H. lia.
Qed.

(** ** Writing a variable. *)
(** In an unfinished block. *)
Lemma write_inv x b v st stk : inv st stk -> b < l_nb st -> finished st b = false -> l_tys st v = Some (V x) ->
  inv (write x b v st) stk.
Proof.
  intros I C F T. pose proof I as I'. destruct I. constructor; cbn [write l_nb l_phis l_body l_term l_preds l_next l_tys l_def l_loc l_inc l_sealed l_cur l_ent l_cls]; try assumption.
  - intros y c w H. upd; eauto. congruence.
  - intros y w H. upd; eauto. congruence.
  - intros y c o H. destruct (i_ent_def0 _ _ _ H) as (w & W). upd; eauto.
  - intros y c o H. destruct (i_ent0 _ _ _ H) as [K|(S & N & K)]; [left; exact K|right].
    split; auto. split; auto. intros q Q. destruct (K q Q) as (w & W & E). exists w. split; auto.
    cbn. pose proof (i_preds0 _ _ Q). upd; auto. congruence.
  - intros c p H. destruct (i_phi0 c p H) as (E & T' & K). repeat (split; auto).
    destruct K as [K|(S & K)]; [left; exact K|right]. split; auto. intros q Q.
    destruct (K q Q) as (w & i & W & L & E'). exists w, i. repeat split; auto.
    cbn. pose proof (i_preds0 _ _ Q). upd; auto. congruence.
  - intros c H. destruct (i_new0 c H) as (N1 & N2 & N3 & N4 & N5 & N6 & N7).
    split; [auto|]. split; [auto|]. split; [auto|]. split; [auto|]. split; [|auto].
    intros y. destruct (N5 y). split; auto. upd; auto. lia.
Qed.
(** While reading: the block has no value for the variable, or an equal one. *)
Lemma rewrite_inv x b v st stk : inv st stk -> b < l_nb st -> l_tys st v = Some (V x) ->
  (forall w, l_def st x b = Some w -> l_cls st w = l_cls st v) ->
  inv (write x b v st) stk.
Proof.
  intros I C T EQ. pose proof I as I'. destruct I. constructor; cbn [write l_nb l_phis l_body l_term l_preds l_next l_tys l_def l_loc l_inc l_sealed l_cur l_ent l_cls]; try assumption.
  - intros y c w H. upd; eauto. congruence.
  - intros y w H. upd; eauto. congruence.
  - intros y c o H. destruct (i_ent_def0 _ _ _ H) as (w & W). upd; eauto.
  - intros y c o H. destruct (i_ent0 _ _ _ H) as [K|(S & N & K)]; [left; exact K|right].
    split; auto. split; auto. intros q Q. destruct (K q Q) as (w & W & E).
    cbn. upd; eauto. exists v. split; auto. rewrite <- E. symmetry. auto.
  - intros c p H. destruct (i_phi0 c p H) as (E & T' & K). repeat (split; auto).
    destruct K as [K|(S & K)]; [left; exact K|right]. split; auto. intros q Q.
    destruct (K q Q) as (w & i & W & L & E').
    cbn. upd; eauto. exists v, i. repeat split; auto. rewrite E'. auto.
  - intros c H. destruct (i_new0 c H) as (N1 & N2 & N3 & N4 & N5 & N6 & N7).
    split; [auto|]. split; [auto|]. split; [auto|]. split; [auto|]. split; [|auto].
    intros y. destruct (N5 y). split; auto. upd; auto. lia.
Qed.

(** ** Looking up. *)
Lemma lookup_in q ss i : lookup q ss = Some i -> In i (map snd ss).
Proof.
  induction ss as [|[p j] r IH]; cbn; [discriminate|]. destruct (Nat.eqb_spec q p).
  - intros [= ->]. auto.
  - auto.
Qed.
Lemma lookup_map q ss (f : nat -> nat) : lookup q (map (fun s => (fst s, f (snd s))) ss)
  = match lookup q ss with Some i => Some (f i) | None => None end.
Proof. induction ss as [|[p j] r IH]; cbn; auto. destruct (Nat.eqb q p); auto. Qed.
Lemma lookup_combine (R : nat -> nat -> Prop) l vs q : Forall2 R l vs -> In q l ->
  exists i, lookup q (combine l vs) = Some i /\ R q i.
Proof.
  intros F. induction F as [|p i l vs H F IH]; cbn; [tauto|]. intros I.
  destruct (Nat.eqb_spec q p); subst; eauto. destruct I; [congruence|]. auto.
Qed.
Lemma only_operand_spec o vs u : only_operand o vs = Some u ->
  u <> o /\ In u vs /\ forall i, In i vs -> i = o \/ i = u.
Proof.
  unfold only_operand. destruct (filter _ vs) as [|w r] eqn:F; [discriminate|].
  destruct (forallb _ r) eqn:A; [|discriminate]. intros [= ->].
  assert (IW : In u (filter (fun v => negb (Nat.eqb v o)) vs)) by (rewrite F; left; auto).
  apply filter_In in IW. destruct IW as [I1 I2]. split; [|split; auto].
  - intros ->. rewrite Nat.eqb_refl in I2. discriminate.
  - intros i I. destruct (Nat.eqb_spec i o) as [|N]; auto. right.
    assert (K : In i (u :: r)).
    { rewrite <- F. apply filter_In. split; auto. destruct (Nat.eqb_spec i o); auto. }
    destruct K as [K|K]; auto. rewrite forallb_forall in A. specialize (A _ K).
    apply Nat.eqb_eq in A. auto.
Qed.

(** ** A new phi. *)
Definition add_inc (x b o : nat) (st : lst) : lst :=
  Lst (l_nb st) (l_phis st) (l_body st) (l_term st) (l_preds st) (l_next st) (l_tys st) (l_def st)
      (l_loc st) (upf (l_inc st) b (l_inc st b ++ [(x, o)])) (l_sealed st) (l_cur st) (l_ent st) (l_cls st).

Definition created (x b : nat) (st : lst) (inc : bool) : lst :=
  Lst (l_nb st) (upf (l_phis st) b (l_phis st b ++ [LPhi (l_next st) x (V x) []])) (l_body st)
      (l_term st) (l_preds st) (S (l_next st)) (upf (l_tys st) (l_next st) (Some (V x)))
      (upf2 (l_def st) x b (Some (l_next st))) (upf (l_loc st) x (Some (l_next st)))
      (if inc then upf (l_inc st) b (l_inc st b ++ [(x, l_next st)]) else l_inc st)
      (l_sealed st) (l_cur st) (upf2 (l_ent st) x b (Some (l_next st))) (l_cls st).
Lemma new_phi_eq x b st stk o st1 : inv st stk -> l_ent st x b = None -> new_phi x b st = Some (o, st1) ->
  o = l_next st /\ write x b o (note x b o st1) = created x b st false
  /\ write x b o (note x b o (add_inc x b o st1)) = created x b st true.
Proof.
  intros I N. unfold new_phi. destruct (l_loc st x) as [i|] eqn:L; [|discriminate].
  rewrite (i_loc_ty _ _ I _ _ L). cbn. intros [= <- <-]. split; auto.
  unfold write, note, created, add_inc; cbn. rewrite N. split; reflexivity.
Qed.

Lemma created_inv x b st stk inc : inv st stk -> b < l_nb st -> l_def st x b = None ->
  l_sealed st b = negb inc ->
  inv (created x b st inc) (if inc then stk else (x, b, l_next st) :: stk).
Proof.
  intros I LT DN SE. set (o := l_next st).
  assert (EN : l_ent st x b = None).
  { destruct (l_ent st x b) eqn:E; auto. destruct (i_ent_def _ _ I _ _ _ E). congruence. }
  assert (DO : forall c, Permutation (dests_of (created x b st inc) c) ((if Nat.eqb c b then [o] else []) ++ dests_of st c)).
  { intros c. unfold dests_of, created; cbn. upd; [|apply Permutation_refl].
    rewrite map_app. cbn. rewrite <- app_assoc. cbn. symmetry. apply Permutation_middle. }
  assert (OUT : forall c, ~ In o (dests_of st c)).
  { intros c K. pose proof (i_dest _ _ I _ _ K). unfold o in *. lia. }
  assert (HP : forall y c u, has_phi st y c u -> has_phi (created x b st inc) y c u).
  { intros y c u (p & P & E1 & E2). exists p. split; auto. cbn. upd; auto. apply in_or_app; auto. }
  assert (PO : forall y c u, pend st stk y c u -> u <> o).
  { intros y c u P ->. destruct (i_pend _ _ I _ _ _ P) as (p & P' & E & _).
    apply (OUT c). rewrite <- E. apply phi_in_dests. auto. }
  assert (PM : forall y c u, pend st stk y c u -> pend (created x b st inc) (if inc then stk else (x, b, o) :: stk) y c u).
  { intros y c u [H|H]; [left|right].
    - cbn. destruct inc; auto. upd; auto. apply in_or_app; auto.
    - destruct inc; auto. right. auto. }
  assert (PI : forall y c u, pend (created x b st inc) (if inc then stk else (x, b, o) :: stk) y c u ->
               (y, c, u) = (x, b, o) \/ pend st stk y c u).
  { intros y c u [H|H].
    - cbn in H. destruct inc; [|right; left; auto]. upd; [|right; left; auto].
      apply in_app_or in H. destruct H as [H|[[= <- <-]|[]]]; auto. right; left; auto.
    - destruct inc; [right; right; auto|]. destruct H as [H|H]; auto. right; right; auto. }
  assert (NI : pend (created x b st inc) (if inc then stk else (x, b, o) :: stk) x b o).
  { destruct inc; [left|right]; cbn; auto. upd; [|congruence]. apply in_or_app. right. left. auto. }
  pose proof I as I'. destruct I.
  constructor; cbn [created l_nb l_phis l_body l_term l_preds l_next l_tys l_def l_loc l_inc l_sealed l_cur l_ent l_cls]; try assumption.
  - intros i H. apply i_out0. lia.
  - intros i H. destruct (Nat.eq_dec i (l_next st)) as [->|N]; [rewrite i_out0; lia|].
    specialize (i_in0 i ltac:(lia)). lia.
  - intros y c w H. unfold upf2 in H. destruct (Nat.eqb_spec y x), (Nat.eqb_spec c b); cbn in H; subst.
    1: injection H as <-; upd; congruence.
    all: specialize (i_def_ty0 _ _ _ H); upd; auto; pose proof (i_tys0 _ _ i_def_ty0); lia.
  - intros y w H. unfold upf in H. destruct (Nat.eqb_spec y x); subst.
    1: injection H as <-; upd; congruence.
    specialize (i_loc_ty0 _ _ H); upd; auto; pose proof (i_tys0 _ _ i_loc_ty0); lia.
  - intros i u H. upd; [lia|]. specialize (i_tys0 _ _ H). lia.
  - intros c d H. apply (Permutation_in _ (DO c)) in H. apply in_app_or in H. destruct H as [H|H].
    + upd; [|destruct H]. destruct H as [<-|[]]. unfold o. repeat split; [lia|apply i_out0; lia|].
      intros K. specialize (i_ps0 _ K). lia.
    + specialize (i_dest0 _ _ H). intuition lia.
  - intros c c' d H K. apply (Permutation_in _ (DO c)) in H. apply (Permutation_in _ (DO c')) in K.
    apply in_app_or in H. apply in_app_or in K. destruct H as [H|H], K as [K|K].
    + upd; auto; try destruct H; try destruct K.
    + upd; [|destruct H]. destruct H as [<-|[]]. destruct (OUT _ K).
    + upd; [|destruct K]. destruct K as [<-|[]]. destruct (OUT _ H).
    + eapply i_one0; eauto.
  - intros c. apply (Permutation_NoDup (Permutation_sym (DO c))). upd; [|apply i_nodup0].
    constructor; auto.
  - intros d H. specialize (i_ps0 _ H). intuition lia.
  - intros y c u H. unfold upf2 in H. destruct (Nat.eqb_spec y x), (Nat.eqb_spec c b); cbn in H; subst.
    1: exists o; unfold upf2; rewrite !Nat.eqb_refl; reflexivity.
    all: destruct (i_ent_def0 _ _ _ H) as (w & W); exists w; upd; auto; congruence.
  - intros y c w H. unfold upf2 in H. destruct (Nat.eqb_spec y x), (Nat.eqb_spec c b); cbn in H; subst.
    1: injection H as <-; unfold upf; rewrite Nat.eqb_refl; reflexivity.
    all: specialize (i_ent_ty0 _ _ _ H); upd; auto; pose proof (i_tys0 _ _ i_ent_ty0); lia.
  - intros y c u H. unfold upf2 in H. destruct (Nat.eqb_spec y x), (Nat.eqb_spec c b); cbn in H; subst.
    1: injection H as <-; left; exists (LPhi o x (V x) []); cbn; upd; [|congruence]; split; auto; apply in_or_app; right; left; auto.
    all: destruct (i_ent0 _ _ _ H) as [K|(S & N & K)]; [left; auto|right; split; auto; split; auto].
    all: intros q Q; destruct (K q Q) as (w & W & E); exists w; split; auto; cbn; upd; congruence.
  - intros c p H. assert (C : In p (l_phis st c) \/ c = b /\ p = LPhi o x (V x) []).
    { upd; auto. apply in_app_or in H. destruct H as [H|[<-|[]]]; auto. }
    clear H. destruct C as [H|[-> ->]].
    + destruct (i_phi0 c p H) as (E & T' & K). split; [|split; auto].
      * upd; auto. congruence.
      * destruct K as [K|(S & K)]; [left; auto|right]. split; auto. intros q Q.
        destruct (K q Q) as (w & i & W & L & E'). exists w, i. repeat split; auto.
        cbn. upd; congruence.
    + cbn. split; [unfold upf2; rewrite !Nat.eqb_refl; reflexivity|]. split; auto.
  - intros y c u H. destruct (PI _ _ _ H) as [[= -> -> ->]|K]; [|auto].
    exists (LPhi o x (V x) []). split; auto. cbn. upd; [|congruence]. apply in_or_app. right. left. auto.
  - intros c y u H. destruct inc; [|eauto]. upd; eauto.
  - intros y c u H. destruct inc; [eauto|]. destruct H as [[= -> -> ->]|H]; eauto.
  - intros c. destruct inc; auto. upd; auto.
    apply (Permutation_NoDup (l := (x, o) :: l_inc st b)); [apply Permutation_cons_append|].
    constructor; auto. intros K. apply (PO x b o); auto. left; auto.
  - destruct inc; auto. constructor; auto. intros K. apply (PO x b o); auto. right; auto.
  - intros c H. destruct (i_new0 c H) as (N1 & N2 & N3 & N4 & N5 & N6 & N7).
    assert (c <> b) by lia. repeat split; auto; try (upd; congruence).
    + upd; try congruence; apply N5.
    + upd; try congruence; apply N5.
    + destruct inc; auto. upd; congruence.
Qed.
Lemma created_rd x b st stk inc : inv st stk -> l_def st x b = None ->
  (l_sealed st b = true -> forall p, l_preds st b <> [p]) ->
  rd (eq b) st (created x b st inc).
Proof.
  intros I DN MP.
  assert (EN : l_ent st x b = None).
  { destruct (l_ent st x b) eqn:E; auto. destruct (i_ent_def _ _ I _ _ _ E). congruence. }
  constructor; cbn; auto.
  - intros i t H. upd; auto. pose proof (i_tys _ _ I _ _ H). lia.
  - intros i. apply (i_idem _ _ I).
  - intros y c u H. upd; congruence.
  - intros y c u H. upd; congruence.
  - intros y c u H. exists u. upd; auto. congruence.
  - intros y c u H H'. upd; try congruence. exists (l_next st). split; congruence.
  - intros c F N y. upd; auto. congruence.
  - intros y c p u S P N H. upd; try congruence; destruct (MP S _ P).
Qed.

(** ** Remembering what a variable is at the start of a block. *)
Lemma note_inv x b v w st stk : inv st stk -> b < l_nb st -> l_def st x b = Some w -> l_sealed st b = true ->
  all_same st x b v -> l_tys st v = Some (V x) -> inv (note x b v st) stk.
Proof.
  intros I LT D S A TV. unfold note. destruct (l_ent st x b) as [u|] eqn:E.
  { destruct st; exact I. }
  destruct I. constructor; cbn [l_nb l_phis l_body l_term l_preds l_next l_tys l_def l_loc l_inc l_sealed l_cur l_ent l_cls]; try assumption.
  - intros y c o H. upd; eauto.
  - intros y c o H. unfold upf2 in H. destruct (Nat.eqb_spec y x), (Nat.eqb_spec c b); cbn in H; subst; eauto. congruence.
  - intros y c o H. unfold upf2 in H. destruct (Nat.eqb_spec y x), (Nat.eqb_spec c b); cbn in H; subst; try (apply i_ent0; assumption).
    injection H as <-. right. split; auto.
  - intros c p H. destruct (i_phi0 c p H) as (E' & T' & K). split; [|split; auto]. upd; auto. congruence.
  - intros c H. destruct (i_new0 c H) as (N1 & N2 & N3 & N4 & N5 & N6 & N7).
    assert (c <> b) by lia. repeat split; auto; try (upd; try congruence; apply N5); apply N5.
Qed.
Lemma single_inv x b p v st stk : inv st stk -> b < l_nb st -> l_sealed st b = true -> l_preds st b = [p] ->
  l_def st x p = Some v -> (forall w, l_def st x b = Some w -> l_cls st w = l_cls st v) ->
  inv (write x b v (note x b v st)) stk.
Proof.
  intros I LT S P D EQ. change (inv (note x b v (write x b v st)) stk).
  apply note_inv with (w := v); auto.
  - apply rewrite_inv; auto. eapply i_def_ty; eauto.
  - cbn. upd; congruence.
  - split; cbn; rewrite P; [discriminate|]. intros q [<-|[]]. exists v. split; auto. upd; auto.
  - eapply (i_def_ty _ _ I); eauto.
Qed.
Lemma single_rd x b p v st stk : inv st stk -> l_sealed st b = true -> l_preds st b = [p] ->
  l_def st x p = Some v ->
  (forall w, l_def st x b = Some w -> l_cls st w = l_cls st v /\ exists o, l_ent st x b = Some o) ->
  rd (eq b) st (write x b v (note x b v st)).
Proof.
  intros I S P D EQ.
  assert (EV : forall y c, l_ent (write x b v (note x b v st)) y c =
             match l_ent st y c with Some o => Some o | None => if Nat.eqb y x && Nat.eqb c b then Some v else None end).
  { intros y c. cbn. destruct (l_ent st x b) eqn:E; upd; rewrite ?E; auto; match goal with |- context [l_ent st ?y ?c] => destruct (l_ent st y c) eqn:?; auto; congruence end. }
  assert (DV : forall y c, l_def (write x b v (note x b v st)) y c = if Nat.eqb y x && Nat.eqb c b then Some v else l_def st y c).
  { reflexivity. }
  constructor; try (cbn; auto; fail).
  - intros i. apply (i_idem _ _ I).
  - intros y c o H. rewrite EV, H. auto.
  - intros y c w H. rewrite EV. destruct (l_ent st y c) eqn:E; auto. upd; auto.
    destruct (EQ _ H) as (_ & o & O). congruence.
  - intros y c w H. rewrite DV. upd; eauto. destruct (EQ _ H) as (E & _). exists v. auto.
  - intros y c w N H. rewrite DV in H. rewrite EV. upd; try congruence.
    destruct (l_ent st x b) as [o|] eqn:E; [|exists v; split; congruence].
    destruct (i_ent_def _ _ I _ _ _ E). congruence.
  - intros c F N y. rewrite EV, DV. upd; auto; try congruence; (split; [|reflexivity]); match goal with |- match ?e with _ => _ end = _ => destruct e; reflexivity end.
  - intros y c q o Sc Pc N H. rewrite EV, N in H. upd; try discriminate. injection H as <-.
    exists v. rewrite DV. assert (q = p) by congruence. subst. split; auto. upd; auto.
Qed.

(** ** Completing a phi. *)
Definition operands (st : lst) (x b : nat) (ss : list (nat * nat)) : Prop :=
  srcs_ok st x b ss /\ forall i, In i (map snd ss) -> l_tys st i = Some (V x).
Lemma map_set_src o ss l : map p_dest (map (set_src o ss) l) = map p_dest l.
Proof. rewrite map_map. apply map_ext. intros p. unfold set_src. destruct (Nat.eqb _ _); reflexivity. Qed.
Lemma set_src_var o ss p : p_var (set_src o ss p) = p_var p /\ p_dest (set_src o ss p) = p_dest p /\ p_ty (set_src o ss p) = p_ty p.
Proof. unfold set_src. destruct (Nat.eqb _ _); auto. Qed.

Lemma set_sources_inv x b o ss st stk : inv st ((x, b, o) :: stk) -> b < l_nb st -> srcs_ok st x b ss ->
  inv (set_sources b o ss st) stk.
Proof.
  intros I LT OK.
  assert (DO : forall c, dests_of (set_sources b o ss st) c = dests_of st c).
  { intros c. unfold dests_of, set_sources; cbn. upd; auto. rewrite map_set_src. reflexivity. }
  assert (HP : forall y c u, has_phi st y c u -> has_phi (set_sources b o ss st) y c u).
  { intros y c u (p & P & E1 & E2). cbn. unfold has_phi; cbn. upd; eauto.
    destruct (set_src_var o ss p) as (A & B & _). exists (set_src o ss p). split; [apply in_map; auto|]. auto. }
  assert (SB : l_sealed st b = true) by (eapply i_stk; eauto; left; auto).
  assert (PH : has_phi st x b o) by (apply (i_pend _ _ I); right; left; auto).
  pose proof I as I'. destruct I.
  constructor; cbn [set_sources l_nb l_phis l_body l_term l_preds l_next l_tys l_def l_loc l_inc l_sealed l_cur l_ent l_cls]; try assumption.
  - intros c d. rewrite DO. apply i_dest0.
  - intros c c' d. rewrite !DO. apply i_one0.
  - intros c. rewrite DO. apply i_nodup0.
  - intros y c u H. destruct (i_ent0 _ _ _ H) as [K|K]; [left; auto|right; exact K].
  - intros c p H.
    assert (C : exists p0, In p0 (l_phis st c) /\ p = (if Nat.eqb c b then set_src o ss p0 else p0)).
    { upd; [|eauto]. apply in_map_iff in H. destruct H as (p0 & <- & H). eauto. }
    clear H. destruct C as (p0 & H & ->). destruct (i_phi0 c p0 H) as (E & T' & K).
    destruct PH as (po & PO & PD & PV).
    assert (VV : forall q, p_var (if Nat.eqb c b then set_src o ss q else q) = p_var q
       /\ p_dest (if Nat.eqb c b then set_src o ss q else q) = p_dest q
       /\ p_ty (if Nat.eqb c b then set_src o ss q else q) = p_ty q).
    { intros q. destruct (Nat.eqb c b); auto. apply set_src_var. }
    destruct (VV p0) as (-> & -> & ->). split; [auto|split; auto].
    destruct (Nat.eq_dec (p_dest p0) o) as [De|De].
    + assert (p_dest p0 = p_dest po) as Dq by congruence.
      destruct (phi_unique _ _ _ _ _ _ I' H PO Dq) as [-> ->].
      right. split; auto. rewrite Nat.eqb_refl. unfold set_src. rewrite De, Nat.eqb_refl. cbn.
      rewrite PV. exact OK.
    + assert (SS : p_src (if Nat.eqb c b then set_src o ss p0 else p0) = p_src p0).
      { destruct (Nat.eqb c b); auto. unfold set_src. destruct (Nat.eqb_spec (p_dest p0) o); [congruence|auto]. }
      rewrite SS. destruct K as [[K|[K|K]]|K].
      * left. left. exact K.
      * congruence.
      * left. right. exact K.
      * right. exact K.
  - intros y c u [H|H]; apply HP; apply i_pend0; [left|right; right]; auto.
  - intros y c u H. eapply i_stk0. right. eauto.
  - inversion i_stkd0; auto.
  - intros c H. destruct (i_new0 c H) as (N1 & N2 & N3 & N4 & N5 & N6 & N7).
    assert (c <> b) by lia. repeat split; auto; try (upd; try congruence; apply N5); apply N5.
Qed.
Lemma set_sources_rd t b o ss st stk : inv st stk -> rd t st (set_sources b o ss st).
Proof. intros I. constructor; cbn; auto; try (intros; congruence). { intros i. apply (i_idem _ _ I). } eauto. Qed.

Lemma filter_dest o u l : map p_dest (filter (fun p => negb (Nat.eqb (p_dest p) o)) (map (sub_src o u) l))
  = filter (fun d => negb (Nat.eqb d o)) (map p_dest l).
Proof. induction l as [|p l IH]; cbn; auto. destruct (Nat.eqb (p_dest p) o); cbn; auto. f_equal; auto. Qed.
Lemma body_dests f g l : flat_map dests (map (imap f g) l) = flat_map dests l.
Proof. induction l as [|i l IH]; cbn; auto. rewrite dests_imap, IH. reflexivity. Qed.
Lemma remove_inv x b o u st stk : inv st stk -> b < l_nb st -> l_sealed st b = true ->
  (forall y, ~ pend st stk y b o) ->
  (exists p, In p (l_phis st b) /\ p_dest p = o /\ p_var p = x /\
     In u (map snd (p_src p)) /\ (forall i, In i (map snd (p_src p)) -> i = o \/ i = u)) ->
  l_preds st b <> [] -> l_tys st u = Some (V x) -> u <> o ->
  inv (remove_phi b o u st) stk.
Proof.
  intros I LT SB NP (po & PO & PD & PV & UI & TR) NE TU UO.
  assert (OD : In o (dests_of st b)) by (rewrite <- PD; apply phi_in_dests; auto).
  destruct (i_dest _ _ I _ _ OD) as (OL & OC & OP).
  assert (UL : u < l_next st) by (eapply i_tys; eauto).
  set (st' := remove_phi b o u st).
  assert (CL : forall i, l_cls st' i = if Nat.eqb (l_cls st i) o then l_cls st u else l_cls st i).
  { intros i. cbn. rewrite OC. reflexivity. }
  assert (MONO : forall i j, l_cls st i = l_cls st j -> l_cls st' i = l_cls st' j).
  { intros i j E. rewrite !CL, E. reflexivity. }
  assert (OU : l_cls st' o = l_cls st' u).
  { rewrite !CL, OC, Nat.eqb_refl. upd; auto. }
  assert (SUB : forall i, l_cls st' (sub_id o u i) = l_cls st' i).
  { intros i. unfold sub_id. upd; auto. }
  assert (PS : forall c, map p_dest (l_phis st' c) = if Nat.eqb c b then filter (fun d => negb (Nat.eqb d o)) (map p_dest (l_phis st c)) else map p_dest (l_phis st c)).
  { intros c. cbn. unfold upf. destruct (Nat.eqb_spec c b) as [->|NC].
    - apply filter_dest.
    - rewrite map_map. apply map_ext. reflexivity. }
  assert (BD : forall c, flat_map dests (l_body st' c) = flat_map dests (l_body st c)).
  { intros c. apply body_dests. }
  assert (DI : forall c d, In d (dests_of st' c) -> In d (dests_of st c) /\ d <> o).
  { intros c d H. unfold dests_of in H. rewrite PS, BD in H. apply in_app_or in H. split.
    - apply in_or_app. destruct H as [H|H]; auto. left. destruct (Nat.eqb c b); auto.
      apply filter_In in H. tauto.
    - intros ->. assert (Hc : In o (dests_of st c)).
      { apply in_or_app. destruct H as [H|H]; auto. left. destruct (Nat.eqb c b); auto. apply filter_In in H. tauto. }
      assert (c = b) by (eapply i_one; eauto). subst c. rewrite Nat.eqb_refl in H. destruct H as [H|H].
      + apply filter_In in H. rewrite Nat.eqb_refl in H. destruct H. discriminate.
      + pose proof (i_nodup _ _ I b) as N. unfold dests_of in N.
        apply (in_map p_dest) in PO. rewrite PD in PO.
        apply in_split in PO. destruct PO as (l1 & l2 & E). rewrite E in N.
        rewrite <- app_assoc in N. cbn in N. apply NoDup_remove_2 in N. apply N.
        apply in_or_app. right. apply in_or_app. right. auto. }
  assert (HP : forall y c v, has_phi st y c v -> v <> o -> has_phi st' y c v).
  { intros y c v (p & P & E1 & E2) N. exists (sub_src o u p). split; [|split; auto]. cbn. unfold upf. destruct (Nat.eqb_spec c b) as [->|NC].
    - apply filter_In. split; [apply in_map; auto|]. cbn. destruct (Nat.eqb_spec (p_dest p) o); auto. congruence.
    - apply in_map; auto. }
  assert (NPO : forall y c v, pend st stk y c v -> v <> o).
  { intros y c v P ->. destruct (i_pend _ _ I _ _ _ P) as (p & P' & E & _).
    assert (c = b). { eapply (i_one _ _ I); [|exact OD]. rewrite <- E. apply phi_in_dests; auto. }
    subst c. apply (NP y P). }
  pose proof I as I'. destruct I.
  constructor; try assumption.
  - intros i H. rewrite CL, i_out0 by auto. change (l_next st') with (l_next st) in H. destruct (Nat.eqb_spec i o); auto. lia.
  - intros i H. rewrite CL. change (l_next st') with (l_next st) in *. destruct (Nat.eqb (l_cls st i) o); auto.
  - intros i. rewrite (CL i). destruct (Nat.eqb_spec (l_cls st i) o).
    + rewrite CL, i_idem0. destruct (Nat.eqb (l_cls st u) _); auto.
    + rewrite CL, i_idem0. destruct (Nat.eqb_spec (l_cls st i) o); congruence.
  - intros c d H. destruct (DI _ _ H) as [H1 H2]. destruct (i_dest0 _ _ H1) as (A & B & C).
    repeat split; auto. rewrite CL, B. destruct (Nat.eqb_spec d o); congruence.
  - intros c c' d H K. eapply i_one0; [apply DI|apply DI]; eauto.
  - intros c. unfold dests_of. rewrite PS, BD. specialize (i_nodup0 c). unfold dests_of in i_nodup0.
    destruct (Nat.eqb c b); auto. revert i_nodup0. generalize (flat_map dests (l_body st c)).
    induction (map p_dest (l_phis st c)) as [|d l IH]; cbn; auto. intros m N. apply NoDup_cons_iff in N. destruct N as [H1 H2].
    destruct (negb (Nat.eqb d o)); [|auto]. cbn. constructor; [|auto]. intros K. apply H1.
    apply in_app_or in K. apply in_or_app. destruct K as [K|K]; auto. apply filter_In in K. tauto.
  - intros d H. destruct (i_ps0 _ H) as [A B]. split; auto. rewrite CL, B. destruct (Nat.eqb_spec d o); congruence.
  - intros y c v H. destruct (i_ent0 _ _ _ H) as [K|(S & N & K)].
    + destruct (Nat.eq_dec v o) as [->|Nv]; [|left; auto]. right.
      destruct K as (p & P & E1 & E2).
      destruct (phi_unique _ _ _ _ _ _ I' P PO ltac:(congruence)) as [-> ->].
      split; auto. split; auto. intros q Q.
      destruct (i_phi0 b po PO) as (_ & _ & [K|(_ & K)]); [rewrite PD in K; destruct (NP _ K)|].
      destruct (K q Q) as (w & i & W & L & E). exists w. rewrite <- E2. split; auto.
      rewrite <- (MONO _ _ E). destruct (TR _ (lookup_in _ _ _ L)) as [->| ->]; auto.
    + right. split; auto. split; auto. intros q Q. destruct (K q Q) as (w & W & E).
      exists w. split; auto.
  - intros c p H.
    assert (C : exists p0, In p0 (l_phis st c) /\ p = sub_src o u p0 /\ p_dest p0 <> o).
    { cbn in H. unfold upf in H. destruct (Nat.eqb_spec c b) as [->|Nc].
      - apply filter_In in H. destruct H as [H1 H2]. apply in_map_iff in H1. destruct H1 as (p0 & <- & H1).
        exists p0. cbn in H2. destruct (Nat.eqb_spec (p_dest p0) o); [discriminate|auto].
      - apply in_map_iff in H. destruct H as (p0 & <- & H). exists p0. split; [auto|split; auto].
        intros E. apply Nc. eapply (i_one0 c b o); auto. rewrite <- E. apply phi_in_dests; auto. }
    destruct C as (p0 & H0 & -> & Nd). destruct (i_phi0 c p0 H0) as (E & T' & K). cbn.
    split; [auto|split; auto]. destruct K as [K|(S & K)]; [left; exact K|right]. split; auto.
    intros q Q. destruct (K q Q) as (w & i & W & L & E'). exists w, (sub_id o u i). repeat split; auto.
    + rewrite lookup_map, L. reflexivity.
    + rewrite SUB. auto.
  - intros y c v H. apply HP; [apply i_pend0; exact H|]. exact (NPO _ _ _ H).
  - intros c i H. cbn in H. apply in_map_iff in H. destruct H as (j & <- & H). specialize (i_nophi0 _ _ H). destruct j; auto.
  - intros c p H. specialize (i_preds0 _ _ H). unfold finished in *. cbn. destruct (l_term st p); auto.
  - intros p c H. cbn in H. rewrite targets_tmap in H. exact (i_edge0 _ _ H).
  - intros c H. destruct (i_new0 c H) as (N1 & N2 & N3 & N4 & N5 & N6 & N7).
    assert (c <> b) by (change (l_nb st') with (l_nb st) in H; lia). unfold st', remove_phi; cbn.
    split; [upd; [congruence|rewrite N1; auto]|]. split; [rewrite N2; auto|]. split; [rewrite N3; auto|].
    split; [auto|]. split; [auto|]. auto.
Qed.
Lemma remove_rd t b o u st stk : inv st stk -> l_cls st o = o -> rd t st (remove_phi b o u st).
Proof.
  intros I OC. set (st' := remove_phi b o u st).
  assert (CL : forall i, l_cls st' i = if Nat.eqb (l_cls st i) o then l_cls st u else l_cls st i).
  { intros i. cbn. rewrite OC. reflexivity. }
  assert (OU : l_cls st' o = l_cls st' u).
  { rewrite !CL, OC, Nat.eqb_refl. upd; auto. }
  assert (SUB : forall i, l_cls st' (sub_id o u i) = l_cls st' i).
  { intros i. unfold sub_id. upd; auto. }
  assert (SV : forall v, cv st' (sub_val o u v) = cv st' v).
  { intros [l|i|]; auto. cbn [cv sub_val]. rewrite SUB. reflexivity. }
  constructor; try (cbn; auto; fail); try (intros; cbn in *; congruence).
  - intros i. rewrite !CL, (i_idem _ _ I). reflexivity.
  - intros c. cbn [st' remove_phi l_body]. rewrite map_map. apply map_ext. intros i. unfold ci.
    rewrite imap_comp. apply imap_ext; auto.
  - intros c. change (l_term st' c) with (tmap (sub_val o u) (l_term st c)). unfold ct. rewrite tmap_comp. apply tmap_ext. auto.
  - intros x c v H. exists v. auto.
Qed.
Lemma remove_cls b o u st : l_cls st o = o -> l_cls (remove_phi b o u st) u = l_cls (remove_phi b o u st) o.
Proof. intros OC. cbn. rewrite OC, Nat.eqb_refl. upd; auto. Qed.

Lemma finish_spec x b o ss st stk v st' : inv st ((x, b, o) :: stk) -> b < l_nb st -> operands st x b ss ->
  (ss <> [] -> l_preds st b <> []) ->
  finish b o ss st = (v, st') ->
  inv st' stk /\ rd (fun _ => False) st st' /\ l_cls st' v = l_cls st' o /\ l_tys st' v = Some (V x)
  /\ l_sealed st' = l_sealed st.
Proof.
  intros I LT [OK TY] NE F. unfold finish in F.
  pose proof (set_sources_inv _ _ _ _ _ _ I LT OK) as J.
  pose proof (set_sources_rd (fun _ => False) b o ss st _ I) as R.
  assert (PH : has_phi st x b o) by (apply (i_pend _ _ I); right; left; auto).
  destruct PH as (p & P & PD & PV).
  assert (OE : l_ent st x b = Some o).
  { destruct (i_phi _ _ I _ _ P) as (E & _). congruence. }
  assert (OD : In o (dests_of st b)) by (rewrite <- PD; apply phi_in_dests; auto).
  destruct (i_dest _ _ I _ _ OD) as (OL & OC & OP).
  destruct (only_operand o (map snd ss)) as [u|] eqn:OO.
  - injection F as <- <-. apply only_operand_spec in OO. destruct OO as (UO & UI & TR).
    assert (K : inv (remove_phi b o u (set_sources b o ss st)) stk).
    { apply (remove_inv x); auto.
      - eapply (i_stk _ _ I). left. reflexivity.
      - intros y [H|H]; cbn in H.
        + pose proof (i_inc _ _ I _ _ _ H). pose proof (i_stk _ _ I x b o (or_introl eq_refl)). congruence.
        + pose proof (i_stkd _ _ I) as N. inversion N as [|? ? NI N']; subst.
          assert (PQ : has_phi st y b (p_dest p)) by (apply (i_pend _ _ I); right; right; auto).
          destruct PQ as (q & Q & QD & QV).
          destruct (phi_unique _ _ _ _ _ _ I Q P QD) as [_ ->]. subst. auto.
      - exists (set_src o ss p). destruct (set_src_var o ss p) as (A & B & _).
        split; [cbn; upd; [|congruence]; apply in_map; auto|]. split; [congruence|]. split; [congruence|].
        unfold set_src. rewrite PD, Nat.eqb_refl. cbn. auto.
      - cbn. apply NE. intros ->. destruct UI.
      - cbn. auto. }
    split; [exact K|]. split.
    + eapply rd_trans; [exact R|]. eapply remove_rd; [exact J|exact OC].
    + split; [apply remove_cls; exact OC|]. cbn. auto.
  - injection F as <- <-. split; auto. split; auto. split; auto. split; auto. cbn.
    eapply i_ent_ty; eauto.
Qed.
Lemma rewrite_rd x b v w st stk : inv st stk -> l_def st x b = Some w -> l_cls st w = l_cls st v ->
  rd (eq b) st (write x b v st).
Proof.
  intros I D E. constructor; cbn; auto.
  - intros i. apply (i_idem _ _ I).
  - intros y c u H. upd; eauto. exists v. split; congruence.
  - intros y c u H K. upd; congruence.
  - intros c F N y. upd; auto. congruence.
  - congruence.
Qed.

(** ** Reading. *)
Definition reads (st' : lst) (x q i : nat) : Prop :=
  exists v, l_def st' x q = Some v /\ l_cls st' v = l_cls st' i /\ l_tys st' i = Some (V x).
Definition read_ok (k x : nat) : Prop := forall b st stk v st', inv st stk -> b < l_nb st -> read k x b st = Some (v, st') ->
  inv st' stk /\ rd (eq b) st st' /\ l_def st' x b = Some v /\ l_sealed st' = l_sealed st.
Lemma read_all_spec k x : read_ok k x -> forall l st stk vs st', inv st stk ->
  (forall q, In q l -> finished st q = true) -> read_all (read k x) l st = Some (vs, st') ->
  inv st' stk /\ rd (fun _ => False) st st' /\ Forall2 (reads st' x) l vs /\ l_sealed st' = l_sealed st.
Proof.
  intros R. induction l as [|q l IH]; intros st stk vs st' I F; cbn [read_all].
  - intros [= <- <-]. split; auto. split; [apply rd_refl; apply (i_idem _ _ I)|]. auto.
  - destruct (read k x q st) as [[v st1]|] eqn:E; [|discriminate].
    destruct (read_all (read k x) l st1) as [[ws st2]|] eqn:E2; [|discriminate]. intros [= <- <-].
    assert (Fq : finished st q = true) by (apply F; left; auto).
    destruct (R _ _ _ _ _ I (block_lt _ _ _ I Fq) E) as (I1 & R1 & D1 & S1).
    assert (R1' : rd (fun _ => False) st st1).
    { apply (rd_fin (eq q)); auto. intros b <-. auto. }
    destruct (IH _ _ _ _ I1 ltac:(intros c C; rewrite (rd_finished _ _ _ c R1); apply F; right; auto) E2) as (I2 & R2 & F2 & S2).
    split; auto. split; [eapply rd_trans; eauto|]. split; [|congruence].
    constructor; auto. destruct (r_def _ _ _ R2 _ _ _ D1) as (v' & D' & E'). exists v'. repeat split; auto.
    apply (r_tys _ _ _ R2). eapply (i_def_ty _ _ I1); eauto.
Qed.
Lemma reads_operands st x b vs : Forall2 (reads st x) (l_preds st b) vs -> operands st x b (combine (l_preds st b) vs).
Proof.
  intros F. split.
  - intros q Q. destruct (lookup_combine _ _ _ _ F Q) as (i & L & v & D & E & _). exists v, i. auto.
  - induction F as [|q i l vs (v & _ & _ & T) F IH]; cbn; [tauto|]. intros j [<-|J]; auto.
Qed.
Lemma read_spec n x : read_ok n x.
Proof.
  induction n as [|k IH]; intros b st stk v st' I LT; cbn [read]; [discriminate|].
  destruct (l_def st x b) as [d|] eqn:D.
  { intros [= <- <-]. split; auto. split; auto. apply rd_refl; apply (i_idem _ _ I). }
  assert (EN : l_ent st x b = None).
  { destruct (l_ent st x b) eqn:E; auto. destruct (i_ent_def _ _ I _ _ _ E). congruence. }
  destruct (l_sealed st b) eqn:SE.
  - assert (ONE : (exists p, l_preds st b = [p]) \/ (forall p, l_preds st b <> [p])).
    { destruct (l_preds st b) as [|p [|q r]]; [right; congruence|left; eauto|right; congruence]. }
    destruct ONE as [(p & P)|MP].
    + rewrite P. destruct (read k x p st) as [[u st1]|] eqn:E; [|discriminate]. intros [= <- <-].
      assert (FP : finished st p = true) by (apply (i_preds _ _ I b); rewrite P; left; auto).
      destruct (IH _ _ _ _ _ I (block_lt _ _ _ I FP) E) as (I1 & R1 & D1 & S1).
      assert (R1' : rd (eq b) st st1).
      { apply (rd_fin (eq p)); auto. intros c <-. auto. }
      assert (EQ : forall w, l_def st1 x b = Some w -> l_cls st1 w = l_cls st1 u /\ exists o, l_ent st1 x b = Some o).
      { intros w W. destruct (r_new _ _ _ R1 _ _ _ D W) as (o & O & Eo).
        destruct (r_one _ _ _ R1 _ _ _ _ SE P EN O) as (u' & U & Eu). split; eauto.
        replace u with u' by congruence. congruence. }
      assert (SE1 : l_sealed st1 b = true) by congruence.
      assert (P1 : l_preds st1 b = [p]) by (rewrite (r_preds _ _ _ R1); auto).
      assert (LT1 : b < l_nb st1) by (rewrite (r_nb _ _ _ R1); auto).
      split; [|split; [|split]].
      * eapply single_inv; eauto. intros w W. apply EQ; auto.
      * eapply rd_trans; [exact R1'|]. eapply single_rd; eauto.
      * cbn. unfold upf2. rewrite !Nat.eqb_refl. reflexivity.
      * exact S1.
    + assert (G : match new_phi x b st with
          | None => None
          | Some (o, st1) =>
            match read_all (read k x) (l_preds st b) (write x b o (note x b o st1)) with
            | None => None
            | Some (vs, st2) =>
              let (v, st3) := finish b o (combine (l_preds st b) vs) st2 in
              Some (v, write x b v st3)
            end
          end = Some (v, st') ->
        inv st' stk /\ rd (eq b) st st' /\ l_def st' x b = Some v /\ l_sealed st' = l_sealed st).
      { destruct (new_phi x b st) as [[o st1]|] eqn:NP; [|discriminate].
        destruct (new_phi_eq _ _ _ _ _ _ I EN NP) as (EO & WE & _). rewrite WE. clear WE.
        pose proof (created_inv x b st stk false I LT D SE) as I1. cbv iota in I1. rewrite <- EO in I1.
        pose proof (created_rd x b st stk false I D (fun _ => MP)) as R1.
        set (sc := created x b st false) in *.
        assert (DC : l_def sc x b = Some o).
        { unfold sc, created; cbn. unfold upf2. rewrite !Nat.eqb_refl. cbn. congruence. }
        destruct (read_all _ _ _) as [[vs st2]|] eqn:RA; [|discriminate].
        destruct (read_all_spec _ _ IH (l_preds st b) _ _ _ _ I1 ltac:(intros q Q; apply (i_preds _ _ I1 b q Q)) RA) as (I2 & R2 & F2 & S2).
        assert (P2 : l_preds st2 b = l_preds st b) by (rewrite (r_preds _ _ _ R2); reflexivity).
        assert (N2 : l_nb st2 = l_nb st) by (rewrite (r_nb _ _ _ R2); reflexivity).
        rewrite <- P2 in F2. pose proof (reads_operands _ _ _ _ F2) as OP. rewrite P2 in OP.
        destruct (finish b o _ st2) as [w st3] eqn:FI. intros [= <- <-].
        destruct (finish_spec _ _ _ _ _ _ _ _ I2 ltac:(lia) OP ltac:(rewrite P2; intros C K; rewrite K in C; cbn in C; auto) FI)
          as (I3 & R3 & C3 & T3 & S3).
        destruct (r_def _ _ _ (rd_trans _ _ _ _ R2 R3) _ _ _ DC) as (d' & D' & E').
        assert (N3 : l_nb st3 = l_nb st) by (rewrite (r_nb _ _ _ R3); auto).
        split; [|split; [|split]].
        - apply rewrite_inv; auto; [lia|]. intros d'' K. replace d'' with d' by congruence. congruence.
        - eapply rd_trans; [exact R1|]. eapply rd_trans; [eapply rd_weak; [|exact R2]; intros ? []|].
          eapply rd_trans; [eapply rd_weak; [|exact R3]; intros ? []|]. eapply rewrite_rd; eauto. congruence.
        - cbn. unfold upf2. rewrite !Nat.eqb_refl. reflexivity.
        - cbn. rewrite S3, S2. reflexivity. }
      destruct (l_preds st b) as [|p [|q r]]; auto. destruct (MP p eq_refl).
  - destruct (new_phi x b st) as [[o st1]|] eqn:NP; [|discriminate].
    destruct (new_phi_eq _ _ _ _ _ _ I EN NP) as (EO & _ & WE). intros [= <- <-].
    fold (add_inc x b o st1). rewrite WE.
    split; [|split; [|split]].
    + exact (created_inv x b st stk true I LT D SE).
    + eapply created_rd; eauto. congruence.
    + cbn. unfold upf2. rewrite !Nat.eqb_refl. cbn. congruence.
    + reflexivity.
Qed.
End Inv.
