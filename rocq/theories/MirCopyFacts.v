(** Copy propagation on functions in static single assignment form. *)
From Coq Require Import ZArith Bool String List Lia.
From Verif Require Import M31 Isa Mir MirSem MirPasses MirFacts MirLocalFacts MirSim MirFuseFacts MirSsa MirSsaFacts MirSsaMap MirCopy.
Import ListNotations.
Open Scope nat_scope.

(** ** Type equality. *)
Lemma ty_eqb_eq : forall a b, ty_eqb a b = true -> a = b.
Proof.
  fix IH 1. intros a b H.
  destruct a, b; cbn in H; try discriminate; try reflexivity.
  - f_equal. revert ts0 H. induction ts as [|x xs IHx]; intros [|y ys] H; try discriminate; auto.
    apply andb_true_iff in H. destruct H as [H1 H2]. rewrite (IH x y H1), (IHx ys H2). reflexivity.
  - apply andb_true_iff in H. destruct H as [H0 H]. apply String.eqb_eq in H0. subst. f_equal.
    revert fields0 H. induction fields as [|[k x] xs IHx]; intros [|[l y] ys] H; try discriminate; auto.
    apply andb_true_iff in H. destruct H as [H1 H2]. apply andb_true_iff in H1. destruct H1 as [H1 H3].
    apply String.eqb_eq in H1. rewrite H1, (IH x y H3), (IHx ys H2). reflexivity.
  - apply andb_true_iff in H. destruct H as [H1 H2]. apply Nat.eqb_eq in H2. rewrite (IH _ _ H1), H2. reflexivity.
  - rewrite (IH _ _ H). reflexivity.
Qed.

(** ** A list of replacements is one substitution. *)
Definition subst_id (l : list (nat * nat)) (v : nat) : nat :=
  fold_left (fun v p => sub_id (fst p) (snd p) v) l v.
Definition subst_val (l : list (nat * nat)) (v : value) : value :=
  match v with Op i => Op (subst_id l i) | _ => v end.

Lemma imap_comp : forall f1 b1 f2 b2 i,
  imap f2 b2 (imap f1 b1 i) = imap (fun v => f2 (f1 v)) (fun b => b2 (b1 b)) i.
Proof.
  intros f1 b1 f2 b2 i.
  assert (MP : forall p, plmap f2 b2 (plmap f1 b1 p) = plmap (fun v => f2 (f1 v)) (fun b => b2 (b1 b)) p).
  { intros [b ps]. unfold plmap; cbn. f_equal. rewrite map_map. apply map_ext. intros []; reflexivity. }
  destruct i; cbn; rewrite ?map_map, ?MP; cbn; try reflexivity.
Qed.
Lemma tmap_comp : forall f1 f2 t, tmap f2 (tmap f1 t) = tmap (fun v => f2 (f1 v)) t.
Proof. intros f1 f2 t. destruct t; cbn; rewrite ?map_map; reflexivity. Qed.
Lemma imap_ext : forall f1 b1 f2 b2 i, (forall v, f1 v = f2 v) -> (forall b, b1 b = b2 b) ->
  imap f1 b1 i = imap f2 b2 i.
Proof.
  intros f1 b1 f2 b2 i H K.
  assert (MP : forall p, plmap f1 b1 p = plmap f2 b2 p).
  { intros [b ps]. unfold plmap; cbn. rewrite K. f_equal. apply map_ext. intros []; cbn; rewrite ?H; reflexivity. }
  destruct i; cbn; rewrite ?H, ?MP; try reflexivity; f_equal; apply map_ext; intros; rewrite ?H; reflexivity.
Qed.
Lemma tmap_ext : forall f1 f2 t, (forall v, f1 v = f2 v) -> tmap f1 t = tmap f2 t.
Proof. intros f1 f2 t H. destruct t; cbn; rewrite ?H; try reflexivity; f_equal; apply map_ext; auto. Qed.
Lemma tmap_id : forall t, tmap (fun v => v) t = t.
Proof. destruct t; cbn; rewrite ?map_id; reflexivity. Qed.

Lemma sub_val_same : forall d v, sub_val d d v = v.
Proof. intros d [l|i|]; cbn; auto. unfold sub_id. destruct (Nat.eqb_spec i d); subst; auto. Qed.
Lemma sub_id_same : forall d i, sub_id d d i = i.
Proof. intros d i. unfold sub_id. destruct (Nat.eqb_spec i d); auto. Qed.

Lemma replace_one_blocks : forall a b f, f_blocks (replace_all_uses a b f)
  = map (bmap (imap (sub_val a b) (sub_id a b)) (tmap (sub_val a b))) (f_blocks f)
  /\ f_entry (replace_all_uses a b f) = f_entry f
  /\ f_params (replace_all_uses a b f) = map (sub_id a b) (f_params f)
  /\ f_rets (replace_all_uses a b f) = map (sub_id a b) (f_rets f).
Proof.
  intros a b f. unfold replace_all_uses. destruct (Nat.eqb_spec a b) as [->|N]; cbn; [|auto].
  assert (M : forall l : list nat, map (sub_id b b) l = l).
  { intro l. rewrite <- map_id. apply map_ext. apply sub_id_same. }
  rewrite !M. repeat split; auto.
  rewrite <- map_id at 1. apply map_ext. intros [is t ps]. unfold bmap; cbn. f_equal.
  - rewrite <- map_id at 1. apply map_ext. intro i. rewrite <- (imap_id i) at 1.
    apply imap_ext; intros; [rewrite sub_val_same|rewrite sub_id_same]; reflexivity.
  - rewrite <- (tmap_id t) at 1. apply tmap_ext. intros; rewrite sub_val_same; reflexivity.
Qed.
Lemma replace_list_blocks : forall l f, f_blocks (replace_list l f)
  = map (bmap (imap (subst_val l) (subst_id l)) (tmap (subst_val l))) (f_blocks f)
  /\ f_entry (replace_list l f) = f_entry f
  /\ f_params (replace_list l f) = map (subst_id l) (f_params f)
  /\ f_rets (replace_list l f) = map (subst_id l) (f_rets f).
Proof.
  induction l as [|[a b] l IH]; intro f; cbn [replace_list fold_left].
  - assert (M : forall l : list nat, map (subst_id []) l = l) by (intros; apply map_id).
    rewrite !M. repeat split; auto. rewrite <- map_id at 1. apply map_ext. intros [is t ps]. unfold bmap; cbn. f_equal.
    + rewrite <- map_id at 1. apply map_ext. intro i. rewrite <- (imap_id i) at 1. apply imap_ext; auto.
      intros []; reflexivity.
    + rewrite <- (tmap_id t) at 1. apply tmap_ext. intros []; reflexivity.
  - destruct (IH (replace_all_uses a b f)) as (H1 & H2 & H3 & H4).
    destruct (replace_one_blocks a b f) as (K1 & K2 & K3 & K4). unfold replace_list in *. cbn [fst snd].
    rewrite H1, H2, H3, H4, K1, K2, K3, K4, !map_map. repeat split; auto.
    apply map_ext. intros [is t ps]. unfold bmap; cbn. f_equal.
    + rewrite map_map. apply map_ext. intro i. rewrite imap_comp. apply imap_ext; auto.
      intros []; reflexivity.
    + rewrite tmap_comp. apply tmap_ext. intros []; reflexivity.
Qed.

Lemma subst_notin : forall l v, ~ In v (map fst l) -> subst_id l v = v.
Proof.
  induction l as [|[a b] l IH]; intros v H; cbn; auto. unfold sub_id at 2; cbn [fst snd].
  destruct (Nat.eqb_spec v a) as [->|]; [destruct H; left; auto|]. apply IH. intro; apply H; right; auto.
Qed.
Lemma subst_in : forall l v r, In v (map fst l) -> (forall t, In (v, t) l -> t = r) ->
  ~ In r (map fst l) -> subst_id l v = r.
Proof.
  induction l as [|[a b] l IH]; intros v r H K N; [destruct H|]. cbn. unfold sub_id at 2; cbn [fst snd].
  destruct (Nat.eqb_spec v a) as [->|Na].
  - rewrite (K b (or_introl eq_refl)). apply subst_notin. intro; apply N; right; auto.
  - apply IH.
    + destruct H as [H|H]; [cbn in H; congruence|auto].
    + intros t Ht. apply K; right; auto.
    + intro; apply N; right; auto.
Qed.
Lemma replace_list_types : forall l f v, ~ In v (map fst l) ->
  (In v (map snd l) -> f_types f v <> None) -> f_types (replace_list l f) v = f_types f v.
Proof.
  induction l as [|[a b] l IH]; intros f v H K; cbn [replace_list fold_left fst snd]; auto.
  assert (E : f_types (replace_all_uses a b f) v = f_types f v).
  { unfold replace_all_uses. destruct (Nat.eqb_spec a b); auto. cbn.
    destruct (Nat.eqb_spec v a) as [->|]; [destruct H; left; auto|].
    destruct (Nat.eqb_spec v b) as [->|]; auto. destruct (f_types f b) eqn:Eb; auto.
    destruct K; auto. left; auto. }
  unfold replace_list in IH. rewrite IH; auto.
  - intro; apply H; right; auto.
  - rewrite E. intro J. apply K. right; auto.
Qed.

(** ** The copies of a function in single assignment form. *)
Lemma assoc_some : forall l d s, assoc l d = Some s -> In (d, s) l.
Proof.
  induction l as [|[k t] l IH]; intros d s H; cbn in H; [discriminate|].
  destruct (assoc l d) eqn:E; [injection H as <-; right; auto|].
  destruct (Nat.eqb_spec k d); [|discriminate]. injection H as <-. subst. left; auto.
Qed.
Lemma assoc_in : forall l d s, In (d, s) l -> assoc l d <> None.
Proof.
  induction l as [|[k t] l IH]; intros d s H; cbn; [destruct H|].
  destruct H as [E|H].
  - injection E as -> ->. rewrite Nat.eqb_refl. destruct (assoc l d); discriminate.
  - specialize (IH d s H). destruct (assoc l d); [discriminate|congruence].
Qed.
Lemma in_direct : forall f d s, In (d, s) (direct_copies f) <->
  exists b blk k t a, nth_error (f_blocks f) b = Some blk /\
    nth_error (b_instrs blk) k = Some (IAssign d (Op s) t) /\ f_types f d = Some a /\ f_types f s = Some a.
Proof.
  intros f d s. unfold direct_copies. split.
  - intro H. apply in_flat_map in H. destruct H as (blk & Hb & H). apply in_flat_map in H.
    destruct H as (i & Hi & H). apply In_nth_error in Hb. destruct Hb as (b & Hb).
    apply In_nth_error in Hi. destruct Hi as (k & Hk).
    destruct (copy_of f i) as [p|] eqn:E; [|destruct H]. destruct H as [->|[]].
    destruct i; try discriminate. cbn in E. destruct source; try discriminate.
    destruct (f_types f dest) eqn:E1; [|discriminate]. destruct (f_types f v) eqn:E2; [|discriminate].
    destruct (ty_eqb t0 t1) eqn:E3; [|discriminate]. injection E as -> ->.
    apply ty_eqb_eq in E3. subst. exists b, blk, k, t, t1. auto.
  - intros (b & blk & k & t & a & Hb & Hk & T1 & T2).
    apply in_flat_map. exists blk. split; [eapply nth_error_In; eauto|].
    apply in_flat_map. eexists. split; [eapply nth_error_In; eauto|].
    cbn. rewrite T1, T2.
    assert (R : forall a, ty_eqb a a = true).
    { clear. fix IH 1. intros []; cbn; auto.
      - induction ts as [|x xs IHx]; auto. rewrite (IH x), IHx. reflexivity.
      - rewrite String.eqb_refl. cbn. induction fields as [|[k x] xs IHx]; auto.
        rewrite String.eqb_refl, (IH x), IHx. reflexivity.
      - rewrite IH, Nat.eqb_refl. reflexivity. }
    rewrite R. left; reflexivity.
Qed.
Lemma src_spec : forall f d s, single_def f -> (copy_src f d = Some s <-> In (d, s) (direct_copies f)).
Proof.
  intros f d s H. split; [apply assoc_some|]. intro K.
  destruct (copy_src f d) as [s'|] eqn:E.
  - pose proof (assoc_some _ _ _ E) as K'. apply in_direct in K, K'.
    destruct K as (b & blk & k & t & a & B1 & I1 & _). destruct K' as (b' & blk' & k' & t' & a' & B2 & I2 & _).
    destruct (def_at_uniq f b k b' k' d H) as [<- <-].
    { exists blk, (IAssign d (Op s) t). cbn; auto. }
    { exists blk', (IAssign d (Op s') t'). cbn; auto. }
    assert (blk' = blk) by congruence. subst. congruence.
  - destruct (assoc_in _ _ _ K E).
Qed.

(** ** Chains of copies. *)
Inductive cplus (cs : nat -> option nat) : nat -> nat -> Prop :=
| cp_one a b : cs a = Some b -> cplus cs a b
| cp_more a b c : cs a = Some b -> cplus cs b c -> cplus cs a c.
Lemma cplus_snoc : forall cs a b c, cplus cs a b -> cs b = Some c -> cplus cs a c.
Proof. induction 1; intro H1; [eapply cp_more; eauto; constructor; auto|eapply cp_more; eauto]. Qed.
Lemma resolve_spec : forall cs fuel vis cur r,
  (forall v, In v vis -> cplus cs v cur) -> resolve cs fuel vis cur = Some r ->
  (r = cur \/ cplus cs cur r) /\ (cs r = None \/ cplus cs r r).
Proof.
  induction fuel as [|k IH]; intros vis cur r H E; cbn in E.
  - destruct (cs cur) as [n|] eqn:Ec.
    + destruct (mem_nat cur vis) eqn:Em; [|discriminate]. injection E as <-. split; auto.
      right. apply H. apply mem_nat_in; auto.
    + injection E as <-. auto.
  - destruct (cs cur) as [n|] eqn:Ec.
    + destruct (mem_nat cur vis) eqn:Em.
      * injection E as <-. split; auto. right. apply H. apply mem_nat_in; auto.
      * destruct (IH (cur :: vis) n r) as [A B]; auto.
        { intros v [<-|Hv]; [constructor; auto|]. eapply cplus_snoc; eauto. }
        split; auto. right. destruct A as [->|A]; [constructor; auto|eapply cp_more; eauto].
    + injection E as <-. auto.
Qed.

(** Fuel never runs out: each step visits a new key. *)
Lemma resolve_total : forall (cs : nat -> option nat) keys fuel vis cur,
  (forall d s, cs d = Some s -> In d keys) -> NoDup vis -> (forall v, In v vis -> In v keys) ->
  length keys <= length vis + fuel -> exists r, resolve cs fuel vis cur = Some r.
Proof.
  induction fuel as [|k IH]; intros vis cur HK HN HV HL; cbn.
  - destruct (cs cur) as [n|] eqn:Ec; [|eauto]. destruct (mem_nat cur vis) eqn:Em; [eauto|].
    exfalso. assert (N : ~ In cur vis) by (intro J; apply mem_nat_in in J; congruence).
    assert (L : length (cur :: vis) <= length keys).
    { apply NoDup_incl_length; [constructor; auto|]. intros x [<-|Hx]; eauto. }
    cbn in L. lia.
  - destruct (cs cur) as [n|] eqn:Ec; [|eauto]. destruct (mem_nat cur vis) eqn:Em; [eauto|].
    assert (N : ~ In cur vis) by (intro J; apply mem_nat_in in J; congruence).
    apply IH; auto.
    + constructor; auto.
    + intros x [<-|Hx]; eauto.
    + cbn. lia.
Qed.
Lemma resolved_total : forall f ord, (forall d, In d ord -> copy_src f d <> None) ->
  exists l, resolved f ord = Some l.
Proof.
  induction ord as [|d ord IH]; intro H; cbn; [eauto|].
  destruct (copy_src f d) as [s|] eqn:E; [|destruct (H d (or_introl eq_refl) E)].
  destruct (resolve_total (copy_src f) (map fst (direct_copies f)) (length (direct_copies f)) [] s) as (r & Er).
  - intros x y Hx. apply assoc_some in Hx. apply in_map_iff. exists (x, y); auto.
  - constructor.
  - intros v [].
  - rewrite map_length. cbn. lia.
  - rewrite Er. destruct IH as (l & ->); [intros; apply H; right; auto|]. eauto.
Qed.
Lemma resolved_spec : forall f ord l, resolved f ord = Some l ->
  map fst l = ord /\ forall d t, In (d, t) l -> exists s, copy_src f d = Some s /\
    resolve (copy_src f) (length (direct_copies f)) [] s = Some t.
Proof.
  induction ord as [|d ord IH]; intros l H; cbn in H.
  - injection H as <-. split; auto. intros d t [].
  - destruct (copy_src f d) as [s|] eqn:E; [|discriminate].
    destruct (resolve _ _ _ s) as [t|] eqn:Er; [|discriminate].
    destruct (resolved f ord) as [l'|]; [|discriminate]. injection H as <-.
    destruct (IH l' eq_refl) as [A B]. cbn. rewrite A. split; auto.
    intros d' t' [J|J]; [injection J as <- <-; eauto|eauto].
Qed.

Section CopyProp.
  Variables (f : func) (ord : list nat) (l : list (nat * nat)).
  Hypothesis Hssa : ssa f.
  Hypothesis Hphis : phis_first f.
  Hypothesis Hrets : forall r, In r (f_rets f) -> ~ In r (all_dests f).
  Hypothesis Hord : forall d, In d ord <-> copy_src f d <> None.
  Hypothesis Hl : resolved f ord = Some l.

  Definition cpairs (d s : nat) : Prop := copy_src f d = Some s.
  Let sd : single_def f := proj1 Hssa.

  Lemma cpairs_at : forall d s, cpairs d s -> exists b blk k t a,
    nth_error (f_blocks f) b = Some blk /\ nth_error (b_instrs blk) k = Some (IAssign d (Op s) t) /\
    f_types f d = Some a /\ f_types f s = Some a.
  Proof. intros d s H. apply in_direct. apply src_spec; auto. Qed.
  Lemma cpairs_ok : forall d s, cpairs d s -> exists B blk K i,
    nth_error (f_blocks f) B = Some blk /\ nth_error (b_instrs blk) K = Some i /\
    is_phi i = false /\ dests i = [d] /\ dom f s B K.
  Proof.
    intros d s H. destruct (cpairs_at d s H) as (b & blk & k & t & a & Hb & Hk & _).
    exists b, blk, k, (IAssign d (Op s) t). repeat split; auto.
    destruct (proj2 Hssa b blk Hb) as (U & _). eapply U; eauto. cbn; auto.
  Qed.
  Lemma cplus_dom : forall d r, cplus (copy_src f) d r -> forall B K, def_at f B K d -> dom f r B K.
  Proof.
    induction 1 as [a b H|a b c H H1 IH]; intros B K D;
      destruct (cpairs_ok a b H) as (B' & blk & K' & i & HB & HK & _ & Di & Dom);
      (assert (D' : def_at f B' K' a) by (exists blk, i; rewrite Di; cbn; auto));
      destruct (def_at_uniq _ _ _ _ _ _ sd D D') as [-> ->]; auto.
    inversion H1; subst.
    - destruct (cpairs_ok b c H0) as (B2 & blk2 & K2 & i2 & HB2 & HK2 & _ & Di2 & Dom2).
      apply (dom_trans f c b B2 K2 B' K'); auto. exists blk2, i2; rewrite Di2; cbn; auto.
    - destruct (cpairs_ok b b0 H0) as (B2 & blk2 & K2 & i2 & HB2 & HK2 & _ & Di2 & Dom2).
      assert (D2 : def_at f B2 K2 b) by (exists blk2, i2; rewrite Di2; cbn; auto).
      apply (dom_trans f c b B2 K2 B' K'); auto.
  Qed.
  (** At a reachable point, following the copies of an available value. *)
  Lemma cplus_point : forall v r, cplus (copy_src f) v r -> forall b pos e,
    pinv f cpairs b pos e -> dom f v b pos -> e v = e r /\ dom f r b pos.
  Proof.
    induction 1 as [a c H|a c d H H1 IH]; intros b pos e HI HD;
      destruct (cpairs_ok a c H) as (B' & blk & K' & i & HB & HK & _ & Di & Dom);
      (assert (D' : def_at f B' K' a) by (exists blk, i; rewrite Di; cbn; auto));
      assert (Dc : dom f c b pos) by (eapply dom_trans; eauto);
      assert (E : e a = e c) by (apply HI; auto).
    - auto.
    - destruct (IH b pos e HI Dc) as [E2 D2]. split; [congruence|auto].
  Qed.
  Lemma cplus_acyclic : forall v b pos, (exists w, walk f (b :: w)) -> dom f v b pos -> ~ cplus (copy_src f) v v.
  Proof.
    intros v b pos W D C. destruct (dom_def _ _ _ _ D W) as [Hp|(B & K & DD & W')].
    - inversion C; subst.
      + destruct (cpairs_ok v v H) as (B' & blk & K' & i & HB & HK & _ & Di & Dom).
        eapply (def_not_param f B' K' v sd); auto. exists blk, i; rewrite Di; cbn; auto.
      + destruct (cpairs_ok v b0 H) as (B' & blk & K' & i & HB & HK & _ & Di & Dom).
        eapply (def_not_param f B' K' v sd); auto. exists blk, i; rewrite Di; cbn; auto.
    - eapply not_dom_self; eauto. eapply cplus_dom; eauto.
  Qed.
  Lemma cplus_type : forall v r, cplus (copy_src f) v r -> f_types f v = f_types f r /\ f_types f r <> None.
  Proof.
    induction 1 as [a c H|a c d H H1 IH];
      destruct (cpairs_at a c H) as (B' & blk & K' & t & ty & _ & _ & T1 & T2).
    - rewrite T1, T2. split; congruence.
    - destruct IH as [A B]. split; [congruence|auto].
  Qed.
  Lemma in_l_cplus : forall d t, In (d, t) l -> cplus (copy_src f) d t /\ (copy_src f t = None \/ cplus (copy_src f) t t).
  Proof.
    intros d t H. destruct (proj2 (resolved_spec _ _ _ Hl) d t H) as (s & Es & Er).
    destruct (resolve_spec _ _ [] s t (fun v h => match h with end) Er) as [A B]. split; auto.
    destruct A as [->|A]; [constructor; auto|eapply cp_more; eauto].
  Qed.
  Lemma fst_l : map fst l = ord.
  Proof. exact (proj1 (resolved_spec _ _ _ Hl)). Qed.
  Lemma notkey : forall v, copy_src f v = None -> ~ In v (map fst l).
  Proof. intros v H K. rewrite fst_l in K. apply Hord in K. auto. Qed.
  Lemma l_fun : forall d t t', In (d, t) l -> In (d, t') l -> t = t'.
  Proof.
    intros d t t' H H'. destruct (proj2 (resolved_spec _ _ _ Hl) d t H) as (s & Es & Er).
    destruct (proj2 (resolved_spec _ _ _ Hl) d t' H') as (s' & Es' & Er'). congruence.
  Qed.

  Lemma subst_point : forall v b pos e, pinv f cpairs b pos e -> dom f v b pos ->
    e (subst_id l v) = e v /\ copy_src f (subst_id l v) = None /\
    f_types f (subst_id l v) = f_types f v.
  Proof.
    intros v b pos e HI HD. destruct (copy_src f v) as [s|] eqn:E.
    - assert (Hv : In v (map fst l)) by (rewrite fst_l; apply Hord; congruence).
      apply in_map_iff in Hv. destruct Hv as ([d t] & Ed & Hv). cbn in Ed. subst d.
      destruct (in_l_cplus v t Hv) as [C Ct].
      destruct (cplus_point v t C b pos e HI HD) as [Ee Dt].
      assert (Nt : copy_src f t = None).
      { destruct Ct as [|Ct]; auto. destruct (cplus_acyclic t b pos (proj1 HI) Dt Ct). }
      rewrite (subst_in l v t).
      + split; auto. split; auto. symmetry. apply (cplus_type v t C).
      + apply in_map_iff. exists (v, t); auto.
      + intros t' Ht. eapply l_fun; eauto.
      + apply notkey; auto.
    - rewrite (subst_notin l v); auto. apply notkey; auto.
  Qed.

  Definition ckey (v : nat) : Prop := copy_src f v <> None.
  Definition cp_out : func := remove_copies ord (replace_list l f).

  Lemma cp_types : forall v, copy_src f v = None -> f_types cp_out v = f_types f v.
  Proof.
    intros v H. unfold cp_out, remove_copies. cbn [with_blocks f_types].
    apply replace_list_types; [apply notkey; auto|].
    intro K. apply in_map_iff in K. destruct K as ([d t] & Et & K). cbn in Et. subst t.
    apply (cplus_type d v). apply in_l_cplus; auto.
  Qed.

  Lemma op_point : forall v b pos e e' x, pinv f cpairs b pos e -> erel ckey e e' ->
    dom f v b pos -> e v = Some x -> e' (subst_id l v) = Some x.
  Proof.
    intros v b pos e e' x HI HR HD E. destruct (subst_point v b pos e HI HD) as (A & B & _).
    rewrite (HR (subst_id l v)); [congruence|]. unfold ckey. congruence.
  Qed.
  Lemma val_point : forall v b pos e e', pinv f cpairs b pos e -> erel ckey e e' ->
    (forall i, In i (val_ids v) -> dom f i b pos) -> vsim e e' v (subst_val l v).
  Proof.
    intros [w|v|] b pos e e' HI HR HD; split; intros; auto; cbn in *.
    - destruct (e v) as [y|] eqn:E; [|discriminate].
      rewrite (op_point v b pos e e' y); auto.
    - destruct (e v) as [y|] eqn:E; [|discriminate].
      rewrite (op_point v b pos e e' y); auto.
  Qed.

  Lemma key_instr : forall b blk k i d, nth_error (f_blocks f) b = Some blk ->
    nth_error (b_instrs blk) k = Some i -> In d (dests i) -> copy_src f d <> None ->
    exists s t, i = IAssign d (Op s) t.
  Proof.
    intros b blk k i d Hb Hk Hd H. destruct (copy_src f d) as [s|] eqn:E; [|congruence].
    destruct (cpairs_at d s E) as (b' & blk' & k' & t & a & Hb' & Hk' & _).
    destruct (def_at_uniq f b k b' k' d sd) as [<- <-].
    { exists blk, i; auto. }
    { exists blk', (IAssign d (Op s) t). cbn; auto. }
    exists s, t. congruence.
  Qed.

  Lemma src_map : forall p ss, src_from p (map (fun s : nat * value => (fst s, subst_val l (snd s))) ss)
    = option_map (subst_val l) (src_from p ss).
  Proof. induction ss as [|[q v] ss IH]; cbn; auto. destruct (Nat.eqb p q); auto. Qed.

  Theorem copy_prop_sim : same_behaviour f cp_out.
  Proof.
    intros S W fuel args s. apply rrel_true.
    destruct (replace_list_blocks l f) as (HB & HE & HP & HR).
    apply sim_calls with (X := ckey) (I := pinv f cpairs) (okW := fun _ _ => True); auto.
    - intros S' W' b blk pos i e s0 e1 s1 _ Hb Hi Np HI Ex.
      unfold exec in Ex. apply rbind_ok in Ex. destruct Ex as ([vs s2] & Ef & Ex). cbn [fst snd] in Ex.
      destruct (bind_all e (dests i) vs) as [e2|] eqn:Eb; [|discriminate]. cbn in Ex. injection Ex as <- <-.
      apply (pinv_step f cpairs sd cpairs_ok b blk pos i e e2 vs Hb Hi HI Eb).
      intros d s' Hp Hd Hs Ns.
      destruct (key_instr b blk pos i d Hb Hi) as (s3 & t & ->); [rewrite Hd; cbn; auto|unfold cpairs in Hp; congruence|].
      assert (s3 = s').
      { destruct (cpairs_at d s' Hp) as (b' & blk' & k' & t' & a & Hb' & Hk' & _).
        destruct (def_at_uniq f b pos b' k' d sd) as [<- <-].
        { eexists blk, _; split; [exact Hb|split; [exact Hi|cbn; auto]]. }
        { eexists blk', _; split; [exact Hb'|split; [exact Hk'|cbn; auto]]. }
        congruence. }
      subst s3. cbn in Ef. destruct (e s') as [x|] eqn:Es; [|discriminate].
      destruct (shape t x); [|discriminate]. cbn in Ef. injection Ef as <- <-.
      cbn in Eb. injection Eb as <-. unfold upd. rewrite Nat.eqb_refl.
      destruct (Nat.eqb_spec s' d); [contradiction|]. auto.
    - intros b blk b' blk' e e1 Q1 Q2 Q3 Q4 Q5. exact (pinv_edge f cpairs sd cpairs_ok b blk b' blk' e e1 Q1 Q2 Q3 Q4 Q5).
    - intros blk args0 e Q1 Q2 Q3. exact (pinv_entry f cpairs sd cpairs_ok blk args0 e Q1 Q3).
    - cbn [cp_out remove_copies with_blocks f_params]. unfold cp_out, remove_copies; cbn [with_blocks f_params].
      rewrite HP. rewrite <- map_id. apply map_ext_in. intros v Hv. apply subst_notin.
      apply notkey. destruct (copy_src f v) as [s0|] eqn:E; auto.
      destruct (cpairs_ok v s0 E) as (B & blk & K & i & HB' & HK & _ & Di & _).
      exfalso. apply (def_not_param f B K v sd); auto. exists blk, i. rewrite Di; cbn; auto.
    - intros b blk Hb.
      assert (Hb' : nth_error (f_blocks cp_out) b = Some (Block
        (filter (fun i => negb (is_copy ord i)) (map (imap (subst_val l) (subst_id l)) (b_instrs blk)))
        (tmap (subst_val l) (b_term blk)) (b_preds blk))).
      { unfold cp_out, remove_copies; cbn [with_blocks f_blocks]. rewrite nth_error_map, HB, nth_error_map, Hb.
        reflexivity. }
      eexists; split; [exact Hb'|]. clear Hb'. cbn [b_instrs b_term].
      destruct (proj2 Hssa b blk Hb) as (U1 & U2 & U3). split.
      + assert (G : forall is pos, (forall k i, nth_error is k = Some i -> nth_error (b_instrs blk) (pos + k) = Some i) ->
          lsim f cp_out true ckey (pinv f cpairs) (fun _ _ => True) b pos is
            (filter (fun i => negb (is_copy ord i)) (map (imap (subst_val l) (subst_id l)) is))).
        { induction is as [|i is IH]; intros pos Hk; [constructor|].
          assert (Hi : nth_error (b_instrs blk) pos = Some i).
          { specialize (Hk 0 i eq_refl). rewrite Nat.add_0_r in Hk. exact Hk. }
          assert (IH' : lsim f cp_out true ckey (pinv f cpairs) (fun _ _ => True) b (Datatypes.S pos) is
            (filter (fun i => negb (is_copy ord i)) (map (imap (subst_val l) (subst_id l)) is))).
          { apply IH. intros k j Hj. specialize (Hk (Datatypes.S k) j Hj). rewrite <- plus_n_Sm in Hk. exact Hk. }
          clear IH. cbn [map filter].
          destruct (is_phi i) eqn:Ep.
          - destruct i; try discriminate. cbn [imap is_copy negb]. apply ls_phi; auto.
            split; [reflexivity|]. intros p pblk e e' x Hp Ht HI HRl. unfold phi_val; cbn [fst snd].
            rewrite src_map. destruct (src_from p sources) as [v|] eqn:Es; cbn [option_map]; [|discriminate].
            apply (val_point v p (length (b_instrs pblk)) e e' HI HRl).
            intros j Hj. destruct v as [|v|]; cbn in Hj; try contradiction. destruct Hj as [<-|[]].
            eapply U2; eauto.
          - destruct (is_copy ord (imap (subst_val l) (subst_id l) i)) eqn:Ec.
            + cbn [negb]. apply ls_drop; auto.
              destruct i; try discriminate. cbn in Ec. destruct source as [|s0|]; try discriminate. cbn in Ec.
              apply mem_nat_in in Ec. split; auto. split.
              * intros d [<-|[]]. apply Hord; auto.
              * intros S0 W0 s1 e _ _. cbn. destruct (e s0) as [x|]; cbn; auto. destruct (shape t x); cbn; auto.
            + cbn [negb]. apply ls_keep; auto. split; [auto|]. split; [destruct i; auto|].
              split; [destruct i; reflexivity|].
              intros S0 W0 s1 e e' _ HI HRl. apply effect_sim.
              * intros v Hv. apply (val_point v b pos e e'); auto. intros j Hj. eapply U1; eauto.
                apply uses_ivals. left; eauto.
              * intros v x Hv Ev. assert (D : dom f v b pos).
                { eapply U1; eauto. apply uses_ivals; auto. }
                destruct (subst_point v b pos e HI D) as (A1 & A2 & A3). split.
                -- eapply op_point; eauto.
                -- rewrite cp_types by auto. auto.
              * intros d es ->. apply cp_types. destruct (copy_src f d) as [s2|] eqn:Es; auto.
                destruct (key_instr b blk pos _ d Hb Hi) as (s3 & t & J); [cbn; auto|congruence|discriminate J]. }
        apply (G (b_instrs blk) 0). auto.
      + intros e e' HI HRl.
        assert (HT : map (f_types cp_out) (f_rets cp_out) = map (f_types f) (f_rets f)).
        { unfold cp_out at 2. unfold remove_copies. cbn [with_blocks f_rets]. rewrite HR, map_map.
          apply map_ext_in. intros r Hr.
          assert (N : copy_src f r = None).
          { destruct (copy_src f r) as [s2|] eqn:Es; auto. destruct (Hrets r Hr).
            destruct (cpairs_at r s2 Es) as (b' & blk' & k' & t' & a & Hb' & Hk' & _).
            apply in_flat_map. exists blk'. split; [eapply nth_error_In; eauto|].
            apply in_flat_map. eexists. split; [eapply nth_error_In; eauto|]. cbn; auto. }
          rewrite (subst_notin l r) by (apply notkey; auto). apply cp_types; auto. }
        rewrite HT. destruct (b_term blk) as [x|c x y|op l0 r x y|vs|] eqn:Et; cbn [tmap exec_term].
        * apply rrel_eq_refl.
        * apply rrel_bind with (R := eq); [|intros ? ? _ _ <-; apply rrel_eq_refl].
          apply rrel_of_opt. intros z Hz. destruct c as [lt|v|]; cbn in *; auto.
          destruct (e v) as [u|] eqn:Ev; [|discriminate].
          rewrite (op_point v b (length (b_instrs blk)) e e' u); auto.
        * destruct (branch_op op); [|exact Logic.I].
          apply rrel_bind with (R := eq); [|intros ? ? _ _ <-; apply rrel_eq_refl].
          apply eval_bin_sim; apply (val_point _ b (length (b_instrs blk)) e e'); auto;
            intros j Hj; apply U3; cbn; apply in_or_app; auto.
        * step_eq; [apply rrel_eq_refl|]. step_eq; [|apply rrel_eq_refl]. apply rrel_of_opt.
          intros z Hz. eapply eval_list_sim; eauto. intros v Hv.
          apply (val_point v b (length (b_instrs blk)) e e'); auto. intros j Hj. apply U3.
          cbn. apply in_flat_map. eauto.
        * exact Logic.I.
  Qed.

  (** The result is in single assignment form again. *)
  Lemma cplus_trans : forall a b c, cplus (copy_src f) a b -> cplus (copy_src f) b c -> cplus (copy_src f) a c.
  Proof. induction 1; intro K; eapply cp_more; eauto. Qed.
  Lemma subst_cplus : forall l0 v, (forall d t, In (d, t) l0 -> cplus (copy_src f) d t) ->
    subst_id l0 v = v \/ cplus (copy_src f) v (subst_id l0 v).
  Proof.
    induction l0 as [|[d t] l0 IH]; intros v H; cbn; auto. unfold sub_id at 2 4; cbn [fst snd].
    destruct (Nat.eqb_spec v d) as [->|N].
    - right. assert (C : cplus (copy_src f) d t) by (apply H; left; auto).
      destruct (IH t (fun x y h => H x y (or_intror h))) as [E|E].
      + unfold subst_id in E. rewrite E. exact C.
      + eapply cplus_trans; eauto.
    - apply IH. intros; apply H; right; auto.
  Qed.
  Lemma subst_reach : forall v b pos, (exists w, walk f (b :: w)) -> dom f v b pos ->
    copy_src f (subst_id l v) = None.
  Proof.
    intros v b pos W D. destruct (copy_src f v) as [s|] eqn:E.
    - assert (Hv : In v (map fst l)) by (rewrite fst_l; apply Hord; congruence).
      apply in_map_iff in Hv. destruct Hv as ([d t] & Ed & Hv). cbn in Ed. subst d.
      destruct (in_l_cplus v t Hv) as [C Ct].
      destruct (dom_def _ _ _ _ D W) as [Hp|(B & K & DD & W')].
      { exfalso. destruct (cpairs_ok v s E) as (B' & blk & K' & i & HB & HK & _ & Di & Dom).
        apply (def_not_param f B' K' v sd); auto. exists blk, i; rewrite Di; cbn; auto. }
      assert (Nt : copy_src f t = None).
      { destruct Ct as [|Ct]; auto. destruct (cplus_acyclic t B K W' (cplus_dom v t C B K DD) Ct). }
      rewrite (subst_in l v t); auto.
      + apply in_map_iff. exists (v, t); auto.
      + intros t' Ht. eapply l_fun; eauto.
      + apply notkey; auto.
    - rewrite (subst_notin l v); auto. apply notkey; auto.
  Qed.
  Lemma subst_stands : forall v, stands f v (subst_id l v).
  Proof.
    intro v. destruct (subst_cplus l v) as [E|C]; [intros d t H; apply (in_l_cplus d t H)|left; auto|].
    right. split.
    - inversion C; subst.
      + destruct (cpairs_ok v _ H) as (B' & blk & K' & i & HB & HK & _ & Di & Dom).
        apply (def_not_param f B' K' v sd). exists blk, i; rewrite Di; cbn; auto.
      + destruct (cpairs_ok v _ H) as (B' & blk & K' & i & HB & HK & _ & Di & Dom).
        apply (def_not_param f B' K' v sd). exists blk, i; rewrite Di; cbn; auto.
    - intros B K D. eapply cplus_dom; eauto.
  Qed.
  Theorem copy_prop_keeps : ssa cp_out /\ phis_first cp_out /\
    (forall r, In r (f_rets cp_out) -> ~ In r (all_dests cp_out)).
  Proof.
    destruct (replace_list_blocks l f) as (HB & HE & HP & HR).
    assert (Hpar : f_params cp_out = f_params f).
    { unfold cp_out, remove_copies; cbn [with_blocks f_params].
      rewrite HP. rewrite <- map_id. apply map_ext_in. intros v Hv. apply subst_notin.
      apply notkey. destruct (copy_src f v) as [s0|] eqn:E; auto.
      destruct (cpairs_ok v s0 E) as (B & blk & K & i & HB' & HK & _ & Di & _).
      exfalso. apply (def_not_param f B K v sd); auto. exists blk, i. rewrite Di; cbn; auto. }
    assert (Hret : f_rets cp_out = f_rets f).
    { unfold cp_out, remove_copies; cbn [with_blocks f_rets]. rewrite HR.
      rewrite <- map_id. apply map_ext_in. intros v Hv. apply subst_notin.
      apply notkey. destruct (copy_src f v) as [s0|] eqn:E; auto. exfalso. apply (Hrets v Hv).
      destruct (cpairs_at v s0 E) as (b' & blk' & k' & t' & a & Hb' & Hk' & _).
      apply in_flat_map. exists blk'. split; [eapply nth_error_In; eauto|].
      apply in_flat_map. eexists. split; [eapply nth_error_In; eauto|]. cbn; auto. }
    assert (Hlen : length (f_blocks cp_out) = length (f_blocks f)).
    { unfold cp_out, remove_copies; cbn [with_blocks f_blocks]. rewrite map_length, HB, map_length. reflexivity. }
    assert (Hblk : forall b blk, nth_error (f_blocks f) b = Some blk ->
      exists blk', nth_error (f_blocks cp_out) b = Some blk' /\
      b_instrs blk' = filter (fun i => negb (is_copy ord i)) (map (imap (subst_val l) (subst_id l)) (b_instrs blk)) /\
      b_term blk' = tmap (subst_val l) (b_term blk)).
    { intros b blk Hb. unfold cp_out, remove_copies; cbn [with_blocks f_blocks].
      rewrite nth_error_map, HB, nth_error_map, Hb. cbn [option_map]. eexists; split; [reflexivity|]. auto. }
    assert (Hfv : forall x w, In w (val_ids (subst_val l x)) -> exists v, In v (val_ids x) /\ stands f v w).
    { intros [y|v|] w Hw; cbn in Hw; try contradiction. destruct Hw as [<-|[]].
      exists v. split; [cbn; auto|apply subst_stands]. }
    assert (Hback : forall b blk', nth_error (f_blocks cp_out) b = Some blk' -> exists blk,
      nth_error (f_blocks f) b = Some blk).
    { intros b blk' Hb. destruct (nth_error (f_blocks f) b) eqn:E; eauto.
      apply nth_error_None in E. rewrite <- Hlen in E. apply nth_error_None in E. congruence. }
    assert (Hkeep : forall b blk i, nth_error (f_blocks f) b = Some blk ->
      In i (map (imap (subst_val l) (subst_id l)) (b_instrs blk)) -> negb (is_copy ord i) = false ->
      forall d, In d (dests i) -> forall b' blk', nth_error (f_blocks cp_out) b' = Some blk' ->
      (exists w, walk f (b' :: w)) ->
      ~ used_by f cp_out d b' blk').
    { intros b blk i _ _ Hi d Hd b' blk' Hb' HW.
      assert (Kd : copy_src f d <> None).
      { apply Hord. destruct i; try discriminate. cbn in Hi. destruct source; try discriminate.
        destruct Hd as [<-|[]]. apply mem_nat_in. destruct (mem_nat dest ord); auto. }
      destruct (Hback b' blk' Hb') as (blk0 & Hb0). destruct (Hblk b' blk0 Hb0) as (blk2 & E2 & Ei & Et).
      assert (blk2 = blk') by congruence. subst blk2.
      destruct (proj2 Hssa b' blk0 Hb0) as (U1 & U2 & U3).
      intros [(j & Hj & Np & Hu)|[(d1 & t1 & ss1 & p & pblk' & Hj & Hp & Ht & Wp & Hs)|Hu]].
      - rewrite Ei in Hj. apply filter_In in Hj. destruct Hj as [Hj _].
        apply in_map_iff in Hj. destruct Hj as (i0 & <- & Hi0). apply In_nth_error in Hi0. destruct Hi0 as (k & Hk).
        rewrite is_phi_imap in Np.
        apply uses_imap in Hu. destruct Hu as [(x & Hx & Hw)|(c & Hc & ->)].
        + destruct x as [y|v|]; cbn in Hw; try contradiction. destruct Hw as [<-|[]].
          apply Kd. apply (subst_reach v b' k HW). eapply U1; eauto. apply uses_ivals. left. exists (Op v). cbn; auto.
        + apply Kd. apply (subst_reach c b' k HW). eapply U1; eauto. apply uses_ivals; auto.
      - rewrite Ei in Hj. apply filter_In in Hj. destruct Hj as [Hj _].
        apply in_map_iff in Hj. destruct Hj as (i0 & Hi1 & Hi0). apply In_nth_error in Hi0. destruct Hi0 as (k & Hk).
        destruct i0; try discriminate. cbn in Hi1. injection Hi1 as -> -> <-.
        rewrite src_map in Hs. destruct (src_from p sources) as [x|] eqn:Ex; [|discriminate].
        destruct x as [y|v|]; try discriminate. cbn in Hs. injection Hs as <-.
        destruct (Hback p pblk' Hp) as (pblk & Hpb). destruct (Hblk p pblk Hpb) as (pb2 & Ep2 & _ & Et2).
        assert (pb2 = pblk') by congruence. subst pb2. rewrite Et2, targets_tmap in Ht.
        apply Kd. apply (subst_reach v p (length (b_instrs pblk)) Wp). eapply U2; eauto.
      - rewrite Et in Hu. apply term_uses_tmap in Hu. destruct Hu as (x & Hx & Hw).
        destruct x as [y|v|]; cbn in Hw; try contradiction. destruct Hw as [<-|[]].
        apply Kd. apply (subst_reach v b' (length (b_instrs blk0)) HW). apply U3. eapply term_uses_tvals; eauto. cbn; auto. }
    pose proof subst_stands as Hst. split; [|split].
    - apply (ssa_map f cp_out (subst_val l) (subst_id l) (fun _ i => negb (is_copy ord i))); auto.
    - apply (phis_map f cp_out (subst_val l) (subst_id l) (fun _ i => negb (is_copy ord i))); auto; exact Hst.
    - apply (rets_map f cp_out (subst_val l) (subst_id l) (fun _ i => negb (is_copy ord i))); auto.
  Qed.
End CopyProp.

Theorem copy_prop_same : forall f ord g, ssa f -> phis_first f ->
  (forall r, In r (f_rets f) -> ~ In r (all_dests f)) ->
  (forall d, In d ord <-> copy_src f d <> None) ->
  copy_prop ord f = Some g -> same_behaviour f g.
Proof.
  intros f ord g H1 H2 H3 H4 H. unfold copy_prop in H.
  destruct (resolved f ord) as [l|] eqn:E; [|discriminate]. injection H as <-.
  apply copy_prop_sim; auto.
Qed.
Theorem copy_prop_total : forall f ord, (forall d, In d ord -> copy_src f d <> None) ->
  exists g, copy_prop ord f = Some g.
Proof. intros f ord H. unfold copy_prop. destruct (resolved_total f ord H) as (l & ->). eauto. Qed.
