(** Legalising u32 comparisons: facts. *)
From Coq Require Import ZArith Bool String List Lia Permutation.
From Verif Require Import M31 Isa Mir MirSem MirPasses MirFacts MirLocalFacts MirSim MirSsa MirLegal.
Import ListNotations.
Open Scope Z_scope.

(** Every id the function mentions was handed out by its id counter. *)
Definition instr_below (n : nat) (i : minstr) : Prop :=
  forall v, In v (dests i) \/ In v (uses i) -> (v < n)%nat.
Definition ids_below (f : func) : Prop :=
  (forall b, In b (f_blocks f) ->
     (forall i, In i (b_instrs b) -> instr_below (f_next f) i) /\
     (forall v, In v (term_uses (b_term b)) -> (v < f_next f)%nat)) /\
  (forall v, In v (f_params f) \/ In v (f_rets f) -> (v < f_next f)%nat).

(** The comparisons the code generator accepts as instructions. *)
Definition legal_op (i : minstr) : bool :=
  match i with
  | IBinary U32Neq _ _ _ | IBinary U32Greater _ _ _
  | IBinary U32GreaterEqual _ _ _ | IBinary U32LessEqual _ _ _ => false
  | _ => true
  end.

Lemma legal_instr_shape : forall n i, (n <= snd (legal_instr n i))%nat /\
  (forall j, In j (fst (legal_instr n i)) -> legal_op j = true).
Proof.
  intros n i. destruct i; try (cbn; split; [lia|intros j [<-|[]]; reflexivity]).
  destruct op; cbn [legal_instr fst snd]; (split; [lia|]); intros j Hj; cbn [In] in Hj;
    repeat (destruct Hj as [<-|Hj]; [reflexivity|]); destruct Hj.
Qed.
Lemma legal_instrs_shape : forall is n, (n <= snd (legal_instrs n is))%nat /\
  (forall j, In j (fst (legal_instrs n is)) -> legal_op j = true).
Proof.
  induction is as [|i is IH]; intro n; cbn [legal_instrs fst snd]; [split; [lia|intros j []]|].
  pose proof (legal_instr_shape n i) as [A B].
  pose proof (IH (snd (legal_instr n i))) as [C D].
  split; [lia|]. intros j Hj. apply in_app_iff in Hj. destruct Hj; auto.
Qed.
Lemma legal_blocks_shape : forall bs n, (n <= snd (legal_blocks n bs))%nat /\
  (forall b j, In b (fst (legal_blocks n bs)) -> In j (b_instrs b) -> legal_op j = true).
Proof.
  induction bs as [|b bs IH]; intro n; cbn [legal_blocks fst snd]; [split; [lia|intros c j []]|].
  pose proof (legal_instrs_shape (b_instrs b) n) as [A B].
  pose proof (IH (snd (legal_instrs n (b_instrs b)))) as [C D].
  split; [lia|]. intros c j [<-|Hc] Hj; eauto.
Qed.
Lemma legal_blocks_at : forall bs n k b, nth_error bs k = Some b ->
  exists m, (n <= m)%nat /\ (snd (legal_instrs m (b_instrs b)) <= snd (legal_blocks n bs))%nat /\
    nth_error (fst (legal_blocks n bs)) k = Some (Block (fst (legal_instrs m (b_instrs b))) (b_term b) (b_preds b)).
Proof.
  induction bs as [|c bs IH]; intros n [|k] b H; cbn in H; try discriminate.
  - injection H as <-. exists n. cbn [legal_blocks fst snd nth_error].
    split; [lia|]. split; auto.
    apply (legal_blocks_shape bs (snd (legal_instrs n (b_instrs c)))).
  - destruct (IH (snd (legal_instrs n (b_instrs c))) k b H) as (m & A & B & C).
    exists m. cbn [legal_blocks fst snd nth_error].
    pose proof (proj1 (legal_instrs_shape (b_instrs c) n)). split; [lia|]. split; auto.
Qed.

(** ** One instruction. *)
Definition agree (n : nat) (e e' : env) : Prop := forall v, (v < n)%nat -> e' v = e v.
Definition srel {S} (n : nat) (x y : env * S) : Prop := agree n (fst x) (fst y) /\ snd y = snd x.

Lemma exec_list_app : forall S (W : world S) tys l1 e s l2,
  exec_list W tys e s (l1 ++ l2) = rbind (exec_list W tys e s l1) (fun x => exec_list W tys (fst x) (snd x) l2).
Proof.
  induction l1 as [|i l1 IH]; intros e s l2; cbn; auto.
  destruct (exec W tys e s i) as [x| | |]; cbn; auto.
Qed.
Lemma bind_all_agree : forall n ds e e' vs e1, agree n e e' ->
  bind_all e ds vs = Some e1 -> exists e1', bind_all e' ds vs = Some e1' /\ agree n e1 e1'.
Proof.
  intros n ds e e' vs e1 H E. destruct (bind_all_sim ds e e' vs e1 E) as (e1' & E' & H1 & H2).
  exists e1'. split; auto. intros v Hv. destruct (in_dec Nat.eq_dec v ds); auto.
  rewrite (H2 v), (bind_all_get _ _ _ _ E v) by auto. auto.
Qed.

Lemma exec_agree : forall S (W : world S) tys tys' n e e' s i,
  instr_below n i -> agree n e e' -> (forall v, (v < n)%nat -> tys' v = tys v) ->
  rrel true (srel n) (exec W tys e s i) (exec W tys' e' s i).
Proof.
  intros S W tys tys' n e e' s i Hi He Ht. unfold exec.
  apply rrel_bind with (R := eq).
  - apply effect_agree; auto.
    + intros b Hb. apply Ht, Hi. right. apply uses_ivals; auto.
    + intros d es ->. apply Ht, Hi. left. cbn; auto.
  - intros r r' _ _ <-.
    destruct (bind_all e (dests i) (fst r)) as [e1|] eqn:E; [|exact Logic.I].
    destruct (bind_all_agree n _ _ _ _ _ He E) as (e1' & -> & Ha).
    cbn. eexists; split; [reflexivity|]. split; auto.
Qed.

Lemma eval_as_agree : forall n e e' t v, agree n e e' -> (forall i, In i (val_ids v) -> (i < n)%nat) ->
  eval_as e' t v = eval_as e t v.
Proof. intros n e e' t [l|i|] H Hv; cbn in *; auto. rewrite (H i); auto. Qed.

Definition is_u32_cmp (op : binop) : bool :=
  match op with U32Eq | U32Neq | U32Less | U32Greater | U32LessEqual | U32GreaterEqual => true | _ => false end.
Lemma eval_u32_val : forall e v x, eval_as e TU32 v = Some x -> exists z, x = VU32 z.
Proof.
  intros e v x H. destruct v as [l|i|]; cbn in H; try discriminate.
  - destruct l; cbn in H; try discriminate. inversion H; eauto.
  - destruct (e i) as [y|]; try discriminate. destruct y; cbn in H; try discriminate.
    destruct (u32b z); inversion H; eauto.
Qed.

Lemma legal_instr_sim : forall S (W : world S) tys tys' n m e e' s i,
  instr_below n i -> (n <= m)%nat -> agree n e e' -> (forall v, (v < n)%nat -> tys' v = tys v) ->
  rrel true (srel n) (exec W tys e s i) (exec_list W tys' e' s (fst (legal_instr m i))).
Proof.
  intros S W tys tys' n m e e' s i Hi Hm He Ht.
  assert (K : rrel true (srel n) (exec W tys e s i) (exec_list W tys' e' s [i])).
  { cbn [exec_list]. pose proof (exec_agree S W tys tys' n e e' s i Hi He Ht) as R.
    destruct (exec W tys e s i) as [x| | |]; cbn [rrel] in *; auto.
    - destruct R as (y & -> & HR). cbn. exists y. split; auto. destruct y; reflexivity.
    - intro; rewrite R by auto. reflexivity.
    - intro; rewrite R by auto. reflexivity. }
  destruct i; try exact K. rename dest into d, left into l, right into r.
  assert (Hd : (d < n)%nat) by (apply Hi; left; cbn; auto).
  assert (Hl : forall t, eval_as e' t l = eval_as e t l).
  { intro t. apply eval_as_agree with (n := n); auto. intros j Hj. apply Hi. right. cbn.
    apply in_app_iff; auto. }
  assert (Hr : forall t, eval_as e' t r = eval_as e t r).
  { intro t. apply eval_as_agree with (n := n); auto. intros j Hj. apply Hi. right. cbn.
    apply in_app_iff; auto. }
  assert (D : forall b, srel n (upd e d (VBool b), s) (upd e' d (VBool b), s)).
  { intro b. split; auto. intros v Hv. cbn. unfold upd. destruct (Nat.eqb v d); auto. }
  assert (D2 : forall b c, srel n (upd e d (VBool b), s) (upd (upd e' m (VBool c)) d (VBool b), s)).
  { intros b c. split; auto. intros v Hv. cbn. unfold upd. destruct (Nat.eqb v d); auto.
    destruct (Nat.eqb_spec v m); [lia|auto]. }
  assert (U : forall c, exec W tys' (upd e' m (VBool c)) s (IUnary Not d (Op m)) =
                ROk (upd (upd e' m (VBool c)) d (VBool (negb c)), s)).
  { intro c. unfold exec. cbn [effect eval_any]. unfold upd at 1. rewrite Nat.eqb_refl. reflexivity. }
  assert (EV : forall op, op_type op = Some TU32 -> forall e1 x y,
     eval_bin e1 op x y = rbind (of_opt (eval_as e1 TU32 x)) (fun a =>
        rbind (of_opt (eval_as e1 TU32 y)) (fun b => sem_bin op a b))).
  { intros o Ho e1 x y. unfold eval_bin, eval_opnd. rewrite Ho. reflexivity. }
  destruct op; try exact K; clear K; cbn [legal_instr fst];
    assert (C : canon_comm U32Neq l r = (l, r) \/ canon_comm U32Neq l r = (r, l))
      by (unfold canon_comm; cbn; destruct l, r; auto);
    unfold exec at 1; cbn [effect Mir.dests];
    rewrite EV by reflexivity;
    (destruct (eval_as e TU32 l) as [a|] eqn:El; [|exact Logic.I]);
    (destruct (eval_as e TU32 r) as [b|] eqn:Er; [|exact Logic.I]);
    destruct (eval_u32_val _ _ _ El) as (x & ->); destruct (eval_u32_val _ _ _ Er) as (y & ->);
    cbn [of_opt rbind sem_bin bind_all fst snd];
    cbn [exec_list rrel].
  - (* != *)
    assert (K : exec W tys' e' s (IBinary U32Eq m (fst (canon_comm U32Neq l r)) (snd (canon_comm U32Neq l r)))
                = ROk (upd e' m (VBool (x =? y)), s)).
    { unfold exec. cbn [effect Mir.dests]. rewrite (EV U32Eq eq_refl).
      destruct C as [-> | ->]; cbn [fst snd]; rewrite Hl, Hr, El, Er; cbn [of_opt rbind sem_bin bind_all fst snd]; auto.
      rewrite Z.eqb_sym. reflexivity. }
    rewrite K. cbn [rbind fst snd]. rewrite U. cbn [rbind fst snd].
    eexists; split; [reflexivity|]. apply D2.
  - (* > *)
    unfold canon_comm. cbn [commutative_u32 fst snd].
    assert (K : exec W tys' e' s (IBinary U32Less d r l) = ROk (upd e' d (VBool (y <? x)), s)).
    { unfold exec. cbn [effect Mir.dests]. rewrite (EV U32Less eq_refl), Hl, Hr, El, Er. reflexivity. }
    rewrite K. cbn [rbind fst snd]. eexists; split; [reflexivity|]. apply D.
  - (* <= *)
    unfold canon_comm. cbn [commutative_u32 fst snd].
    assert (K : exec W tys' e' s (IBinary U32Less m r l) = ROk (upd e' m (VBool (y <? x)), s)).
    { unfold exec. cbn [effect Mir.dests]. rewrite (EV U32Less eq_refl), Hl, Hr, El, Er. reflexivity. }
    rewrite K. cbn [rbind fst snd]. rewrite U. cbn [rbind fst snd].
    eexists; split; [reflexivity|]. rewrite Z.leb_antisym. apply D2.
  - (* >= *)
    unfold canon_comm. cbn [commutative_u32 fst snd].
    assert (K : exec W tys' e' s (IBinary U32Less m l r) = ROk (upd e' m (VBool (x <? y)), s)).
    { unfold exec. cbn [effect Mir.dests]. rewrite (EV U32Less eq_refl), Hl, Hr, El, Er. reflexivity. }
    rewrite K. cbn [rbind fst snd]. rewrite U. cbn [rbind fst snd].
    eexists; split; [reflexivity|]. rewrite Z.leb_antisym. apply D2.
Qed.

Lemma legal_instrs_sim : forall S (W : world S) tys tys' n is m e e' s,
  (forall i, In i is -> instr_below n i) -> (n <= m)%nat -> agree n e e' ->
  (forall v, (v < n)%nat -> tys' v = tys v) ->
  rrel true (srel n) (exec_list W tys e s is) (exec_list W tys' e' s (fst (legal_instrs m is))).
Proof.
  intros S W tys tys' n. induction is as [|i is IH]; intros m e e' s Hi Hm He Ht.
  - cbn. eexists; split; [reflexivity|]. split; auto.
  - cbn [legal_instrs fst exec_list]. rewrite exec_list_app.
    apply rrel_bind with (R := srel n).
    + apply legal_instr_sim; auto. apply Hi; left; auto.
    + intros [e1 s1] [e2 s2] _ _ [Ha Hs]. cbn [fst snd] in *. subst s2.
      apply IH; auto.
      * intros j Hj. apply Hi; right; auto.
      * pose proof (proj1 (legal_instr_shape m i)). lia.
Qed.

Lemma legal_span : forall is m,
  fst (span_phi (fst (legal_instrs m is))) = fst (span_phi is) /\
  snd (span_phi (fst (legal_instrs m is))) = fst (legal_instrs m (snd (span_phi is))).
Proof.
  induction is as [|i is IH]; intro m; [split; reflexivity|].
  destruct i; try (split; reflexivity).
  - destruct op; split; reflexivity.
  - cbn [legal_instrs legal_instr fst snd app span_phi]. destruct (IH m) as [A B].
    split; [f_equal; exact A|exact B].
Qed.

Lemma omap_ext_in : forall A B (f g : A -> option B) l, (forall a, In a l -> f a = g a) -> omap f l = omap g l.
Proof.
  induction l as [|a l IH]; intro H; cbn; auto.
  rewrite (H a (or_introl eq_refl)), IH; auto. intros; apply H; right; auto.
Qed.
Lemma src_from_in : forall p ss v, src_from p ss = Some v -> In v (map snd ss).
Proof.
  induction ss as [|[q w] ss IH]; cbn; intros v H; [discriminate|].
  destruct (Nat.eqb p q); [injection H as <-; auto|auto].
Qed.
Lemma enter_agree : forall n e e' prev phs e1,
  (forall ph, In ph phs -> forall v, In v (vals_ids (map snd (snd ph))) -> (v < n)%nat) ->
  agree n e e' -> enter e prev phs = Some e1 ->
  exists e1', enter e' prev phs = Some e1' /\ agree n e1 e1'.
Proof.
  intros n e e' prev phs e1 Hp He E. unfold enter in *.
  assert (omap (phi_val e' prev) phs = omap (phi_val e prev) phs) as ->.
  { apply omap_ext_in. intros ph Hph. unfold phi_val. destruct prev as [p|]; auto.
    destruct (src_from p (snd ph)) as [v|] eqn:Es; auto.
    apply eval_as_agree with (n := n); auto. intros i Hi. apply (Hp ph Hph).
    apply in_flat_map. exists v. split; auto. eapply src_from_in; eauto. }
  destruct (omap (phi_val e prev) phs); [|discriminate].
  eapply bind_all_agree; eauto.
Qed.

Lemma term_agree : forall n e e' rets t, agree n e e' ->
  (forall v, In v (term_uses t) -> (v < n)%nat) -> exec_term e' rets t = exec_term e rets t.
Proof.
  intros n e e' rets t He Ht.
  assert (EA : forall v, (forall i, In i (val_ids v) -> (i < n)%nat) -> eval_any e' v = eval_any e v).
  { intros [l|i|] H; cbn in *; auto. rewrite (He i); auto. }
  destruct t as [| c | op l r | vs |]; cbn [exec_term term_uses] in *; auto.
  - rewrite (truth_sim_agree e e'); auto.
  - unfold eval_bin, eval_opnd.
    rewrite (EA l), (EA r) by (intros; apply Ht, in_app_iff; auto).
    destruct (op_type op) as [t|]; auto.
    rewrite (eval_as_agree n e e' t l), (eval_as_agree n e e' t r); auto; intros; apply Ht, in_app_iff; auto.
  - assert (EL : forall ts, eval_list e' ts vs = eval_list e ts vs).
    { clear EA. induction vs as [|v vs IH]; intros [|t ts]; cbn; auto.
      rewrite (eval_as_agree n e e' t v); auto.
      - rewrite IH; auto. intros w Hw. apply Ht. cbn. apply in_app_iff; auto.
      - intros i Hi. apply Ht. cbn. apply in_app_iff; auto. }
    destruct (omap _ rets); cbn; auto. rewrite EL. reflexivity.
Qed.

Lemma span_in_fst : forall is d t ss, In (d, t, ss) (fst (span_phi is)) -> In (IPhi d t ss) is.
Proof.
  induction is as [|i is IH]; intros d t ss H; [destruct H|].
  destruct i; cbn in H; try contradiction. destruct H as [E|H]; [injection E as -> -> ->; left; auto|right; auto].
Qed.
Lemma span_in_snd : forall is i, In i (snd (span_phi is)) -> In i is.
Proof.
  induction is as [|j is IH]; intros i H; [destruct H|].
  destruct j; cbn in H; auto. right; auto.
Qed.

Lemma legal_run : forall f, ids_below f -> forall S (W : world S) fuel prev cur e e' s,
  agree (f_next f) e e' ->
  rrel true eq (run W f fuel prev cur e s) (run W (legalize f) fuel prev cur e' s).
Proof.
  intros f Hf S W. induction fuel as [|k IH]; intros prev cur e e' s He; cbn [run]; [intros _; reflexivity|].
  destruct (nth_error (f_blocks f) cur) as [b|] eqn:Eb; [|exact Logic.I].
  destruct (legal_blocks_at _ (f_next f) _ _ Eb) as (m & Hm & _ & Ec).
  cbn [legalize f_blocks]. rewrite Ec. cbn [b_instrs b_term].
  destruct (legal_span (b_instrs b) m) as [-> ->].
  destruct (proj1 Hf b (nth_error_In _ _ Eb)) as [Hi Ht].
  destruct (enter e prev (fst (span_phi (b_instrs b)))) as [e1|] eqn:Ee; [|exact Logic.I].
  assert (Hph : forall ph, In ph (fst (span_phi (b_instrs b))) ->
            forall v, In v (vals_ids (map snd (snd ph))) -> (v < f_next f)%nat).
  { intros [[d t] ss] Hp v Hv. apply (Hi _ (span_in_fst _ _ _ _ Hp)). right. exact Hv. }
  destruct (enter_agree (f_next f) e e' prev _ e1 Hph He Ee) as (e1' & -> & He1).
  cbn [of_opt rbind]. apply rrel_bind with (R := srel (f_next f)).
  - apply legal_instrs_sim; auto.
    + intros i Hin. apply Hi, span_in_snd, Hin.
    + intros v Hv. cbn [f_types legalize]. destruct (Nat.leb_spec (f_next f) v) as [L|L];
        [exfalso; revert Hv L; clear; lia|reflexivity].
  - intros [e2 s2] [e3 s3] _ _ [Ha Hs]. cbn [fst snd] in *. subst s3.
    rewrite (term_agree (f_next f) e2 e3) by auto.
    assert (map (f_types (legalize f)) (f_rets (legalize f)) = map (f_types f) (f_rets f)) as Er.
    { apply map_ext_in. intros v Hv. cbn.
      assert (v < f_next f)%nat by (apply (proj2 Hf); auto).
      destruct (Nat.leb_spec (f_next f) v) as [L|L]; [exfalso; revert H L; clear; lia|reflexivity]. }
    rewrite Er.
    apply rrel_bind with (R := eq); [apply rrel_eq_refl|].
    intros x ? _ _ <-. destruct x as [b'|vs]; [apply IH; auto|apply rrel_eq_refl].
Qed.

Lemma legal_same : forall f, ids_below f -> same_behaviour f (legalize f).
Proof.
  intros f Hf S W fuel args s. unfold call_fn. cbn [legalize f_params f_entry].
  destruct (bind_all (fun _ => None) (f_params f) args) as [e|]; [|intro N; destruct N; reflexivity].
  apply (proj1 (rrel_true _ _ _)). apply legal_run; auto. intros v Hv; reflexivity.
Qed.
Lemma legal_ops : forall f b i, In b (f_blocks (legalize f)) -> In i (b_instrs b) -> legal_op i = true.
Proof. intros f b i Hb Hi. exact (proj2 (legal_blocks_shape (f_blocks f) (f_next f)) b i Hb Hi). Qed.

(** ** Single assignment: the destinations are the old ones and the fresh ids, each once. *)
Lemma seq_split n m k : (n <= m)%nat -> (m <= k)%nat -> seq n (k - n) = seq n (m - n) ++ seq m (k - m).
Proof.
  intros H1 H2. replace (k - n)%nat with ((m - n) + (k - m))%nat by lia. rewrite seq_app. f_equal. f_equal. lia.
Qed.
Lemma legal_instr_dests : forall n i,
  Permutation (flat_map dests (fst (legal_instr n i))) (dests i ++ seq n (snd (legal_instr n i) - n)).
Proof.
  intros n i. destruct i; try (cbn [legal_instr fst snd flat_map]; rewrite Nat.sub_diag; apply Permutation_refl).
  destruct op; cbn [legal_instr fst snd flat_map dests app]; rewrite ?Nat.sub_diag; try apply Permutation_refl;
    replace (Datatypes.S n - n)%nat with 1%nat by lia; apply perm_swap.
Qed.
Lemma perm_weave {A} (a b c d x y : list A) : Permutation x (a ++ b) -> Permutation y (c ++ d) ->
  Permutation (x ++ y) ((a ++ c) ++ b ++ d).
Proof.
  intros H1 H2. rewrite H1, H2, <- !app_assoc. apply Permutation_app_head.
  rewrite !app_assoc. apply Permutation_app_tail, Permutation_app_comm.
Qed.
Lemma legal_instrs_dests : forall is n,
  Permutation (flat_map dests (fst (legal_instrs n is))) (flat_map dests is ++ seq n (snd (legal_instrs n is) - n)).
Proof.
  induction is as [|i is IH]; intro n; cbn [legal_instrs fst snd flat_map]; [rewrite Nat.sub_diag; apply perm_nil|].
  pose proof (proj1 (legal_instr_shape n i)) as H1. pose proof (proj1 (legal_instrs_shape is (snd (legal_instr n i)))) as H2.
  rewrite flat_map_app, (seq_split n (snd (legal_instr n i))) by assumption.
  apply perm_weave; [apply legal_instr_dests|apply IH].
Qed.
Lemma legal_blocks_dests : forall bs n,
  Permutation (flat_map (fun b => flat_map dests (b_instrs b)) (fst (legal_blocks n bs)))
    (flat_map (fun b => flat_map dests (b_instrs b)) bs ++ seq n (snd (legal_blocks n bs) - n)).
Proof.
  induction bs as [|b bs IH]; intro n; cbn [legal_blocks fst snd flat_map b_instrs]; [rewrite Nat.sub_diag; apply perm_nil|].
  pose proof (proj1 (legal_instrs_shape (b_instrs b) n)) as H1.
  pose proof (proj1 (legal_blocks_shape bs (snd (legal_instrs n (b_instrs b))))) as H2.
  rewrite (seq_split n (snd (legal_instrs n (b_instrs b)))) by assumption.
  apply perm_weave; [apply legal_instrs_dests|apply IH].
Qed.
Lemma legal_single : forall f, ids_below f -> single_def f -> single_def (legalize f).
Proof.
  intros f [Hb Hp] Hs. unfold single_def, all_dests, legalize in *. cbn [f_params f_blocks].
  eapply Permutation_NoDup; [apply Permutation_app_head, Permutation_sym, legal_blocks_dests|].
  rewrite app_assoc. set (k := (snd (legal_blocks (f_next f) (f_blocks f)) - f_next f)%nat).
  assert (Hlt : forall v, In v (f_params f ++ flat_map (fun b => flat_map dests (b_instrs b)) (f_blocks f)) -> (v < f_next f)%nat).
  { intros v Hv. apply in_app_iff in Hv. destruct Hv as [Hv|Hv]; [apply Hp; auto|].
    apply in_flat_map in Hv. destruct Hv as (b & Hin & Hv). apply in_flat_map in Hv. destruct Hv as (i & Hi & Hv).
    destruct (Hb b Hin) as [Hb' _]. apply (Hb' i Hi). auto. }
  revert Hs Hlt. generalize (f_params f ++ flat_map (fun b => flat_map dests (b_instrs b)) (f_blocks f)) as l.
  induction l as [|x l IH]; intros Hn Hlt; cbn [app]; [apply seq_NoDup|].
  inversion Hn; subst. constructor; [|apply IH; auto using in_cons].
  intros Hx. apply in_app_iff in Hx. destruct Hx as [Hx|Hx]; [contradiction|].
  apply in_seq in Hx. specialize (Hlt x (or_introl eq_refl)). lia.
Qed.
