(** A simulation principle for passes that rename operands and drop instructions. *)
From Coq Require Import ZArith Bool String List Lia.
From Verif Require Import M31 Isa Mir MirSem MirPasses MirFacts MirLocalFacts.
Import ListNotations.
Open Scope Z_scope.

(** ** Relating results.  With [m = true] failures and divergence are preserved too. *)
Definition rrel {A B} (m : bool) (R : A -> B -> Prop) (a : res A) (b : res B) : Prop :=
  match a with
  | ROk x => exists y, b = ROk y /\ R x y
  | RTrap => m = true -> b = RTrap
  | RFuel => m = true -> b = RFuel
  | RStuck => True
  end.

Lemma rrel_bind : forall A B C D m (R : A -> B -> Prop) (Q : C -> D -> Prop) a b k l,
  rrel m R a b -> (forall x y, a = ROk x -> b = ROk y -> R x y -> rrel m Q (k x) (l y)) ->
  rrel m Q (rbind a k) (rbind b l).
Proof.
  intros A B C D m R Q a b k l H K. destruct a as [x| | |]; cbn in *; auto.
  - destruct H as (y & -> & HR). cbn. apply K; auto.
  - intro M. rewrite (H M). reflexivity.
  - intro M. rewrite (H M). reflexivity.
Qed.
Lemma rrel_mono : forall A B m (R Q : A -> B -> Prop) a b,
  (forall x y, R x y -> Q x y) -> rrel m R a b -> rrel m Q a b.
Proof.
  intros A B m R Q [x| | |] b H K; cbn in *; auto. destruct K as (y & -> & HR); eauto.
Qed.
Lemma rrel_eq_refl : forall A m (a : res A), rrel m eq a a.
Proof. intros A m [x| | |]; cbn; eauto. Qed.
Lemma rrel_true : forall A (a b : res A), rrel true eq a b <-> rle a b.
Proof.
  intros A a b. unfold rle. destruct a as [x| | |]; cbn; split; intro H.
  - destruct H as (y & -> & ->). reflexivity.
  - exists x; split; auto. apply H; discriminate.
  - intros _; auto.
  - intros _; apply H; discriminate.
  - intro N; destruct N; reflexivity.
  - exact I.
  - intros _; auto.
  - intros _; apply H; discriminate.
Qed.
Lemma rle_rrel : forall A m (a b : res A), rle a b -> rrel m eq a b.
Proof.
  intros A m a b H. destruct a as [x| | |]; cbn; auto.
  - exists x; split; auto. apply H; discriminate.
  - intros _; apply H; discriminate.
  - intros _; apply H; discriminate.
Qed.
Lemma rrel_ok : forall A m (a b : res A) x, rrel m eq a b -> a = ROk x -> b = ROk x.
Proof. intros A m a b x H ->. cbn in H. destruct H as (y & -> & ->). reflexivity. Qed.
Lemma rrel_of_opt : forall A m (a b : option A),
  (forall x, a = Some x -> b = Some x) -> rrel m eq (of_opt a) (of_opt b).
Proof. intros A m [x|] b H; cbn; auto. exists x. rewrite (H x eq_refl). auto. Qed.

(** ** Replacing the operands of an instruction. *)
Definition vsim (e e' : env) (v v' : value) : Prop :=
  (forall t x, eval_as e t v = Some x -> eval_as e' t v' = Some x) /\
  (forall x, eval_any e v = Some x -> eval_any e' v' = Some x).

(** The values standing in use position, and the place bases. *)
Definition ivals (i : minstr) : list value :=
  let pv p := flat_map (fun x => match x with PIdx v => [v] | _ => [] end) (pl_projs p) in
  match i with
  | IAssign _ s _ | IUnary _ _ s | ICast _ s _ _ => [s]
  | IBinary _ _ l r | IAssertEq l r => [l; r]
  | ICall _ _ args _ => args
  | ILoad _ p _ => pv p
  | IStore p v _ => v :: pv p
  | IDebug _ vs => vs
  | INop => []
  | IPhi _ _ ss => map snd ss
  | IMakeTuple _ es | IMakeArray _ es _ _ => es
  | IExtractTuple _ t _ _ => [t]
  | IMakeStruct _ fs _ => map snd fs
  | IExtractField _ s _ _ => [s]
  | IInsertField _ s _ n _ | IInsertTuple _ s _ n _ => [s; n]
  | IAlloc _ c => [c]
  end.
Definition ibases (i : minstr) : list nat :=
  match i with ILoad _ p _ | IStore p _ _ => [pl_base p] | _ => [] end.
Definition tvals (t : term) : list value :=
  match t with
  | TJump _ | TUnreachable => []
  | TIf c _ _ => [c]
  | TCmp _ l r _ _ => [l; r]
  | TReturn vs => vs
  end.

Lemma uses_ivals : forall i v, In v (uses i) <->
  (exists w, In w (ivals i) /\ In v (val_ids w)) \/ In v (ibases i).
Proof.
  assert (PL : forall p v, In v (place_ids p) <->
    (exists w, In w (flat_map (fun x => match x with PIdx v => [v] | _ => [] end) (pl_projs p))
               /\ In v (val_ids w)) \/ pl_base p = v).
  { intros [b ps] v. unfold place_ids. cbn [pl_base pl_projs]. cbn [In].
    rewrite in_flat_map. split.
    - intros [H|(x & Hx & Hv)]; auto. destruct x as [w| |]; cbn in Hv; try contradiction.
      left. exists w. split; auto. apply in_flat_map. exists (PIdx w). cbn; auto.
    - intros [(w & Hw & Hv)|H]; auto. apply in_flat_map in Hw.
      destruct Hw as (x & Hx & Hw). destruct x as [w'| |]; cbn in Hw; try contradiction.
      destruct Hw as [->|[]]. right. exists (PIdx w). cbn; auto. }
  intros i v. destruct i; cbn [uses ivals ibases]; unfold vals_ids;
    repeat rewrite in_app_iff; repeat rewrite in_flat_map; rewrite ?PL; cbn [In];
    clear PL.
  all: split; [intro H | intros [(w & Hw & Hv)|Hb]];
    repeat match goal with
    | H : _ \/ _ |- _ => destruct H
    | H : exists _, _ |- _ => destruct H
    | H : _ /\ _ |- _ => destruct H
    | H : False |- _ => destruct H
    end; subst; eauto 6.
Qed.

Lemma omap_impl : forall A B (f : A -> option B) g l r,
  (forall a b, In a l -> f a = Some b -> g a = Some b) -> omap f l = Some r -> omap g l = Some r.
Proof.
  induction l as [|a l IH]; intros r H E; cbn in *; auto.
  destruct (f a) eqn:Ea; [|discriminate]. destruct (omap f l) eqn:El; [|discriminate].
  rewrite (H a _ (or_introl eq_refl) Ea), (IH _ (fun x y hx => H x y (or_intror hx)) eq_refl). exact E.
Qed.
Lemma omap_map : forall A B C (f : B -> option C) (g : A -> B) l,
  omap f (map g l) = omap (fun a => f (g a)) l.
Proof. induction l; cbn; auto. rewrite IHl. reflexivity. Qed.

Lemma eval_list_sim : forall e e' fv ts vs r,
  (forall v, In v vs -> vsim e e' v (fv v)) ->
  eval_list e ts vs = Some r -> eval_list e' ts (map fv vs) = Some r.
Proof.
  induction ts as [|t ts IH]; intros [|v vs] r H E; cbn in *; try discriminate; auto.
  destruct (eval_as e t v) eqn:Ev; [|discriminate].
  destruct (eval_list e ts vs) eqn:El; [|discriminate].
  rewrite (proj1 (H v (or_introl eq_refl)) _ _ Ev), (IH vs _ (fun w h => H w (or_intror h)) El).
  exact E.
Qed.
Lemma eval_bin_sim : forall m e e' op l r l' r',
  vsim e e' l l' -> vsim e e' r r' -> rrel m eq (eval_bin e op l r) (eval_bin e' op l' r').
Proof.
  intros m e e' op l r l' r' [L1 L2] [R1 R2]. unfold eval_bin, eval_opnd.
  apply rrel_bind with (R := eq).
  { apply rrel_of_opt. destruct (op_type op); auto. }
  intros a ? _ _ <-. apply rrel_bind with (R := eq).
  { apply rrel_of_opt. destruct (op_type op); auto. }
  intros b ? _ _ <-. apply rrel_eq_refl.
Qed.
Lemma eval_projs_sim : forall e e' fv ps r,
  (forall v, In v (flat_map (fun x => match x with PIdx v => [v] | _ => [] end) ps) -> vsim e e' v (fv v)) ->
  omap (eval_proj e) ps = Some r -> omap (eval_proj e') (map (pmap fv) ps) = Some r.
Proof.
  intros e e' fv ps r H E. rewrite omap_map. revert E. apply omap_impl.
  intros p b Hp Ep. destruct p as [v| |]; cbn in *; auto.
  assert (Hv : vsim e e' v (fv v)).
  { apply H. apply in_flat_map. exists (PIdx v). cbn; auto. }
  destruct (eval_as e TFelt v) eqn:Ev; [|discriminate].
  rewrite (proj1 Hv _ _ Ev). exact Ep.
Qed.
Lemma eval_fields_sim : forall e e' fv fts fs r,
  (forall v, In v (map snd fs) -> vsim e e' v (fv v)) ->
  eval_fields e fts fs = Some r ->
  eval_fields e' fts (map (fun f => (fst f, fv (snd f))) fs) = Some r.
Proof.
  intros e e' fv fts fs r H E. unfold eval_fields in *. rewrite map_length.
  destruct (Nat.eqb (length fs) (length fts)); [|discriminate]. revert E. apply omap_impl.
  intros [n t] b Hp Ep. cbn [fst snd] in *.
  assert (F : forall v, find_field n fs = Some v ->
    find_field n (map (fun f => (fst f, fv (snd f))) fs) = Some (fv v) /\ In v (map snd fs)).
  { clear. induction fs as [|[m w] fs IH]; intros v Hv; cbn in *; [discriminate|].
    destruct (String.eqb n m); [injection Hv as <-; auto|]. destruct (IH _ Hv); auto. }
  destruct (find_field n fs) as [v|]; [|discriminate]. destruct (F v eq_refl) as [-> Iv].
  destruct (eval_as e t v) eqn:Ev; [|discriminate].
  rewrite (proj1 (H v Iv) _ _ Ev). exact Ep.
Qed.

Ltac step_eq := apply rrel_bind with (R := eq); [|intros ? ? _ _ <-].
Ltac one_eq := step_eq; [|apply rrel_eq_refl].

Lemma effect_sim : forall S (W : world S) m tys tys' fv fb e e' s i,
  (forall v, In v (ivals i) -> vsim e e' v (fv v)) ->
  (forall b x, In b (ibases i) -> e b = Some x -> e' (fb b) = Some x /\ tys' (fb b) = tys b) ->
  (forall d es, i = IMakeTuple d es -> tys' d = tys d) ->
  rrel m eq (effect W tys e s i) (effect W tys' e' s (imap fv fb i)).
Proof.
  intros S W m tys tys' fv fb e e' s i HV HB HT.
  destruct i; cbn [imap effect]; cbn [ivals] in HV; cbn [ibases] in HB.
  - one_eq. apply rrel_of_opt. apply HV; left; reflexivity.
  - one_eq. step_eq; [|apply rrel_eq_refl]. apply rrel_of_opt. apply HV; left; reflexivity.
  - one_eq. apply eval_bin_sim; apply HV; cbn; auto.
  - step_eq; [|apply rrel_eq_refl]. apply rrel_of_opt. intros x Hx. eapply eval_list_sim; eauto.
  - destruct source_type; try exact I. destruct target_type; try exact I.
    one_eq. step_eq; [|apply rrel_eq_refl]. apply rrel_of_opt. apply HV; left; reflexivity.
  - unfold plmap; cbn [pl_base pl_projs].
    apply rrel_bind with (R := fun x y => y = x /\ tys' (fb (pl_base pl)) = tys (pl_base pl)).
    { destruct (e (pl_base pl)) as [x|] eqn:E; cbn; auto.
      destruct (HB _ _ (or_introl eq_refl) E) as [H1 H2]. rewrite H1. exists x; auto. }
    intros x ? _ _ [-> ->]. step_eq.
    { apply rrel_of_opt. intros r Hr. eapply eval_projs_sim; eauto. }
    one_eq. apply rrel_eq_refl.
  - unfold plmap; cbn [pl_base pl_projs].
    apply rrel_bind with (R := fun x y => y = x /\ tys' (fb (pl_base pl)) = tys (pl_base pl)).
    { destruct (e (pl_base pl)) as [x|] eqn:E; cbn; auto.
      destruct (HB _ _ (or_introl eq_refl) E) as [H1 H2]. rewrite H1. exists x; auto. }
    intros x ? _ _ [-> ->]. step_eq.
    { apply rrel_of_opt. intros r Hr. eapply eval_projs_sim; eauto.
      intros w Hw. apply HV. right; exact Hw. }
    step_eq. { apply rrel_of_opt. apply HV; left; reflexivity. }
    apply rrel_eq_refl.
  - exact I.
  - apply rrel_eq_refl.
  - exact I.
  - rewrite (HT _ _ eq_refl). destruct (tys dest) as [t|]; [|exact I]. destruct t; try exact I.
    one_eq. step_eq; [|apply rrel_eq_refl]. apply rrel_of_opt. intros x Hx. eapply eval_list_sim; eauto.
  - one_eq. step_eq; [|apply rrel_eq_refl]. apply rrel_of_opt. apply HV; left; reflexivity.
  - destruct struct_ty; try exact I. one_eq. step_eq; [|apply rrel_eq_refl].
    apply rrel_of_opt. intros x Hx. eapply eval_fields_sim; eauto.
  - one_eq. step_eq; [|apply rrel_eq_refl]. apply rrel_of_opt. apply HV; left; reflexivity.
  - destruct struct_ty; try exact I. one_eq.
    step_eq; [apply rrel_of_opt; apply HV; left; reflexivity|].
    step_eq; [apply rrel_eq_refl|].
    step_eq; [apply rrel_of_opt; apply HV; right; left; reflexivity|apply rrel_eq_refl].
  - destruct tuple_ty; try exact I. one_eq.
    step_eq; [apply rrel_of_opt; apply HV; left; reflexivity|].
    step_eq; [apply rrel_eq_refl|].
    step_eq; [apply rrel_of_opt; apply HV; right; left; reflexivity|apply rrel_eq_refl].
  - step_eq; [|apply rrel_eq_refl]. apply rrel_of_opt. intros r Hr. rewrite omap_map.
    revert Hr. apply omap_impl. intros v b Hv. apply HV; auto.
  - step_eq; [apply rrel_of_opt; apply HV; left; reflexivity|].
    step_eq; [apply rrel_of_opt; apply HV; right; left; reflexivity|apply rrel_eq_refl].
  - step_eq; [|apply rrel_eq_refl]. apply rrel_of_opt. apply HV; left; reflexivity.
Qed.

(** Same operands in environments that agree on what is used. *)
Lemma vsim_agree : forall e e' v, (forall i, In i (val_ids v) -> e' i = e i) -> vsim e e' v v.
Proof.
  intros e e' [l|i|] H; split; intros; auto; cbn in *.
  - rewrite (H i); auto.
  - rewrite (H i); auto.
Qed.
Lemma imap_id : forall i, imap (fun v => v) (fun b => b) i = i.
Proof.
  assert (M : forall A (l : list A), map (fun x => x) l = l) by (intros; apply map_id).
  assert (M2 : forall A B (l : list (A * B)), map (fun s => (fst s, snd s)) l = l).
  { induction l as [|[a b] l IH]; cbn; congruence. }
  assert (MP : forall p, plmap (fun v => v) (fun b => b) p = p).
  { intros [b ps]. unfold plmap; cbn. f_equal. induction ps as [|[]]; cbn; congruence. }
  destruct i; cbn; rewrite ?M, ?M2, ?MP; reflexivity.
Qed.
Lemma effect_agree : forall S (W : world S) m tys tys' e e' s i,
  (forall v, In v (uses i) -> e' v = e v) ->
  (forall b, In b (ibases i) -> tys' b = tys b) ->
  (forall d es, i = IMakeTuple d es -> tys' d = tys d) ->
  rrel m eq (effect W tys e s i) (effect W tys' e' s i).
Proof.
  intros S W m tys tys' e e' s i H HB HT.
  rewrite <- (imap_id i) at 2. apply effect_sim; auto.
  - intros v Hv. apply vsim_agree. intros j Hj. apply H. apply uses_ivals. left; eauto.
  - intros b x Hb E. split; auto. rewrite H; auto. apply uses_ivals; auto.
Qed.

Lemma truth_sim_agree : forall e e' v, (forall i, In i (val_ids v) -> e' i = e i) -> truth e' v = truth e v.
Proof. intros e e' [[]|i|] H; cbn in *; auto. rewrite (H i); auto. Qed.

(** ** Binding. *)
Lemma bind_all_get : forall ds e vs e1, bind_all e ds vs = Some e1 ->
  forall v, ~ In v ds -> e1 v = e v.
Proof.
  induction ds as [|d ds IH]; intros e [|x vs] e1 H v Hv; cbn in H; try discriminate.
  - injection H as <-; auto.
  - rewrite (IH _ _ _ H v); [|intro; apply Hv; right; auto]. unfold upd.
    destruct (Nat.eqb_spec v d); auto. destruct Hv; left; auto.
Qed.
Lemma bind_all_sim : forall ds e e' vs e1, bind_all e ds vs = Some e1 ->
  exists e1', bind_all e' ds vs = Some e1' /\
    (forall v, In v ds -> e1' v = e1 v) /\ (forall v, ~ In v ds -> e1' v = e' v).
Proof.
  induction ds as [|d ds IH]; intros e e' [|x vs] e1 H; cbn in H |- *; try discriminate.
  - injection H as <-. exists e'. repeat split; auto. intros v [].
  - destruct (IH _ (upd e' d x) _ _ H) as (e1' & E & H1 & H2). exists e1'. split; [auto|].
    split.
    + intros v Hv. destruct (in_dec Nat.eq_dec v ds) as [I|N]; auto.
      destruct Hv as [->|Hv]; [|contradiction]. rewrite H2 by auto.
      rewrite (bind_all_get _ _ _ _ H v N). unfold upd. rewrite Nat.eqb_refl. reflexivity.
    + intros v Hv. rewrite H2 by (intro; apply Hv; right; auto). unfold upd.
      destruct (Nat.eqb_spec v d); auto. destruct Hv; left; auto.
Qed.

(** ** Well-formed phi placement (function.rs 225-240, [validate]: phis come first). *)
Definition phis_first (f : func) : Prop :=
  forall b, In b (f_blocks f) -> forallb (fun i => negb (is_phi i)) (snd (span_phi (b_instrs b))) = true.
Definition nphis (b : block) : nat := length (fst (span_phi (b_instrs b))).

Lemma span_phi_app : forall is, is =
  map (fun p => IPhi (fst (fst p)) (snd (fst p)) (snd p)) (fst (span_phi is)) ++ snd (span_phi is).
Proof.
  induction is as [|i is IH]; [reflexivity|]. destruct i; try reflexivity.
  cbn. f_equal. exact IH.
Qed.
Lemma span_nophi : forall is, forallb (fun i => negb (is_phi i)) is = true -> span_phi is = ([], is).
Proof. intros [|[] is] H; try reflexivity. discriminate. Qed.
Lemma nth_rest : forall blk k i,
  nth_error (snd (span_phi (b_instrs blk))) k = Some i ->
  nth_error (b_instrs blk) (nphis blk + k) = Some i.
Proof.
  intros blk k i H. unfold nphis. rewrite (span_phi_app (b_instrs blk)) at 1.
  rewrite nth_error_app2; rewrite map_length; [|lia].
  replace (_ - _)%nat with k by lia. exact H.
Qed.
Lemma nphis_len : forall blk, (nphis blk + length (snd (span_phi (b_instrs blk))) = length (b_instrs blk))%nat.
Proof.
  intro blk. unfold nphis. rewrite (span_phi_app (b_instrs blk)) at 3.
  rewrite app_length, map_length. reflexivity.
Qed.

Section Sim.
  Variables (f g : func) (m : bool) (X : nat -> Prop) (I : nat -> nat -> env -> Prop).
  (** The worlds considered. *)
  Variable okW : forall S, world S -> Prop.

  (** The target environment agrees with the source one except on dropped values. *)
  Definition erel (e e' : env) : Prop := forall v, ~ X v -> e' v = e v.

  Definition keep_ok (b pos : nat) (i i' : minstr) : Prop :=
    is_phi i = false /\ is_phi i' = false /\ dests i' = dests i /\
    forall S (W : world S) s e e', okW S W -> I b pos e -> erel e e' ->
      rrel m eq (effect W (f_types f) e s i) (effect W (f_types g) e' s i').
  Definition drop_ok (b pos : nat) (i : minstr) : Prop :=
    is_phi i = false /\ (forall d, In d (dests i) -> X d) /\
    forall S (W : world S) s e, okW S W -> I b pos e ->
      match effect W (f_types f) e s i with
      | ROk r => snd r = s
      | RStuck => True
      | _ => m = false
      end.
  Definition phi_ok (b : nat) (ph ph' : nat * ty * list (nat * value)) : Prop :=
    fst ph' = fst ph /\
    forall p blk e e' x, nth_error (f_blocks f) p = Some blk ->
      In b (targets (b_term blk)) -> I p (length (b_instrs blk)) e -> erel e e' ->
      phi_val e (Some p) ph = Some x -> phi_val e' (Some p) ph' = Some x.

  Inductive lsim (b : nat) : nat -> list minstr -> list minstr -> Prop :=
  | ls_nil pos : lsim b pos [] []
  | ls_phi pos d t ss ss' is js : phi_ok b (d, t, ss) (d, t, ss') -> lsim b (S pos) is js ->
      lsim b pos (IPhi d t ss :: is) (IPhi d t ss' :: js)
  | ls_phi_drop pos d t ss is js : X d -> lsim b (S pos) is js ->
      lsim b pos (IPhi d t ss :: is) js
  | ls_keep pos i i' is js : keep_ok b pos i i' -> lsim b (S pos) is js ->
      lsim b pos (i :: is) (i' :: js)
  | ls_drop pos i is js : drop_ok b pos i -> lsim b (S pos) is js -> lsim b pos (i :: is) js.

  Definition tsim (b : nat) (blk : block) (t' : term) : Prop :=
    forall e e', I b (length (b_instrs blk)) e -> erel e e' ->
      rrel m eq (exec_term e (map (f_types f) (f_rets f)) (b_term blk))
                (exec_term e' (map (f_types g) (f_rets g)) t').

  Inductive psim (b : nat) : list (nat * ty * list (nat * value)) -> list (nat * ty * list (nat * value)) -> Prop :=
  | ps_nil : psim b [] []
  | ps_keep ph ph' l l' : phi_ok b ph ph' -> psim b l l' -> psim b (ph :: l) (ph' :: l')
  | ps_drop ph l l' : X (fst (fst ph)) -> psim b l l' -> psim b (ph :: l) l'.

  Lemma lsim_nophi : forall b pos is js, lsim b pos is js ->
    forallb (fun i => negb (is_phi i)) is = true -> forallb (fun i => negb (is_phi i)) js = true.
  Proof.
    induction 1; intro F; cbn in *; auto; try discriminate.
    - apply andb_true_iff in F. destruct F. rewrite IHlsim by auto.
      destruct H as (_ & Hp & _). rewrite Hp. reflexivity.
    - apply andb_true_iff in F. destruct F; auto.
  Qed.

  Lemma lsim_split : forall b is pos js, lsim b pos is js ->
    forallb (fun i => negb (is_phi i)) (snd (span_phi is)) = true ->
    psim b (fst (span_phi is)) (fst (span_phi js)) /\
    lsim b (pos + length (fst (span_phi is))) (snd (span_phi is)) (snd (span_phi js)).
  Proof.
    induction is as [|i is IH]; intros pos js H F.
    - inversion H; subst. cbn. split; constructor.
    - destruct (is_phi i) eqn:Ei.
      + destruct i; try discriminate. cbn [span_phi fst snd] in *.
        assert (K : forall js', lsim b (S pos) is js' ->
           psim b (fst (span_phi is)) (fst (span_phi js')) /\
           lsim b (pos + S (length (fst (span_phi is)))) (snd (span_phi is)) (snd (span_phi js'))).
        { intros js' HL. destruct (IH _ _ HL F) as [A B]. rewrite Nat.add_succ_r. auto. }
        cbn [length]. inversion H as [| ? ? ? ? ? ? ? Q1 Q2 | ? ? ? ? ? ? Q1 Q2 | ? ? ? ? ? Q1 Q2 | ? ? ? ? Q1 Q2]; subst.
        * destruct (K _ Q2) as [A B]. cbn [span_phi fst snd]. split; [constructor; auto|]. exact B.
        * destruct (K _ Q2) as [A B]. split; [apply ps_drop; auto|]. exact B.
        * destruct Q1 as (Q & _). discriminate.
        * destruct Q1 as (Q & _). discriminate.
      + assert (E : span_phi (i :: is) = ([], i :: is)) by (destruct i; try discriminate; reflexivity).
        rewrite E in *. cbn [fst snd length] in *. rewrite Nat.add_0_r.
        pose proof (lsim_nophi _ _ _ _ H F) as G.
        rewrite (span_nophi _ G). cbn. split; [constructor|exact H].
  Qed.

  Hypothesis inv_step : forall S (W : world S) b blk pos i e s e1 s1, okW S W ->
    nth_error (f_blocks f) b = Some blk -> nth_error (b_instrs blk) pos = Some i ->
    is_phi i = false -> I b pos e -> exec W (f_types f) e s i = ROk (e1, s1) -> I b (Datatypes.S pos) e1.
  Hypothesis inv_edge : forall b blk b' blk' e e1,
    nth_error (f_blocks f) b = Some blk -> nth_error (f_blocks f) b' = Some blk' ->
    In b' (targets (b_term blk)) -> I b (length (b_instrs blk)) e ->
    enter e (Some b) (fst (span_phi (b_instrs blk'))) = Some e1 -> I b' (nphis blk') e1.
  Hypothesis inv_entry : forall blk args e,
    nth_error (f_blocks f) (f_entry f) = Some blk -> nphis blk = 0%nat ->
    bind_all (fun _ => None) (f_params f) args = Some e -> I (f_entry f) 0 e.
  Hypothesis Hphis : phis_first f.
  Hypothesis Hentry : f_entry g = f_entry f.
  Hypothesis Hparams : f_params g = f_params f.
  Hypothesis Hblocks : forall b blk, nth_error (f_blocks f) b = Some blk ->
    exists blk', nth_error (f_blocks g) b = Some blk' /\
      lsim b 0 (b_instrs blk) (b_instrs blk') /\ tsim b blk (b_term blk').

  Lemma exec_list_sim : forall S (W : world S) b blk js is pos, okW S W ->
    nth_error (f_blocks f) b = Some blk ->
    (forall k i, nth_error is k = Some i -> nth_error (b_instrs blk) (pos + k) = Some i) ->
    forallb (fun i => negb (is_phi i)) is = true ->
    lsim b pos is js ->
    forall e e' s, I b pos e -> erel e e' ->
      rrel m (fun x y => erel (fst x) (fst y) /\ snd x = snd y /\ I b (pos + length is) (fst x))
        (exec_list W (f_types f) e s is) (exec_list W (f_types g) e' s js).
  Proof.
    intros S W b blk js is pos HW Hb Hk F H.
    revert Hk F. induction H; intros Hk F e e' s HI HR.
    - cbn. rewrite Nat.add_0_r. eexists; split; [reflexivity|]. cbn; auto.
    - discriminate.
    - discriminate.
    - cbn [forallb] in F. apply andb_true_iff in F. destruct F as [_ F].
      destruct H as (P1 & P2 & PD & PE).
      assert (Hi : nth_error (b_instrs blk) pos = Some i).
      { specialize (Hk 0%nat i eq_refl). rewrite Nat.add_0_r in Hk. exact Hk. }
      cbn [exec_list].
      apply rrel_bind with (R := fun x y => erel (fst x) (fst y) /\ snd x = snd y).
      { unfold exec. apply rrel_bind with (R := eq); [apply PE; auto|].
        intros r ? Er _ <-. rewrite PD.
        destruct (bind_all e (dests i) (fst r)) as [e1|] eqn:E1; cbn; auto.
        destruct (bind_all_sim _ _ e' _ _ E1) as (e1' & E2 & Q1 & Q2).
        rewrite E2. cbn. eexists; split; [reflexivity|]. cbn. split; auto.
        intros v Nv. destruct (in_dec Nat.eq_dec v (dests i)); auto.
        rewrite Q2, (bind_all_get _ _ _ _ E1 v) by auto. apply HR; auto. }
      intros [e1 s1] [e1' s1'] Ex _ [HR1 Hs]. cbn in HR1, Hs. subst s1'.
      cbn [fst snd length]. rewrite <- plus_n_Sm.
      apply (IHlsim (fun k i0 h => eq_trans (f_equal (nth_error (b_instrs blk)) (plus_Sn_m pos k))
                        (eq_trans (f_equal (nth_error (b_instrs blk)) (plus_n_Sm pos k)) (Hk (Datatypes.S k) i0 h)))); auto.
      eapply inv_step; eauto.
    - cbn [forallb] in F. apply andb_true_iff in F. destruct F as [_ F].
      destruct H as (P1 & PX & PE).
      assert (Hi : nth_error (b_instrs blk) pos = Some i).
      { specialize (Hk 0%nat i eq_refl). rewrite Nat.add_0_r in Hk. exact Hk. }
      cbn [exec_list]. specialize (PE S W s e HW HI).
      destruct (exec W (f_types f) e s i) as [[e1 s1]| | |] eqn:Ex.
      + cbn [rbind fst snd length]. rewrite <- plus_n_Sm.
        pose proof Ex as Ex0. unfold exec in Ex.
        destruct (effect W (f_types f) e s i) as [r| | |]; try discriminate. cbn in Ex.
        destruct (bind_all e (dests i) (fst r)) as [e2|] eqn:E2; try discriminate.
        cbn in Ex. injection Ex as <- <-. rewrite PE.
        apply (IHlsim (fun k i0 h => eq_trans (f_equal (nth_error (b_instrs blk)) (plus_Sn_m pos k))
                        (eq_trans (f_equal (nth_error (b_instrs blk)) (plus_n_Sm pos k)) (Hk (Datatypes.S k) i0 h)))); auto.
        * eapply inv_step; eauto.
        * intros v Nv. rewrite (bind_all_get _ _ _ _ E2 v); auto.
      + cbn. unfold exec in Ex. destruct (effect W (f_types f) e s i) as [r| | |]; try discriminate.
        * cbn in Ex. destruct (bind_all e (dests i) (fst r)); discriminate.
        * intro; congruence.
      + exact Logic.I.
      + cbn. unfold exec in Ex. destruct (effect W (f_types f) e s i) as [r| | |]; try discriminate.
        * cbn in Ex. destruct (bind_all e (dests i) (fst r)); discriminate.
        * intro; congruence.
  Qed.

  Lemma bind_psim : forall b l l', psim b l l' ->
    forall p blk e0 e0' vs, nth_error (f_blocks f) p = Some blk -> In b (targets (b_term blk)) ->
    I p (length (b_instrs blk)) e0 -> erel e0 e0' ->
    omap (phi_val e0 (Some p)) l = Some vs ->
    exists vs', omap (phi_val e0' (Some p)) l' = Some vs' /\
      forall e e' e1, erel e e' -> bind_all e (map (fun q => fst (fst q)) l) vs = Some e1 ->
        exists e1', bind_all e' (map (fun q => fst (fst q)) l') vs' = Some e1' /\ erel e1 e1'.
  Proof.
    induction 1; intros p blk e0 e0' vs Hp Ht HI HR E.
    - cbn in E. injection E as <-. exists []. split; [reflexivity|].
      intros e e' e1 H1 H2. cbn in H2. injection H2 as <-. cbn; eauto.
    - cbn [omap] in E. destruct (phi_val e0 (Some p) ph) as [x|] eqn:Ex; [|discriminate E].
      destruct (omap (phi_val e0 (Some p)) l) as [xs|] eqn:El; [|discriminate E]. injection E as <-.
      destruct (IHpsim _ _ _ _ _ Hp Ht HI HR El) as (vs' & E' & K).
      destruct H as [Hd Hv].
      exists (x :: vs'). split.
      { cbn [omap]. rewrite (Hv _ _ _ _ _ Hp Ht HI HR Ex), E'. reflexivity. }
      intros e e' e1 H1 H2. cbn [map bind_all] in H2 |- *. rewrite <- Hd in H2.
      apply (K (upd e (fst (fst ph')) x)); auto.
      intros v Nv. unfold upd. destruct (Nat.eqb v (fst (fst ph'))); auto.
    - cbn [omap] in E. destruct (phi_val e0 (Some p) ph) as [x|] eqn:Ex; [|discriminate E].
      destruct (omap (phi_val e0 (Some p)) l) as [xs|] eqn:El; [|discriminate E]. injection E as <-.
      destruct (IHpsim _ _ _ _ _ Hp Ht HI HR El) as (vs' & E' & K).
      exists vs'. split; auto. intros e e' e1 H1 H2. cbn in H2. apply (K (upd e (fst (fst ph)) x)); auto.
      intros v Nv. unfold upd. destruct (Nat.eqb_spec v (fst (fst ph))); auto. congruence.
  Qed.

  Lemma body_sim : forall S (W : world S) b blk blk', okW S W ->
    nth_error (f_blocks f) b = Some blk -> nth_error (f_blocks g) b = Some blk' ->
    lsim b 0 (b_instrs blk) (b_instrs blk') -> tsim b blk (b_term blk') ->
    forall k,
    (forall b' e e' s, In b' (targets (b_term blk)) -> I b (length (b_instrs blk)) e -> erel e e' ->
       rrel m eq (run W f k (Some b) b' e s) (run W g k (Some b) b' e' s)) ->
    forall e e' s, I b (nphis blk) e -> erel e e' ->
    rrel m eq
      (rbind (exec_list W (f_types f) e s (snd (span_phi (b_instrs blk)))) (fun x =>
       rbind (exec_term (fst x) (map (f_types f) (f_rets f)) (b_term blk)) (fun n =>
       match n with NGo b' => run W f k (Some b) b' (fst x) (snd x) | NRet vs => ROk (vs, snd x) end)))
      (rbind (exec_list W (f_types g) e' s (snd (span_phi (b_instrs blk')))) (fun x =>
       rbind (exec_term (fst x) (map (f_types g) (f_rets g)) (b_term blk')) (fun n =>
       match n with NGo b' => run W g k (Some b) b' (fst x) (snd x) | NRet vs => ROk (vs, snd x) end))).
  Proof.
    intros S W b blk blk' HW Hb Hb' HL HT k IH e e' s HI HR.
    pose proof (Hphis blk (nth_error_In _ _ Hb)) as F.
    destruct (lsim_split _ _ _ _ HL F) as [HP HL'].
    apply rrel_bind with (R := fun x y => erel (fst x) (fst y) /\ snd x = snd y
                                /\ I b (length (b_instrs blk)) (fst x)).
    { eapply rrel_mono; [|apply (exec_list_sim S W b blk _ _ (nphis blk)); auto].
      - intros x y (A & B & C). rewrite nphis_len in C. auto.
      - intros j i Hj. apply nth_rest; auto. }
    intros [e1 s1] [e1' s1'] _ _ (R1 & <- & I1). cbn [fst snd] in *.
    apply rrel_bind with (R := eq); [apply HT; auto|].
    intros n ? En _ <-. destruct n as [b'|vs]; [|apply rrel_eq_refl].
    apply IH; auto.
    clear -En. destruct (b_term blk); cbn in *.
    - injection En as <-; auto.
    - apply rbind_ok in En. destruct En as (x & _ & E). injection E as <-. destruct x; auto.
    - destruct (branch_op op); [|discriminate]. apply rbind_ok in En. destruct En as (x & _ & E).
      destruct x; try discriminate. injection E as <-. destruct b; auto.
    - apply rbind_ok in En. destruct En as (x & _ & E). apply rbind_ok in E.
      destruct E as (y & _ & E). discriminate.
    - discriminate.
  Qed.

  Lemma run_sim : forall S (W : world S) fuel p blk b e e' s, okW S W ->
    nth_error (f_blocks f) p = Some blk -> In b (targets (b_term blk)) ->
    I p (length (b_instrs blk)) e -> erel e e' ->
    rrel m eq (run W f fuel (Some p) b e s) (run W g fuel (Some p) b e' s).
  Proof.
    intros S W fuel p blk b e e' s HW. revert p blk b e e' s.
    induction fuel as [|k IH]; intros p blk b e e' s Hp Hb HI HR.
    - cbn. auto.
    - cbn [run]. destruct (nth_error (f_blocks f) b) as [blk1|] eqn:E1; [|exact Logic.I].
      destruct (Hblocks _ _ E1) as (blk1' & E1' & HL & HT). rewrite E1'.
      pose proof (Hphis blk1 (nth_error_In _ _ E1)) as F.
      destruct (lsim_split _ _ _ _ HL F) as [HP _].
      apply rrel_bind with (R := fun x y => erel x y /\ I b (nphis blk1) x).
      { unfold enter at 1. destruct (omap (phi_val e (Some p)) _) as [vs|] eqn:Ev; [|exact Logic.I].
        destruct (bind_all e _ vs) as [e1|] eqn:Eb; [|exact Logic.I].
        destruct (bind_psim _ _ _ HP _ _ _ _ _ Hp Hb HI HR Ev) as (vs' & Ev' & K).
        destruct (K _ _ _ HR Eb) as (e1' & Eb' & R1).
        unfold enter. rewrite Ev', Eb'. cbn. eexists; split; [reflexivity|]. split; auto.
        apply (inv_edge p blk b blk1 e e1); auto. unfold enter. rewrite Ev. exact Eb. }
      intros e1 e1' _ _ [R1 I1].
      eapply body_sim; eauto.
  Qed.

  Theorem sim_calls : forall S (W : world S) fuel args s, okW S W ->
    rrel m eq (call_fn W f fuel args s) (call_fn W g fuel args s).
  Proof.
    intros S W fuel args s HW. unfold call_fn. rewrite Hparams, Hentry.
    destruct (bind_all (fun _ => None) (f_params f) args) as [e|] eqn:Ea; [|exact Logic.I].
    destruct fuel as [|k]; [cbn; auto|]. cbn [run].
    destruct (nth_error (f_blocks f) (f_entry f)) as [blk|] eqn:E1; [|exact Logic.I].
    destruct (Hblocks _ _ E1) as (blk' & E1' & HL & HT). rewrite E1'.
    pose proof (Hphis blk (nth_error_In _ _ E1)) as F.
    destruct (lsim_split _ _ _ _ HL F) as [HP _].
    destruct (fst (span_phi (b_instrs blk))) as [|ph l] eqn:Eph.
    - inversion HP; subst. cbn [enter omap map bind_all of_opt rbind].
      eapply body_sim; eauto.
      + intros b' e0 e0' s0 H1 H2 H3. eapply run_sim; eauto.
      + unfold nphis. rewrite Eph. eapply inv_entry; eauto. unfold nphis. rewrite Eph. reflexivity.
      + intros v _. reflexivity.
    - unfold enter at 1. cbn. exact Logic.I.
  Qed.
End Sim.
