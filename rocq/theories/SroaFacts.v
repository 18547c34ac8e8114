(** Scalar replacement of aggregates: one instruction at a time. *)
From Coq Require Import ZArith Bool String List Lia.
From Verif Require Import M31 Isa Mir MirSem MirFacts MirLocalFacts MirSim MirSsa MirSsaFacts MirCopyFacts MirSroa SroaSpec.
Import ListNotations.
Open Scope nat_scope.

(** ** Aggregates and their members. *)
Definition members (t : ty) : option (list ty) :=
  match t with TTuple ts => Some ts | TStruct _ fts => Some (map snd fts) | _ => None end.
Definition pack (t : ty) (vs : list val) : val :=
  match t with TStruct _ fts => VStr (combine (map fst fts) vs) | _ => VTup vs end.
Definition names_ok (t : ty) : Prop := match t with TStruct _ fts => NoDup (map fst fts) | _ => True end.
Definition elem_typed (f : func) (t : ty) (v : value) : Prop :=
  match v with Op u => f_types f u = Some t | _ => True end.

Lemma has_eq : forall f d t, has f d t = true -> f_types f d = Some t.
Proof. unfold has. intros f d t H. destruct (f_types f d); [|discriminate]. f_equal. apply ty_eqb_eq; auto. Qed.
Lemma op_has_typed : forall f v t, op_has f v t = true -> elem_typed f t v.
Proof. intros f [l|u|] t H; cbn in *; auto. apply has_eq; auto. Qed.
Lemma all_have_typed : forall f vs ts, all_have f vs ts = true -> Forall2 (elem_typed f) ts vs.
Proof.
  induction vs as [|v vs IH]; intros [|t ts] H; cbn in H; try discriminate; constructor.
  - apply andb_true_iff in H. apply op_has_typed; tauto.
  - apply andb_true_iff in H. apply IH; tauto.
Qed.
Lemma distinct_NoDup : forall l, distinct l = true -> NoDup l.
Proof.
  induction l as [|a l IH]; cbn; intro H; [constructor|]. apply andb_true_iff in H. destruct H as [A B].
  constructor; auto. intro K. apply negb_true_iff in A.
  assert (existsb (String.eqb a) l = true); [|congruence]. apply existsb_exists. exists a. rewrite String.eqb_refl; auto.
Qed.

Lemma eval_list_len : forall e ts vs xs, eval_list e ts vs = Some xs -> length vs = length ts /\ length xs = length ts.
Proof.
  induction ts as [|t ts IH]; intros [|v vs] xs H; cbn in H; try discriminate.
  - injection H as <-; auto.
  - destruct (eval_as e t v); [|discriminate]. destruct (eval_list e ts vs) eqn:E; [|discriminate].
    injection H as <-. destruct (IH _ _ E). cbn; auto.
Qed.
Lemma eval_list_nth : forall e ts vs xs k v, eval_list e ts vs = Some xs -> nth_error vs k = Some v ->
  exists t x, nth_error ts k = Some t /\ nth_error xs k = Some x /\ eval_as e t v = Some x.
Proof.
  induction ts as [|t ts IH]; intros [|v vs] xs k w H N; cbn in H; try discriminate; [destruct k; discriminate|].
  destruct (eval_as e t v) eqn:Ev; [|discriminate]. destruct (eval_list e ts vs) eqn:E; [|discriminate].
  injection H as <-. destruct k; cbn in N |- *.
  - injection N as <-. eauto.
  - eapply IH; eauto.
Qed.
Lemma eval_list_set : forall e ts vs xs k t v x, eval_list e ts vs = Some xs -> nth_error ts k = Some t ->
  eval_as e t v = Some x -> eval_list e ts (set_nth k v vs) = Some (set_nth k x xs).
Proof.
  induction ts as [|t ts IH]; intros [|v vs] xs k u w x H N E; cbn in H; try discriminate; [destruct k; discriminate|].
  destruct (eval_as e t v) eqn:Ev; [|discriminate]. destruct (eval_list e ts vs) eqn:El; [|discriminate].
  injection H as <-. destruct k; cbn in N |- *.
  - injection N as <-. rewrite E, El. reflexivity.
  - rewrite Ev, (IH _ _ _ _ _ _ El N E). reflexivity.
Qed.
Lemma eval_as_agree : forall e e' t v, (forall i, In i (val_ids v) -> e' i = e i) -> eval_as e' t v = eval_as e t v.
Proof. intros e e' t [l|i|] H; cbn in *; auto. rewrite (H i); auto. Qed.
Lemma eval_list_agree : forall e e' ts vs, (forall i, In i (vals_ids vs) -> e' i = e i) ->
  eval_list e' ts vs = eval_list e ts vs.
Proof.
  induction ts as [|t ts IH]; intros [|v vs] H; cbn; auto.
  rewrite (eval_as_agree e e'), IH; auto; intros i Hi; apply H; cbn; apply in_or_app; auto.
Qed.
Lemma typed_set : forall f ts vs k t v, Forall2 (elem_typed f) ts vs -> nth_error ts k = Some t -> elem_typed f t v ->
  Forall2 (elem_typed f) ts (set_nth k v vs).
Proof.
  intros f ts vs k t v H. revert k. induction H; intros [|k] N E; cbn in *; try discriminate; constructor; auto.
  injection N as <-. auto.
Qed.
Lemma typed_nth : forall f ts vs k t v, Forall2 (elem_typed f) ts vs -> nth_error ts k = Some t ->
  nth_error vs k = Some v -> elem_typed f t v.
Proof.
  intros f ts vs k t v H. revert k. induction H; intros [|k] N E; cbn in *; try discriminate; eauto.
  congruence.
Qed.

(** ** Fields by position. *)
Lemma find_position : forall n fts t, find_field n fts = Some t ->
  exists k, position n fts = Some k /\ nth_error (map snd fts) k = Some t.
Proof.
  induction fts as [|[m u] fts IH]; cbn; intros t H; [discriminate|].
  destruct (String.eqb n m).
  - injection H as <-. exists 0; auto.
  - destruct (IH _ H) as (k & -> & N). exists (S k); auto.
Qed.
Lemma position_find : forall A n (fts : list (string * ty)) (xs : list A) k, length xs = length fts ->
  position n fts = Some k -> find_field n (combine (map fst fts) xs) = nth_error xs k.
Proof.
  induction fts as [|[m u] fts IH]; intros [|x xs] k L H; cbn in *; try discriminate.
  destruct (String.eqb n m).
  - injection H as <-. reflexivity.
  - destruct (position n fts) as [j|] eqn:E; [|discriminate]. injection H as <-. cbn. apply IH; auto.
Qed.
Lemma position_set : forall A n (fts : list (string * ty)) (xs : list A) k x, length xs = length fts ->
  position n fts = Some k -> set_field n x (combine (map fst fts) xs) = combine (map fst fts) (set_nth k x xs).
Proof.
  induction fts as [|[m u] fts IH]; intros [|y xs] k x L H; cbn in *; try discriminate.
  destruct (String.eqb n m).
  - injection H as <-. reflexivity.
  - destruct (position n fts) as [j|] eqn:E; [|discriminate]. injection H as <-. cbn. f_equal. apply IH; auto.
Qed.

Definition pick (e : env) (fs : list (string * value)) (f : string * ty) : option (string * val) :=
  match find_field (fst f) fs with
  | Some v => match eval_as e (snd f) v with Some x => Some (fst f, x) | None => None end
  | None => None
  end.
Lemma eval_fields_pick : forall e fts fs, eval_fields e fts fs =
  if Nat.eqb (length fs) (length fts) then omap (pick e fs) fts else None.
Proof. reflexivity. Qed.

Lemma fields_list : forall e fs fts es r, from_fields fs fts = Some es -> omap (pick e fs) fts = Some r ->
  exists vs, eval_list e (map snd fts) es = Some vs /\ r = combine (map fst fts) vs.
Proof.
  unfold from_fields. induction fts as [|[n t] fts IH]; intros es r H E; cbn [omap] in *.
  - injection H as <-. injection E as <-. exists []. auto.
  - unfold pick at 1 in E. cbn [fst snd] in *. destruct (find_field n fs) as [v|]; [|discriminate H].
    destruct (omap (fun ft => find_field (fst ft) fs) fts) as [es0|]; [|discriminate H]. injection H as <-.
    destruct (eval_as e t v) as [x|] eqn:Ev; [|discriminate E].
    destruct (omap (pick e fs) fts) as [r0|]; [|discriminate E]. injection E as <-.
    destruct (IH _ _ eq_refl eq_refl) as (vs & A & B). exists (x :: vs). cbn. rewrite Ev, A, B. auto.
Qed.
Lemma fields_typed : forall f fs fts es, from_fields fs fts = Some es ->
  forallb (fun ft => match find_field (fst ft) fs with Some v => op_has f v (snd ft) | None => false end) fts = true ->
  Forall2 (elem_typed f) (map snd fts) es.
Proof.
  unfold from_fields. induction fts as [|[n t] fts IH]; intros es H E; cbn [omap forallb] in *.
  - injection H as <-. constructor.
  - cbn [fst snd] in *. destruct (find_field n fs) as [v|]; [|discriminate H].
    destruct (omap (fun ft => find_field (fst ft) fs) fts) as [es0|]; [|discriminate H]. injection H as <-.
    apply andb_true_iff in E. destruct E as [E1 E2]. cbn. constructor; [apply op_has_typed; auto|]. auto.
Qed.
Lemma combine_fields : forall e fts es vs, NoDup (map fst fts) -> eval_list e (map snd fts) es = Some vs ->
  eval_fields e fts (combine (map fst fts) es) = Some (combine (map fst fts) vs).
Proof.
  intros e fts es vs N E. rewrite eval_fields_pick. destruct (eval_list_len _ _ _ _ E) as [L1 L2].
  rewrite map_length in L1. rewrite combine_length, map_length, L1, Nat.min_id, Nat.eqb_refl. clear L1 L2.
  revert es vs N E. induction fts as [|[n t] fts IH]; intros [|v es] vs N E; cbn in E; try discriminate.
  - injection E as <-. reflexivity.
  - destruct (eval_as e t v) as [x|] eqn:Ev; [|discriminate]. destruct (eval_list e (map snd fts) es) as [xs|] eqn:El; [|discriminate].
    injection E as <-. cbn [map fst] in N. apply NoDup_cons_iff in N. destruct N as [N1 N2].
    cbn [map fst combine omap]. unfold pick at 1. cbn [fst snd find_field]. rewrite String.eqb_refl, Ev.
    assert (Q : omap (pick e ((n, v) :: combine (map fst fts) es)) fts = omap (pick e (combine (map fst fts) es)) fts).
    { assert (O : forall l, incl l fts -> omap (pick e ((n, v) :: combine (map fst fts) es)) l = omap (pick e (combine (map fst fts) es)) l).
      { induction l as [|[a u] l IHl]; intro I; cbn [omap]; auto. rewrite IHl by (intros y Hy; apply I; right; auto).
        unfold pick at 1 3. cbn [fst snd find_field]. destruct (String.eqb_spec a n) as [->|]; auto.
        destruct N1. apply (in_map fst fts (n, u)). apply I. left; auto. }
      apply O. apply incl_refl. }
    rewrite Q, (IH _ _ N2 El). reflexivity.
Qed.
Lemma fit_same : forall n es, length es = n -> fit n es = es.
Proof. intros n es <-. unfold fit. rewrite firstn_all, Nat.sub_diag. apply app_nil_r. Qed.

(** ** Executing lists. *)
Lemma exec_app : forall S (W : world S) tys is js e s,
  exec_list W tys e s (is ++ js) = rbind (exec_list W tys e s is) (fun x => exec_list W tys (fst x) (snd x) js).
Proof.
  induction is as [|i is IH]; intros js e s; cbn; auto. destruct (exec W tys e s i) as [[e1 s1]| | |]; cbn; auto.
Qed.
Lemma upd_same : forall e d x, upd e d x d = Some x.
Proof. intros. unfold upd. rewrite Nat.eqb_refl. reflexivity. Qed.
Lemma upd_other : forall e d x v, v <> d -> upd e d x v = e v.
Proof. intros. unfold upd. destruct (Nat.eqb_spec v d); congruence. Qed.

Definition mention (st : states) : list nat := flat_map (fun p => fst p :: vals_ids (snd p)) st.

Lemma st_get_in : forall v st es, st_get v st = Some es -> In (v, es) st.
Proof.
  induction st as [|[w xs] st IH]; cbn; intros es H; [discriminate|].
  destruct (Nat.eqb_spec v w) as [->|]; [injection H as <-; auto | right; auto].
Qed.
Lemma mention_get : forall v st es u, st_get v st = Some es -> u = v \/ In u (vals_ids es) -> In u (mention st).
Proof.
  intros v st es u H K. unfold mention. apply in_flat_map. exists (v, es). split; [apply st_get_in; auto|].
  cbn. intuition.
Qed.

Section Step.
  Variables (f : func) (tys' : nat -> option ty) (K : list nat).
  Definition N := f_next f.
  Hypothesis Told : forall v, v < N -> tys' v = f_types f v.
  Hypothesis KN : forall v, In v K -> v < N.

  Definition erel (e e' : env) : Prop := forall v, v < N -> ~ In v K -> e' v = e v.
  Definition state_ok (e : env) (v : nat) (es : list value) : Prop :=
    exists t ts vs, f_types f v = Some t /\ members t = Some ts /\ names_ok t /\
      eval_list e ts es = Some vs /\ e v = Some (pack t vs) /\ Forall2 (elem_typed f) ts es.
  Definition inv (st : states) (e : env) : Prop := forall v es, st_get v st = Some es -> state_ok e v es.

  Lemma state_ok_agree : forall e e1 v es, state_ok e v es -> e1 v = e v -> (forall u, In u (vals_ids es) -> e1 u = e u) -> state_ok e1 v es.
  Proof.
    intros e e1 v es (t & ts & vs & A1 & A2 & A3 & A4 & A5 & A6) H1 H2. exists t, ts, vs.
    rewrite (eval_list_agree e e1 ts es H2), H1. auto 10.
  Qed.
  Lemma inv_agree : forall st e e1, inv st e -> (forall u, In u (mention st) -> e1 u = e u) -> inv st e1.
  Proof.
    intros st e e1 H A v es G. eapply state_ok_agree; [apply H; eauto | |].
    - apply A. eapply mention_get; eauto.
    - intros u Hu. apply A. eapply mention_get; eauto.
  Qed.
  Lemma inv_add : forall st e d es, inv st e -> state_ok e d es -> inv ((d, es) :: st) e.
  Proof.
    intros st e d es H D v xs G. cbn in G. destruct (Nat.eqb_spec v d) as [->|]; [injection G as <-; auto | auto].
  Qed.

  (** *** Rebuilding an aggregate. *)
  Lemma materialize_ok : forall S (W : world S) e e' s m v es t d out m',
    state_ok e v es -> f_types f v = Some t -> materialize m es t = Some (d, out, m') ->
    (forall u, In u (vals_ids es) -> e' u = e u) -> tys' d = Some t ->
    exists x, e v = Some x /\ exec_list W tys' e' s out = ROk (upd e' d x, s) /\
      d = i_next m /\ m' = Ids (Datatypes.S d) ((d, t) :: i_types m).
  Proof.
    intros S W e e' s m v es t d out m' (t0 & ts & vs & A1 & A2 & A3 & A4 & A5 & A6) Ht M Ag Td.
    rewrite Ht in A1. injection A1 as <-. exists (pack t vs). split; auto.
    destruct (eval_list_len _ _ _ _ A4) as [L1 L2].
    destruct t; cbn [members] in A2; try discriminate A2; injection A2 as <-; cbn [materialize] in M;
      injection M as <- <- <-.
    - rewrite fit_same by auto. split; [|auto]. cbn [exec_list]. unfold exec. cbn [effect dests]. rewrite Td.
      rewrite (eval_list_agree e e' _ _ Ag), A4. reflexivity.
    - rewrite map_length in L1. rewrite fit_same by auto. split; [|auto]. cbn [exec_list]. unfold exec. cbn [effect dests].
      rewrite combine_fields with (vs := vs); auto. rewrite (eval_list_agree e e' _ _ Ag). auto.
  Qed.

  Lemma mat_ids : forall m es t d out m', materialize m es t = Some (d, out, m') ->
    d = i_next m /\ i_next m' = Datatypes.S d /\ i_types m' = (d, t) :: i_types m.
  Proof.
    intros m es t d out m' H. unfold materialize in H. destruct t; try (injection H as <- <- <-; auto).
    destruct (Nat.eqb _ _); [injection H as <- <- <-; auto | discriminate H].
  Qed.
  Lemma combine_snd : forall A B (l : list A) (r : list B), length r = length l -> map snd (combine l r) = r.
  Proof. induction l; intros [|b r] L; cbn in *; try discriminate; auto. f_equal; auto. Qed.
  Lemma mat_uses : forall e m v es t d out m' u, state_ok e v es -> f_types f v = Some t ->
    materialize m es t = Some (d, out, m') -> In u (vals_ids es) -> In u (flat_map uses out).
  Proof.
    intros e m v es t d out m' u (t0 & ts & vs & A1 & A2 & A3 & A4 & A5 & A6) Vt Em Hu.
    rewrite Vt in A1. injection A1 as <-. destruct (eval_list_len _ _ _ _ A4) as [L1 _].
    destruct t; cbn [members] in A2; try discriminate A2; injection A2 as <-; cbn [materialize] in Em;
      injection Em as <- <- <-; cbn [flat_map uses]; rewrite app_nil_r.
    - rewrite fit_same; auto.
    - rewrite map_length in L1. rewrite fit_same by auto. rewrite combine_snd by (rewrite map_length; auto). auto.
  Qed.

  Lemma erel_fresh : forall e e' d x, erel e e' -> N <= d -> erel e (upd e' d x).
  Proof. intros e e' d x H L v Hv Nv. rewrite upd_other by lia. auto. Qed.

  (** *** Arguments and returned values. *)
  Lemma shape_as : forall e t u x, e u = Some x -> eval_as e t (Op u) = (if shape t x then Some x else None).
  Proof. intros. cbn. rewrite H. reflexivity. Qed.

  Definition types_in (m : ids) : Prop := forall d t, In (d, t) (i_types m) -> tys' d = Some t.

  Lemma call_args_ok : forall S (W : world S) st args ps m args' out m',
    call_args st m args ps = Some (args', out, m') ->
    N <= i_next m ->
    forallb (fun ap => negb (is_agg (snd ap)) || op_has f (fst ap) (snd ap)) (combine args ps) = true ->
    (forall u, In u (vals_ids args) -> u < N) -> (forall u, In u (mention st) -> u < N) ->
    (forall u, In u (vals_ids args') \/ In u (flat_map uses out) -> ~ In u K) ->
    types_in m' ->
    i_next m <= i_next m' /\ incl (i_types m) (i_types m') /\
    forall e e' s xs, inv st e -> erel e e' -> eval_list e ps args = Some xs ->
    exists e1, exec_list W tys' e' s out = ROk (e1, s) /\ eval_list e1 ps args' = Some xs /\
      (forall v, v < i_next m -> e1 v = e' v).
  Proof.
    intros S W st args. induction args as [|a args IH]; intros ps m args' out m' C Lm Ty Lt Ln Av Tm'; cbn [call_args] in C.
    - injection C as <- <- <-. split; [auto|]. split; [apply incl_refl|]. intros e e' s xs HI HE E.
      exists e'. split; [reflexivity|]. split; auto. destruct ps; cbn in *; auto.
    - assert (LtA : forall u, In u (val_ids a) -> u < N) by (intros u Hu; apply Lt; cbn; apply in_or_app; auto).
      assert (LtR : forall u, In u (vals_ids args) -> u < N) by (intros u Hu; apply Lt; cbn; apply in_or_app; auto).
      assert (TyR : forallb (fun ap => negb (is_agg (snd ap)) || op_has f (fst ap) (snd ap)) (combine args (tl ps)) = true).
      { destruct ps as [|p ps]; cbn [combine tl] in *; [destruct args; reflexivity|]. cbn [forallb] in Ty. apply andb_true_iff in Ty. tauto. }
      set (here := match a, match ps with t :: _ => Some t | [] => None end with
                | Op v, Some t => if agg_ty t then match st_get v st with Some es => Some (es, t) | None => None end else None
                | _, _ => None end) in C.
      destruct here as [[es t]|] eqn:Eh; subst here.
      + destruct a as [l|v|]; try discriminate Eh. destruct ps as [|t0 ps]; [discriminate Eh|].
        destruct (agg_ty t0) eqn:Ea; [|discriminate Eh]. destruct (st_get v st) as [es0|] eqn:Es; [|discriminate Eh].
        injection Eh as -> ->. cbn [tl] in *.
        destruct (materialize m es t) as [[[d out1] m1]|] eqn:Em; [|discriminate C].
        destruct (call_args st m1 args ps) as [[[r' out2] m2]|] eqn:Ec; [|discriminate C]. injection C as <- <- <-.
        assert (Vt : f_types f v = Some t).
        { cbn [combine forallb fst snd] in Ty. apply andb_true_iff in Ty. destruct Ty as [Ty _].
          assert (is_agg t = agg_ty t) by (destruct t; reflexivity). rewrite H, Ea in Ty. cbn in Ty. apply has_eq; auto. }
        pose proof (mat_ids _ _ _ _ _ _ Em) as Im.
        destruct Im as (Dm & Nm1 & Tm1).
        assert (Uo : forall u, In u (vals_ids r') \/ In u (flat_map uses out2) -> ~ In u K).
        { intros u Hu. apply Av. destruct Hu as [Hu|Hu].
          - left. cbn. auto.
          - right. rewrite flat_map_app. apply in_or_app. auto. }
        destruct (IH ps m1 r' out2 m2 Ec ltac:(lia) TyR LtR Ln Uo Tm') as (L2 & I2 & Sim).
        split; [lia|]. split. { intros y Hy. apply I2. rewrite Tm1. right; auto. }
        intros e e' s xs HI HE E. cbn [eval_list] in E.
        destruct (eval_as e t (Op v)) as [x|] eqn:Ex; [|discriminate E].
        destruct (eval_list e ps args) as [xs0|] eqn:El; [|discriminate E]. injection E as <-.
        assert (AgK : forall u, In u (vals_ids es) -> e' u = e u).
        { intros u Hu. apply HE; [apply Ln; eapply mention_get; eauto|]. apply Av. right.
          rewrite flat_map_app. apply in_or_app. left.
          eapply mat_uses; eauto. }
        destruct (materialize_ok S W e e' s m v es t d out1 m1 (HI _ _ Es) Vt Em AgK) as (x' & Ev & Ex1 & _ & _).
        { apply Tm'. apply I2. rewrite Tm1. left; auto. }
        rewrite (shape_as _ _ _ _ Ev) in Ex. destruct (shape t x') eqn:Sh; [|discriminate Ex]. injection Ex as <-.
        destruct (Sim e (upd e' d x') s xs0 HI (erel_fresh e e' d x' HE ltac:(lia)) El) as (e1 & X1 & X2 & X3).
        exists e1. split; [rewrite exec_app, Ex1; cbn [rbind fst snd]; exact X1|]. split.
        * cbn [eval_list]. rewrite (shape_as e1 t d x'), Sh, X2; auto. rewrite X3 by lia. apply upd_same.
        * intros u Hu. rewrite X3 by lia. apply upd_other. lia.
      + destruct (call_args st m args (tl ps)) as [[[r' out2] m2]|] eqn:Ec; [|discriminate C]. injection C as <- <- <-.
        assert (Uo : forall u, In u (vals_ids r') \/ In u (flat_map uses out2) -> ~ In u K).
        { intros u [Hu|Hu]; apply Av; auto. left. cbn. apply in_or_app; auto. }
        destruct (IH (tl ps) m r' out2 m2 Ec Lm TyR LtR Ln Uo Tm') as (L2 & I2 & Sim).
        split; [auto|]. split; [auto|]. intros e e' s xs HI HE E.
        destruct ps as [|t ps]; [cbn in E; discriminate E|]. cbn [tl] in *. cbn [eval_list] in E.
        destruct (eval_as e t a) as [x|] eqn:Ex; [|discriminate E].
        destruct (eval_list e ps args) as [xs0|] eqn:El; [|discriminate E]. injection E as <-.
        destruct (Sim e e' s xs0 HI HE El) as (e1 & X1 & X2 & X3). exists e1. split; auto. split; auto.
        cbn [eval_list]. rewrite (eval_as_agree e e1), Ex, X2; auto.
        intros u Hu. rewrite X3 by (specialize (LtA u Hu); lia). apply HE; auto. apply Av. left. cbn. apply in_or_app; auto.
  Qed.

  Lemma ret_vals_ok : forall S (W : world S) st vs m vs' out m',
    ret_vals f st m vs = Some (vs', out, m') ->
    N <= i_next m ->
    (forall u, In u (vals_ids vs) -> u < N) -> (forall u, In u (mention st) -> u < N) ->
    (forall u, In u (vals_ids vs') \/ In u (flat_map uses out) -> ~ In u K) ->
    types_in m' ->
    i_next m <= i_next m' /\ incl (i_types m) (i_types m') /\
    forall e e' s ts xs, inv st e -> erel e e' -> eval_list e ts vs = Some xs ->
    exists e1, exec_list W tys' e' s out = ROk (e1, s) /\ eval_list e1 ts vs' = Some xs /\
      (forall v, v < i_next m -> e1 v = e' v).
  Proof.
    intros S W st vs. induction vs as [|a vs IH]; intros m vs' out m' C Lm Lt Ln Av Tm'; cbn [ret_vals] in C.
    - injection C as <- <- <-. split; [auto|]. split; [apply incl_refl|]. intros e e' s ts xs HI HE E.
      exists e'. split; [reflexivity|]. split; auto. destruct ts; cbn in *; auto.
    - assert (LtA : forall u, In u (val_ids a) -> u < N) by (intros u Hu; apply Lt; cbn; apply in_or_app; auto).
      assert (LtR : forall u, In u (vals_ids vs) -> u < N) by (intros u Hu; apply Lt; cbn; apply in_or_app; auto).
      set (here := match a with
                | Op u => match st_get u st, f_types f u with Some es, Some t => Some (es, t) | _, _ => None end
                | _ => None end) in C.
      destruct here as [[es t]|] eqn:Eh; subst here.
      + destruct a as [l|v|]; try discriminate Eh.
        destruct (st_get v st) as [es0|] eqn:Es; [|discriminate Eh].
        destruct (f_types f v) as [t0|] eqn:Vt; [|discriminate Eh]. injection Eh as -> ->.
        destruct (materialize m es t) as [[[d out1] m1]|] eqn:Em; [|discriminate C].
        destruct (ret_vals f st m1 vs) as [[[r' out2] m2]|] eqn:Ec; [|discriminate C]. injection C as <- <- <-.
        destruct (mat_ids _ _ _ _ _ _ Em) as (Dm & Nm1 & Tm1).
        assert (Uo : forall u, In u (vals_ids r') \/ In u (flat_map uses out2) -> ~ In u K).
        { intros u Hu. apply Av. destruct Hu as [Hu|Hu].
          - left. cbn. auto.
          - right. rewrite flat_map_app. apply in_or_app. auto. }
        destruct (IH m1 r' out2 m2 Ec ltac:(lia) LtR Ln Uo Tm') as (L2 & I2 & Sim).
        split; [lia|]. split. { intros y Hy. apply I2. rewrite Tm1. right; auto. }
        intros e e' s ts xs HI HE E. destruct ts as [|tr ts]; [discriminate E|]. cbn [eval_list] in E.
        destruct (eval_as e tr (Op v)) as [x|] eqn:Ex; [|discriminate E].
        destruct (eval_list e ts vs) as [xs0|] eqn:El; [|discriminate E]. injection E as <-.
        assert (AgK : forall u, In u (vals_ids es) -> e' u = e u).
        { intros u Hu. apply HE; [apply Ln; eapply mention_get; eauto|]. apply Av. right.
          rewrite flat_map_app. apply in_or_app. left. eapply mat_uses; eauto. }
        destruct (materialize_ok S W e e' s m v es t d out1 m1 (HI _ _ Es) Vt Em AgK) as (x' & Ev & Ex1 & _ & _).
        { apply Tm'. apply I2. rewrite Tm1. left; auto. }
        rewrite (shape_as _ _ _ _ Ev) in Ex. destruct (shape tr x') eqn:Sh; [|discriminate Ex]. injection Ex as <-.
        destruct (Sim e (upd e' d x') s ts xs0 HI (erel_fresh e e' d x' HE ltac:(lia)) El) as (e1 & X1 & X2 & X3).
        exists e1. split; [rewrite exec_app, Ex1; cbn [rbind fst snd]; exact X1|]. split.
        * cbn [eval_list]. rewrite (shape_as e1 tr d x'), Sh, X2; auto. rewrite X3 by lia. apply upd_same.
        * intros u Hu. rewrite X3 by lia. apply upd_other. lia.
      + destruct (ret_vals f st m vs) as [[[r' out2] m2]|] eqn:Ec; [|discriminate C]. injection C as <- <- <-.
        assert (Uo : forall u, In u (vals_ids r') \/ In u (flat_map uses out2) -> ~ In u K).
        { intros u [Hu|Hu]; apply Av; auto. left. cbn. apply in_or_app; auto. }
        destruct (IH m r' out2 m2 Ec Lm LtR Ln Uo Tm') as (L2 & I2 & Sim).
        split; [auto|]. split; [auto|]. intros e e' s ts xs HI HE E.
        destruct ts as [|t ts]; [cbn in E; discriminate E|]. cbn [eval_list] in E.
        destruct (eval_as e t a) as [x|] eqn:Ex; [|discriminate E].
        destruct (eval_list e ts vs) as [xs0|] eqn:El; [|discriminate E]. injection E as <-.
        destruct (Sim e e' s ts xs0 HI HE El) as (e1 & X1 & X2 & X3). exists e1. split; auto. split; auto.
        cbn [eval_list]. rewrite (eval_as_agree e e1), Ex, X2; auto.
        intros u Hu. rewrite X3 by (specialize (LtA u Hu); lia). apply HE; auto. apply Av. left. cbn. apply in_or_app; auto.
  Qed.
End Step.
