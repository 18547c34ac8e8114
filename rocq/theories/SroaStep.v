(** Scalar replacement of aggregates: what one step does, and that it simulates. *)
From Coq Require Import ZArith Bool String List Lia.
From Verif Require Import M31 Isa Mir MirSem MirFacts MirLocalFacts MirSim MirSsa MirSsaFacts MirLegalFacts MirCopyFacts MirSroa SroaSpec SroaFacts.
Import ListNotations.
Open Scope nat_scope.

Section Does.
  Variables (f : func) (cross : list nat) (is : list minstr).

  Inductive does (st : states) (m : ids) : minstr -> list minstr -> states -> ids -> Prop :=
  | D_keep i : does st m i [i] st m
  | D_tuple d es ts : f_types f d = Some (TTuple ts) -> Forall2 (elem_typed f) ts es ->
      scalarizable (TTuple ts) = true -> ~ In d cross ->
      does st m (IMakeTuple d es) [] ((d, es) :: st) m
  | D_struct d fs n fts es : f_types f d = Some (TStruct n fts) -> NoDup (map fst fts) ->
      from_fields fs fts = Some es -> Forall2 (elem_typed f) (map snd fts) es ->
      scalarizable (TStruct n fts) = true -> ~ In d cross ->
      does st m (IMakeStruct d fs (TStruct n fts)) [] ((d, es) :: st) m
  | D_instup d s k w ts es et : st_get s st = Some es -> f_types f d = Some (TTuple ts) -> f_types f s = Some (TTuple ts) ->
      nth_error ts k = Some et -> elem_typed f et w ->
      does st m (IInsertTuple d (Op s) k w (TTuple ts)) [] ((d, set_nth k w es) :: st) m
  | D_insfld d s n w nm fts es k et : st_get s st = Some es -> f_types f d = Some (TStruct nm fts) -> f_types f s = Some (TStruct nm fts) ->
      find_field n fts = Some et -> position n fts = Some k -> nth_error (map snd fts) k = Some et -> elem_typed f et w ->
      does st m (IInsertField d (Op s) n w (TStruct nm fts)) [] ((d, set_nth k w es) :: st) m
  | D_assign d s t es : st_get s st = Some es -> f_types f d = Some t -> f_types f s = Some t -> agg_ty t = true ->
      does st m (IAssign d (Op s) t) [] ((d, es) :: st) m
  | D_extup d s k t es w ts : st_get s st = Some es -> nth_error es k = Some w -> f_types f s = Some (TTuple ts) ->
      nth_error ts k = Some t -> f_types f d = Some t ->
      does st m (IExtractTuple d (Op s) k t) (fst (take st d w t true)) (snd (take st d w t true)) m
  | D_exfld d s n t es w nm fts k : st_get s st = Some es -> nth_error es k = Some w -> f_types f s = Some (TStruct nm fts) ->
      position n fts = Some k -> nth_error (map snd fts) k = Some t -> f_types f d = Some t ->
      does st m (IExtractField d (Op s) n t) (fst (take st d w t true)) (snd (take st d w t true)) m
  | D_call ds c args ps args' out m' : call_args st m args ps = Some (args', out, m') ->
      forallb (fun ap => negb (is_agg (snd ap)) || op_has f (fst ap) (snd ap)) (combine args ps) = true ->
      does st m (ICall ds c args ps) (out ++ [ICall ds c args' ps]) st m'
  | D_store p u t es d out m' : st_get u st = Some es -> f_types f u = Some t -> materialize m es t = Some (d, out, m') ->
      does st m (IStore p (Op u) t) (out ++ [IStore p (Op d) t]) st m'.

  (** Tracked values are tuples and structs, and their state is not written through memory. *)
  Definition stat (st : states) : Prop := forall v es, st_get v st = Some es ->
    exists t ts, f_types f v = Some t /\ members t = Some ts /\ names_ok t /\ Forall2 (elem_typed f) ts es.
  Lemma stat_by_value : forall st v es, stat st -> st_get v st = Some es -> by_value (f_types f v) = true.
  Proof. intros st v es H G. destruct (H _ _ G) as (t & ts & -> & M & _). destruct t; try discriminate; reflexivity. Qed.

  Lemma basic_sc : forall d i, agg_instr f i = true -> makes d i = true -> basic f cross d i = true ->
    ~ In d cross /\ exists t, f_types f d = Some t /\ scalarizable t = true.
  Proof.
    assert (X : forall d, negb (mem_nat d cross) = true -> ~ In d cross).
    { intros d H K. apply mem_nat_iff in K. rewrite K in H. discriminate. }
    intros d i A M B. destruct i; cbn [makes basic agg_instr] in *; try discriminate; apply Nat.eqb_eq in M; subst.
    - destruct (f_types f d) as [[]|] eqn:E; try discriminate. apply andb_true_iff in B. destruct B. eauto.
    - apply andb_true_iff in B. destruct B as [B _]. apply andb_true_iff in B. destruct B as [B1 B2].
      destruct struct_ty; try discriminate A. apply andb_true_iff in A. destruct A as [A _]. apply andb_true_iff in A. destruct A as [A _].
      apply has_eq in A. rewrite A. eauto.
    - destruct (f_types f d) as [[]|] eqn:E; try discriminate. apply andb_true_iff in B. destruct B. eauto.
  Qed.
  Lemma can_sc : forall d, forallb (agg_instr f) is = true -> can_scalarize f cross is d = true ->
    ~ In d cross /\ exists t, f_types f d = Some t /\ scalarizable t = true.
  Proof.
    unfold can_scalarize. intros d A H. cbn [can] in H. destruct (mem_nat d []); [discriminate|].
    destruct (find (makes d) is) as [i|] eqn:E; [|discriminate]. destruct (basic f cross d i) eqn:B; [|discriminate].
    apply find_some in E. destruct E as [E1 E2]. rewrite forallb_forall in A. eapply basic_sc; eauto.
  Qed.

  Lemma chain_none : forall st p, st_get (pl_base p) st = None -> starts_const p = true ->
    chain f st (Op (pl_base p)) (pl_projs p) = None.
  Proof. intros st [b [|q ps]] H S; [discriminate|]. cbn [pl_base pl_projs chain] in *. rewrite H. reflexivity. Qed.
  Lemma store_none : forall st p v, st_get (pl_base p) st = None -> store_chain f st (Op (pl_base p)) (pl_projs p) v = None.
  Proof. intros st [b [|q ps]] v H; [reflexivity|]. cbn [pl_base pl_projs store_chain] in *. rewrite H. reflexivity. Qed.
  Lemma base_none : forall st p, stat st -> negb (by_value (f_types f (pl_base p))) = true -> st_get (pl_base p) st = None.
  Proof. intros st p H B. destruct (st_get (pl_base p) st) eqn:E; auto. rewrite (stat_by_value _ _ _ H E) in B. discriminate. Qed.

  Lemma step_does : forall st m i out st' m', stat st -> forallb (agg_instr f) is = true -> agg_instr f i = true ->
    (forall d es t c, i = IMakeArray d es t c -> st_get d st' = None) ->
    step f cross is st m i = Some (out, st', m') -> does st m i out st' m'.
  Proof.
    intros st m i out st' m' HS HA HI HK H.
    assert (KE : Some ([i], st, m) = Some (out, st', m') -> does st m i out st' m').
    { intro E. injection E as <- <- <-. constructor. }
    destruct i; cbn [step agg_instr] in *; try (apply KE; exact H).
    - destruct source as [l|s|]; try (apply KE; exact H). destruct (agg_ty t) eqn:Ea; [|apply KE; exact H].
      destruct (st_get s st) as [es|] eqn:Es; [|apply KE; exact H]. injection H as <- <- <-.
      assert (is_agg t = true) by (destruct t; auto). rewrite H in HI. cbn in HI. apply andb_true_iff in HI. destruct HI as [H1 H2].
      apply D_assign; auto; apply has_eq; auto.
    - destruct (call_args st m args params) as [[[args' o] m1]|] eqn:E; [|discriminate]. injection H as <- <- <-.
      apply D_call; auto.
    - pose proof (base_none _ _ HS HI) as B. destruct (starts_const pl) eqn:Es; [|apply KE; exact H].
      rewrite chain_none in H by auto. apply KE; exact H.
    - apply andb_true_iff in HI. destruct HI as [HB HT]. rewrite store_none in H by (apply base_none; auto).
      replace (if starts_const pl then @None states else None) with (@None states) in H by (destruct (starts_const pl); auto).
      destruct v as [l|u|]; try (apply KE; exact H). destruct (agg_ty t) eqn:Ea; [|apply KE; exact H].
      destruct (st_get u st) as [es|] eqn:Es; [|apply KE; exact H].
      destruct (materialize m es t) as [[[d o] m1]|] eqn:Em; [|discriminate]. injection H as <- <- <-.
      assert (is_agg t = true) by (destruct t; auto). rewrite H in HT. cbn in HT.
      apply D_store with (es := es); auto. apply has_eq; auto.
    - destruct (f_types f dest) as [[]|] eqn:Et; try (apply KE; exact H). destruct (scalarizable (TTuple ts) && negb (mem_nat dest cross) && tuple_ok f cross is dest) eqn:C; [|apply KE; exact H].
      injection H as <- <- <-. apply andb_true_iff in C. destruct C as [C _]. apply andb_true_iff in C. destruct C as [C1 C2].
      apply D_tuple with (ts := ts); auto. { apply all_have_typed; auto. }
      intro K. apply mem_nat_iff in K. rewrite K in C2. discriminate.
    - apply andb_true_iff in HI. destruct HI as [H1 H2]. apply has_eq in H1. destruct tuple as [l|s|]; try discriminate.
      destruct (f_types f s) as [[]|] eqn:Ets; try discriminate. destruct (nth_error ts index) as [et|] eqn:En; [|discriminate].
      apply ty_eqb_eq in H2. subst et.
      destruct (st_get s st) as [es|] eqn:Es; [|apply KE; exact H]. destruct (nth_error es index) as [w|] eqn:Ew; [|apply KE; exact H].
      injection H as <- <- <-. apply D_extup with (es := es) (ts := ts); auto.
    - destruct struct_ty as [| | |ts|nm fts| | | | | |]; try discriminate. apply andb_true_iff in HI. destruct HI as [HI H3]. apply andb_true_iff in HI. destruct HI as [H1 H2].
      apply has_eq in H1. destruct (can_scalarize f cross is dest) eqn:C; [|apply KE; exact H]. rewrite H1 in H.
      destruct (from_fields fields fts) as [es|] eqn:Ef; [|apply KE; exact H]. injection H as <- <- <-.
      destruct (can_sc _ HA C) as (C1 & t & C2 & C3). rewrite H1 in C2. injection C2 as <-.
      apply D_struct; auto. { apply distinct_NoDup; auto. } eapply fields_typed; eauto.
    - apply andb_true_iff in HI. destruct HI as [H1 H2]. apply has_eq in H1. destruct struct_val as [l|s|]; try discriminate.
      destruct (f_types f s) as [[| | | |nm fts| | | | | |]|] eqn:Ets; try discriminate. destruct (find_field field fts) as [et|] eqn:En; [|discriminate].
      apply ty_eqb_eq in H2. subst et. destruct (find_position _ _ _ En) as (k & P1 & P2). cbn [field_index] in H. rewrite P1 in H.
      destruct (st_get s st) as [es|] eqn:Es; [|apply KE; exact H]. destruct (nth_error es k) as [w|] eqn:Ew; [|apply KE; exact H].
      injection H as <- <- <-. apply D_exfld with (es := es) (nm := nm) (fts := fts) (k := k); auto.
    - destruct struct_val as [l|s|]; try (apply KE; exact H). destruct (st_get s st) as [es|] eqn:Es; [|apply KE; exact H].
      apply andb_true_iff in HI. destruct HI as [HI H3]. apply andb_true_iff in HI. destruct HI as [H1 H2].
      apply has_eq in H1. cbn in H2. apply has_eq in H2. destruct struct_ty as [| | | |nm fts| | | | | |]; try discriminate.
      destruct (find_field field fts) as [et|] eqn:En; [|discriminate]. destruct (find_position _ _ _ En) as (k & P1 & P2).
      cbn [field_index] in H. rewrite P1 in H. destruct (Nat.ltb k (length es)); [|apply KE; exact H]. injection H as <- <- <-.
      apply D_insfld with (et := et); auto. apply op_has_typed; auto.
    - destruct tuple_val as [l|s|]; try (apply KE; exact H). destruct (st_get s st) as [es|] eqn:Es; [|apply KE; exact H].
      apply andb_true_iff in HI. destruct HI as [HI H3]. apply andb_true_iff in HI. destruct HI as [H1 H2].
      apply has_eq in H1. cbn in H2. apply has_eq in H2. destruct tuple_ty as [| | |ts| | | | | | |]; try discriminate.
      destruct (nth_error ts index) as [et|] eqn:En; [|discriminate].
      destruct (Nat.ltb index (length es)); [|apply KE; exact H]. injection H as <- <- <-.
      apply D_instup with (et := et); auto. apply op_has_typed; auto.
    - destruct (f_types f dest) as [[]|] eqn:Et; try (apply KE; exact H).
      destruct (_ && negb (dynamic_use f is dest)); [|apply KE; exact H]. injection H as <- <- <-.
      specialize (HK _ _ _ _ eq_refl). cbn in HK. rewrite Nat.eqb_refl in HK. discriminate.
  Qed.

  Lemma take_cases : forall st d w t, 
    (exists u es, w = Op u /\ st_get u st = Some es /\ take st d w t true = ([], (d, es) :: st)) \/
    (take st d w t true = ([IAssign d w t], st) /\ forall u, w = Op u -> st_get u st = None).
  Proof.
    intros st d w t. unfold take. destruct w as [l|u|]; auto; try (right; split; [reflexivity|intros; discriminate]).
    destruct (st_get u st) eqn:E; [left; eauto 6|]. right. split; auto. intros v Q. congruence.
  Qed.

  Lemma stat_add : forall st d es t ts, stat st -> f_types f d = Some t -> members t = Some ts -> names_ok t ->
    Forall2 (elem_typed f) ts es -> stat ((d, es) :: st).
  Proof.
    intros st d es t ts H A B C D v xs G. cbn in G. destruct (Nat.eqb_spec v d) as [->|]; [injection G as <-; eauto 8 | eauto].
  Qed.
  Lemma does_stat : forall st m i out st' m', stat st -> does st m i out st' m' -> stat st'.
  Proof.
    intros st m i out st' m' H D. destruct D; auto.
    - eapply stat_add; eauto; cbn; auto.
    - eapply stat_add; eauto; cbn; auto.
    - destruct (H _ _ H0) as (t & ts0 & A1 & A2 & A3 & A4). rewrite H2 in A1. injection A1 as <-. injection A2 as <-.
      eapply stat_add; eauto; cbn; auto. eapply typed_set; eauto.
    - destruct (H _ _ H0) as (t & ts0 & A1 & A2 & A3 & A4). rewrite H2 in A1. injection A1 as <-. injection A2 as <-.
      eapply stat_add; eauto; cbn; auto. eapply typed_set; eauto.
    - destruct (H _ _ H0) as (t0 & ts0 & A1 & A2 & A3 & A4). rewrite H2 in A1. injection A1 as <-.
      eapply stat_add; eauto.
    - destruct (take_cases st d w t) as [(u & es0 & -> & G & ->)|[-> _]]; cbn [snd]; auto.
      destruct (H _ _ H0) as (t0 & ts0 & A1 & A2 & A3 & A4). rewrite H2 in A1. injection A1 as <-. injection A2 as <-.
      pose proof (typed_nth _ _ _ _ _ _ A4 H3 H1) as Tu. cbn in Tu.
      destruct (H _ _ G) as (t1 & ts1 & B1 & B2 & B3 & B4). rewrite Tu in B1. injection B1 as <-.
      eapply stat_add; eauto.
    - destruct (take_cases st d w t) as [(u & es0 & -> & G & ->)|[-> _]]; cbn [snd]; auto.
      destruct (H _ _ H0) as (t0 & ts0 & A1 & A2 & A3 & A4). rewrite H2 in A1. injection A1 as <-. injection A2 as <-.
      pose proof (typed_nth _ _ _ _ _ _ A4 H4 H1) as Tu. cbn in Tu.
      destruct (H _ _ G) as (t1 & ts1 & B1 & B2 & B3 & B4). rewrite Tu in B1. injection B1 as <-.
      eapply stat_add; eauto.
  Qed.

  Lemma set_ids : forall k w es u, In u (vals_ids (set_nth k w es)) -> In u (vals_ids es) \/ In u (val_ids w).
  Proof.
    unfold vals_ids. induction k as [|k IH]; intros w [|e es] u H; cbn in *; auto; apply in_app_or in H.
    - destruct H; auto. left. apply in_or_app; auto.
    - destruct H as [H|H]; [left; apply in_or_app; auto|]. destruct (IH _ _ _ H); auto. left. apply in_or_app; auto.
  Qed.
  Lemma from_ids : forall fs fts es u, from_fields fs fts = Some es -> In u (vals_ids es) -> In u (vals_ids (map snd fs)).
  Proof.
    unfold from_fields, vals_ids. induction fts as [|[n t] fts IH]; intros es u H K; cbn [omap] in H.
    - injection H as <-. destruct K.
    - cbn [fst] in H. destruct (find_field n fs) as [v|] eqn:E; [|discriminate].
      destruct (omap _ fts) as [es0|]; [|discriminate]. injection H as <-. cbn in K. apply in_app_or in K. destruct K as [K|K]; [|eauto].
      apply in_flat_map. exists v. split; auto. clear -E. induction fs as [|[m w] fs IH]; cbn in *; [discriminate|].
      destruct (String.eqb n m); [injection E as <-; auto | auto].
  Qed.
  Lemma nth_ids : forall es k w u, nth_error es k = Some w -> In u (val_ids w) -> In u (vals_ids es).
  Proof. intros es k w u N H. apply in_flat_map. exists w. split; auto. eapply nth_error_In; eauto. Qed.
  Lemma mention_cons : forall d es st u, In u (mention ((d, es) :: st)) -> u = d \/ In u (vals_ids es) \/ In u (mention st).
  Proof. intros d es st u H. unfold mention in H. cbn in H. destruct H as [H|H]; auto. apply in_app_or in H. tauto. Qed.

  Lemma does_mention : forall st m i out st' m', does st m i out st' m' ->
    forall u, In u (mention st') -> In u (mention st) \/ In u (uses i) \/ In u (dests i).
  Proof.
    intros st m i out st' m' D u. destruct D; intro I; auto; cbn [uses dests];
      try (destruct (take_cases st d w t) as [(u0 & es0 & -> & G & TE)|[TE _]]; rewrite TE in I; cbn [snd] in I; auto);
      apply mention_cons in I; destruct I as [->|[I|I]]; auto; try (right; right; left; reflexivity).
    - right; left. eapply from_ids; eauto.
    - apply set_ids in I. destruct I as [I|I]; [left; eapply mention_get; eauto | right; left; apply in_or_app; auto].
    - apply set_ids in I. destruct I as [I|I]; [left; eapply mention_get; eauto | right; left; apply in_or_app; auto].
    - left; eapply mention_get; eauto.
    - left; eapply mention_get; eauto.
    - left; eapply mention_get; eauto.
  Qed.
End Does.

Section Sim.
  Variables (f : func) (cross : list nat) (tys' : nat -> option ty) (K : list nat).
  Hypothesis Told : forall v, v < N f -> tys' v = f_types f v.
  Hypothesis KN : forall v, In v K -> v < N f.
  Notation erel := (erel f K).
  Notation inv := (inv f).
  Notation state_ok := (state_ok f).

  Definition post (st' : states) {S} (x y : env * S) : Prop := erel (fst x) (fst y) /\ snd x = snd y /\ inv st' (fst x).

  Lemma bind_post : forall S (W : world S) st e e1 s i i',
    rrel true eq (effect W (f_types f) e s i) (effect W tys' e1 s i') -> dests i' = dests i ->
    erel e e1 -> inv st e -> (forall v, In v (dests i) -> ~ In v (mention st)) ->
    rrel true (post st) (exec W (f_types f) e s i) (exec_list W tys' e1 s [i']).
  Proof.
    intros S W st e e1 s i i' HE HD HR HI HM. cbn [exec_list].
    assert (Q : rrel true (post st) (exec W (f_types f) e s i) (exec W tys' e1 s i')).
    { unfold exec. apply rrel_bind with (R := eq); [exact HE|]. intros r ? _ _ <-. rewrite HD.
      destruct (bind_all e (dests i) (fst r)) as [e2|] eqn:E2; cbn; auto.
      destruct (bind_all_sim _ _ e1 _ _ E2) as (e2' & E3 & Q1 & Q2). rewrite E3. cbn. eexists; split; [reflexivity|].
      split; cbn [fst snd]; [|split; [reflexivity|]].
      - intros v Lv Nv. destruct (in_dec Nat.eq_dec v (dests i)); auto.
        rewrite Q2, (bind_all_get _ _ _ _ E2 v) by auto. apply HR; auto.
      - eapply inv_agree; [exact HI|]. intros u Hu. eapply bind_all_get; [exact E2|]. intro I. apply (HM u I Hu). }
    destruct (exec W (f_types f) e s i) as [x| | |]; cbn in *; auto.
    - destruct Q as ([e2 s2] & -> & Q). cbn. eexists; split; [reflexivity|]. exact Q.
    - intro M. rewrite (Q M). reflexivity.
    - intro M. rewrite (Q M). reflexivity.
  Qed.

  Lemma keep_post : forall S (W : world S) st e e1 s i,
    instr_below (N f) i -> (forall u, In u (uses i) -> ~ In u K) ->
    erel e e1 -> inv st e -> (forall v, In v (dests i) -> ~ In v (mention st)) ->
    rrel true (post st) (exec W (f_types f) e s i) (exec_list W tys' e1 s [i]).
  Proof.
    intros S W st e e1 s i HB HU HR HI HM. apply bind_post; auto. apply effect_agree.
    - intros v Hv. apply HR; auto.
    - intros b Hb. apply Told. apply HB. right. apply uses_ivals. auto.
    - intros d es ->. apply Told. apply HB. left. cbn; auto.
  Qed.

  Lemma drop_post : forall S (W : world S) st' e e1 s i d,
    dests i = [d] -> In d K -> erel e e1 ->
    match effect W (f_types f) e s i with
    | ROk r => exists x, r = ([x], s) /\ inv st' (upd e d x)
    | RStuck => True
    | _ => False
    end ->
    rrel true (post st') (exec W (f_types f) e s i) (exec_list W tys' e1 s []).
  Proof.
    intros S W st' e e1 s i d HD HK HR H. unfold exec. destruct (effect W (f_types f) e s i) as [r| | |]; cbn; try contradiction; auto.
    destruct H as (x & -> & HI). rewrite HD. cbn. eexists; split; [reflexivity|]. split; cbn [fst snd]; auto.
    intros v Lv Nv. rewrite upd_other by congruence. auto.
  Qed.

  Lemma inv_upd : forall st e d x, inv st e -> ~ In d (mention st) -> inv st (upd e d x).
  Proof. intros st e d x H ND. eapply inv_agree; [exact H|]. intros u Hu. apply upd_other. congruence. Qed.

  Lemma state_upd : forall e d x es t ts vs, f_types f d = Some t -> members t = Some ts -> names_ok t ->
    eval_list e ts es = Some vs -> x = pack t vs -> Forall2 (elem_typed f) ts es -> ~ In d (vals_ids es) ->
    state_ok (upd e d x) d es.
  Proof.
    intros e d x es t ts vs A B C D -> F G. exists t, ts, vs. rewrite upd_same.
    rewrite (eval_list_agree e); auto 10. intros i Hi. apply upd_other. congruence.
  Qed.
  (** A value taken out of a tracked aggregate. *)
  Lemma take_post : forall S (W : world S) st e e1 s i d w t x,
    dests i = [d] -> f_types f d = Some t -> d < N f -> ~ In d (mention st) ->
    (forall u, In u (val_ids w) -> In u (mention st)) -> (forall u, In u (mention st) -> u < N f) ->
    elem_typed f t w ->
    incl (map fst (snd (take st d w t true))) K ->
    (forall u, In u (flat_map uses (fst (take st d w t true))) -> ~ In u K) ->
    inv st e -> erel e e1 -> eval_as e t w = Some x ->
    effect W (f_types f) e s i = ROk ([x], s) ->
    rrel true (post (snd (take st d w t true))) (exec W (f_types f) e s i) (exec_list W tys' e1 s (fst (take st d w t true))).
  Proof.
    intros S W st e e1 s i d w t x HD Td Ld Nd Wm Lm Tw IK Av HI HR Ex EE.
    destruct (take_cases st d w t) as [(u & es & -> & G & TE)|[TE _]]; rewrite TE in *; cbn [fst snd] in *.
    - eapply drop_post with (d := d); auto. { apply IK. left; auto. } rewrite EE. exists x. split; auto.
      apply inv_add; [apply inv_upd; auto|].
      destruct (HI _ _ G) as (t0 & ts & vs & A1 & A2 & A3 & A4 & A5 & A6). cbn in Tw. rewrite Tw in A1. injection A1 as <-.
      rewrite (shape_as _ _ _ _ A5) in Ex. destruct (shape t (pack t vs)); [|discriminate]. injection Ex as <-.
      eapply state_upd; eauto. intro K0. apply Nd. eapply mention_get; eauto.
    - apply bind_post; auto. { rewrite EE. cbn [effect]. rewrite (eval_as_agree e e1), Ex. { cbn. eauto. }
        intros u Hu. apply HR; auto. apply Av. cbn. rewrite app_nil_r. auto. }
      { intros v Hv. rewrite HD in Hv. destruct Hv as [<-|[]]. auto. }
  Qed.

  Theorem does_sim : forall S (W : world S) st m i out st' m', does f cross st m i out st' m' ->
    instr_below (N f) i -> (forall u, In u (mention st) -> u < N f) ->
    (forall v, In v (dests i) -> ~ In v (mention st)) -> (forall v, In v (uses i) -> ~ In v (dests i)) ->
    N f <= i_next m -> types_in tys' m' -> incl (map fst st') K ->
    (forall u, In u (flat_map uses out) -> ~ In u K) ->
    i_next m <= i_next m' /\ incl (i_types m) (i_types m') /\
    forall e e' s, inv st e -> erel e e' ->
      rrel true (post st') (exec W (f_types f) e s i) (exec_list W tys' e' s out).
  Proof.
    intros S W st m i out st' m' D HB HL HM HU Lm HT IK Av. pose proof D as D0. destruct D.
    - split; [auto|]. split; [apply incl_refl|]. intros e e' s HI HR. apply keep_post; auto.
      intros u Hu. apply Av. cbn. rewrite app_nil_r. auto.
    - split; [auto|]. split; [apply incl_refl|]. intros e e' s HI HR. eapply drop_post with (d := d); auto.
      { apply IK. left; auto. } cbn [effect]. rewrite H. destruct (eval_list e ts es) as [vs|] eqn:E; cbn; auto.
      eexists; split; [reflexivity|]. apply inv_add. { apply inv_upd; auto. apply HM; left; auto. }
      eapply state_upd; eauto; try reflexivity; cbn; auto. intro I. apply (HU d); [exact I|left; auto].
    - split; [auto|]. split; [apply incl_refl|]. intros e e' s HI HR. eapply drop_post with (d := d); auto.
      { apply IK. left; auto. } cbn [effect]. rewrite eval_fields_pick. destruct (Nat.eqb _ _); cbn [of_opt rbind]; auto.
      destruct (omap (pick e fs) fts) as [r|] eqn:E; cbn [of_opt rbind]; auto.
      destruct (fields_list _ _ _ _ _ H1 E) as (vs & V1 & ->). eexists; split; [reflexivity|].
      apply inv_add. { apply inv_upd; auto. apply HM; left; auto. }
      eapply state_upd; eauto; try reflexivity; cbn; auto. intro I. apply (HU d); [eapply from_ids; eauto|left; auto].
    - split; [auto|]. split; [apply incl_refl|]. intros e e' s0 HI HR. eapply drop_post with (d := d); auto.
      { apply IK. left; auto. } cbn [effect].
      destruct (HI _ _ H) as (t0 & ts0 & vs & A1 & A2 & A3 & A4 & A5 & A6). rewrite H1 in A1. injection A1 as <-. injection A2 as <-.
      unfold eval_any. rewrite A5. cbn [pack of_opt rbind]. rewrite H2. cbn [of_opt rbind].
      destruct (eval_as e et w) as [y|] eqn:Ey; cbn [of_opt rbind]; auto. destruct (nth_error vs k); cbn [rbind]; auto.
      eexists; split; [reflexivity|]. apply inv_add. { apply inv_upd; auto. apply HM; left; auto. }
      eapply state_upd; eauto; try reflexivity; cbn; auto.
      + eapply eval_list_set; eauto.
      + eapply typed_set; eauto.
      + intro I. apply set_ids in I. destruct I as [I|I].
        * apply (HM d); [left; auto|]. eapply mention_get; eauto.
        * apply (HU d); [cbn; right; exact I|left; auto].
    - split; [auto|]. split; [apply incl_refl|]. intros e e' s0 HI HR. eapply drop_post with (d := d); auto.
      { apply IK. left; auto. } cbn [effect].
      destruct (HI _ _ H) as (t0 & ts0 & vs & A1 & A2 & A3 & A4 & A5 & A6). rewrite H1 in A1. injection A1 as <-. injection A2 as <-.
      destruct (eval_list_len _ _ _ _ A4) as [_ Lv]. rewrite map_length in Lv.
      unfold eval_any. rewrite A5. cbn [pack of_opt rbind]. rewrite H2. cbn [of_opt rbind].
      destruct (eval_as e et w) as [y|] eqn:Ey; cbn [of_opt rbind]; auto. destruct (find_field n (combine _ vs)); cbn [rbind]; auto.
      eexists; split; [reflexivity|]. apply inv_add. { apply inv_upd; auto. apply HM; left; auto. }
      eapply state_upd; eauto; try reflexivity; cbn; auto.
      + eapply eval_list_set; eauto.
      + cbn. f_equal. apply position_set; auto.
      + eapply typed_set; eauto.
      + intro I. apply set_ids in I. destruct I as [I|I].
        * apply (HM d); [left; auto|]. eapply mention_get; eauto.
        * apply (HU d); [cbn; right; exact I|left; auto].
    - split; [auto|]. split; [apply incl_refl|]. intros e e' s0 HI HR. eapply drop_post with (d := d); auto.
      { apply IK. left; auto. } cbn [effect].
      destruct (HI _ _ H) as (t0 & ts0 & vs & A1 & A2 & A3 & A4 & A5 & A6). rewrite H1 in A1. injection A1 as <-.
      rewrite (shape_as _ _ _ _ A5). destruct (shape t (pack t vs)); cbn [of_opt rbind]; auto.
      eexists; split; [reflexivity|]. apply inv_add. { apply inv_upd; auto. apply HM; left; auto. }
      eapply state_upd; eauto. intro I. apply (HM d); [left; auto|]. eapply mention_get; eauto.
    - split; [auto|]. split; [apply incl_refl|]. intros e e' s0 HI HR.
      destruct (HI _ _ H) as (t0 & ts0 & vs & A1 & A2 & A3 & A4 & A5 & A6). rewrite H1 in A1. injection A1 as <-. injection A2 as <-.
      destruct (eval_list_nth _ _ _ _ _ _ A4 H0) as (t1 & x & B1 & B2 & B3). rewrite H2 in B1. injection B1 as <-.
      destruct (exec W (f_types f) e s0 (IExtractTuple d (Op s) k t)) eqn:EE; [| | |]; cycle 2.
      { exact I. }
      all: try (exfalso; unfold exec in EE; cbn [effect] in EE; unfold eval_any in EE; rewrite A5 in EE; cbn [pack of_opt rbind] in EE;
        rewrite B2 in EE; destruct (shape t x); cbn in EE; discriminate EE).
      rewrite <- EE. eapply take_post with (x := x); eauto; try reflexivity.
      + apply HB. left. left. reflexivity.
      + apply HM. left. reflexivity.
      + intros u Hu. eapply mention_get; eauto. right. eapply nth_ids; eauto.
      + eapply typed_nth; eauto.
      + unfold exec in EE. cbn [effect] in EE |- *. unfold eval_any in EE |- *. rewrite A5 in EE |- *. cbn [pack of_opt rbind] in EE |- *.
        rewrite B2 in EE |- *. destruct (shape t x); cbn in EE |- *; [reflexivity|discriminate EE].
    - split; [auto|]. split; [apply incl_refl|]. intros e e' s0 HI HR.
      destruct (HI _ _ H) as (t0 & ts0 & vs & A1 & A2 & A3 & A4 & A5 & A6). rewrite H1 in A1. injection A1 as <-. injection A2 as <-.
      destruct (eval_list_len _ _ _ _ A4) as [_ Lv]. rewrite map_length in Lv.
      destruct (eval_list_nth _ _ _ _ _ _ A4 H0) as (t1 & x & B1 & B2 & B3). rewrite H3 in B1. injection B1 as <-.
      pose proof (position_find _ _ _ vs _ Lv H2) as PF. rewrite B2 in PF.
      destruct (exec W (f_types f) e s0 (IExtractField d (Op s) n t)) eqn:EE; [| | |]; cycle 2.
      { exact I. }
      all: try (exfalso; unfold exec in EE; cbn [effect] in EE; unfold eval_any in EE; rewrite A5 in EE; cbn [pack of_opt rbind] in EE;
        rewrite PF in EE; destruct (shape t x); cbn in EE; discriminate EE).
      rewrite <- EE. eapply take_post with (x := x); eauto; try reflexivity.
      + apply HB. left. left. reflexivity.
      + apply HM. left. reflexivity.
      + intros u Hu. eapply mention_get; eauto. right. eapply nth_ids; eauto.
      + eapply typed_nth; eauto.
      + unfold exec in EE. cbn [effect] in EE |- *. unfold eval_any in EE |- *. rewrite A5 in EE |- *. cbn [pack of_opt rbind] in EE |- *.
        rewrite PF in EE |- *. destruct (shape t x); cbn in EE |- *; [reflexivity|discriminate EE].
    - assert (Av' : forall u, In u (vals_ids args') \/ In u (flat_map uses out) -> ~ In u K).
      { intros u Hu. apply Av. rewrite flat_map_app. apply in_or_app. destruct Hu; auto. right. cbn. rewrite app_nil_r. auto. }
      destruct (call_args_ok f tys' K Told KN S W st args ps m args' out m' H Lm H0) as (L & I1 & Sim); auto.
      split; [auto|]. split; [auto|]. intros e e' s HI HR. rewrite exec_app.
      destruct (eval_list e ps args) as [xs|] eqn:Ex.
      + destruct (Sim e e' s xs HI HR Ex) as (e1 & X1 & X2 & X3). rewrite X1. cbn [rbind fst snd].
        apply bind_post; auto.
        * cbn [effect]. rewrite Ex, X2. apply rrel_eq_refl.
        * intros v Lv Nv. rewrite X3 by lia. auto.
      + unfold exec at 1. cbn [effect]. rewrite Ex. exact Logic.I.
    - destruct (mat_ids _ _ _ _ _ _ H1) as (Dm & Nm & Tm).
      split; [lia|]. split. { rewrite Tm. intros y Hy. right; auto. } intros e e' s HI HR. rewrite exec_app.
      assert (AgK : forall u0, In u0 (vals_ids es) -> e' u0 = e u0).
      { intros u0 Hu. apply HR; [apply HL; eapply mention_get; eauto|]. apply Av.
        rewrite flat_map_app. apply in_or_app. left. eapply mat_uses; eauto. }
      destruct (materialize_ok f tys' S W e e' s m u es t d out m' (HI _ _ H) H0 H1 AgK) as (x & Ev & Ex1 & _ & _).
      { apply HT. rewrite Tm. left; auto. }
      rewrite Ex1. cbn [rbind fst snd]. apply bind_post; auto.
      + cbn [effect].
        assert (Lp : forall v, In v (place_ids p) -> v < N f) by (intros v Hv; apply HB; right; cbn [uses]; apply in_or_app; auto).
        assert (Ap : forall v, In v (place_ids p) -> upd e' d x v = e v).
        { intros v Hv. rewrite upd_other by (specialize (Lp v Hv); lia). apply HR; auto. apply Av.
          rewrite flat_map_app. apply in_or_app. right. cbn [flat_map uses]. rewrite app_nil_r. apply in_or_app. left. exact Hv. }
        rewrite (Ap (pl_base p)) by (left; auto). rewrite Told by (apply Lp; left; auto).
        step_eq; [apply rrel_eq_refl|]. step_eq.
        { apply rrel_of_opt. intros r Hr. rewrite <- Hr.
          assert (Q : forall ps, (forall v, In v (flat_map proj_ids ps) -> upd e' d x v = e v) -> omap (eval_proj (upd e' d x)) ps = omap (eval_proj e) ps).
          { induction ps as [|q ps IH]; intro A; cbn; auto. rewrite IH by (intros v Hv; apply A; cbn; apply in_or_app; auto).
            destruct q as [v0| |]; cbn [eval_proj]; auto. rewrite (eval_as_agree e); auto.
            intros v Hv. apply A. cbn. apply in_or_app; auto. }
          apply Q. intros v Hv. apply Ap. right. exact Hv. }
        step_eq.
        { rewrite (shape_as (upd e' d x) t d x) by apply upd_same. rewrite (shape_as e t u x) by auto. apply rrel_eq_refl. }
        apply rrel_eq_refl.
      + eapply erel_fresh; eauto. lia.
  Qed.
End Sim.
