(** Scalar replacement of aggregates: functions that do not nest aggregates. *)
From Coq Require Import ZArith Bool String List Lia.
From Verif Require Import M31 Isa Mir MirSem MirFacts MirLocalFacts MirSim MirSsa MirSsaFacts MirLegalFacts MirCopyFacts MirSroa SroaSpec SroaFacts SroaStep SroaRun SroaWhole.
Import ListNotations.
Open Scope nat_scope.

Lemma plain_id : forall f v u, plain f v = true -> In u (val_ids v) -> by_value (f_types f u) = false.
Proof. intros f [|i|] u H I; cbn in I; try contradiction. destruct I as [<-|[]]. apply negb_true_iff. exact H. Qed.
Lemma plain_ids : forall f vs u, forallb (plain f) vs = true -> In u (vals_ids vs) -> by_value (f_types f u) = false.
Proof. intros f vs u H I. apply in_flat_map in I. destruct I as (v & Hv & I). rewrite forallb_forall in H. eapply plain_id; eauto. Qed.
Lemma Forall2_length : forall A B (R : A -> B -> Prop) l r, Forall2 R l r -> length l = length r.
Proof. induction 1; cbn; auto. Qed.
Lemma agg_same : forall t, agg_ty t = is_agg t.
Proof. destruct t; reflexivity. Qed.
Lemma get_none : forall f st u, stat f st -> by_value (f_types f u) = false -> st_get u st = None.
Proof. intros f st u H B. destruct (st_get u st) eqn:E; auto. rewrite (stat_by_value _ _ _ _ H E) in B. discriminate. Qed.

Definition plain_st (f : func) (st : states) : Prop := forall v es, st_get v st = Some es -> forallb (plain f) es = true.

Lemma fit_ids : forall n es u, In u (vals_ids (fit n es)) -> In u (vals_ids es).
Proof.
  unfold fit, vals_ids. intros n es u H. rewrite flat_map_app in H. apply in_app_or in H. destruct H as [H|H].
  - apply in_flat_map in H. destruct H as (v & Hv & H). apply in_flat_map. exists v. split; auto.
    clear -Hv. revert es Hv. induction n; intros [|e es] H; cbn in *; try contradiction. destruct H; auto.
  - apply in_flat_map in H. destruct H as (v & Hv & H). apply repeat_spec in Hv. subst. destruct H.
Qed.
Lemma combine_ids : forall A (l : list A) vs u, In u (vals_ids (map snd (combine l vs))) -> In u (vals_ids vs).
Proof.
  unfold vals_ids. induction l as [|a l IH]; intros [|v vs] u H; cbn in *; try contradiction.
  apply in_app_or in H. apply in_or_app. destruct H; auto.
Qed.
Lemma mat_use : forall m es t d out m' u, materialize m es t = Some (d, out, m') -> In u (flat_map uses out) -> In u (vals_ids es).
Proof.
  intros m es t d out m' u H I. unfold materialize in H.
  destruct t; try destruct (Nat.eqb _ _); try discriminate H; injection H as <- <- <-; cbn [flat_map uses] in I;
    rewrite ?app_nil_r in I; try contradiction; auto.
  - eapply fit_ids; eauto.
  - eapply fit_ids. eapply combine_ids; eauto.
Qed.

Section Flat.
  Variables (f : func) (cross : list nat).

  (** What is used after a step: values that were used before and are not tracked, or new. *)
  Definition okuse (st : states) (m : ids) (us : list nat) (v : nat) : Prop :=
    by_value (f_types f v) = true -> (In v us /\ st_get v st = None) \/ i_next m <= v.

  Lemma call_use : forall st, stat f st -> plain_st f st -> forall args ps m args' out m',
    call_args st m args ps = Some (args', out, m') -> length args = length ps ->
    forallb (fun ap => plain f (fst ap) || is_agg (snd ap)) (combine args ps) = true ->
    forall v, In v (vals_ids args') \/ In v (flat_map uses out) -> okuse st m (vals_ids args) v.
  Proof.
    intros st HS HP. induction args as [|a args IH]; intros [|p ps] m args' out m' C L FA v Hv B; try discriminate L; cbn [call_args] in C.
    - injection C as <- <- <-. destruct Hv as [[]|[]].
    - cbn [tl] in C. cbn [combine forallb fst snd] in FA. apply andb_true_iff in FA. destruct FA as [Fa Fr]. injection L as L.
      assert (R : forall m0 r' o' m2, call_args st m0 args ps = Some (r', o', m2) -> i_next m <= i_next m0 ->
         In v (vals_ids r') \/ In v (flat_map uses o') ->
         (In v (vals_ids (a :: args)) /\ st_get v st = None) \/ i_next m <= v).
      { intros m0 r' o' m2 E Le Hv'. destruct (IH _ _ _ _ _ E L Fr v Hv' B) as [[A1 A2]|A]; [left|right; lia].
        split; auto. cbn. apply in_or_app; auto. }
      destruct (match a with Op v => if agg_ty p then match st_get v st with Some es => Some (es, p) | None => None end else None | _ => None end) as [[es t]|] eqn:H.
      + destruct (materialize m es t) as [[[d o] m1]|] eqn:E; [|discriminate].
        destruct (call_args st m1 args ps) as [[[r' o'] m2]|] eqn:F; [|discriminate]. injection C as <- <- <-.
        pose proof (g_next _ _ _ (mat_grows _ _ _ _ _ _ E)) as Gn. destruct (mat_ids _ _ _ _ _ _ E) as (Ed & _ & _).
        rewrite flat_map_app, in_app_iff in Hv. cbn in Hv. destruct Hv as [[Hv|Hv]|[Hv|Hv]].
        * right. lia.
        * eapply R; eauto.
        * exfalso. destruct a as [|u|]; try discriminate H. destruct (agg_ty p); [|discriminate]. destruct (st_get u st) as [es0|] eqn:G; [|discriminate].
          injection H as -> ->. rewrite (plain_ids f es v) in B; [discriminate|eapply HP; eauto|eapply mat_use; eauto].
        * eapply R; eauto.
      + destruct (call_args st m args ps) as [[[r' o'] m2]|] eqn:F; [|discriminate]. injection C as <- <- <-.
        change (vals_ids (a :: r')) with (val_ids a ++ vals_ids r') in Hv. rewrite in_app_iff in Hv. destruct Hv as [[Hv|Hv]|Hv]; [|eapply R; eauto..].
        destruct a as [|u|]; cbn in Hv; try contradiction. destruct Hv as [<-|[]]. left. split; [left; auto|].
        rewrite agg_same in H. destruct (st_get u st) as [es|] eqn:G; auto. exfalso.
        apply orb_true_iff in Fa. destruct Fa as [Fa|Fa].
        * cbn in Fa. rewrite B in Fa. discriminate.
        * rewrite Fa in H. discriminate.
  Qed.
  Lemma ret_use : forall st, stat f st -> plain_st f st -> forall vs m vs' out m',
    ret_vals f st m vs = Some (vs', out, m') ->
    forall v, In v (vals_ids vs') \/ In v (flat_map uses out) -> okuse st m (vals_ids vs) v.
  Proof.
    intros st HS HP. induction vs as [|a vs IH]; intros m args' out m' C v Hv B; cbn [ret_vals] in C.
    - injection C as <- <- <-. destruct Hv as [[]|[]].
    - assert (R : forall m0 r' o' m2, ret_vals f st m0 vs = Some (r', o', m2) -> i_next m <= i_next m0 ->
         In v (vals_ids r') \/ In v (flat_map uses o') ->
         (In v (vals_ids (a :: vs)) /\ st_get v st = None) \/ i_next m <= v).
      { intros m0 r' o' m2 E Le Hv'. destruct (IH _ _ _ _ E v Hv' B) as [[A1 A2]|A]; [left|right; lia].
        split; auto. cbn. apply in_or_app; auto. }
      destruct (match a with Op u => match st_get u st, f_types f u with Some es, Some t => Some (es, t) | _, _ => None end | _ => None end) as [[es t]|] eqn:H.
      + destruct (materialize m es t) as [[[d o] m1]|] eqn:E; [|discriminate].
        destruct (ret_vals f st m1 vs) as [[[r' o'] m2]|] eqn:F; [|discriminate]. injection C as <- <- <-.
        pose proof (g_next _ _ _ (mat_grows _ _ _ _ _ _ E)) as Gn. destruct (mat_ids _ _ _ _ _ _ E) as (Ed & _ & _).
        rewrite flat_map_app, in_app_iff in Hv. cbn in Hv. destruct Hv as [[Hv|Hv]|[Hv|Hv]].
        * right. lia.
        * eapply R; eauto.
        * exfalso. destruct a as [|u|]; try discriminate H. destruct (st_get u st) as [es0|] eqn:G; [|discriminate].
          destruct (f_types f u); [|discriminate]. injection H as -> ->.
          rewrite (plain_ids f es v) in B; [discriminate|eapply HP; eauto|eapply mat_use; eauto].
        * eapply R; eauto.
      + destruct (ret_vals f st m vs) as [[[r' o'] m2]|] eqn:F; [|discriminate]. injection C as <- <- <-.
        change (vals_ids (a :: r')) with (val_ids a ++ vals_ids r') in Hv. rewrite in_app_iff in Hv. destruct Hv as [[Hv|Hv]|Hv]; [|eapply R; eauto..].
        destruct a as [|u|]; cbn in Hv; try contradiction. destruct Hv as [<-|[]]. left. split; [left; auto|].
        destruct (st_get u st) as [es|] eqn:G; auto. exfalso. destruct (HS _ _ G) as (t & ts & T & _). rewrite T in H. discriminate.
  Qed.

  Lemma projs_plain : forall ps u, forallb (fun q => match q with PIdx w => plain f w | _ => true end) ps = true ->
    In u (flat_map proj_ids ps) -> by_value (f_types f u) = false.
  Proof.
    intros ps u H I. apply in_flat_map in I. destruct I as (q & Hq & I). rewrite forallb_forall in H. specialize (H _ Hq).
    destruct q; cbn in I; try contradiction. eapply plain_id; eauto.
  Qed.

  Lemma step_use : forall is st m i out st' m', stat f st -> plain_st f st -> agg_instr f i = true -> flat_instr f i = true ->
    is_phi i = false -> step f cross is st m i = Some (out, st', m') ->
    forall v, In v (flat_map uses out) -> okuse st m (seen_uses i) v.
  Proof.
    intros is st m i out st' m' HS HP HA HF NP H v Hv B.
    assert (NB : forall P : Prop, by_value (f_types f v) = false -> P) by (intros P Q; rewrite Q in B; discriminate).
    assert (KE : (forall u, In u (uses i) -> by_value (f_types f u) = true -> In u (seen_uses i) /\ st_get u st = None) ->
      Some ([i], st, m) = Some (out, st', m') -> (In v (seen_uses i) /\ st_get v st = None) \/ i_next m <= v).
    { intros Q E. injection E as <- <- <-. cbn in Hv. rewrite app_nil_r in Hv. left. auto. }
    assert (KP : (forall u, In u (uses i) -> by_value (f_types f u) = false) ->
      Some ([i], st, m) = Some (out, st', m') -> (In v (seen_uses i) /\ st_get v st = None) \/ i_next m <= v).
    { intros Q E. apply KE; [|exact E]. intros u Hu Bu. rewrite Q in Bu by auto. discriminate. }
    assert (ND : forall d es, Some ([], (d, es) :: st, m) = Some (out, st', m') -> (In v (seen_uses i) /\ st_get v st = None) \/ i_next m <= v).
    { intros d es E. injection E as <- <- <-. destruct Hv. }
    assert (TK : forall d w t b, plain f w = true -> Some (fst (take st d w t b), snd (take st d w t b), m) = Some (out, st', m') ->
      (In v (seen_uses i) /\ st_get v st = None) \/ i_next m <= v).
    { intros d w t b Pw E. assert (As : out = [IAssign d w t] -> (In v (seen_uses i) /\ st_get v st = None) \/ i_next m <= v).
      { intros ->. cbn in Hv. rewrite app_nil_r in Hv. apply NB. eapply plain_id; eauto. }
      unfold take in E. destruct w as [|u|]; try (injection E as <- <- <-; auto; fail).
      destruct (st_get u st); [|injection E as <- <- <-; auto]. destruct b; [|injection E as <- <- <-; auto]. injection E as <- <- <-. destruct Hv. }
    destruct i; cbn [step agg_instr flat_instr is_phi seen_uses] in *; try discriminate NP.
    - (* assign *) assert (X : (forall u, source = Op u -> st_get u st = None) -> forall u, In u (uses (IAssign dest source t)) -> by_value (f_types f u) = true -> In u (val_ids source) /\ st_get u st = None).
      { intros Q u Hu _. split; auto. destruct source; cbn in Hu; try contradiction; destruct Hu as [<-|[]]; auto. }
      destruct source as [|u|]; try (apply KE; [apply X; intros; discriminate|exact H]).
      destruct (agg_ty t) eqn:Ea.
      + destruct (st_get u st) eqn:G; [eapply ND; eauto|]. apply KE; [|exact H]. apply X. intros ? Q. injection Q as <-. auto.
      + apply KE; [|exact H]. apply X. intros ? Q. injection Q as <-. rewrite agg_same in Ea. rewrite Ea in HF. rewrite orb_false_r in HF.
        apply (get_none f); auto. eapply plain_id; [exact HF|left; auto].
    - apply KP; auto. intros u Hu. eapply plain_id; eauto.
    - apply KP; auto. apply andb_true_iff in HF. destruct HF as [F1 F2]. intros u Hu. apply in_app_or in Hu.
      destruct Hu as [Hu|Hu]; [eapply plain_id; [exact F1|exact Hu]|eapply plain_id; [exact F2|exact Hu]].
    - destruct (call_args st m args params) as [[[a o] m1]|] eqn:E; [|discriminate]. injection H as <- <- <-.
      apply andb_true_iff in HF. destruct HF as [F1 F2]. apply Nat.eqb_eq in F1.
      rewrite flat_map_app, in_app_iff in Hv. cbn [flat_map uses] in Hv. rewrite app_nil_r in Hv.
      eapply call_use; eauto. tauto.
    - apply KP; auto. intros u Hu. eapply plain_id; eauto.
    - (* load *) apply KP.
      + intros u [<-|Hu]; [apply negb_true_iff; auto|]. eapply projs_plain; eauto.
      + destruct (starts_const pl) eqn:Es; [|exact H]. rewrite chain_none in H; auto. eapply base_none; eauto.
    - (* store *) apply andb_true_iff in HA. destruct HA as [HB HT]. apply andb_true_iff in HF. destruct HF as [F1 F2].
      rewrite store_none in H by (eapply base_none; eauto).
      replace (if starts_const pl then @None states else None) with (@None states) in H by (destruct (starts_const pl); auto).
      assert (PL : forall u, In u (place_ids pl) -> by_value (f_types f u) = false).
      { intros u [<-|Hu]; [apply negb_true_iff; auto|]. eapply projs_plain; eauto. }
      assert (X : (forall u, v0 = Op u -> by_value (f_types f u) = true -> st_get u st = None) ->
         forall u, In u (uses (IStore pl v0 t)) -> by_value (f_types f u) = true -> In u (place_ids pl ++ val_ids v0) /\ st_get u st = None).
      { intros Q u Hu Bu. split; auto. cbn [uses] in Hu. apply in_app_or in Hu. destruct Hu as [Hu|Hu].
        - rewrite PL in Bu by auto. discriminate.
        - destruct v0; cbn in Hu; try contradiction; destruct Hu as [<-|[]]. auto. }
      cbn [uses] in *.
      destruct v0 as [|u|]; try (apply KE; [apply X; intros; discriminate|exact H]).
      destruct (agg_ty t) eqn:Ea.
      + destruct (st_get u st) as [es|] eqn:G; [|apply KE; [apply X; intros ? Q; injection Q as <-; auto|exact H]].
        destruct (materialize m es t) as [[[d o] m1]|] eqn:Em; [|discriminate]. injection H as <- <- <-.
        destruct (mat_ids _ _ _ _ _ _ Em) as (Ed & _ & _).
        rewrite flat_map_app, in_app_iff in Hv. cbn [flat_map uses] in Hv. rewrite app_nil_r, in_app_iff in Hv. destruct Hv as [Hv|[Hv|Hv]].
        * apply NB. eapply plain_ids; [eapply HP; eauto|eapply mat_use; eauto].
        * apply NB. auto.
        * destruct Hv as [<-|[]]. right. lia.
      + apply KE; [|exact H]. apply X. intros ? Q Bu. injection Q as <-. rewrite agg_same in Ea. rewrite Ea in F1. rewrite orb_false_r in F1.
        cbn in F1. rewrite Bu in F1. discriminate.
    - apply KP; auto. intros u Hu. eapply plain_ids; eauto.
    - apply KP; auto. intros u [].
    - assert (Q : Some ([IMakeTuple dest elements], st, m) = Some (out, st', m') -> (In v (uses (IMakeTuple dest elements)) /\ st_get v st = None) \/ i_next m <= v).
      { apply KP. intros u Hu. eapply plain_ids; eauto. }
      destruct (f_types f dest) as [[]|]; auto. destruct (_ && tuple_ok _ _ _ _); auto. eapply ND; eauto.
    - apply andb_true_iff in HA. destruct HA as [H1 H2]. destruct tuple as [|s|]; try discriminate.
      destruct (f_types f s) as [[]|] eqn:Ets; try discriminate. destruct (nth_error ts index) as [et|] eqn:En; [|discriminate].
      destruct (st_get s st) as [es|] eqn:Es.
      + destruct (HS _ _ Es) as (t0 & ts0 & A1 & A2 & _ & A4). rewrite Ets in A1. injection A1 as <-. injection A2 as <-.
        destruct (nth_error es index) as [w|] eqn:Ew.
        * eapply TK; eauto. specialize (HP _ _ Es). rewrite forallb_forall in HP. apply HP. eapply nth_error_In; eauto.
        * exfalso. apply nth_error_None in Ew. apply Forall2_length in A4. assert (index < length ts) by (apply nth_error_Some; congruence). lia.
      + apply KE; [|exact H]. intros u [<-|[]] _. split; [left; auto|auto].
    - assert (Q : Some ([IMakeStruct dest fields struct_ty], st, m) = Some (out, st', m') -> (In v (uses (IMakeStruct dest fields struct_ty)) /\ st_get v st = None) \/ i_next m <= v).
      { apply KP. intros u Hu. eapply plain_ids; [|exact Hu]. rewrite forallb_forall in *. intros x Hx. apply in_map_iff in Hx. destruct Hx as (y & <- & Hy). auto. }
      destruct (can_scalarize f cross is dest); auto.
      destruct (match f_types f dest with Some t' => Some t' | None => Some struct_ty end) as [[]|]; auto.
      destruct (from_fields _ _); auto. eapply ND; eauto.
    - apply andb_true_iff in HA. destruct HA as [H1 H2]. destruct struct_val as [|s|]; try discriminate.
      destruct (f_types f s) as [[| | | |nm fts| | | | | |]|] eqn:Ets; try discriminate. destruct (find_field field fts) as [et|] eqn:En; [|discriminate].
      destruct (find_position _ _ _ En) as (k & P1 & P2). cbn [field_index] in H. rewrite P1 in H.
      destruct (st_get s st) as [es|] eqn:Es.
      + destruct (HS _ _ Es) as (t0 & ts0 & A1 & A2 & _ & A4). rewrite Ets in A1. injection A1 as <-. injection A2 as <-.
        destruct (nth_error es k) as [w|] eqn:Ew.
        * eapply TK; eauto. specialize (HP _ _ Es). rewrite forallb_forall in HP. apply HP. eapply nth_error_In; eauto.
        * exfalso. apply nth_error_None in Ew. apply Forall2_length in A4. assert (k < length (map snd fts)) by (apply nth_error_Some; congruence). lia.
      + apply KE; [|exact H]. intros u [<-|[]] _. split; [left; auto|auto].
    - apply andb_true_iff in HA. destruct HA as [HA H3]. apply andb_true_iff in HA. destruct HA as [H1 H2].
      destruct struct_ty as [| | | |nm fts| | | | | |]; try discriminate. destruct (find_field field fts) as [et|] eqn:En; [|discriminate].
      destruct (find_position _ _ _ En) as (k & P1 & P2). cbn [field_index] in H. rewrite P1 in H.
      assert (Q : (forall s, struct_val = Op s -> st_get s st = None) -> Some ([IInsertField dest struct_val field new_value (TStruct nm fts)], st, m) = Some (out, st', m') ->
        (In v (uses (IInsertField dest struct_val field new_value (TStruct nm fts))) /\ st_get v st = None) \/ i_next m <= v).
      { intros G E. apply KE; [|exact E]. intros u Hu Bu. split; auto. cbn [uses] in Hu. apply in_app_or in Hu. destruct Hu as [Hu|Hu].
        - destruct struct_val; cbn in Hu; try contradiction; destruct Hu as [<-|[]]; auto.
        - rewrite (plain_id _ _ _ HF Hu) in Bu. discriminate. }
      destruct struct_val as [|s|]; try (apply Q; [intros; discriminate|exact H]).
      destruct (st_get s st) as [es|] eqn:Es; [|apply Q; [intros ? Z; injection Z as <-; auto|exact H]].
      cbn in H2. apply has_eq in H2. destruct (HS _ _ Es) as (t0 & ts0 & A1 & A2 & _ & A4). rewrite H2 in A1. injection A1 as <-. injection A2 as <-.
      apply Forall2_length in A4. assert (k < length (map snd fts)) by (apply nth_error_Some; congruence).
      destruct (Nat.ltb_spec k (length es)); [eapply ND; eauto|lia].
    - apply andb_true_iff in HA. destruct HA as [HA H3]. apply andb_true_iff in HA. destruct HA as [H1 H2].
      destruct tuple_ty as [| | |ts| | | | | | |]; try discriminate. destruct (nth_error ts index) as [et|] eqn:En; [|discriminate].
      assert (Q : (forall s, tuple_val = Op s -> st_get s st = None) -> Some ([IInsertTuple dest tuple_val index new_value (TTuple ts)], st, m) = Some (out, st', m') ->
        (In v (uses (IInsertTuple dest tuple_val index new_value (TTuple ts))) /\ st_get v st = None) \/ i_next m <= v).
      { intros G E. apply KE; [|exact E]. intros u Hu Bu. split; auto. cbn [uses] in Hu. apply in_app_or in Hu. destruct Hu as [Hu|Hu].
        - destruct tuple_val; cbn in Hu; try contradiction; destruct Hu as [<-|[]]; auto.
        - rewrite (plain_id _ _ _ HF Hu) in Bu. discriminate. }
      destruct tuple_val as [|s|]; try (apply Q; [intros; discriminate|exact H]).
      destruct (st_get s st) as [es|] eqn:Es; [|apply Q; [intros ? Z; injection Z as <-; auto|exact H]].
      cbn in H2. apply has_eq in H2. destruct (HS _ _ Es) as (t0 & ts0 & A1 & A2 & _ & A4). rewrite H2 in A1. injection A1 as <-. injection A2 as <-.
      apply Forall2_length in A4. assert (index < length ts) by (apply nth_error_Some; congruence).
      destruct (Nat.ltb_spec index (length es)); [eapply ND; eauto|lia].
    - assert (Q : Some ([IMakeArray dest elements element_ty is_const], st, m) = Some (out, st', m') -> (In v (uses (IMakeArray dest elements element_ty is_const)) /\ st_get v st = None) \/ i_next m <= v).
      { apply KP. intros u Hu. eapply plain_ids; eauto. }
      destruct (f_types f dest) as [[]|]; auto. destruct (_ && negb (dynamic_use _ _ _)); auto. eapply ND; eauto.
    - apply KP; auto. apply andb_true_iff in HF. destruct HF as [F1 F2]. intros u Hu. apply in_app_or in Hu.
      destruct Hu as [Hu|Hu]; [eapply plain_id; [exact F1|exact Hu]|eapply plain_id; [exact F2|exact Hu]].
    - apply KP; auto. intros u Hu. eapply plain_id; eauto.
  Qed.

  (** Along a list of instructions. *)
  Lemma get_nokey : forall st v, st_get v st = None -> ~ In v (map fst st).
  Proof.
    induction st as [|[w es] st IH]; intros v H I; [destruct I|]. cbn in *. destruct I as [E|I].
    - subst. rewrite Nat.eqb_refl in H. discriminate.
    - destruct (Nat.eqb v w); [discriminate|]. eapply IH; eauto.
  Qed.
  Lemma all_keys_in : forall st m is out st' m', all_does f cross st m is out st' m' ->
    forall v, In v (map fst st') -> In v (map fst st) \/ In v (idests is).
  Proof.
    induction 1 as [st m|st m i out st1 m1 r out' st2 m2 D A IH]; intros v Hv; auto.
    change (idests (i :: r)) with (dests i ++ idests r). rewrite in_app_iff. destruct (IH _ Hv) as [K|K]; auto.
    destruct (mv_key _ _ _ _ _ _ (does_moves _ _ _ _ _ _ _ _ D) _ K) as [J|[J _]]; auto.
  Qed.
  Lemma seen_use : forall i v, In v (seen_uses i) -> In v (uses i).
  Proof. intros i v H; destruct i; auto. destruct H. Qed.

  Lemma set_plain : forall k w es, plain f w = true -> forallb (plain f) es = true -> forallb (plain f) (set_nth k w es) = true.
  Proof.
    induction k as [|k IH]; intros w [|e es] P H; cbn in *; auto; apply andb_true_iff in H; destruct H as [H1 H2]; apply andb_true_iff; auto.
  Qed.
  Lemma from_plain : forall fs fts es, forallb (fun fv : string * value => plain f (snd fv)) fs = true ->
    from_fields fs fts = Some es -> forallb (plain f) es = true.
  Proof.
    unfold from_fields. induction fts as [|[n t] fts IH]; intros es P H; cbn [omap] in H; [injection H as <-; auto|].
    cbn [fst] in H. destruct (find_field n fs) as [v|] eqn:E; [|discriminate]. destruct (omap _ fts) as [r|]; [|discriminate].
    injection H as <-. cbn. rewrite IH by auto. rewrite andb_true_r. clear -E P.
    induction fs as [|[q w] fs IH]; cbn in *; [discriminate|]. apply andb_true_iff in P. destruct P as [P1 P2].
    destruct (String.eqb n q); [injection E as <-; auto | auto].
  Qed.
  Lemma take_plain : forall st d w t, stat f st -> plain f w = true -> take st d w t true = ([IAssign d w t], st).
  Proof.
    intros st d w t HS P. destruct (take_cases st d w t) as [(u & es & -> & G & E)|[E _]]; auto.
    exfalso. cbn in P. rewrite (stat_by_value _ _ _ _ HS G) in P. discriminate.
  Qed.
  Lemma plain_nth : forall es k w, forallb (plain f) es = true -> nth_error es k = Some w -> plain f w = true.
  Proof. intros es k w H E. rewrite forallb_forall in H. apply H. eapply nth_error_In; eauto. Qed.

  Lemma does_plain : forall st m i out st' m', does f cross st m i out st' m' -> stat f st -> plain_st f st ->
    flat_instr f i = true -> plain_st f st'.
  Proof.
    intros st m i out st' m' D HS HP HF.
    assert (Add : forall d es, forallb (plain f) es = true -> plain_st f ((d, es) :: st)).
    { intros d es Q v xs G. cbn in G. destruct (Nat.eqb v d); [injection G as <-; auto | eauto]. }
    destruct D; cbn [flat_instr] in HF; auto; try apply Add.
    - eapply from_plain; eauto.
    - apply set_plain; eauto.
    - apply set_plain; eauto.
    - eauto.
    - rewrite take_plain; auto. eapply plain_nth; eauto.
    - rewrite take_plain; auto. eapply plain_nth; eauto.
  Qed.

  Lemma steps_use : forall is js st m out st' m', steps f cross is st m js = Some (out, st', m') ->
    all_does f cross st m js out st' m' ->
    stat f st -> plain_st f st -> forallb (agg_instr f) is = true -> forallb (agg_instr f) js = true -> forallb (flat_instr f) js = true ->
    forallb (fun i => negb (is_phi i)) js = true -> fwd js ->
    (forall d es t c, In (IMakeArray d es t c) js -> ~ In d (map fst st')) ->
    stat f st' /\ plain_st f st' /\
    forall v, In v (flat_map uses out) -> by_value (f_types f v) = true -> v < i_next m ->
      In v (flat_map seen_uses js) /\ ~ In v (map fst st').
  Proof.
    intros is js. induction js as [|j js IH]; intros st m out st' m' H AD HS HP HI HA HF NP FW AR; cbn [steps] in H.
    - injection H as <- <- <-. split; auto.
    - destruct (step f cross is st m j) as [[[o st1] m1]|] eqn:E; [|discriminate].
      destruct (steps f cross is st1 m1 js) as [[[o' st2] m2]|] eqn:F; [|discriminate]. injection H as <- <- <-.
      cbn [forallb] in *. apply andb_true_iff in HA, HF, NP. destruct HA as [A1 A2], HF as [F1 F2], NP as [N1 N2].
      apply negb_true_iff in N1. destruct FW as (W1 & W2 & W3).
      assert (D : does f cross st m j o st1 m1 /\ all_does f cross st1 m1 js o' st2 m2).
      { pose proof (steps_does f cross is js st1 m1 o' st2 m2) as Q.
        assert (KI : incl (map fst st1) (map fst st2)) by (eapply steps_keys; eauto).
        assert (D : does f cross st m j o st1 m1).
        { apply (step_does f cross is st m j o st1 m1 HS HI A1); [|exact E]. intros d es t c ->. destruct (st_get d st1) eqn:G; auto. exfalso.
          eapply AR; [left; reflexivity|]. apply KI. eapply st_get_key; eauto. }
        split; auto. apply Q; auto. { eapply does_stat; eauto. } intros d es t c Hin. eapply AR. right; eauto. }
      destruct D as [D AD1].
      destruct (IH _ _ _ _ _ F AD1) as (I1 & I2 & I3); auto.
      { eapply does_stat; eauto. } { eapply does_plain; eauto. } { intros d es t c Hin. eapply AR. right; eauto. }
      split; auto. split; auto. intros v Hv Bv Lv. rewrite flat_map_app, in_app_iff in Hv. cbn [flat_map]. rewrite in_app_iff.
      destruct Hv as [Hv|Hv].
      + destruct (step_use is st m j o st1 m1 HS HP A1 F1 N1 E v Hv Bv) as [[U1 U2]|U]; [|lia].
        split; auto. intro I. apply seen_use in U1. destruct (W1 _ U1) as [X1 X2].
        destruct (all_keys_in _ _ _ _ _ _ AD1 _ I) as [J|J]; auto.
        destruct (mv_key _ _ _ _ _ _ (does_moves _ _ _ _ _ _ _ _ D) _ J) as [J1|[J1 _]]; auto.
        eapply get_nokey; eauto.
      + destruct (I3 v Hv Bv) as [U1 U2]; auto. pose proof (mv_next _ _ _ _ _ _ (does_moves _ _ _ _ _ _ _ _ D)). lia.
  Qed.

  (** ** Families. *)
  Lemma fam_mono : forall rt fam i, incl fam (fam_step rt fam i).
  Proof.
    intros rt fam i v Hv. destruct i; cbn [fam_step]; auto.
    - destruct source; auto. destruct (_ && _); [right|]; auto.
    - destruct struct_val; auto. destruct (_ && _); [right|]; auto.
    - destruct tuple_val; auto. destruct (_ && _); [right|]; auto.
  Qed.
  Lemma fold_mono : forall rt is fam, incl fam (fold_left (fam_step rt) is fam).
  Proof. induction is as [|i is IH]; intro fam; cbn; [apply incl_refl|]. eapply incl_tran; [apply fam_mono|apply IH]. Qed.
  Lemma loop_mono : forall rt is n fam, incl (fold_left (fam_step rt) is fam) (fam_loop (Datatypes.S n) rt is fam).
  Proof.
    intros rt is. induction n as [|n IH]; intro fam.
    - cbn [fam_loop]. destruct (Nat.eqb _ _); apply incl_refl.
    - cbn [fam_loop]. destruct (Nat.eqb _ _); [apply incl_refl|]. eapply incl_tran; [apply fold_mono|]. apply IH.
  Qed.

  Variable b : block.
  Definition fam_inv (pre : list minstr) (st : states) : Prop := forall v, In v (map fst st) ->
    exists r, In r (roots f b) /\ ~ In r cross /\ f_types f v = f_types f r /\
      In v (fold_left (fam_step (f_types f r)) pre [r]).
  Lemma in_roots : forall i d t, In i (b_instrs b) -> make_dest i = Some d -> f_types f d = Some t -> scalarizable t = true -> In d (roots f b).
  Proof. intros i d t Hi Hd Ht Hs. apply in_flat_map. exists i. split; auto. rewrite Hd, Ht, Hs. left; auto. Qed.

  Lemma does_fam : forall pre st m i out st' m', does f cross st m i out st' m' -> In i (b_instrs b) ->
    stat f st -> plain_st f st -> flat_instr f i = true -> fam_inv pre st -> fam_inv (pre ++ [i]) st'.
  Proof.
    intros pre st m i out st' m' D Hi HS HP HF HI.
    assert (Old : fam_inv (pre ++ [i]) st).
    { intros v Hv. destruct (HI v Hv) as (r & A1 & A2 & A3 & A4). exists r. split; auto. split; auto. split; auto.
      rewrite fold_left_app. cbn [fold_left]. apply fam_mono. auto. }
    assert (New : forall d es, (exists r, In r (roots f b) /\ ~ In r cross /\ f_types f d = f_types f r /\
      In d (fold_left (fam_step (f_types f r)) (pre ++ [i]) [r])) -> fam_inv (pre ++ [i]) ((d, es) :: st)).
    { intros d es Q v [<-|Hv]; auto. }
    assert (Root : forall d es t, make_dest i = Some d -> f_types f d = Some t -> scalarizable t = true -> ~ In d cross ->
      fam_inv (pre ++ [i]) ((d, es) :: st)).
    { intros d es t Q1 Q2 Q3 Q4. apply New. exists d. split; [eapply in_roots; eauto|]. split; auto. split; auto.
      apply fold_mono. left; auto. }
    assert (From : forall s d es0 es, st_get s st = Some es0 -> f_types f d = f_types f s ->
      (forall r fam, f_types f s = f_types f r -> In s fam -> In d (fam_step (f_types f r) fam i)) -> fam_inv (pre ++ [i]) ((d, es) :: st)).
    { intros s d es0 es G T Q. apply New. destruct (HI s (st_get_key _ _ _ G)) as (r & A1 & A2 & A3 & A4).
      exists r. split; auto. split; auto. split; [congruence|]. rewrite fold_left_app. cbn [fold_left]. apply Q; auto. }
    assert (Ins : forall (x : bool) s d fam, x = true -> In s fam -> In d (if x && mem_nat s fam && negb (mem_nat d fam) then d :: fam else fam)).
    { intros x s d fam -> Hs. apply mem_nat_iff in Hs. rewrite Hs. cbn. destruct (mem_nat d fam) eqn:M; [apply mem_nat_iff; auto | left; auto]. }
    destruct D; cbn [flat_instr] in HF; auto.
    - eapply Root; eauto.
    - eapply Root; eauto.
    - eapply From; [eassumption|congruence|]. intros r fam T Hs. cbn [fam_step]. apply (Ins true); auto.
    - eapply From; [eassumption|congruence|]. intros r fam T Hs. cbn [fam_step]. apply (Ins true); auto.
    - eapply From; [eassumption|congruence|]. intros r fam T Hs. cbn [fam_step]. apply Ins; auto. rewrite <- T, H1.
      destruct t; try discriminate; reflexivity.
    - rewrite take_plain; auto. eapply plain_nth; eauto.
    - rewrite take_plain; auto. eapply plain_nth; eauto.
  Qed.
  Lemma all_fam : forall st m is out st' m', all_does f cross st m is out st' m' -> forall pre,
    (forall i, In i is -> In i (b_instrs b)) -> stat f st -> plain_st f st -> forallb (flat_instr f) is = true ->
    fam_inv pre st -> fam_inv (pre ++ is) st'.
  Proof.
    induction 1 as [st m|st m i out st1 m1 r out' st2 m2 D A IH]; intros pre Hi HS HP HF HI.
    - rewrite app_nil_r. auto.
    - cbn in HF. apply andb_true_iff in HF. destruct HF as [F1 F2]. change (i :: r) with ([i] ++ r). rewrite app_assoc. apply IH; auto.
      + intros j Hj. apply Hi. right; auto.
      + eapply does_stat; eauto.
      + eapply does_plain; eauto.
      + eapply does_fam; eauto. apply Hi. left; auto.
  Qed.
End Flat.

(** ** Values used in other blocks. *)
Lemma number_nth : forall A (l : list A) n k a, nth_error l k = Some a -> In (n + k, a) (number n l).
Proof.
  induction l as [|x l IH]; intros n [|k] a H; cbn in *; try discriminate.
  - injection H as <-. left. f_equal. lia.
  - right. rewrite <- Nat.add_succ_comm. apply IH; auto.
Qed.
Lemma not_cross : forall f k b r k2 b2 u, nth_error (f_blocks f) k = Some b -> In r (roots f b) -> ~ In r (cross_block f) ->
  nth_error (f_blocks f) k2 = Some b2 -> k2 <> k -> In u (block_uses b2) -> ~ In u (family f (b_instrs b) r).
Proof.
  intros f k b r k2 b2 u Hb Hr Hc Hb2 Nk Hu Hf. apply Hc. unfold cross_block. apply in_flat_map.
  exists (k, family f (b_instrs b) r). split.
  - unfold families. apply in_flat_map. exists (k, b). split; [apply (number_nth _ _ 0); auto|].
    cbn [fst snd]. apply in_map_iff. exists r. split; auto.
  - cbn [fst snd]. match goal with |- In _ (if ?x then _ else _) => assert (x = true) as -> end.
    + apply existsb_exists. exists (k2, b2). split; [apply (number_nth _ _ 0); auto|]. cbn [fst snd].
      apply andb_true_iff. split; [apply negb_true_iff; apply Nat.eqb_neq; auto|].
      apply existsb_exists. exists u. split; auto. apply mem_nat_iff. auto.
    + unfold family. apply loop_mono. apply fold_mono. left; auto.
Qed.

Section FlatWhole.
  Variables (f g : func) (K : list nat).
  Hypothesis HRun : sroa_run f = Some (g, K).
  Hypothesis HSsa : ssa f.
  Hypothesis HPhi : phis_first f.
  Hypothesis HBelow : ids_below f.
  Hypothesis HAgg : agg_typed f = true.
  Hypothesis HArr : arrays_kept f g.
  Hypothesis HFlat : flat f = true.

  Lemma block_facts : forall b, In b (f_blocks f) ->
    forallb (agg_instr f) (rest_of b) = true /\ forallb (flat_instr f) (rest_of b) = true /\
    (forall i, In i (b_instrs b) -> flat_instr f i = true) /\ flat_term f (b_term b) = true.
  Proof using HAgg HFlat.
    intros b Hb. unfold agg_typed in HAgg. unfold flat in HFlat. rewrite forallb_forall in HAgg, HFlat.
    specialize (HAgg b Hb). specialize (HFlat b Hb). apply andb_true_iff in HFlat. destruct HFlat as [F1 F2].
    rewrite forallb_forall in F1. split; [|split; [|split; auto]].
    - apply forallb_forall. rewrite forallb_forall in HAgg. intros i Hi. apply HAgg. apply span_in_snd. exact Hi.
    - apply forallb_forall. intros i Hi. apply F1. apply span_in_snd. exact Hi.
  Qed.

  (** Dropped values are tuples or structs of a family that no other block uses. *)
  Lemma key_facts : forall m1 k b b' ks1 m2, nth_error (f_blocks f) k = Some b ->
    block_does f (cross_block f) m1 b b' ks1 m2 -> forall v, In v ks1 ->
    by_value (f_types f v) = true /\ exists r, In r (roots f b) /\ ~ In r (cross_block f) /\ In v (family f (b_instrs b) r).
  Proof using HAgg HFlat.
    intros m1 k b b' ks1 m2 Hb (out & st & m3 & out' & D1 & _ & -> & _) v Hv.
    destruct (block_facts b (nth_error_In _ _ Hb)) as (A1 & A2 & _ & _).
    assert (SS : stat f st).
    { clear -D1. assert (Q : forall st0 m0 is o st1 m1, all_does f (cross_block f) st0 m0 is o st1 m1 -> stat f st0 -> stat f st1).
      { induction 1; auto. intro. apply IHall_does. eapply does_stat; eauto. }
      eapply Q; [exact D1|apply stat_nil]. }
    split.
    - destruct (st_get v st) as [es|] eqn:G; [eapply stat_by_value; eauto|]. exfalso. eapply get_nokey; eauto.
    - pose proof (all_fam f (cross_block f) b _ _ _ _ _ _ D1 (phis_of b)) as FI.
      destruct (FI ltac:(intros i Hi; apply span_in_snd; exact Hi) (stat_nil f) ltac:(intros ? ? Q; discriminate) A2 ltac:(intros ? []) v Hv)
        as (r & R1 & R2 & R3 & R4).
      exists r. split; auto. split; auto. unfold family. apply loop_mono. rewrite <- split_block in R4. exact R4.
  Qed.

  Lemma flat_use : forall k b v, nth_error (f_blocks g) k = Some b -> (exists w, walk f (k :: w)) ->
    (exists i, In i (b_instrs b) /\ In v (uses i)) \/ In v (term_uses (b_term b)) -> ~ In v K.
  Proof.
    destruct (all_parts f g K HRun HSsa HBelow HAgg HArr) as (m & bs & EG & EL & _ & _ & KD & At).
    intros k b1 v Hb1 HW HU HK.
    destruct (nth_error (f_blocks f) k) as [b|] eqn:Hb.
    2:{ apply nth_error_None in Hb. rewrite EG in Hb1. cbn in Hb1. assert (k < length bs) by (apply nth_error_Some; congruence). lia. }
    destruct (At _ _ Hb) as (b' & m1 & ks1 & m2 & Hb' & D & KI & Lm & Tm & SB & KB).
    rewrite Hb' in Hb1. injection Hb1 as <-.
    destruct (KD _ HK) as [Kd Kg]. apply in_flat_map in Kd. destruct Kd as (b2 & Ib2 & Hd).
    apply In_nth_error in Ib2. destruct Ib2 as (k2 & Hb2).
    destruct (At _ _ Hb2) as (b2' & m3 & ks2 & m4 & Hb2' & D2 & KI2 & Lm2 & Tm2 & SB2 & KB2).
    pose proof (KB2 v HK Hd) as Vk. destruct (key_facts _ _ _ _ _ _ Hb2 D2 v Vk) as (Bv & r & R1 & R2 & R3).
    assert (VN : v < N f).
    { apply in_flat_map in Hd. destruct Hd as (i & Hi & Hd). apply (proj1 (proj1 HBelow b2 (nth_error_In _ _ Hb2)) i Hi). auto. }
    destruct (block_facts b (nth_error_In _ _ Hb)) as (A1 & A2 & A3 & A4).
    assert (Seen : forall i, In i (b_instrs b) -> In v (uses i) -> In v (seen_uses i)).
    { intros i Hi Hv. destruct i; auto. cbn [uses] in Hv. pose proof (A3 _ Hi) as Q. cbn [flat_instr] in Q.
      rewrite (plain_ids f _ v Q Hv) in Bv. discriminate. }
    assert (Main : In v (block_uses b) /\ ~ In v ks1).
    { unfold sroa_block in SB. destruct (agg_phi f b) eqn:AP.
      - injection SB as <- <- <-. split; [|intros []]. apply in_or_app. destruct HU as [(i & Hi & Hv)|HU]; auto.
        left. apply in_flat_map. exists i. split; auto.
      - destruct (steps f (cross_block f) _ [] m1 _) as [[[out st] m5]|] eqn:E; [|discriminate].
        destruct (sroa_term f st m5 (b_term b)) as [[[t out'] m6]|] eqn:F; [|discriminate]. injection SB as <- <- <-.
        change (snd (span_phi (b_instrs b))) with (rest_of b) in *.
        assert (AR : forall d es t0 c, In (IMakeArray d es t0 c) (rest_of b) -> ~ In d (map fst st)).
        { intros d es t0 c Hin I. apply KI in I. apply KD in I. destruct I as [_ I]. apply I.
          apply (HArr b d es t0 c (nth_error_In _ _ Hb)). apply span_in_snd. exact Hin. }
        assert (AD : all_does f (cross_block f) [] m1 (rest_of b) out st m5) by (eapply steps_does; eauto; apply stat_nil).
        destruct (steps_use f (cross_block f) _ _ _ _ _ _ _ E AD (stat_nil f) ltac:(intros ? ? Q; discriminate) A1 A1 A2
          (HPhi b (nth_error_In _ _ Hb)) (reach_fwd f k b HSsa HW Hb (HPhi b (nth_error_In _ _ Hb))) AR) as (S1 & S2 & S3).
        assert (Sub : forall u, In u (flat_map seen_uses (rest_of b)) -> In u (block_uses b)).
        { intros u Hu. apply in_or_app. left. apply in_flat_map in Hu. destruct Hu as (i & Hi & Hu). apply in_flat_map. exists i. split; auto.
          apply span_in_snd. exact Hi. }
        destruct (all_types _ _ _ _ _ _ _ _ AD) as [_ Ln].
        assert (Term : In v (term_uses t) \/ In v (flat_map uses out') -> In v (term_uses (b_term b)) /\ ~ In v (map fst st)).
        { intro HT. destruct (b_term b) as [|c ? ?|op l r0 ? ?|vs|]; cbn [sroa_term] in F.
          - injection F as <- <- <-. destruct HT as [[]|[]].
          - injection F as <- <- <-. destruct HT as [HT|[]]. cbn in HT, A4. rewrite (plain_id _ _ _ A4 HT) in Bv. discriminate.
          - injection F as <- <- <-. destruct HT as [HT|[]]. cbn in HT, A4. apply andb_true_iff in A4. destruct A4 as [Q1 Q2].
            apply in_app_or in HT. destruct HT as [HT|HT]; [rewrite (plain_id _ _ _ Q1 HT) in Bv | rewrite (plain_id _ _ _ Q2 HT) in Bv]; discriminate.
          - destruct (ret_vals f st m5 vs) as [[[vs' o] m7]|] eqn:G; [|discriminate]. injection F as <- <- <-.
            destruct (ret_use f st S1 S2 vs m5 vs' o m7 G v HT Bv) as [[Q1 Q2]|Q]; [|lia]. split; [exact Q1|]. apply get_nokey; auto.
          - injection F as <- <- <-. destruct HT as [[]|[]]. }
        cbn [b_instrs b_term] in HU. destruct HU as [(i & Hi & Hv)|HU].
        + apply in_app_or in Hi. destruct Hi as [Hi|Hi]; [|apply in_app_or in Hi; destruct Hi as [Hi|Hi]].
          * exfalso. apply in_map_iff in Hi. destruct Hi as ([[d tp] ss] & <- & Hi). cbn [fst snd] in Hv.
            pose proof (A3 _ (span_in_fst _ _ _ _ Hi)) as Q. cbn [flat_instr] in Q. apply orb_true_iff in Q. destruct Q as [Q|Q].
            -- rewrite (plain_ids f (map snd ss) v) in Bv; [discriminate| |exact Hv].
               rewrite forallb_forall in *. intros x Hx. apply in_map_iff in Hx. destruct Hx as (y & <- & Hy). auto.
            -- unfold agg_phi in AP. assert (X : existsb (fun ph : nat * ty * list (nat * value) => match f_types f (fst (fst ph)) with Some (TTuple _) | Some (TStruct _ _) => true | _ => false end) (fst (span_phi (b_instrs b))) = true).
               { apply existsb_exists. exists (d, tp, ss). split; auto. }
               congruence.
          * destruct (S3 v) as [Q1 Q2]; auto. { apply in_flat_map. eauto. } lia.
          * destruct Term as [Q1 Q2]. { right. apply in_flat_map. eauto. } split; auto. apply in_or_app; auto.
        + destruct Term as [Q1 Q2]; auto. split; auto. apply in_or_app; auto. }
    destruct Main as [M1 M2]. destruct (Nat.eq_dec k2 k) as [->|Nk].
    - rewrite Hb in Hb2. injection Hb2 as <-. apply M2. apply KB; auto.
    - eapply not_cross; [exact Hb2|exact R1|exact R2|exact Hb| |exact M1|exact R3]. congruence.
  Qed.
End FlatWhole.

Theorem flat_same : forall f g, sroa_pass f = Some g -> ssa f -> phis_first f -> ids_below f ->
  agg_typed f = true -> arrays_kept f g -> flat f = true -> same_behaviour f g.
Proof.
  intros f g HP HS HF HB HA HR HC. unfold sroa_pass in HP. destruct (sroa_run f) as [[g0 K]|] eqn:E; [|discriminate].
  cbn in HP. injection HP as ->. refine (whole_same f g K E HS HF HB HA HR _). apply flat_use; auto.
Qed.
