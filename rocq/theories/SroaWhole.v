(** Scalar replacement of aggregates: whole functions do the same. *)
From Coq Require Import ZArith Bool String List Lia.
From Verif Require Import M31 Isa Mir MirSem MirFacts MirLocalFacts MirSim MirSsa MirSsaFacts MirLegalFacts MirCopyFacts MirSroa SroaSpec SroaFacts SroaStep SroaRun.
Import ListNotations.
Open Scope nat_scope.

Definition bdests (b : block) : list nat := idests (b_instrs b).
Definition phis_of (b : block) : list minstr :=
  map (fun p => IPhi (fst (fst p)) (snd (fst p)) (snd p)) (fst (span_phi (b_instrs b))).
Definition rest_of (b : block) : list minstr := snd (span_phi (b_instrs b)).
Lemma split_block : forall b, b_instrs b = phis_of b ++ rest_of b.
Proof. intro b. apply span_phi_app. Qed.
Lemma bdests_split : forall b, bdests b = idests (phis_of b) ++ idests (rest_of b).
Proof. intro b. unfold bdests. rewrite split_block at 1. apply idests_app. Qed.

(** ** One block. *)
Definition block_does (f : func) (cross : list nat) (m : ids) (b b' : block) (ks : list nat) (m' : ids) : Prop :=
  exists out st m1 out', all_does f cross [] m (rest_of b) out st m1 /\
    b_instrs b' = phis_of b ++ out ++ out' /\ ks = map fst st /\
    ((b_term b' = b_term b /\ out' = [] /\ m' = m1) \/
     (exists vs vs', b_term b = TReturn vs /\ b_term b' = TReturn vs' /\ ret_vals f st m1 vs = Some (vs', out', m'))).

Lemma stat_nil : forall f, stat f [].
Proof. intros f v es H. discriminate. Qed.

Lemma sroa_block_does : forall f cross m b b' ks m', sroa_block f cross m b = Some (b', ks, m') ->
  forallb (agg_instr f) (b_instrs b) = true ->
  (forall d es t c, In (IMakeArray d es t c) (b_instrs b) -> ~ In d ks) ->
  block_does f cross m b b' ks m'.
Proof.
  intros f cross m b b' ks m' H HA HK. unfold sroa_block in H. destruct (agg_phi f b).
  - injection H as <- <- <-. exists (rest_of b), [], m, []. split; [apply all_keep|]. rewrite app_nil_r.
    split; [apply split_block|]. split; auto.
  - destruct (steps f cross _ [] m _) as [[[out st] m1]|] eqn:E; [|discriminate].
    destruct (sroa_term f st m1 (b_term b)) as [[[t out'] m2]|] eqn:F; [|discriminate]. injection H as <- <- <-.
    rewrite split_block in HA. rewrite forallb_app in HA. apply andb_true_iff in HA. destruct HA as [_ HA].
    exists out, st, m1, out'. split.
    { eapply steps_does; [apply stat_nil | exact HA | exact HA | | exact E].
      intros d es t0 c Hin. apply (HK d es t0 c). apply span_in_snd. exact Hin. }
    split; [reflexivity|]. split; auto. cbn [b_term]. destruct (b_term b) as [| | |vs|]; cbn [sroa_term] in F; try (injection F as <- <- <-; auto).
    destruct (ret_vals f st m1 vs) as [[[vs' o] m3]|] eqn:G; [|discriminate]. injection F as <- <- <-. right. eauto 8.
Qed.

(** Ids, destinations and dropped values. *)
Record bmoves (m : ids) (ds : list nat) (ks ds' : list nat) (m' : ids) : Prop := BMoves {
  bm_next : i_next m <= i_next m';
  bm_types : incl (i_types m) (i_types m');
  bm_dests : forall v, In v ds' -> In v ds \/ i_next m <= v < i_next m';
  bm_new : forall d t, In (d, t) (i_types m') -> In (d, t) (i_types m) \/ i_next m <= d < i_next m';
  bm_wf : NoDup (map fst (i_types m)) -> (forall d t, In (d, t) (i_types m) -> d < i_next m) -> NoDup (map fst (i_types m'));
  bm_key : forall v, In v ks -> In v ds /\ ~ In v ds' }.

Lemma ret_term_grows : forall f st m1 t t' out' m', 
  ((t' = t /\ out' = [] /\ m' = m1) \/
   (exists vs vs', t = TReturn vs /\ t' = TReturn vs' /\ ret_vals f st m1 vs = Some (vs', out', m'))) ->
  grows m1 m' out'.
Proof.
  intros f st m1 t t' out' m' [(-> & -> & ->)|(vs & vs' & -> & -> & R)]; [apply grows_refl | eapply ret_grows; eauto].
Qed.
Lemma term_grows : forall f st m t t' out m', sroa_term f st m t = Some (t', out, m') -> grows m m' out.
Proof.
  intros f st m t t' out m' H. destruct t; cbn [sroa_term] in H; try (injection H as <- <- <-; apply grows_refl).
  destruct (ret_vals f st m _) as [[[v o] m1]|] eqn:E; [|discriminate]. injection H as <- <- <-. eapply ret_grows; eauto.
Qed.

Lemma block_moves : forall f cross m b b' ks m', sroa_block f cross m b = Some (b', ks, m') ->
  NoDup (bdests b) -> (forall v, In v (bdests b) -> v < i_next m) -> bmoves m (bdests b) ks (bdests b') m'.
Proof.
  intros f cross m b b' ks m' H ND LT. unfold sroa_block in H. destruct (agg_phi f b).
  { injection H as <- <- <-. constructor; auto; try apply incl_refl. intros v []. }
  destruct (steps f cross _ [] m _) as [[[out st] m1]|] eqn:E; [|discriminate].
  destruct (sroa_term f st m1 (b_term b)) as [[[t out'] m2]|] eqn:F; [|discriminate]. injection H as <- <- <-.
  apply term_grows in F. destruct F as [B1 B2 B3 B4 B5 B6]. rewrite bdests_split in ND, LT.
  destruct (steps_moves _ _ _ _ _ _ _ _ _ E) as [A1 A2 A3 A4 A5 A6 A7].
  { eapply NoDup_app_r; eauto. } { intros v Hv. apply LT. apply in_or_app; auto. }
  assert (Q : forall v, In v (bdests (Block (phis_of b ++ out ++ out') t (b_preds b))) <-> In v (idests (phis_of b)) \/ In v (idests out) \/ In v (idests out')).
  { intro v. unfold bdests. cbn [b_instrs]. rewrite !idests_app, !in_app_iff. tauto. }
  rewrite bdests_split. change (snd (span_phi (b_instrs b))) with (rest_of b) in *. constructor.
  - lia.
  - eapply incl_tran; eauto.
  - intros v H. apply Q in H. rewrite in_app_iff. destruct H as [H|[H|H]]; auto; [apply A3 in H | apply B3 in H]; intuition lia.
  - intros d t0 H. destruct (B4 _ _ H) as [K|K]; [destruct (A4 _ _ K); auto|]; right; lia.
  - intros H K. apply B5; [auto|]. intros d t0 I. destruct (A4 _ _ I) as [J|J]; [specialize (K _ _ J)|]; lia.
  - intros v Hv. destruct (A7 _ Hv) as [[]|[K1 K2]]. assert (L : v < i_next m) by (apply LT; apply in_or_app; auto).
    split; [apply in_or_app; auto|]. intro I. apply Q in I. destruct I as [I|[I|I]].
    + eapply NoDup_app_disj; [exact ND| |]; eauto.
    + apply K2; auto.
    + apply B3 in I. lia.
Qed.

(** ** All blocks. *)
Lemma blocks_moves : forall f cross bs m bs' ks m', sroa_blocks f cross m bs = Some (bs', ks, m') ->
  NoDup (flat_map bdests bs) -> (forall v, In v (flat_map bdests bs) -> v < N f) -> N f <= i_next m ->
  bmoves m (flat_map bdests bs) ks (flat_map bdests bs') m' /\
  forall k b, nth_error bs k = Some b -> exists b' m1 ks1 m2, nth_error bs' k = Some b' /\
    sroa_block f cross m1 b = Some (b', ks1, m2) /\ (incl ks1 ks /\ forall v, In v ks -> In v (bdests b) -> In v ks1) /\
    N f <= i_next m1 /\ incl (i_types m2) (i_types m').
Proof.
  intros f cross bs. induction bs as [|b bs IH]; intros m bs' ks m' H ND LT Lm; cbn [sroa_blocks] in H.
  - injection H as <- <- <-. split; [|intros [] b E; discriminate E].
    constructor; auto; try apply incl_refl.
  - destruct (sroa_block f cross m b) as [[[b1 ks1] m1]|] eqn:E; [|discriminate].
    destruct (sroa_blocks f cross m1 bs) as [[[bs1 ks2] m2]|] eqn:F; [|discriminate]. injection H as <- <- <-.
    cbn [flat_map] in *.
    destruct (block_moves _ _ _ _ _ _ _ E) as [A1 A2 A3 A4 A5 A6].
    { eapply NoDup_app_l; eauto. } { intros v Hv. assert (v < N f) by (apply LT; apply in_or_app; auto). lia. }
    destruct (IH _ _ _ _ F) as [[B1 B2 B3 B4 B5 B6] At].
    { eapply NoDup_app_r; eauto. } { intros v Hv. apply LT. apply in_or_app; auto. } { lia. }
    split.
    + constructor.
      * lia.
      * eapply incl_tran; eauto.
      * intros v H. rewrite in_app_iff. apply in_app_or in H.
        destruct H as [H|H]; [apply A3 in H | apply B3 in H]; intuition lia.
      * intros d t H. destruct (B4 _ _ H) as [K|K]; [destruct (A4 _ _ K); auto|]; right; lia.
      * intros H K. apply B5; [auto|]. intros d t I. destruct (A4 _ _ I) as [J|J]; [specialize (K _ _ J)|]; lia.
      * intros v Hv. rewrite !in_app_iff. apply in_app_or in Hv. destruct Hv as [Hv|Hv].
        -- destruct (A6 _ Hv) as [C1 C2]. split; auto. intros [I|I]; auto.
           assert (v < N f) by (apply LT; apply in_or_app; auto).
           destruct (B3 _ I) as [I'|I']; [eapply NoDup_app_disj; eauto | lia].
        -- destruct (B6 _ Hv) as [C1 C2]. split; auto. intros [I|I]; auto.
           assert (v < N f) by (apply LT; apply in_or_app; auto).
           destruct (A3 _ I) as [I'|I']; [eapply NoDup_app_disj; eauto | lia].
    + intros [|k] b0 E0; cbn in E0.
      * injection E0 as <-. exists b1, m, ks1, m1. split; [reflexivity|]. split; auto. split; [|auto]. split.
        -- intros v Hv. apply in_or_app; auto.
        -- intros v Hv Hb. apply in_app_or in Hv. destruct Hv as [Hv|Hv]; auto. exfalso. destruct (B6 _ Hv) as [C1 _].
           eapply NoDup_app_disj; eauto.
      * destruct (At _ _ E0) as (b' & m3 & ks3 & m4 & C1 & C2 & C3 & C4 & C5).
        exists b', m3, ks3, m4. split; auto. split; auto. destruct C3 as [C3 C6]. split; [|auto]. split.
        -- intros v Hv. apply in_or_app; auto.
        -- intros v Hv Hb. apply in_app_or in Hv. destruct Hv as [Hv|Hv]; auto. exfalso. destruct (A6 _ Hv) as [C7 _].
           eapply NoDup_app_disj; [exact ND|exact C7|]. apply in_flat_map. exists b0. split; auto. eapply nth_error_In; eauto.
Qed.
Lemma blocks_len : forall f cross bs m bs' ks m', sroa_blocks f cross m bs = Some (bs', ks, m') -> length bs' = length bs.
Proof.
  intros f cross bs. induction bs as [|b bs IH]; intros m bs' ks m' H; cbn [sroa_blocks] in H.
  - injection H as <- <- <-. reflexivity.
  - destruct (sroa_block f cross m b) as [[[b1 ks1] m1]|] eqn:E; [|discriminate].
    destruct (sroa_blocks f cross m1 bs) as [[[bs1 ks2] m2]|] eqn:F; [|discriminate]. injection H as <- <- <-.
    cbn. f_equal. eauto.
Qed.

(** ** Agreement on what is used. *)
Lemma term_on : forall e e' rets t, (forall v, In v (term_uses t) -> e' v = e v) -> exec_term e' rets t = exec_term e rets t.
Proof.
  intros e e' rets t He.
  assert (EA : forall v, (forall i, In i (val_ids v) -> e' i = e i) -> eval_any e' v = eval_any e v).
  { intros [l|i|] H; cbn in *; auto. rewrite (H i); auto. }
  destruct t as [| c | op l r | vs |]; cbn [exec_term term_uses] in *; auto.
  - rewrite (truth_sim_agree e e'); auto.
  - unfold eval_bin, eval_opnd.
    rewrite (EA l), (EA r) by (intros; apply He, in_app_iff; auto).
    destruct (op_type op) as [t|]; auto.
    rewrite (SroaFacts.eval_as_agree e e' t l), (SroaFacts.eval_as_agree e e' t r); auto; intros; apply He, in_app_iff; auto.
  - destruct (omap _ rets); cbn; auto. rewrite (eval_list_agree e e'); auto.
Qed.
Lemma enter_on : forall f K e e' prev phs e1,
  (forall ph, In ph phs -> forall v, In v (vals_ids (map snd (snd ph))) -> v < N f /\ ~ In v K) ->
  erel f K e e' -> enter e prev phs = Some e1 ->
  exists e1', enter e' prev phs = Some e1' /\ erel f K e1 e1'.
Proof.
  intros f K e e' prev phs e1 Hp He E. unfold enter in *.
  assert (omap (phi_val e' prev) phs = omap (phi_val e prev) phs) as ->.
  { apply omap_ext_in. intros ph Hph. unfold phi_val. destruct prev as [p|]; auto.
    destruct (src_from p (snd ph)) as [v|] eqn:Es; auto.
    apply SroaFacts.eval_as_agree. intros i Hi.
    assert (I : In i (vals_ids (map snd (snd ph)))) by (apply in_flat_map; exists v; split; auto; eapply src_from_in; eauto).
    destruct (Hp ph Hph i I). apply He; auto. }
  destruct (omap (phi_val e prev) phs) as [vs|]; [|discriminate].
  destruct (bind_all_sim _ _ e' _ _ E) as (e2 & E2 & Q1 & Q2). exists e2. split; auto.
  intros v Lv Nv. destruct (in_dec Nat.eq_dec v (map (fun p => fst (fst p)) phs)); auto.
  rewrite Q2, (bind_all_get _ _ _ _ E v) by auto. apply He; auto.
Qed.

Lemma targets_go : forall e rets t b, exec_term e rets t = ROk (NGo b) -> In b (targets t).
Proof.
  intros e rets t b H. destruct t as [|c ? ?|op l r ? ?| |]; cbn [exec_term] in H.
  - injection H as <-. left; auto.
  - destruct (truth e c) as [x|]; [|discriminate]. cbn in H. injection H as <-. destruct x; cbn; auto.
  - destruct (branch_op op); [|discriminate]. destruct (eval_bin e op l r) as [[]| | |]; cbn in H; try discriminate.
    injection H as <-. match goal with |- In (if ?x then _ else _) _ => destruct x end; cbn; auto.
  - destruct (omap _ rets); [|discriminate]. cbn in H. destruct (eval_list _ _ _); discriminate.
  - discriminate.
Qed.
Lemma span_phis_of : forall phs rest, forallb (fun i => negb (is_phi i)) rest = true ->
  span_phi (map (fun p => IPhi (fst (fst p)) (snd (fst p)) (snd p)) phs ++ rest) = (phs, rest).
Proof.
  induction phs as [|[[d t] ss] phs IH]; intros rest H; cbn.
  - apply span_nophi; auto.
  - rewrite IH; auto.
Qed.

(** Reachable blocks use nothing at or before its definition. *)
Lemma reach_fwd : forall f b blk, ssa f -> (exists w, walk f (b :: w)) -> nth_error (f_blocks f) b = Some blk ->
  forallb (fun i => negb (is_phi i)) (rest_of blk) = true -> fwd (rest_of blk).
Proof.
  intros f b blk (SD & ST) HW HB HP.
  assert (G : forall is k, (forall j i, nth_error is j = Some i -> nth_error (b_instrs blk) (k + j) = Some i) ->
     forallb (fun i => negb (is_phi i)) is = true -> fwd is).
  { induction is as [|i is IH]; intros k A P; cbn [fwd]; auto. cbn in P. apply andb_true_iff in P. destruct P as [P1 P2].
    apply negb_true_iff in P1. pose proof (A 0 i eq_refl) as Ai. rewrite Nat.add_0_r in Ai.
    assert (At : forall v, In v (idests is) -> exists j, k < j /\ def_at f b j v).
    { intros v Hv. apply in_flat_map in Hv. destruct Hv as (i' & Hi' & Hv). apply In_nth_error in Hi'. destruct Hi' as (j & Hj).
      exists (k + Datatypes.S j). split; [lia|]. exists blk, i'. split; [auto|]. split; [|auto]. apply (A (Datatypes.S j)). exact Hj. }
    split; [|split].
    - intros v Hv. pose proof (proj1 (ST b blk HB) k i v Ai P1 Hv) as Dv. split; intro I.
      + eapply not_dom_self; [exact SD| |exact HW|exact Dv]. exists blk, i; auto.
      + destruct (At _ I) as (j & Lj & Dj). eapply not_dom_self; [exact SD|exact Dj|exact HW|]. eapply dom_mono; [|exact Dv]. lia.
    - intros v Hv I. destruct (At _ I) as (j & Lj & Dj).
      destruct (def_at_uniq f b k b j v SD); [exists blk, i; auto | exact Dj | lia].
    - apply (IH (Datatypes.S k)); auto. intros j i' Hj. rewrite Nat.add_succ_comm. apply (A (Datatypes.S j)). exact Hj. }
  apply (G (rest_of blk) (length (phis_of blk))); auto. intros j i Hj. rewrite split_block. rewrite nth_error_app2 by lia.
  replace (length (phis_of blk) + j - length (phis_of blk)) with j by lia. exact Hj.
Qed.

Lemma ty_get_in : forall l d t, NoDup (map fst l) -> In (d, t) l -> ty_get d l = Some t.
Proof.
  induction l as [|[w u] l IH]; intros d t ND H; [destruct H|]. cbn in *. inversion ND as [|? ? X Y]; subst.
  destruct H as [E|H]; [injection E as -> ->; rewrite Nat.eqb_refl; auto|].
  destruct (Nat.eqb_spec d w) as [->|]; [|auto]. exfalso. apply X. apply (in_map fst) in H. exact H.
Qed.
Lemma ty_get_some : forall l d t, ty_get d l = Some t -> In (d, t) l.
Proof.
  induction l as [|[w u] l IH]; intros d t H; cbn in H; [discriminate|].
  destruct (Nat.eqb_spec d w) as [->|]; [injection H as ->; left; auto | right; auto].
Qed.

(** ** Whole functions. *)
Section Whole.
  Variables (f g : func) (K : list nat).
  Hypothesis HRun : sroa_run f = Some (g, K).
  Hypothesis HSsa : ssa f.
  Hypothesis HPhi : phis_first f.
  Hypothesis HBelow : ids_below f.
  Hypothesis HAgg : agg_typed f = true.
  Hypothesis HArr : arrays_kept f g.

  Lemma run_parts : exists bs m, sroa_blocks f (cross_block f) (Ids (f_next f) []) (f_blocks f) = Some (bs, K, m) /\
    g = Func bs (f_entry f) (f_params f) (f_rets f) (i_next m)
               (fun v => match ty_get v (i_types m) with Some t => Some t | None => f_types f v end).
  Proof using HRun.
    pose proof HRun as E. unfold sroa_run in E. destruct (sroa_blocks _ _ _ _) as [[[bs ks] m]|]; [|discriminate].
    injection E as E1 E2. exists bs, m. rewrite <- E2. split; [reflexivity|]. symmetry. exact E1.
  Qed.

  Lemma all_parts : exists m bs, g = Func bs (f_entry f) (f_params f) (f_rets f) (i_next m)
               (fun v => match ty_get v (i_types m) with Some t => Some t | None => f_types f v end) /\
    length bs = length (f_blocks f) /\
    (forall v, v < N f -> f_types g v = f_types f v) /\ types_in (f_types g) m /\
    (forall v, In v K -> In v (all_dests f) /\ ~ In v (all_dests g)) /\
    forall k b, nth_error (f_blocks f) k = Some b -> exists b' m1 ks1 m2, nth_error (f_blocks g) k = Some b' /\
      block_does f (cross_block f) m1 b b' ks1 m2 /\ incl ks1 K /\ N f <= i_next m1 /\ types_in (f_types g) m2 /\
      sroa_block f (cross_block f) m1 b = Some (b', ks1, m2) /\ (forall v, In v K -> In v (bdests b) -> In v ks1).
  Proof using HRun HSsa HBelow HAgg HArr.
    destruct run_parts as (bs & m & E & EG). pose proof (blocks_len _ _ _ _ _ _ _ E) as EL.
    destruct (blocks_moves _ _ _ _ _ _ _ E) as [[B1 B2 B3 B4 B5 B6] At].
    - destruct HSsa as [SD _]. apply NoDup_app_r in SD. exact SD.
    - intros v Hv. apply in_flat_map in Hv. destruct Hv as (b & Hb & Hv). apply in_flat_map in Hv. destruct Hv as (i & Hi & Hv).
      apply (proj1 (proj1 HBelow b Hb) i Hi). auto.
    - apply le_n.
    - assert (ND : NoDup (map fst (i_types m))) by (apply B5; [constructor | intros d t []]).
      assert (TI : types_in (f_types g) m).
      { intros d t Hd. rewrite EG. cbn. rewrite (ty_get_in _ _ _ ND Hd). reflexivity. }
      exists m, bs. split; [exact EG|]. split; [exact EL|]. split; [|split; [exact TI|split]].
      + intros v Lv. rewrite EG. cbn. destruct (ty_get v (i_types m)) as [t|] eqn:G; auto. exfalso.
        apply ty_get_some in G. destruct (B4 _ _ G) as [[]|L]. cbn in L. unfold N in Lv. lia.
      + intros v Hv. destruct (B6 _ Hv) as [C1 C2]. rewrite EG. split; [exact C1 | exact C2].
      + intros k b Hk. destruct (At _ _ Hk) as (b' & m1 & ks1 & m2 & C1 & C2 & (C3 & C6) & C4 & C5).
        exists b', m1, ks1, m2. rewrite EG at 1. split; [exact C1|]. split; [|split; [auto|split; [auto|split; [|auto]]]].
        { apply sroa_block_does; auto.
          - unfold agg_typed in HAgg. rewrite forallb_forall in HAgg. apply HAgg. eapply nth_error_In; eauto.
          - intros d es t c Hin I. apply C3 in I. destruct (B6 _ I) as [_ Z]. apply Z.
            pose proof (HArr b d es t c (nth_error_In _ _ Hk) Hin) as W. rewrite EG in W. exact W. }
        intros d t Hd. apply TI. apply C5. exact Hd.
  Qed.

  Hypothesis HUse : forall k b v, nth_error (f_blocks g) k = Some b -> (exists w, walk f (k :: w)) ->
    (exists i, In i (b_instrs b) /\ In v (uses i)) \/ In v (term_uses (b_term b)) -> ~ In v K.

  Lemma whole_run : forall S (W : world S) fuel prev cur e e' s, erel f K e e' -> (exists w, walk f (cur :: w)) ->
    rrel true eq (run W f fuel prev cur e s) (run W g fuel prev cur e' s).
  Proof.
    destruct all_parts as (m & bs & EG & EL & Told & TI & KD & At).
    assert (KN : forall v, In v K -> v < N f).
    { intros v Hv. destruct (KD _ Hv) as [C _]. apply in_flat_map in C. destruct C as (b & Hb & C). apply in_flat_map in C.
      destruct C as (i & Hi & C). apply (proj1 (proj1 HBelow b Hb) i Hi). auto. }
    intros S W. induction fuel as [|k IH]; intros prev cur e e' s He HW; cbn [run]; [intros _; reflexivity|].
    destruct (nth_error (f_blocks f) cur) as [b|] eqn:Eb; [|exact Logic.I].
    destruct (At _ _ Eb) as (b' & m1 & ks1 & m2 & Eb' & D & KI & Lm & Tm & _). rewrite Eb'.
    pose proof (nth_error_In _ _ Eb) as Ib.
    destruct D as (out & st & m3 & out' & D1 & D2 & -> & D3). pose proof (HPhi b Ib) as Pb.
    pose proof (all_nophi _ _ _ _ _ _ _ _ D1 Pb) as Po. pose proof (g_nophi _ _ _ (ret_term_grows _ _ _ _ _ _ _ D3)) as Po'.
    rewrite D2. unfold phis_of. rewrite span_phis_of by (rewrite forallb_app, Po, Po'; reflexivity). cbn [fst snd].
    destruct (proj1 HBelow b Ib) as [Hi Ht].
    destruct (enter e prev (fst (span_phi (b_instrs b)))) as [e1|] eqn:Ee; [|exact Logic.I].
    assert (UseIn : forall i v, In i (phis_of b ++ out ++ out') -> In v (uses i) -> ~ In v K).
    { intros i v Ii Iv. apply (HUse cur b' v Eb' HW). left. exists i. rewrite D2. auto. }
    destruct (enter_on f K e e' prev (fst (span_phi (b_instrs b))) e1) as (e1' & -> & He1); auto.
    { intros [[d t] ss] Hp v Hv. split.
      - apply (Hi _ (span_in_fst _ _ _ _ Hp)). right. exact Hv.
      - apply (UseIn (IPhi d t ss)); [|exact Hv]. apply in_or_app. left. apply (in_map (fun p => IPhi (fst (fst p)) (snd (fst p)) (snd p))) in Hp. exact Hp. }
    cbn [of_opt rbind]. rewrite exec_app.
    pose proof (ret_term_grows _ _ _ _ _ _ _ D3) as [G1 G2 _ _ _ _].
    pose proof (reach_fwd f cur b HSsa HW Eb Pb) as Fw.
    assert (Sim : rrel true (post f K st) (exec_list W (f_types f) e1 s (rest_of b)) (exec_list W (f_types g) e1' s out)).
    { eapply (all_sim f (cross_block f) (f_types g) K Told KN S W [] m1 (rest_of b) out st m3 D1); auto.
      - intros i Hin. apply Hi. apply span_in_snd. exact Hin.
      - intros u [].
      - intros d t Hd. apply Tm. apply G2. exact Hd.
      - intros u Hu. apply in_flat_map in Hu. destruct Hu as (i & Ii & Iu). apply (UseIn i); auto. apply in_or_app. right. apply in_or_app; auto.
      - intros v es Q. discriminate. }
    unfold rest_of in Sim. destruct (exec_list W (f_types f) e1 s (snd (span_phi (b_instrs b)))) as [[e2 s2]| | |] eqn:E2; cbn [rbind].
    2,3,4: cbn in Sim; first [exact Logic.I | intros _; rewrite (Sim eq_refl); reflexivity].
    destruct Sim as ([e3 s3] & -> & P1 & P2 & P3). cbn [fst snd rbind] in *. subst s3.
    assert (Er : map (f_types g) (f_rets g) = map (f_types f) (f_rets f)).
    { rewrite EG at 2. cbn [f_rets]. apply map_ext_in. intros v Hv. apply Told. apply (proj2 HBelow). auto. }
    rewrite Er.
    assert (Tail : exists e4, exec_list W (f_types g) e3 s2 out' = ROk (e4, s2) /\ erel f K e2 e4 /\
      rrel true eq (exec_term e2 (map (f_types f) (f_rets f)) (b_term b)) (exec_term e4 (map (f_types f) (f_rets f)) (b_term b')) \/
      exec_term e2 (map (f_types f) (f_rets f)) (b_term b) = RStuck).
    { destruct D3 as [(T1 & -> & ->)|(vs & vs' & T1 & T2 & R)].
      - exists e3. left. split; [reflexivity|]. split; auto. rewrite T1. rewrite (term_on e2 e3); [apply rrel_eq_refl|].
        intros v Hv. apply P1; [apply Ht; auto|]. apply (HUse cur b' v Eb' HW). right. rewrite T1. exact Hv.
      - rewrite T1, T2. cbn [exec_term]. destruct (omap (fun t => t) (map (f_types f) (f_rets f))) as [ts|]; [|exists e3; auto].
        cbn [of_opt rbind]. destruct (eval_list e2 ts vs) as [xs|] eqn:Ex; [|exists e3; right; reflexivity].
        destruct (all_types _ _ _ _ _ _ _ _ D1) as [_ Ln].
        destruct (ret_vals_ok f (f_types g) K Told KN S W st vs m3 vs' out' m2 R) as (_ & _ & Q).
        + lia.
        + intros u Hu. apply Ht. rewrite T1. exact Hu.
        + intros u Hu. destruct (all_mention _ _ _ _ _ _ _ _ D1 _ Hu) as [[]|[U|U]].
          * apply in_flat_map in U. destruct U as (i & Ii & Iu). apply (Hi i); auto. apply span_in_snd. exact Ii.
          * apply in_flat_map in U. destruct U as (i & Ii & Iu). apply (Hi i); auto. apply span_in_snd. exact Ii.
        + intros u [U|U].
          * apply (HUse cur b' u Eb' HW). right. rewrite T2. exact U.
          * apply in_flat_map in U. destruct U as (i & Ii & Iu). apply (UseIn i); auto. apply in_or_app. right. apply in_or_app; auto.
        + exact Tm.
        + destruct (Q e2 e3 s2 ts xs P3 P1 Ex) as (e4 & Q1 & Q2 & Q3). exists e4. left. split; auto. split.
          * intros v Lv Nv. rewrite Q3 by lia. auto.
          * rewrite Q2. apply rrel_eq_refl. }
    destruct Tail as (e4 & [(-> & He4 & RT)|St]).
    2:{ rewrite St. exact Logic.I. }
    cbn [rbind fst snd]. apply rrel_bind with (R := eq); [exact RT|].
    intros x ? Ex _ <-. destruct x as [b2|vs]; [|apply rrel_eq_refl]. apply IH; auto.
    destruct HW as (w & HW). exists (cur :: w). eapply w_step; eauto. eapply targets_go; eauto.
  Qed.

  Theorem whole_same : same_behaviour f g.
  Proof.
    destruct all_parts as (m & bs & EG & _).
    intros S W fuel args s. unfold call_fn. replace (f_params g) with (f_params f) by (rewrite EG; reflexivity).
    replace (f_entry g) with (f_entry f) by (rewrite EG; reflexivity).
    destruct (bind_all (fun _ => None) (f_params f) args) as [e|]; [|intro Q; destruct Q; reflexivity].
    apply (proj1 (rrel_true _ _ _)). apply whole_run; [intros v _ _; reflexivity|]. exists []. constructor.
  Qed.
End Whole.

(** If everything used after the pass is defined after the pass, nothing changes. *)
Theorem closed_same : forall f g, sroa_pass f = Some g -> ssa f -> phis_first f -> ids_below f ->
  agg_typed f = true -> arrays_kept f g -> closed g -> same_behaviour f g.
Proof.
  intros f g HP HS HF HB HA HR HC. unfold sroa_pass in HP. destruct (sroa_run f) as [[g0 K]|] eqn:E; [|discriminate].
  cbn in HP. injection HP as ->.
  destruct (all_parts f g K E HS HB HA HR) as (m & bs & EG & _ & _ & _ & KD & _).
  refine (whole_same f g K E HS HF HB HA HR _). intros k b v Hb _ HU HK. destruct (KD _ HK) as [K1 K2].
  destruct (HC b v (nth_error_In _ _ Hb) HU) as [I|I]; auto. rewrite EG in I. cbn [f_params] in I.
  destruct HS as [SD _]. eapply NoDup_app_disj; [exact SD| |]; eauto.
Qed.
