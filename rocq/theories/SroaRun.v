(** Scalar replacement of aggregates: from one step to whole functions. *)
From Coq Require Import ZArith Bool String List Lia.
From Verif Require Import M31 Isa Mir MirSem MirFacts MirLocalFacts MirSim MirSsa MirSsaFacts MirLegalFacts MirCopyFacts MirSroa SroaSpec SroaFacts SroaStep.
Import ListNotations.
Open Scope nat_scope.

Definition idests (is : list minstr) : list nat := flat_map dests is.
Lemma idests_app : forall a b, idests (a ++ b) = idests a ++ idests b.
Proof. intros. apply flat_map_app. Qed.

(** ** New ids. *)
Record grows (m m' : ids) (out : list minstr) : Prop := Grows {
  g_next : i_next m <= i_next m';
  g_types : incl (i_types m) (i_types m');
  g_dests : forall v, In v (idests out) -> i_next m <= v < i_next m';
  g_new : forall d t, In (d, t) (i_types m') -> In (d, t) (i_types m) \/ i_next m <= d < i_next m';
  g_wf : NoDup (map fst (i_types m)) -> (forall d t, In (d, t) (i_types m) -> d < i_next m) -> NoDup (map fst (i_types m'));
  g_nophi : forallb (fun i => negb (is_phi i)) out = true }.
Lemma grows_refl : forall m, grows m m [].
Proof. intro m. constructor; auto. apply incl_refl. intros v []. Qed.
Lemma grows_trans : forall m m1 m2 a b, grows m m1 a -> grows m1 m2 b -> grows m m2 (a ++ b).
Proof.
  intros m m1 m2 a b [A1 A2 A3 A4 A5 A6] [B1 B2 B3 B4 B5 B6]. constructor.
  - lia.
  - eapply incl_tran; eauto.
  - intros v H. rewrite idests_app in H. apply in_app_or in H. destruct H as [H|H]; [apply A3 in H | apply B3 in H]; lia.
  - intros d t H. destruct (B4 _ _ H) as [K|K]; [destruct (A4 _ _ K); auto|]; right; lia.
  - intros H K. apply B5; [auto|]. intros d t I. destruct (A4 _ _ I) as [J|J]; [specialize (K _ _ J)|]; lia.
  - rewrite forallb_app, A6, B6. reflexivity.
Qed.
Lemma mat_grows : forall m es t d out m', materialize m es t = Some (d, out, m') -> grows m m' out.
Proof.
  intros m es t d out m' H. destruct (mat_ids _ _ _ _ _ _ H) as (-> & Hn & Ht). constructor.
  - lia.
  - rewrite Ht. intros x Hx. right; auto.
  - intros v Hv. rewrite Hn. unfold materialize in H.
    destruct t; try destruct (Nat.eqb _ _); try discriminate H; injection H as <- <-; cbn in Hv; lia.
  - intros d t0 I. rewrite Ht in I. destruct I as [E|I]; auto. injection E as <- <-. right. lia.
  - intros ND K. rewrite Ht. cbn. constructor; auto. intro I. apply in_map_iff in I. destruct I as ([d t0] & E & I).
    cbn in E. subst d. specialize (K _ _ I). lia.
  - unfold materialize in H. destruct t; try destruct (Nat.eqb _ _); try discriminate H; injection H as <- <-; reflexivity.
Qed.
Lemma call_grows : forall st args ps m args' out m', call_args st m args ps = Some (args', out, m') -> grows m m' out.
Proof.
  induction args as [|a args IH]; intros ps m args' out m' H; cbn [call_args] in H.
  - injection H as <- <- <-. apply grows_refl.
  - destruct (match a, _ with Op v, Some t => _ | _, _ => None end) as [[es t]|].
    + destruct (materialize m es t) as [[[d o] m1]|] eqn:E; [|discriminate].
      destruct (call_args st m1 args (tl ps)) as [[[r' o'] m2]|] eqn:F; [|discriminate]. injection H as <- <- <-.
      eapply grows_trans; [eapply mat_grows; eauto | eauto].
    + destruct (call_args st m args (tl ps)) as [[[r' o'] m2]|] eqn:F; [|discriminate]. injection H as <- <- <-. eauto.
Qed.
Lemma ret_grows : forall f st vs m vs' out m', ret_vals f st m vs = Some (vs', out, m') -> grows m m' out.
Proof.
  induction vs as [|a vs IH]; intros m args' out m' H; cbn [ret_vals] in H.
  - injection H as <- <- <-. apply grows_refl.
  - destruct (match a with Op v => _ | _ => None end) as [[es t]|].
    + destruct (materialize m es t) as [[[d o] m1]|] eqn:E; [|discriminate].
      destruct (ret_vals f st m1 vs) as [[[r' o'] m2]|] eqn:F; [|discriminate]. injection H as <- <- <-.
      eapply grows_trans; [eapply mat_grows; eauto | eauto].
    + destruct (ret_vals f st m vs) as [[[r' o'] m2]|] eqn:F; [|discriminate]. injection H as <- <- <-. eauto.
Qed.
Lemma grows_last : forall m m' out i, grows m m' out -> is_phi i = false ->
  i_next m <= i_next m' /\ incl (i_types m) (i_types m') /\
  (forall v, In v (idests (out ++ [i])) -> In v (dests i) \/ i_next m <= v < i_next m') /\
  (forall d t, In (d, t) (i_types m') -> In (d, t) (i_types m) \/ i_next m <= d < i_next m') /\
  (NoDup (map fst (i_types m)) -> (forall d t, In (d, t) (i_types m) -> d < i_next m) -> NoDup (map fst (i_types m'))) /\
  forallb (fun i => negb (is_phi i)) (out ++ [i]) = true.
Proof.
  intros m m' out i [A1 A2 A3 A4 A5 A6] P. split; [auto|]. split; [auto|]. split; [|split; [auto|split; [auto|]]].
  - intros v H. rewrite idests_app in H. apply in_app_or in H. destruct H as [H|H]; [right; auto|].
    cbn in H. rewrite app_nil_r in H. auto.
  - rewrite forallb_app, A6. cbn. rewrite P. reflexivity.
Qed.

(** What one step does to ids, destinations and tracked values. *)
Record moves (st : states) (m : ids) (ds : list nat) (out : list minstr) (st' : states) (m' : ids) : Prop := Moves {
  mv_next : i_next m <= i_next m';
  mv_types : incl (i_types m) (i_types m');
  mv_dests : forall v, In v (idests out) -> In v ds \/ i_next m <= v < i_next m';
  mv_new : forall d t, In (d, t) (i_types m') -> In (d, t) (i_types m) \/ i_next m <= d < i_next m';
  mv_wf : NoDup (map fst (i_types m)) -> (forall d t, In (d, t) (i_types m) -> d < i_next m) -> NoDup (map fst (i_types m'));
  mv_keys : incl (map fst st) (map fst st');
  mv_key : forall v, In v (map fst st') -> In v (map fst st) \/ (In v ds /\ (v < i_next m -> ~ In v (idests out))) }.

Lemma does_moves : forall f cross st m i out st' m', does f cross st m i out st' m' -> moves st m (dests i) out st' m'.
Proof.
  intros f cross st m i out st' m' D.
  assert (P : forall d es, dests i = [d] -> out = [] -> st' = (d, es) :: st -> m' = m -> moves st m (dests i) out st' m').
  { intros d es E -> -> ->. rewrite E. constructor; auto.
    - apply incl_refl.
    - intros v [].
    - intros v Hv; right; auto.
    - cbn. intros v [<-|H]; auto. }
  destruct D; try (eapply P; reflexivity).
  - constructor; auto.
    + apply incl_refl.
    + intros v H. cbn in H. rewrite app_nil_r in H. auto.
    + apply incl_refl.
  - destruct (take_cases st d w t) as [(u & es0 & -> & G & TE)|[TE _]]; rewrite TE in *; cbn [fst snd] in *; [eapply P; reflexivity|].
    constructor; auto; try apply incl_refl. 
  - destruct (take_cases st d w t) as [(u & es0 & -> & G & TE)|[TE _]]; rewrite TE in *; cbn [fst snd] in *; [eapply P; reflexivity|].
    constructor; auto; try apply incl_refl.
  - destruct (grows_last m m' out (ICall ds c args' ps) (call_grows _ _ _ _ _ _ _ H) eq_refl) as (A1 & A2 & A3 & A4 & A5 & A6).
    constructor; auto. apply incl_refl.
  - destruct (grows_last m m' out (IStore p (Op d) t) (mat_grows _ _ _ _ _ _ H1) eq_refl) as (A1 & A2 & A3 & A4 & A5 & A6).
    constructor; auto. apply incl_refl.
Qed.
Lemma does_nophi : forall f cross st m i out st' m', does f cross st m i out st' m' -> is_phi i = false ->
  forallb (fun i => negb (is_phi i)) out = true.
Proof.
  intros f cross st m i out st' m' D P. destruct D; auto.
  - cbn. rewrite P. reflexivity.
  - destruct (take_cases st d w t) as [(u & es0 & -> & G & TE)|[TE _]]; rewrite TE in *; reflexivity.
  - destruct (take_cases st d w t) as [(u & es0 & -> & G & TE)|[TE _]]; rewrite TE in *; reflexivity.
  - rewrite forallb_app, (g_nophi _ _ _ (call_grows _ _ _ _ _ _ _ H)). reflexivity.
  - rewrite forallb_app, (g_nophi _ _ _ (mat_grows _ _ _ _ _ _ H1)). reflexivity.
Qed.

(** ** Lists of instructions. *)
Inductive all_does (f : func) (cross : list nat) : states -> ids -> list minstr -> list minstr -> states -> ids -> Prop :=
| AD_nil st m : all_does f cross st m [] [] st m
| AD_cons st m i out st1 m1 r out' st2 m2 : does f cross st m i out st1 m1 ->
    all_does f cross st1 m1 r out' st2 m2 -> all_does f cross st m (i :: r) (out ++ out') st2 m2.

Lemma all_keep : forall f cross st m is, all_does f cross st m is is st m.
Proof.
  intros f cross st m is. induction is as [|i is IH]; [constructor|].
  change (i :: is) with ([i] ++ is) at 2. econstructor; [constructor|auto].
Qed.
Lemma moves_cons : forall st m ds out st1 m1 ds' out' st2 m2, moves st m ds out st1 m1 -> moves st1 m1 ds' out' st2 m2 ->
  NoDup (ds ++ ds') -> (forall v, In v (ds ++ ds') -> v < i_next m) -> moves st m (ds ++ ds') (out ++ out') st2 m2.
Proof.
  intros st m ds out st1 m1 ds' out' st2 m2 [A1 A2 A3 A4 A5 A6 A7] [B1 B2 B3 B4 B5 B6 B7] ND LT.
  constructor.
  - lia.
  - eapply incl_tran; eauto.
  - intros v H. rewrite idests_app in H. rewrite in_app_iff. apply in_app_or in H.
    destruct H as [H|H]; [apply A3 in H | apply B3 in H]; intuition lia.
  - intros d t H. destruct (B4 _ _ H) as [K|K]; [destruct (A4 _ _ K); auto|]; right; lia.
  - intros H K. apply B5; [auto|]. intros d t I. destruct (A4 _ _ I) as [J|J]; [specialize (K _ _ J)|]; lia.
  - eapply incl_tran; eauto.
  - intros v Hv. rewrite idests_app, !in_app_iff. destruct (B7 _ Hv) as [K|[K1 K2]].
    + destruct (A7 _ K) as [J|[J1 J2]]; auto. right. split; auto. intros Lv [I|I]; [eapply J2; eauto|].
      destruct (B3 _ I) as [I'|I']; [eapply NoDup_app_disj; eauto | lia].
    + right. split; auto. intros Lv [I|I]; [|apply K2; auto; lia].
      destruct (A3 _ I) as [I'|I']; [eapply NoDup_app_disj; eauto | lia].
Qed.
Lemma moves_refl : forall st m ds, moves st m ds [] st m.
Proof. intros. constructor; auto; try apply incl_refl. intros v []. Qed.

Lemma all_nophi : forall f cross st m is out st' m', all_does f cross st m is out st' m' ->
  forallb (fun i => negb (is_phi i)) is = true -> forallb (fun i => negb (is_phi i)) out = true.
Proof.
  induction 1 as [st m|st m i out st1 m1 r out' st2 m2 D A IH]; intro H; auto.
  cbn in H. apply andb_true_iff in H. destruct H as [H1 H2]. rewrite forallb_app, (does_nophi _ _ _ _ _ _ _ _ D), IH; auto.
  apply negb_true_iff; auto.
Qed.
Lemma all_keys : forall f cross st m is out st' m', all_does f cross st m is out st' m' -> incl (map fst st) (map fst st').
Proof.
  induction 1; [apply incl_refl|]. eapply incl_tran; [|eassumption]. apply (mv_keys _ _ _ _ _ _ (does_moves _ _ _ _ _ _ _ _ H)).
Qed.
Lemma all_types : forall f cross st m is out st' m', all_does f cross st m is out st' m' ->
  incl (i_types m) (i_types m') /\ i_next m <= i_next m'.
Proof.
  induction 1; [split; [apply incl_refl|auto]|]. destruct (does_moves _ _ _ _ _ _ _ _ H) as [A1 A2 _ _ _ _ _].
  destruct IHall_does. split; [eapply incl_tran; eauto|lia].
Qed.
Lemma all_mention : forall f cross st m is out st' m', all_does f cross st m is out st' m' ->
  forall u, In u (mention st') -> In u (mention st) \/ In u (flat_map uses is) \/ In u (idests is).
Proof.
  induction 1 as [st m|st m i out st1 m1 r out' st2 m2 D A IH]; intros u Hu; auto.
  change (idests (i :: r)) with (dests i ++ idests r). cbn [flat_map]. rewrite !in_app_iff.
  destruct (IH _ Hu) as [H|[H|H]]; auto. destruct (does_mention _ _ _ _ _ _ _ _ D _ H) as [K|[K|K]]; auto.
Qed.

Lemma st_get_key : forall v st es, st_get v st = Some es -> In v (map fst st).
Proof. intros v st es H. apply st_get_in in H. apply (in_map fst) in H. exact H. Qed.

Lemma store_chain_keys : forall f st ps v new st', store_chain f st v ps new = Some st' ->
  exists u es, st' = (u, es) :: st /\ In u (map fst st).
Proof.
  induction ps as [|p ps IH]; intros v new st' Q; cbn [store_chain] in Q; [discriminate|].
  destruct v as [|u|]; try discriminate. destruct (st_get u st) eqn:G; [|discriminate].
  destruct (proj_index _ _ _ _); [|discriminate].
  destruct ps as [|p' ps]; [injection Q as <-; exists u; eexists; split; [reflexivity|eapply st_get_key; eauto]|].
  destruct (nth_error _ _); [|discriminate]. eapply IH; eauto.
Qed.

(** The same for the pass as it is, whatever the instructions. *)
Lemma step_moves : forall f cross is st m i out st' m', step f cross is st m i = Some (out, st', m') ->
  moves st m (dests i) out st' m'.
Proof.
  intros f cross is st m i out st' m' H.
  assert (Same : Some ([i], st, m) = Some (out, st', m') -> moves st m (dests i) out st' m').
  { intro E. injection E as <- <- <-. constructor; auto; try apply incl_refl. intros v Hv. cbn in Hv. rewrite app_nil_r in Hv. auto. }
  assert (P : forall d es, dests i = [d] -> Some ([], (d, es) :: st, m) = Some (out, st', m') -> moves st m (dests i) out st' m').
  { intros d es E Q. injection Q as <- <- <-. rewrite E. constructor; auto.
    - apply incl_refl.
    - intros v [].
    - intros v Hv; right; auto.
    - cbn. intros v [<-|K]; auto. }
  assert (Tk : forall d w t b, dests i = [d] -> Some (fst (take st d w t b), snd (take st d w t b), m) = Some (out, st', m') ->
    moves st m (dests i) out st' m').
  { intros d w t b E Q. assert (Asg : Some ([IAssign d w t], st, m) = Some (out, st', m') -> moves st m (dests i) out st' m').
    { intro Z. injection Z as <- <- <-. rewrite E. constructor; auto; try apply incl_refl. }
    unfold take in Q. destruct w as [|u|]; auto. destruct (st_get u st); auto. destruct b; auto. eapply P; eauto. }
  destruct i; cbn [step] in H; try (apply Same; exact H).
  - destruct source; try (apply Same; exact H). destruct (agg_ty t); [|apply Same; exact H].
    destruct (st_get _ st); [|apply Same; exact H]. eapply P; eauto. reflexivity.
  - destruct (call_args st m args params) as [[[a o] m1]|] eqn:E; [|discriminate]. injection H as <- <- <-.
    destruct (grows_last m m1 o (ICall dests callee a params) (call_grows _ _ _ _ _ _ _ E) eq_refl) as (A1 & A2 & A3 & A4 & A5 & A6).
    constructor; auto. apply incl_refl.
  - destruct (starts_const pl); [|apply Same; exact H]. destruct (chain _ _ _ _); [|apply Same; exact H]. eapply Tk; eauto. reflexivity.
  - destruct (if starts_const pl then _ else None) as [st1|] eqn:E.
    + destruct (starts_const pl); [|discriminate]. apply store_chain_keys in E. destruct E as (u & es & -> & Iu).
      injection H as <- <- <-. constructor; auto.
      * apply incl_refl.
      * intros v0 Hv; right; auto.
      * cbn. intros v0 [<-|K]; auto.
    + destruct v; try (apply Same; exact H). destruct (agg_ty t); [|apply Same; exact H]. destruct (st_get _ st); [|apply Same; exact H].
      destruct (materialize m _ t) as [[[d o] m1]|] eqn:E1; [|discriminate]. injection H as <- <- <-.
      destruct (grows_last m m1 o (IStore pl (Op d) t) (mat_grows _ _ _ _ _ _ E1) eq_refl) as (A1 & A2 & A3 & A4 & A5 & A6).
      constructor; auto. apply incl_refl.
  - destruct (f_types f dest) as [[]|]; try (apply Same; exact H). destruct (_ && _); [|apply Same; exact H]. eapply P; eauto. reflexivity.
  - destruct tuple; try (apply Same; exact H). destruct (st_get _ st); [|apply Same; exact H].
    destruct (nth_error _ _); [|apply Same; exact H]. eapply Tk; eauto. reflexivity.
  - destruct (can_scalarize f cross is dest); [|apply Same; exact H].
    destruct (match f_types f dest with Some t' => Some t' | None => Some struct_ty end) as [[]|]; try (apply Same; exact H).
    destruct (from_fields _ _); [|apply Same; exact H]. eapply P; eauto. reflexivity.
  - destruct struct_val; try (apply Same; exact H). destruct (field_index _ _); [|apply Same; exact H].
    destruct (st_get _ st); [|apply Same; exact H]. destruct (nth_error _ _); [|apply Same; exact H]. eapply Tk; eauto. reflexivity.
  - destruct struct_val; try (apply Same; exact H). destruct (st_get _ st); [|apply Same; exact H].
    destruct (field_index _ _); [|apply Same; exact H]. destruct (Nat.ltb _ _); [|apply Same; exact H]. eapply P; eauto. reflexivity.
  - destruct tuple_val; try (apply Same; exact H). destruct (st_get _ st); [|apply Same; exact H].
    destruct (Nat.ltb _ _); [|apply Same; exact H]. eapply P; eauto. reflexivity.
  - destruct (f_types f dest) as [[]|]; try (apply Same; exact H). destruct (_ && _); [|apply Same; exact H]. eapply P; eauto. reflexivity.
Qed.
Lemma steps_moves : forall f cross is js st m out st' m', steps f cross is st m js = Some (out, st', m') ->
  NoDup (idests js) -> (forall v, In v (idests js) -> v < i_next m) -> moves st m (idests js) out st' m'.
Proof.
  intros f cross is js. induction js as [|j js IH]; intros st m out st' m' H ND LT; cbn [steps] in H.
  - injection H as <- <- <-. apply moves_refl.
  - destruct (step f cross is st m j) as [[[o st1] m1]|] eqn:E; [|discriminate].
    destruct (steps f cross is st1 m1 js) as [[[o' st2] m2]|] eqn:F; [|discriminate]. injection H as <- <- <-.
    change (idests (j :: js)) with (dests j ++ idests js) in *. pose proof (step_moves _ _ _ _ _ _ _ _ _ E) as M.
    eapply moves_cons; [exact M| |exact ND|exact LT]. eapply IH; eauto. { eapply NoDup_app_r; eauto. }
    intros v Hv. pose proof (mv_next _ _ _ _ _ _ M). assert (v < i_next m) by (apply LT; apply in_or_app; auto). lia.
Qed.

Lemma steps_keys : forall f cross is js st m out st' m', steps f cross is st m js = Some (out, st', m') -> incl (map fst st) (map fst st').
Proof.
  intros f cross is js. induction js as [|j js IH]; intros st1 m1 o' st2 m2 F; cbn [steps] in F.
  - injection F as <- <- <-. apply incl_refl.
  - destruct (step f cross is st1 m1 j) as [[[o st3] m3]|] eqn:E; [|discriminate].
    destruct (steps f cross is st3 m3 js) as [[[o1 st4] m4]|] eqn:F'; [|discriminate]. injection F as <- <- <-.
    eapply incl_tran; [|eapply IH; eauto]. apply (mv_keys _ _ _ _ _ _ (step_moves _ _ _ _ _ _ _ _ _ E)).
Qed.
Lemma steps_does : forall f cross is js st m out st' m', stat f st -> forallb (agg_instr f) is = true ->
  forallb (agg_instr f) js = true ->
  (forall d es t c, In (IMakeArray d es t c) js -> ~ In d (map fst st')) ->
  steps f cross is st m js = Some (out, st', m') -> all_does f cross st m js out st' m'.
Proof.
  intros f cross is js. induction js as [|j js IH]; intros st m out st' m' HS HA HJ HK H; cbn [steps] in H.
  - injection H as <- <- <-. constructor.
  - destruct (step f cross is st m j) as [[[o st1] m1]|] eqn:E; [|discriminate].
    destruct (steps f cross is st1 m1 js) as [[[o' st2] m2]|] eqn:F; [|discriminate]. injection H as <- <- <-.
    cbn in HJ. apply andb_true_iff in HJ. destruct HJ as [J1 J2].
    assert (KI : incl (map fst st1) (map fst st2)) by (eapply steps_keys; eauto).
    assert (D : does f cross st m j o st1 m1).
    { apply (step_does f cross is st m j o st1 m1 HS HA J1); [|exact E]. intros d es t c ->. destruct (st_get d st1) eqn:G; auto. exfalso.
      eapply HK; [left; reflexivity|]. apply KI. eapply st_get_key; eauto. }
    econstructor; [exact D|]. eapply IH; eauto.
      * eapply does_stat; eauto.
      * intros d es t c Hin. eapply HK. right; eauto.
Qed.

(** No value is used at or before its definition. *)
Fixpoint fwd (is : list minstr) : Prop :=
  match is with
  | [] => True
  | i :: r => (forall v, In v (uses i) -> ~ In v (dests i) /\ ~ In v (idests r)) /\
              (forall v, In v (dests i) -> ~ In v (idests r)) /\ fwd r
  end.

Section Run.
  Variables (f : func) (cross : list nat) (tys' : nat -> option ty) (K : list nat).
  Hypothesis Told : forall v, v < N f -> tys' v = f_types f v.
  Hypothesis KN : forall v, In v K -> v < N f.
  Notation erel := (erel f K).
  Notation inv := (inv f).
  Notation post := (post f K).

  Lemma all_sim : forall S (W : world S) st m is out st' m', all_does f cross st m is out st' m' ->
    (forall i, In i is -> instr_below (N f) i) -> (forall u, In u (mention st) -> u < N f) ->
    (forall v, In v (idests is) -> ~ In v (mention st)) -> fwd is ->
    N f <= i_next m -> types_in tys' m' -> incl (map fst st') K ->
    (forall u, In u (flat_map uses out) -> ~ In u K) ->
    forall e e' s, inv st e -> erel e e' ->
      rrel true (post st') (exec_list W (f_types f) e s is) (exec_list W tys' e' s out).
  Proof.
    intros S W. induction 1 as [st m|st m i out st1 m1 r out' st2 m2 D A IH];
      intros HB HL HM HF Lm HT IK Av e e' s HI HR.
    - cbn. eexists; split; [reflexivity|]. split; cbn; auto.
    - rewrite exec_app. cbn [exec_list]. destruct HF as (F1 & F2 & F3).
      destruct (all_types _ _ _ _ _ _ _ _ A) as [T1 T2]. pose proof (all_keys _ _ _ _ _ _ _ _ A) as Ki.
      change (idests (i :: r)) with (dests i ++ idests r) in HM.
      destruct (does_sim f cross tys' K Told KN S W st m i out st1 m1 D) as (X1 & X2 & X3); auto.
      + apply HB; left; auto.
      + intros v Hv. apply HM. apply in_or_app; auto.
      + intros v Hv. apply F1; auto.
      + intros d t Hd. apply HT. apply T1. auto.
      + eapply incl_tran; eauto.
      + intros u Hu. apply Av. rewrite flat_map_app. apply in_or_app; auto.
      + apply rrel_bind with (R := post st1); [auto|]. intros x y _ _ (P1 & P2 & P3). rewrite <- P2.
        apply IH; auto.
        * intros j Hj. apply HB; right; auto.
        * intros u Hu. destruct (does_mention _ _ _ _ _ _ _ _ D _ Hu) as [U|[U|U]]; auto;
            apply (HB i (or_introl eq_refl)); auto.
        * intros v Hv U. destruct (does_mention _ _ _ _ _ _ _ _ D _ U) as [U'|[U'|U']].
          -- apply (HM v); auto. apply in_or_app; auto.
          -- apply F1 in U'. tauto.
          -- apply F2 in U'. auto.
        * lia.
        * intros u Hu. apply Av. rewrite flat_map_app. apply in_or_app; auto.
  Qed.
End Run.
