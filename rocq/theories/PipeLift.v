(** From functions to modules: if every function of a module is replaced by one that, with
    calls doing the same, gives the same results, calls of the new module give the results
    of calls of the old one. *)
From Coq Require Import ZArith Bool String List Arith Lia.
From Verif Require Import M31 Isa Mir MirSem CgLink CgRun SrcFacts MirType MirTypeFacts.
Import ListNotations.
Open Scope nat_scope.

(** Results that count: returned values, and failures if [T]. *)
Definition final (T : Prop) {A} (r : MirSem.res A) : Prop :=
  match r with ROk _ => True | RTrap => T | _ => False end.

(** ** More fuel. *)
Lemma run_more : forall S (W : world S) f T n m prev cur e s r, n <= m -> final T r ->
  run W f n prev cur e s = r -> run W f m prev cur e s = r.
Proof.
  intros S W f T. induction n as [|n IH]; intros m prev cur e s r L Fr H; [cbn in H; subst r; destruct Fr|].
  destruct m as [|m]; [lia|]. cbn [run] in H |- *. destruct (nth_error (f_blocks f) cur) as [b|]; [|exact H].
  destruct (enter e prev (fst (span_phi (b_instrs b)))) as [e1|]; cbn [of_opt rbind] in H |- *; [|exact H].
  destruct (exec_list W (f_types f) e1 s (snd (span_phi (b_instrs b)))) as [x| | |]; cbn [rbind] in H |- *; try exact H.
  destruct (exec_term _ _ _) as [[b'|vs]| | |]; cbn [rbind] in H |- *; try exact H.
  apply (IH m (Some cur) b' (fst x) (snd x) r); [lia | exact Fr | exact H].
Qed.
Lemma call_more : forall S (W : world S) f T n m args s r, n <= m -> final T r ->
  call_fn W f n args s = r -> call_fn W f m args s = r.
Proof.
  intros S W f T n m args s r L Fr H. unfold call_fn in *. destruct (bind_all _ _ _) as [e|]; [|exact H].
  eapply run_more; eauto.
Qed.

(** ** Worlds that agree in the end. *)
Section Limit.
  Variables (T : Prop) (sg : list msig) (W : world unit) (V : nat -> world unit).
  Hypothesis same_load : forall m, w_load (V m) = w_load W.
  Hypothesis same_store : forall m, w_store (V m) = w_store W.
  Hypothesis same_array : forall m, w_array (V m) = w_array W.
  Hypothesis same_alloc : forall m, w_alloc (V m) = w_alloc W.
  Hypothesis same_calls : forall k ps rs vs r, nth_error sg k = Some (Some ps, rs) -> Forall2 fits ps vs -> final T r ->
    w_call W k vs tt = r -> exists M, forall m, M <= m -> w_call (V m) k vs tt = r.

  Lemma bind_limit : forall A B (x : MirSem.res A) (k : A -> MirSem.res B) (y : nat -> MirSem.res A) (l : nat -> A -> MirSem.res B) r,
    final T r -> rbind x k = r ->
    (final T x -> exists M, forall m, M <= m -> y m = x) ->
    (forall a, x = ROk a -> final T (k a) -> exists M, forall m, M <= m -> l m a = k a) ->
    exists M, forall m, M <= m -> rbind (y m) (l m) = r.
  Proof.
    intros A B x k y l r Fr H Hx Hk. destruct x as [a| | |]; cbn [rbind] in H; subst r; try (destruct Fr; fail).
    - destruct (Hx Logic.I) as (M1 & H1). destruct (Hk a eq_refl Fr) as (M2 & H2). exists (M1 + M2). intros m L.
      rewrite H1 by lia. cbn [rbind]. apply H2. lia.
    - destruct (Hx Fr) as (M1 & H1). exists M1. intros m L. rewrite H1 by exact L. reflexivity.
  Qed.
  Lemma effect_limit : forall tys e i r, call_fits sg i = true -> final T r ->
    effect W tys e tt i = r -> exists M, forall m, M <= m -> effect (V m) tys e tt i = r.
  Proof.
    intros tys e i r Hc Fr H.
    destruct i; try (exists 0; intros m _; cbn [effect] in *; rewrite ?same_load, ?same_store, ?same_array, ?same_alloc; exact H).
    cbn [effect] in *. cbn [call_fits] in Hc.
    match type of Hc with match nth_error sg ?k with _ => _ end = true => destruct (nth_error sg k) as [[[ps|] rs]|] eqn:E; try discriminate end.
    apply tysb_eq in Hc. subst ps.
    destruct (eval_list _ _ _) as [vs|] eqn:El; cbn [of_opt rbind] in H |- *; [|exists 0; intros; exact H].
    eapply same_calls; eauto. exact (eval_list_fits _ _ _ _ El).
  Qed.
  Lemma exec_limit : forall tys e i r, call_fits sg i = true -> final T r ->
    exec W tys e tt i = r -> exists M, forall m, M <= m -> exec (V m) tys e tt i = r.
  Proof.
    intros tys e i r Hc Fr H. unfold exec in *. eapply bind_limit; [exact Fr | exact H | |].
    - intro Fx. exact (effect_limit tys e i _ Hc Fx eq_refl).
    - intros a _ _. exists 0. reflexivity.
  Qed.
  Lemma exec_list_limit : forall tys is e r, forallb (call_fits sg) is = true -> final T r ->
    exec_list W tys e tt is = r -> exists M, forall m, M <= m -> exec_list (V m) tys e tt is = r.
  Proof.
    intros tys. induction is as [|i is IH]; intros e r Hc Fr H; [exists 0; intros; exact H|].
    cbn [forallb] in Hc. apply andb_true_iff in Hc. destruct Hc as [Hi Hc]. cbn [exec_list] in *.
    eapply bind_limit; [exact Fr | exact H | |].
    - intro Fx. exact (exec_limit tys e i _ Hi Fx eq_refl).
    - intros [e1 []] _ Fk. exact (IH e1 _ Hc Fk eq_refl).
  Qed.
  Lemma run_limit : forall g, calls_fit sg g = true -> forall fuel prev cur e r, final T r ->
    run W g fuel prev cur e tt = r -> exists M, forall m, M <= m -> run (V m) g fuel prev cur e tt = r.
  Proof.
    intros g Hc. induction fuel as [|fuel IH]; intros prev cur e r Fr H; [exists 0; intros; exact H|].
    cbn [run] in *. destruct (nth_error (f_blocks g) cur) as [b|] eqn:Eb; [|exists 0; intros; exact H].
    destruct (enter e prev (fst (span_phi (b_instrs b)))) as [e1|]; cbn [of_opt rbind] in H |- *; [|exists 0; intros; exact H].
    assert (Hb : forallb (call_fits sg) (snd (span_phi (b_instrs b))) = true).
    { unfold calls_fit in Hc. rewrite forallb_forall in Hc. specialize (Hc _ (nth_error_In _ _ Eb)).
      rewrite forallb_forall in Hc. apply forallb_forall. intros i Hi. apply Hc. rewrite (MirSim.span_phi_app (b_instrs b)).
      apply in_or_app. now right. }
    eapply bind_limit; [exact Fr | exact H | |].
    - intro Fx. exact (exec_list_limit _ _ _ _ Hb Fx eq_refl).
    - intros [e2 []] _ Fk. cbn [fst snd] in *. destruct (exec_term e2 _ (b_term b)) as [[b'|vs]| | |]; cbn [rbind] in Fk |- *;
        try (exists 0; reflexivity). exact (IH _ _ _ _ Fk eq_refl).
  Qed.
  Lemma call_limit : forall g, calls_fit sg g = true -> forall fuel args r, final T r ->
    call_fn W g fuel args tt = r -> exists M, forall m, M <= m -> call_fn (V m) g fuel args tt = r.
  Proof.
    intros g Hc fuel args r Fr H. unfold call_fn in *. destruct (bind_all _ _ _) as [e|]; [|exists 0; intros; exact H].
    exact (run_limit g Hc fuel None _ e r Fr H).
  Qed.
End Limit.

(** ** Returned values have the declared types. *)
Lemma run_fits : forall S (W : world S) f fuel prev cur e s vs s1, run W f fuel prev cur e s = ROk (vs, s1) ->
  exists ts, omap (f_types f) (f_rets f) = Some ts /\ Forall2 fits ts vs.
Proof.
  intros S W f. induction fuel as [|fuel IH]; intros prev cur e s vs s1 H; [discriminate|].
  cbn [run] in H. destruct (nth_error (f_blocks f) cur) as [b|]; [|discriminate].
  destruct (enter e prev (fst (span_phi (b_instrs b)))) as [e1|]; cbn [of_opt rbind] in H; [|discriminate].
  destruct (exec_list W (f_types f) e1 s (snd (span_phi (b_instrs b)))) as [x| | |]; cbn [rbind] in H; try discriminate.
  destruct (exec_term (fst x) (map (f_types f) (f_rets f)) (b_term b)) as [[b'|us]| | |] eqn:E; cbn [rbind] in H; try discriminate; [exact (IH _ _ _ _ _ _ H)|].
  injection H as <- <-. destruct (b_term b); cbn [exec_term] in E; try discriminate.
  - destruct (truth _ _); cbn in E; discriminate.
  - destruct (branch_op _); [|discriminate]. destruct (eval_bin _ _ _ _) as [[]| | |]; cbn in E; discriminate.
  - assert (Eo : omap (fun t => t) (map (f_types f) (f_rets f)) = omap (f_types f) (f_rets f)).
    { clear. induction (f_rets f) as [|r rs IH]; [reflexivity|]. cbn. now rewrite IH. }
    rewrite Eo in E. destruct (omap (f_types f) (f_rets f)) as [ts|]; [|discriminate]. cbn [of_opt rbind] in E.
    destruct (eval_list (fst x) ts _) as [xs|] eqn:El; [|discriminate]. cbn in E. injection E as <-.
    exists ts. split; [reflexivity | exact (eval_list_fits _ _ _ _ El)].
Qed.
Lemma call_fits_types : forall S (W : world S) f fuel args s vs s1, call_fn W f fuel args s = ROk (vs, s1) ->
  exists ts, omap (f_types f) (f_rets f) = Some ts /\ Forall2 fits ts vs.
Proof.
  intros S W f fuel args s vs s1 H. unfold call_fn in H. destruct (bind_all _ _ _); [|discriminate]. eapply run_fits; eauto.
Qed.
Lemma module_fits : forall ms F n, world_fits (sigs_of ms) (module_world ms F n).
Proof.
  intros ms F n k args s rs s' H ps ts Hk. destruct n as [|n]; cbn [module_world w_call] in H; [discriminate|].
  unfold sigs_of in Hk. rewrite nth_error_map in Hk. destruct (nth_error ms k) as [[nm f]|]; [|discriminate].
  cbn in Hk. unfold sig in Hk. destruct (call_fits_types _ _ _ _ _ _ _ _ H) as (us & E & HF). rewrite E in Hk. injection Hk as _ <-. exact HF.
Qed.

(** ** Modules. *)
(** [g] does what [f] does, in worlds whose calls return what the signatures say, on
    arguments of the parameter types. *)
Definition keeps (T : Prop) (sg : list msig) (f g : func) : Prop :=
  forall W : world unit, world_fits sg W -> forall fuel args ps r, omap (f_types f) (f_params f) = Some ps -> Forall2 fits ps args ->
    final T r -> call_fn W f fuel args tt = r -> exists fuel', call_fn W g fuel' args tt = r.

Theorem module_keeps : forall (T : Prop) ms ms',
  Forall2 (fun m m' => keeps T (sigs_of ms) (snd m) (snd m') /\ calls_fit (sigs_of ms) (snd m') = true) ms ms' ->
  forall F n k ps args r, option_map fst (nth_error (sigs_of ms) k) = Some (Some ps) -> Forall2 fits ps args -> final T r ->
    mir_call ms F n k args = r -> exists M, forall F', M <= F' -> mir_call ms' F' n k args = r.
Proof.
  intros T ms ms' HK F. induction n as [|n IH]; intros k ps args r Hk Ha Fr H.
  { unfold mir_call in *. cbn in *. subst r. destruct Fr. }
  unfold mir_call in *. cbn [module_world w_call] in *. unfold sigs_of in Hk. rewrite nth_error_map in Hk.
  destruct (nth_error ms k) as [[nm f]|] eqn:E; [|discriminate]. cbn in Hk. injection Hk as Hk.
  assert (K : exists m', nth_error ms' k = Some m' /\ keeps T (sigs_of ms) f (snd m') /\ calls_fit (sigs_of ms) (snd m') = true).
  { clear - HK E. revert HK. generalize (sigs_of ms) as sg. intros sg HK. revert k E. induction HK as [|m m' l l' H1 HK IH]; intros [|k] E; cbn in *; try discriminate.
    - injection E as ->. exists m'. split; [reflexivity|]. exact H1.
    - exact (IH k E). }
  destruct K as ([nm' g] & E' & Hkeep & Hc). cbn [snd] in *.
  destruct (Hkeep (module_world ms F n) (module_fits ms F n) F args ps r Hk Ha Fr H) as (fuel' & Hg).
  destruct (call_limit T (sigs_of ms) (module_world ms F n) (fun m => module_world ms' m n)) with (g := g) (fuel := fuel') (args := args) (r := r)
    as (M & HM); auto; try (intro m; destruct n; reflexivity).
  - intros j qs rs vs q Hj Hv Fq Hcall. apply (IH j qs vs q); auto. rewrite Hj. reflexivity.
  - exists (M + fuel'). intros F' L. rewrite E'. apply (call_more _ _ _ T fuel'); [lia | exact Fr|]. apply HM. lia.
Qed.
