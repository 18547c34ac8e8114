(** Generated code for calls and returns. *)
From Coq Require Import ZArith Bool String List Lia.
From Verif Require MirCopyFacts.
From Verif Require Import M31 M31Facts Instr InstrFacts Isa IsaFacts Mir MirSem MirPasses MirLocalFacts MirIsa MirIsaFacts
  Cg CgLink CgSpec CgPassFacts CgStepFacts CgBoolFacts CgLinkFacts CgCheck CgExec CgArith CgOps CgCompute CgInstr.
Import ListNotations.
Open Scope Z_scope.
Set Default Proof Using "All".

(** Values in consecutive slots from [k] on, in the frame at [b]. *)
Fixpoint cells_at (b : Z) (m : Z -> Z) (k : Z) (vs : list val) : Prop :=
  match vs with [] => True | v :: r => cel b m k v /\ cells_at b m (k + width v) r end.
Lemma cel_shift : forall b b' m k k' v, cel b m k v -> b + k = b' + k' -> cel b' m k' v.
Proof.
  intros b b' m k k' v H E. destruct v; cbn [cel] in *; auto; try (rewrite <- E; exact H).
  replace (b' + (k' + 1)) with (b + (k + 1)) by lia. rewrite <- E. exact H.
Qed.
Lemma cells_shift : forall vs b b' m k k', cells_at b m k vs -> b + k = b' + k' -> cells_at b' m k' vs.
Proof.
  induction vs as [|v vs IH]; intros b b' m k k' H E; cbn [cells_at] in *; auto. destruct H as (H1 & H2). split.
  - eapply cel_shift; eauto.
  - eapply IH; eauto. lia.
Qed.
Fixpoint widths (vs : list val) : Z := match vs with [] => 0 | v :: r => width v + widths r end.
Lemma width_pos : forall v, 1 <= width v. Proof. intros []; cbn; lia. Qed.
Lemma widths_pos : forall vs, 0 <= widths vs.
Proof. induction vs as [|v vs IH]; cbn; [lia|]. pose proof (width_pos v). lia. Qed.
Lemma cel_same : forall b m m' k v, cel b m k v -> (forall c, b + k <= c < b + k + width v -> m' c = m c) -> cel b m' k v.
Proof. intros b m m' k v H E. destruct v; cbn [cel width] in *; auto; rewrite !E by lia; auto. Qed.
Lemma cells_same : forall vs b m m' k, cells_at b m k vs -> (forall c, b + k <= c < b + k + widths vs -> m' c = m c) -> cells_at b m' k vs.
Proof.
  induction vs as [|v vs IH]; intros b m m' k H E; cbn [cells_at widths] in *; auto. destruct H as (H1 & H2).
  pose proof (widths_pos vs). pose proof (width_pos v). split.
  - eapply cel_same; [exact H1|]. intros c Hc. apply E. lia.
  - eapply IH; [exact H2|]. intros c Hc. apply E. lia.
Qed.
Lemma typed_widths : forall ts vs, typed ts vs -> widths vs = sizes ts.
Proof.
  induction ts as [|t ts IH]; intros [|v vs] H; cbn [typed widths sizes fold_right] in *; try contradiction; auto.
  destruct H as (S & Sh & H). rewrite (shape_width t v S Sh). apply IH in H. unfold sizes in H. lia.
Qed.
Lemma scalar_msize : forall t, scalar t = true -> 1 <= msize t <= 2.
Proof. intros [] H; try discriminate H; cbn; lia. Qed.

(** What running a function of the module with a frame at [bb] does. *)
Definition call_sound (M : machine) (lab : string -> option Z) (ms : funcs) (W : world unit) (base lim : Z) : Prop :=
  forall c fn g ps rs addr bb m args, nth_error ms c = Some (fn, g) ->
  types_of g (f_params g) = Some ps -> types_of g (f_rets g) = Some rs -> lab fn = Some addr ->
  base + (sizes ps + sizes rs + 2) <= bb <= lim -> felts m -> typed ps args -> cells_at bb m (- (sizes ps + sizes rs + 2)) args ->
  match w_call W c args tt with
  | ROk (rets, _) => exists m', msteps M m (St addr bb) m' (St (m (bb - 1)) (m (bb - 2))) /\ felts m' /\
      typed rs rets /\ cells_at bb m' (- (sizes rs + 2)) rets /\ (forall x, x < bb - (sizes rs + 2) -> m' x = m x)
  | RTrap => mtraps M m (St addr bb)
  | _ => True
  end.

Section Call.
Variable M : machine.
Variable lab : string -> option Z.
Hypothesis lab_ok : forall l b, lab l = Some b -> 0 <= b < P.
Hypothesis code_ok : forall a i, code M a = Some i -> (0 <= a < P /\ 0 <= fp_min M a) /\ iwf i.
Variable FS : Z.
Variables NS LO : Z.
Hypothesis FS_lo : 0 <= NS <= LO /\ NS <= FS.
Hypothesis FS_hi : fp_max M + FS < P.
Variable FL : Z.
Hypothesis FL_ok : 0 <= FL.
Hypothesis FL_le : FL <= FS.
Variable b : Z.
Hypothesis b_ok : LO <= b <= fp_max M.
Notation xp := (xp M lab FS LO FL).
Notation keeps := (keeps b).
Notation wordv := (wordv NS b).
Notation run_s := (CgArith.run_s M lab lab_ok code_ok FS NS LO FS_lo FS_hi FL FL_ok FL_le b b_ok).
Notation run_t := (CgArith.run_t M lab lab_ok code_ok FS NS LO FS_lo FS_hi FL FL_ok FL_le b b_ok).
Notation run_store := (CgArith.run_store M lab lab_ok code_ok FS NS LO FS_lo FS_hi FL FL_ok FL_le b b_ok).
Notation slot_lin := (CgExec.slot_lin M lab lab_ok code_ok FS NS LO FS_lo FS_hi).
Notation xp_cons := (CgExec.xp_cons M lab lab_ok code_ok FS NS LO FS_lo FS_hi FL FL_ok).
Notation xp_app := (CgExec.xp_app M lab lab_ok code_ok FS NS LO FS_lo FS_hi FL FL_ok).
Notation xp_stable := (CgExec.xp_stable M lab lab_ok code_ok FS NS LO FS_lo FS_hi FL FL_ok).
Notation xp_range := (CgExec.xp_range M lab lab_ok code_ok FS NS LO FS_lo FS_hi FL FL_ok).
Notation felt_arith_ok := (CgArith.felt_arith_ok M lab lab_ok code_ok FS NS LO FS_lo FS_hi FL FL_ok FL_le b b_ok).
Notation msteps_felts := (CgExec.msteps_felts M lab lab_ok code_ok FS NS LO FS_lo FS_hi).
Notation no_second := (CgArith.no_second M lab lab_ok code_ok FS NS LO FS_lo FS_hi FL FL_ok FL_le b b_ok).

(** The cells of a value at slot [k]. *)
Notation cel := (cel b).
Notation gives := (gives M b).
Notation rep := (rep NS b).
Notation u32v := (u32v NS b).
Notation cel_keeps := (CgOps.cel_keeps M lab lab_ok code_ok FS NS LO FS_lo FS_hi FL FL_ok FL_le b b_ok).
Notation gives_low := (CgOps.gives_low M lab lab_ok code_ok FS NS LO FS_lo FS_hi FL FL_ok FL_le b b_ok).
Notation store_u32_ok := (CgOps.store_u32_ok M lab lab_ok code_ok FS NS LO FS_lo FS_hi FL FL_ok FL_le b b_ok).
Notation store_bool_ok := (CgOps.store_bool_ok M lab lab_ok code_ok FS NS LO FS_lo FS_hi FL FL_ok FL_le b b_ok).
Notation run_u32imm := (CgOps.run_u32imm M lab lab_ok code_ok FS NS LO FS_lo FS_hi FL FL_ok FL_le b b_ok).
Notation u32_op_ok := (CgOps.u32_op_ok M lab lab_ok code_ok FS NS LO FS_lo FS_hi FL FL_ok FL_le b b_ok).
Notation set_bool_ok := (CgOps.set_bool_ok M lab lab_ok code_ok FS NS LO FS_lo FS_hi FL FL_ok FL_le b b_ok).
Notation rep_lay := (CgOps.rep_lay M lab lab_ok code_ok FS NS LO FS_lo FS_hi FL FL_ok FL_le b b_ok).
Notation rep_word := (CgOps.rep_word M lab lab_ok code_ok FS NS LO FS_lo FS_hi FL FL_ok FL_le b b_ok).
Notation rep_u32 := (CgOps.rep_u32 M lab lab_ok code_ok FS NS LO FS_lo FS_hi FL FL_ok FL_le b b_ok).
Notation rep_bool := (CgOps.rep_bool M lab lab_ok code_ok FS NS LO FS_lo FS_hi FL FL_ok FL_le b b_ok).
Notation apart_elsewhere := (CgOps.apart_elsewhere M lab lab_ok code_ok FS NS LO FS_lo FS_hi FL FL_ok FL_le b b_ok).
Notation leaves_gives := (CgOps.leaves_gives M lab lab_ok code_ok FS NS LO FS_lo FS_hi FL FL_ok FL_le b b_ok).
Notation fsem_range := (CgOps.fsem_range M lab lab_ok code_ok FS NS LO FS_lo FS_hi FL FL_ok FL_le b b_ok).
Notation wordv_range := (CgOps.wordv_range M lab lab_ok code_ok FS NS LO FS_lo FS_hi FL FL_ok FL_le b b_ok).
Notation felt_test_ok := (CgOps.felt_test_ok M lab lab_ok code_ok FS NS LO FS_lo FS_hi FL FL_ok FL_le b b_ok).
Notation cel_holds := (CgOps.cel_holds M lab lab_ok code_ok FS NS LO FS_lo FS_hi FL FL_ok FL_le b b_ok).
Notation cel_ext := (CgOps.cel_ext M lab lab_ok code_ok FS NS LO FS_lo FS_hi FL FL_ok FL_le b b_ok).

Notation compute_ok := (CgCompute.compute_ok M lab lab_ok code_ok FS NS LO FS_lo FS_hi FL FL_ok FL_le b b_ok).
Notation unary_ok := (CgCompute.unary_ok M lab lab_ok code_ok FS NS LO FS_lo FS_hi FL FL_ok FL_le b b_ok).
Notation u1_ok := (CgOps.u1_ok M lab lab_ok code_ok FS NS LO FS_lo FS_hi FL FL_ok FL_le b b_ok).
Notation sl := (CgArith.sl M lab lab_ok code_ok FS NS LO FS_lo FS_hi FL FL_ok FL_le b b_ok).
Notation hi_lin := (CgArith.hi_lin M lab lab_ok code_ok FS NS LO FS_lo FS_hi FL FL_ok FL_le b b_ok).
Notation run_one_slot := (CgArith.run_one_slot M lab lab_ok code_ok FS NS LO FS_lo FS_hi FL FL_ok FL_le b b_ok).
Notation felt1_ok := (CgArith.felt1_ok M lab lab_ok code_ok FS NS LO FS_lo FS_hi FL FL_ok FL_le b b_ok).
Notation felt2_ok := (CgArith.felt2_ok M lab lab_ok code_ok FS NS LO FS_lo FS_hi FL FL_ok FL_le b b_ok).
Notation xp_label := (CgExec.xp_label M lab lab_ok code_ok FS NS LO FS_lo FS_hi FL FL_ok).
Notation xp_nil := (CgExec.xp_nil M lab lab_ok code_ok FS NS LO FS_lo FS_hi FL FL_ok).
Notation xp_le := (CgExec.xp_le M lab lab_ok code_ok FS NS LO FS_lo FS_hi FL FL_ok).
Notation has := (has b).
Notation holds_all := (holds_all b).
Notation has_rep := (CgInstr.has_rep M lab lab_ok code_ok FS NS LO FS_lo FS_hi FL FL_ok FL_le b b_ok).
Notation known := (known NS b).
Notation eval_as_rep := (CgInstr.eval_as_rep M lab lab_ok code_ok FS NS LO FS_lo FS_hi FL FL_ok FL_le b b_ok).
Notation eval_any_rep := (CgInstr.eval_any_rep M lab lab_ok code_ok FS NS LO FS_lo FS_hi FL FL_ok FL_le b b_ok).
Notation known_app := (CgInstr.known_app M lab lab_ok code_ok FS NS LO FS_lo FS_hi FL FL_ok FL_le b b_ok).
Notation lands := (lands M b).
Notation gives_lands := (CgInstr.gives_lands M lab lab_ok code_ok FS NS LO FS_lo FS_hi FL FL_ok FL_le b b_ok).
Notation lands_low := (CgInstr.lands_low M lab lab_ok code_ok FS NS LO FS_lo FS_hi FL FL_ok FL_le b b_ok).
Notation sem_bin_width := (CgInstr.sem_bin_width M lab lab_ok code_ok FS NS LO FS_lo FS_hi FL FL_ok FL_le b b_ok).
Notation copy1_x := (CgInstr.copy1_x M lab lab_ok code_ok FS NS LO FS_lo FS_hi FL FL_ok FL_le b b_ok).
Notation imm_x := (CgInstr.imm_x M lab lab_ok code_ok FS NS LO FS_lo FS_hi FL FL_ok FL_le b b_ok).
Notation imm32_x := (CgInstr.imm32_x M lab lab_ok code_ok FS NS LO FS_lo FS_hi FL FL_ok FL_le b b_ok).
Notation puts := (puts M b).
Notation copy_x := (CgInstr.copy_x M lab lab_ok code_ok FS NS LO FS_lo FS_hi FL FL_ok FL_le b b_ok).
Notation imm_puts := (CgInstr.imm_puts M lab lab_ok code_ok FS NS LO FS_lo FS_hi FL FL_ok FL_le b b_ok).
Notation imm32_puts := (CgInstr.imm32_puts M lab lab_ok code_ok FS NS LO FS_lo FS_hi FL FL_ok FL_le b b_ok).
Notation puts_gives := (CgInstr.puts_gives M lab lab_ok code_ok FS NS LO FS_lo FS_hi FL FL_ok FL_le b b_ok).
Notation xp_jnz := (CgInstr.xp_jnz M lab lab_ok code_ok FS NS LO FS_lo FS_hi FL FL_ok FL_le b b_ok).
Notation xp_jump := (CgInstr.xp_jump M lab lab_ok code_ok FS NS LO FS_lo FS_hi FL FL_ok FL_le b b_ok).
Notation assign_ok := (CgInstr.assign_ok M lab lab_ok code_ok FS NS LO FS_lo FS_hi FL FL_ok FL_le b b_ok).
Notation le_ok := (CgInstr.le_ok M lab lab_ok code_ok FS NS LO FS_lo FS_hi FL FL_ok FL_le b b_ok).
Notation assert_x := (CgInstr.assert_x M lab lab_ok code_ok FS NS LO FS_lo FS_hi FL FL_ok FL_le b b_ok).
Notation cast_tail := (CgInstr.cast_tail M lab lab_ok code_ok FS NS LO FS_lo FS_hi FL FL_ok FL_le b b_ok).
Notation cast_ok := (CgInstr.cast_ok M lab lab_ok code_ok FS NS LO FS_lo FS_hi FL FL_ok FL_le b b_ok).
Notation lw_int := (CgInstr.lw_int M lab lab_ok code_ok FS NS LO FS_lo FS_hi FL FL_ok FL_le b b_ok).
Notation assert_ok := (CgInstr.assert_ok M lab lab_ok code_ok FS NS LO FS_lo FS_hi FL FL_ok FL_le b b_ok).
Notation dest_slot := (CgInstr.dest_slot M lab lab_ok code_ok FS NS LO FS_lo FS_hi FL FL_ok FL_le b b_ok).
Notation rep_moved := (CgInstr.rep_moved M lab lab_ok code_ok FS NS LO FS_lo FS_hi FL FL_ok FL_le b b_ok).
Notation below_known := (CgInstr.below_known M lab lab_ok code_ok FS NS LO FS_lo FS_hi FL FL_ok FL_le b b_ok).
Notation forallb_incl := (CgInstr.forallb_incl M lab lab_ok code_ok FS NS LO FS_lo FS_hi FL FL_ok FL_le b b_ok).
Notation below_app1 := (CgInstr.below_app1 M lab lab_ok code_ok FS NS LO FS_lo FS_hi FL FL_ok FL_le b b_ok).
Notation plain_step := (CgInstr.plain_step M lab lab_ok code_ok FS NS LO FS_lo FS_hi FL FL_ok FL_le b b_ok).

Hypothesis FS_two : 2 <= NS.

Lemma has_same : forall L m m' v x, has L m v x -> (forall o, slots L v = Some (o, width x) -> forall c, b + o <= c < b + o + width x -> m' c = m c) -> has L m' v x.
Proof. intros L m m' v x (o & S & C) H. exists o. split; auto. eapply cel_same; eauto. Qed.

(** ** Passing arguments *)
Lemma copy_args_ok : forall args ps o st u is st' a z m vs e, copy_args o args ps st = COk (u, is, st') -> xp a is z -> felts m ->
  frame (lay st) <= o -> 0 <= o -> o + sizes ps <= FS -> eval_list e ps args = Some vs -> args_ok args ps = true ->
  (forall v, In v args -> known (lay st) m e v) ->
  st' = st /\ typed ps vs /\ exists m', msteps M m (St a b) m' (St z b) /\ felts m' /\ cells_at b m' o vs /\
    (forall c, c < b + o \/ b + o + sizes ps <= c -> m' c = m c).
Proof.
  induction args as [|v args IH]; intros [|p ps] o st u is st' a z m vs e H X Hm Fo O1 O2 Ev Ok Kn; cbn [eval_list args_ok] in *; try discriminate.
  - injection Ev as <-. apply ret_ok in H. destruct H as (_ & -> & ->). apply xp_nil in X. subst z. split; auto. split; [exact Logic.I|].
    exists m. split; [constructor|]. split; auto. split; [exact Logic.I|]. auto.
  - apply andb_true_iff in Ok. destruct Ok as (Ok & Ok'). apply andb_true_iff in Ok. destruct Ok as (Sp & Li).
    destruct (eval_as e p v) as [x|] eqn:Ex; [|discriminate]. destruct (eval_list e ps args) as [xs|] eqn:Exs; [|discriminate].
    injection Ev as <-. destruct (eval_as_rep _ _ _ _ _ _ Ex Sp Li (Kn v (or_introl eq_refl))) as (R & Sh).
    pose proof (shape_width p x Sp Sh) as Wx. pose proof (scalar_msize p Sp) as Mp.
    cbn [copy_args] in H. take H u1 j1 st1 E1. destruct (xp_app _ _ _ _ X) as (a1 & X1 & X2).
    change (sizes (p :: ps)) with (msize p + sizes ps) in *.
    assert (Sz : 0 <= sizes ps).
    { clear - Ok'. revert args Ok'. induction ps as [|q ps IH]; intros [|w args] H; cbn [args_ok] in H; try discriminate; cbn.
      apply andb_true_iff in H. destruct H as (H1 & H2). apply IH in H2. apply andb_true_iff in H1. destruct H1 as (H1 & _).
      pose proof (scalar_msize q H1). unfold sizes in H2. lia. }
    assert (Pu : st1 = st /\ puts m a a1 o x).
    { destruct v as [[n|c|]|i|]; try discriminate E1.
      - cbn [rep] in R. destruct p; try discriminate Sp; destruct x; try discriminate Sh; cbn [msize] in *; destruct R as [[R Rn]|[R Rn]]; try discriminate R; injection R as ->.
        + eapply (imm_puts n o (VFelt n)); [exact E1|exact X1|exact Hm|lia|lia|reflexivity|exact Rn].
        + eapply imm32_puts; [exact E1|exact X1|exact Hm|lia|lia|exact Rn].
      - destruct R as (s & n & Ss & S1 & S2 & C). take E1 L j2 st2 E2. apply get_lay_ok in E2. destruct E2 as (-> & -> & ->).
        take E1 s' j3 st3 E3. apply offset_ok in E3. destruct E3 as (-> & -> & n' & E3). rewrite Ss in E3. injection E3 as <- <-.
        cbn [app] in X1. destruct (Z.eqb_spec s o); [lia|]. cbn [andb] in E1. rewrite <- Wx in E1.
        eapply copy_x; [exact E1|exact X1|exact Hm|exact C|lia|lia|lia|lia|lia]. }
    destruct Pu as (-> & m1 & R1 & F1 & C1 & K1). rewrite Wx in K1.
    destruct (IH ps (o + msize p) st u _ st' a1 z m1 xs e H X2 F1 ltac:(lia) ltac:(lia) ltac:(lia) Exs Ok') as (-> & T & m2 & R2 & F2 & C2 & K2).
    { intros w Hw i Hi. destruct (Kn w (or_intror Hw) i Hi) as (B & Kw). split; auto. intros y Ey. eapply has_same; [apply Kw; exact Ey|].
      intros s Ss c Hc. apply K1. unfold below in B. rewrite Ss in B. lia. }
    split; auto. split; [cbn [typed]; auto|]. exists m2. split; [eapply msteps_trans; eauto|]. split; auto. split.
    + cbn [cells_at]. rewrite Wx. split; auto. eapply cel_same; [exact C1|]. intros c Hc. apply K2. lia.
    + intros c Hc. rewrite K2 by lia. apply K1. lia.
Qed.
Lemma in_row_ok : forall args ps o L m vs e, in_row L o args ps = true -> eval_list e ps args = Some vs -> args_ok args ps = true -> all_ops args = true ->
  (forall v, In v args -> known L m e v) -> typed ps vs /\ cells_at b m o vs.
Proof.
  induction args as [|v args IH]; intros [|p ps] o L m vs e H Ev Ok Al Kn; cbn [eval_list args_ok] in *; try discriminate.
  - injection Ev as <-. split; exact Logic.I.
  - apply andb_true_iff in Ok. destruct Ok as (Ok & Ok'). apply andb_true_iff in Ok. destruct Ok as (Sp & Li).
    destruct (eval_as e p v) as [x|] eqn:Ex; [|discriminate]. destruct (eval_list e ps args) as [xs|] eqn:Exs; [|discriminate].
    injection Ev as <-. destruct (eval_as_rep _ _ _ _ _ _ Ex Sp Li (Kn v (or_introl eq_refl))) as (R & Sh).
    pose proof (shape_width p x Sp Sh) as Wx. cbn [all_ops forallb] in Al. apply andb_true_iff in Al. destruct Al as (Av & Al).
    destruct v as [l|i|]; try discriminate Av. cbn [in_row] in H. apply andb_true_iff in H. destruct H as (H1 & H2).
    destruct (IH ps (o + msize p) L m xs e H2 Exs Ok' Al ltac:(intros w Hw; apply Kn; right; auto)) as (T & C).
    cbn [typed cells_at]. rewrite Wx. split; auto. split; auto.
    unfold contiguous in H1. destruct R as (s & n & Ss & S1 & S2 & C0). rewrite Ss in H1. assert (s = o) by lia. subst s. exact C0.
Qed.
Lemma pass_ok : forall args ps o st is st' a z m vs e, pass_args args ps st = COk (o, is, st') -> xp a is z -> felts m ->
  0 <= frame (lay st) -> call_base (lay st) (maxw st) args ps + sizes ps <= FS ->
  eval_list e ps args = Some vs -> args_ok args ps = true -> (forall v, In v args -> known (lay st) m e v) ->
  st' = st /\ o = call_base (lay st) (maxw st) args ps /\ typed ps vs /\
  exists m', msteps M m (St a b) m' (St z b) /\ felts m' /\ cells_at b m' o vs /\
    (forall c, c < b + call_bound (lay st) (maxw st) args ps -> m' c = m c).
Proof.
  intros args ps o st is st' a z m vs e H X Hm F0 O2 Ev Ok Kn. unfold pass_args in H. destruct (Nat.eqb (length args) (length ps)); [|discriminate].
  take H L j0 st0 E0. apply get_lay_ok in E0. destruct E0 as (-> & -> & ->).
  take H mw j1 st1 E1. injection E1 as <- <- <-. cbn [app] in X. unfold call_base, call_bound in *.
  destruct (in_place (lay st) (maxw st) args ps) as [o'|] eqn:Ip.
  - apply ret_ok in H. destruct H as (-> & -> & ->). apply xp_nil in X. subst z. split; auto. split; auto.
    unfold in_place in Ip. destruct (all_ops args) eqn:Al; [|discriminate]. destruct (first_off (lay st) args) as [o1|]; [|discriminate].
    destruct (in_row (lay st) o1 args ps) eqn:Ir; [|discriminate]. destruct (_ && _) in Ip; [|discriminate]. injection Ip as <-.
    destruct (in_row_ok _ _ _ _ _ _ _ Ir Ev Ok Al Kn) as (T & C). split; auto. exists m. split; [constructor|]. auto.
  - take H u2 j2 st2 E2. apply ret_ok in H. destruct H as (-> & -> & ->). rewrite app_nil_r in X.
    destruct (copy_args_ok _ _ _ _ _ _ _ _ _ _ _ _ E2 X Hm ltac:(lia) F0 O2 Ev Ok Kn) as (-> & T & m' & R & F & C & K).
    split; auto. split; auto. split; auto. exists m'. split; auto.
Qed.

(** ** The call itself *)
Lemma xp_call : forall a z off fn m, xp a [CI (CallAbsImm (mfrom off) 0) (Some fn)] z -> - NS <= off -> off + 2 <= FS ->
  exists addr, lab fn = Some addr /\ z = a + 1 /\
    msteps M m (St a b) (upds m [(b + off, b); (b + off + 1, z)]) (St addr (b + off + 2)).
Proof.
  intros a z off fn m X O1 O2. destruct (xp_range _ _ _ X) as (Ra & Rz). pose proof (xp_fit _ _ _ _ _ _ _ _ _ b_ok X) as XF. apply xp_stable in X; [|reflexivity].
  destruct X as ((addr & j & L & J & C) & H). cbn [placed] in H. change (size_qm31 (CallAbsImm (mfrom off) 0)) with 1 in H. exists addr. split; auto. split; [auto|].
  cbn [aimed] in J. injection J as <-. rewrite (Z.mod_small addr) in C by (apply lab_ok in L; exact L).
  pose proof (msteps_one M m (St a b) _ (Eff [] [] [(b + off, b); (b + off + 1, z)] (St addr (b + off + 2))) (XF a ltac:(lia)) C) as R. apply R.
  pose proof (sl a off ltac:(lia)) as Sl. cbn [fp] in Sl. cbn [isa pc fp]. rewrite Sl. rewrite hi_lin by lia. rewrite (Z.mod_small (a + 1)) by lia.
  replace ((b + mfrom off + 2) mod P) with (b + off + 2).
  - rewrite H. do 4 f_equal. f_equal. lia.
  - unfold mfrom. replace (b + off mod P + 2) with (b + 2 + off mod P) by ring. rewrite Zplus_mod_idemp_r.
    rewrite Z.mod_small; lia.
Qed.
Lemma map_dests_ok : forall ds rs o st u is st', map_dests o ds rs st = COk (u, is, st') -> is = [] /\ frame (lay st) <= frame (lay st') /\ nret (lay st') = nret (lay st) /\ maxw st' = maxw st.
Proof.
  induction ds as [|d ds IH]; intros rs o st u is st' H; cbn [map_dests] in H.
  - apply ret_ok in H. destruct H as (_ & -> & ->). split; auto. split; auto. lia.
  - take H u1 j1 st1 E1. injection E1 as <- <- <-.
    assert (K : exists rs' o', map_dests o' ds rs' (with_lay st (map_value (lay st) d o)) = COk (u, is0, st')) by (destruct rs; eauto).
    destruct K as (rs' & o' & K). apply IH in K. destruct K as (-> & K1 & K2 & K3). cbn in K1, K2, K3. split; auto. split; auto. lia.
Qed.
Lemma dests_has : forall ds rs o L' m vs, dests_at FS L' o ds rs = true -> typed rs vs -> cells_at b m o vs -> Forall2 (has L' m) ds vs.
Proof.
  induction ds as [|d ds IH]; intros [|r rs] o L' m [|v vs] H T C; cbn [dests_at typed cells_at] in *; try discriminate; try contradiction; constructor.
  - apply andb_true_iff in H. destruct H as (H & _). apply andb_true_iff in H. destruct H as (H & _).
    destruct (slots L' d) as [[o' n]|] eqn:S; [|discriminate]. destruct T as (Sc & Sh & _). pose proof (shape_width _ _ Sc Sh).
    exists o'. split; [rewrite S; do 2 f_equal; lia|]. replace o' with o by lia. tauto.
  - apply andb_true_iff in H. destruct H as (_ & H). destruct T as (Sc & Sh & T). destruct C as (_ & C). rewrite (shape_width _ _ Sc Sh) in C.
    eapply IH; eauto.
Qed.
Lemma dests_below : forall ds rs o L' d p n, dests_at FS L' o ds rs = true -> In d ds -> slots L' d = Some (p, n) -> o <= p.
Proof.
  induction ds as [|d0 ds IH]; intros [|r rs] o L' d p n H I S; cbn [dests_at In] in *; try discriminate; try contradiction.
  apply andb_true_iff in H. destruct H as (H & H2). apply andb_true_iff in H. destruct H as (H & Dk). destruct I as [->|I].
  - rewrite S in H. lia.
  - eapply IH in H2; eauto. unfold dest_ok in Dk. apply andb_true_iff in Dk. destruct Dk as (Sc & _). pose proof (scalar_msize _ Sc). lia.
Qed.

Lemma call_step : forall ms f t ds c args ps rest after st u is st' a z m e W tys base lim,
  gen_instr ms f t (ICall ds c args ps) rest st = COk (u, is, st') -> xp a is z -> felts m -> 0 <= frame (lay st) ->
  instr_ok ms FS NS (ICall ds c args ps) (lay st) (lay st') (maxw st) after = true ->
  call_sound M lab ms W base lim -> base + NS <= b -> b + FS <= lim -> holds_all (lay st) m e (vals_ids args) ->
  lands (lay st') ds (call_bound (lay st) (maxw st) args ps) m a z (effect W tys e tt (ICall ds c args ps)).
Proof.
  intros ms f t ds c args ps rest after st u is st' a z m e W tys base lim H X Hm F0 Ok CS Bs Lm HA. cbn [gen_instr instr_ok effect] in *.
  destruct (nth_error ms c) as [[fn g]|] eqn:Ng; [|discriminate]. destruct (types_of g (f_params g)) as [qs|] eqn:Tp; [|discriminate].
  destruct (types_of g (f_rets g)) as [rs|] eqn:Tr; [|discriminate].
  apply andb_true_iff in Ok. destruct Ok as (Ok & B2). apply andb_true_iff in Ok. destruct Ok as (Ok & B1). apply andb_true_iff in Ok. destruct Ok as (Ok & B0).
  apply andb_true_iff in Ok. destruct Ok as (Ok & Da). apply andb_true_iff in Ok. destruct Ok as (Ok & Ao).
  apply andb_true_iff in Ok. destruct Ok as (Ok & Te). apply andb_true_iff in Ok. destruct Ok as (Ok & _). apply andb_true_iff in Ok. destruct Ok as (Be & Nd).
  assert (qs = ps).
  { clear - Te. revert ps Te. induction qs as [|q qs IH]; intros [|p ps] H; cbn [tys_eqb] in H; try discriminate; auto.
    apply andb_true_iff in H. destruct H as (H1 & H2). apply MirCopyFacts.ty_eqb_eq in H1. f_equal; auto. }
  subst qs. clear Te. cbn [uses] in Be.
  destruct (eval_list e ps args) as [vs|] eqn:Ev; [|exact Logic.I]. cbn [of_opt rbind].
  assert (Kn : forall v, In v args -> known (lay st) m e v).
  { intros v Hv. eapply below_known; [eapply below_app1; exact Be|exact HA|]. intros i Hi. unfold vals_ids. apply in_flat_map. eauto. }
  unfold lower_call in H. take H o j1 st1 E1. destruct (xp_app _ _ _ _ X) as (a1 & X1 & X2).
  assert (Sr : 0 <= sizes rs).
  { clear - Da. revert Da. generalize (call_base (lay st) (maxw st) args ps + sizes ps) as k. revert ds. induction rs as [|r rs IH]; intros [|d ds] k H; cbn [dests_at] in H; try discriminate; cbn.
    apply andb_true_iff in H. destruct H as (H1 & H2). apply IH in H2. apply andb_true_iff in H1. destruct H1 as (_ & H1). unfold dest_ok in H1.
    apply andb_true_iff in H1. destruct H1 as (H1 & _). pose proof (scalar_msize r H1). unfold sizes in H2. lia. }
  destruct (pass_ok _ _ _ _ _ _ _ _ _ _ _ E1 X1 Hm F0 ltac:(lia) Ev Ao Kn) as (-> & Eo & T & m1 & R1 & F1 & C1 & K1).
  rewrite <- Eo in *.
  assert (Xc : xp a1 [CI (CallAbsImm (mfrom (o + sizes ps + sizes rs)) 0) (Some fn)] z).
  { destruct ds as [|d ds].
    - destruct rs; [|discriminate]. apply emit_ok in H. destruct H as (-> & ->). change (sizes []) with 0. rewrite Z.add_0_r. exact X2.
    - take H u2 j2 st2 E2. apply map_dests_ok in E2. destruct E2 as (-> & _).
      take H u3 j3 st3 E3. apply reserve_ok in E3. destruct E3 as (-> & _).
      take H u4 j4 st4 E4. injection E4 as <- <- <-. apply emit_ok in H. destruct H as (-> & _). exact X2. }
  clear X2 H. destruct (xp_call _ _ _ _ m1 Xc ltac:(lia) ltac:(lia)) as (addr & La & Ez & R2).
  set (bb := b + (o + sizes ps + sizes rs) + 2) in *.
  match type of R2 with msteps _ _ _ ?q _ => set (m2 := q) in * end.
  assert (F2 : felts m2) by (eapply msteps_felts; eauto).
  assert (V2 : forall x, x < bb - 2 -> m2 x = m1 x).
  { intros x Hx. unfold m2, bb in *. cbn [upds]. destruct (Z.eqb_spec x (b + (o + sizes ps + sizes rs) + 1)); [lia|].
    destruct (Z.eqb_spec x (b + (o + sizes ps + sizes rs))); [lia|]. auto. }
  assert (Vz : m2 (bb - 1) = z).
  { unfold m2, bb. cbn [upds]. replace (b + (o + sizes ps + sizes rs) + 2 - 1) with (b + (o + sizes ps + sizes rs) + 1) by lia. rewrite Z.eqb_refl. auto. }
  assert (Vb : m2 (bb - 2) = b).
  { unfold m2, bb. cbn [upds]. replace (b + (o + sizes ps + sizes rs) + 2 - 2) with (b + (o + sizes ps + sizes rs)) by lia.
    destruct (Z.eqb_spec (b + (o + sizes ps + sizes rs)) (b + (o + sizes ps + sizes rs) + 1)); [lia|]. rewrite Z.eqb_refl. auto. }
  assert (Ca : cells_at bb m2 (- (sizes ps + sizes rs + 2)) vs).
  { eapply cells_same; [eapply cells_shift; [exact C1|unfold bb; lia]|]. intros x Hx. rewrite (typed_widths _ _ T) in Hx. apply V2. lia. }
  pose proof (CS c fn g ps rs addr bb m2 vs Ng Tp Tr La ltac:(unfold bb; lia) F2 T Ca) as G. rewrite Vz, Vb in G.
  destruct (w_call W c vs tt) as [[rets []]| | |]; cbn [lands]; auto.
  - destruct G as (m3 & R3 & F3 & T3 & C3 & K3). exists m3.
    split; [eapply msteps_trans; [exact R1|eapply msteps_trans; [exact R2|exact R3]]|]. split; auto. split.
    + eapply dests_has; [exact Da|exact T3|]. eapply cells_shift; [exact C3|unfold bb; lia].
    + intros x Hx _. assert (Bd : call_bound (lay st) (maxw st) args ps <= o + sizes ps).
      { rewrite Eo. unfold call_bound, call_base. destruct (in_place _ _ _ _); [lia|].
        pose proof (typed_widths _ _ T). pose proof (widths_pos vs). lia. }
      rewrite K3 by (unfold bb; lia). rewrite V2 by (unfold bb; lia). apply K1. auto.
  - eapply mtraps_after; [exact R1|]. eapply mtraps_after; [exact R2|exact G].
Qed.

(** ** Returning *)
Lemma xp_ret : forall a z m, xp a [CI Ret None] z -> msteps M m (St a b) m (St (m (b - 1)) (m (b - 2))).
Proof.
  intros a z m X. pose proof (xp_fit _ _ _ _ _ _ _ _ _ b_ok X) as XF. apply xp_stable in X; [|reflexivity]. destruct X as (C & Ez). cbn [placed] in Ez. change (size_qm31 Ret) with 1 in Ez.
  pose proof (msteps_one M m (St a b) _ (Eff [b - 1; b - 2] [] [] (St (m (b - 1)) (m (b - 2)))) (XF a ltac:(lia)) C) as R. apply R.
  cbn [isa fp]. rewrite !Z.mod_small by lia. reflexivity.
Qed.
Lemma rets_has : forall vs rs L done c m m1 lo hi e, rets_ok L done c vs rs = true ->
  (forall i x, In i (vals_ids vs) -> e i = Some x -> has L m i x) -> (forall y, y < b + lo \/ b + hi <= y -> m1 y = m y) -> done <= lo -> hi <= c ->
  forall i x, In i (vals_ids vs) -> e i = Some x -> has L m1 i x.
Proof.
  induction vs as [|v vs IH]; intros [|r rs] L done c m m1 lo hi e Ok H K D1 D2 i x Hi Ex; cbn [rets_ok] in Ok; try discriminate; [destruct Hi|].
  apply andb_true_iff in Ok. destruct Ok as (Ok & Ok'). apply andb_true_iff in Ok. destruct Ok as (Ok & Sl).
  apply andb_true_iff in Ok. destruct Ok as (Sc & _). pose proof (scalar_msize r Sc).
  unfold vals_ids in Hi. cbn [flat_map] in Hi. apply in_app_or in Hi. destruct Hi as [Hi|Hi].
  - destruct v as [l|j|]; cbn [val_ids In] in Hi; try contradiction. destruct Hi as [->|[]].
    assert (Hx : has L m i x) by (apply H; auto; unfold vals_ids; cbn; auto).
    eapply has_same; [exact Hx|]. intros o So y Hy. apply K. rewrite So in Sl. lia.
  - eapply IH; [exact Ok'| |exact K|exact D1| |exact Hi|exact Ex]; [|lia].
    intros j y Hj Ey. apply H; auto. unfold vals_ids. cbn. apply in_or_app. auto.
Qed.
Lemma return_ok : forall vs rs c st u is st' a z m xs e, return_vals c vs rs st = COk (u, is, st') -> xp a is z -> felts m ->
  eval_list e rs vs = Some xs -> rets_ok (lay st) (- (nret (lay st) + 2)) (- (nret (lay st) + 2) + c) vs rs = true ->
  0 <= c -> c + sizes rs <= nret (lay st) -> nret (lay st) + 2 <= NS -> frame (lay st) <= FS ->
  (forall i, In i (vals_ids vs) -> below NS (lay st) i = true) -> (forall i x, In i (vals_ids vs) -> e i = Some x -> has (lay st) m i x) ->
  typed rs xs /\ exists m', msteps M m (St a b) m' (St (m (b - 1)) (m (b - 2))) /\ felts m' /\
    cells_at b m' (- (nret (lay st) + 2) + c) xs /\
    (forall y, y < b - (nret (lay st) + 2) + c \/ b - (nret (lay st) + 2) + c + sizes rs <= y -> m' y = m y).
Proof.
  induction vs as [|v vs IH]; intros [|r rs] c st u is st' a z m xs e H X Hm Ev Ok Hc0 Hc Hn Hf Be HA; cbn [eval_list rets_ok] in *; try discriminate.
  - injection Ev as <-. cbn [return_vals] in H. apply out_ok in H. destruct H as (-> & ->). split; [exact Logic.I|].
    exists m. split; [eapply xp_ret; eauto|]. split; auto. split; [exact Logic.I|]. auto.
  - change (sizes (r :: rs)) with (msize r + sizes rs) in *.
    assert (Ok0 := Ok). apply andb_true_iff in Ok. destruct Ok as (Ok & Ok'). apply andb_true_iff in Ok. destruct Ok as (Ok & Sl).
    apply andb_true_iff in Ok. destruct Ok as (Sc & Li). pose proof (scalar_msize r Sc) as Mr.
    destruct (eval_as e r v) as [x|] eqn:Ex; [|discriminate]. destruct (eval_list e rs vs) as [ys|] eqn:Exs; [|discriminate]. injection Ev as <-.
    assert (Kv : known (lay st) m e v).
    { intros i Hi. split; [apply Be|intros y Ey; apply HA; auto]; unfold vals_ids; cbn; apply in_or_app; auto. }
    destruct (eval_as_rep _ _ _ _ _ _ Ex Sc Li Kv) as (R & Sh). pose proof (shape_width r x Sc Sh) as Wx.
    set (L := lay st) in *. set (r0 := - (nret L + 2)) in *.
    assert (Sz : 0 <= sizes rs).
    { clear - Ok'. revert Ok'. generalize (r0 + c + msize r) as k. revert vs. induction rs as [|q rs IH]; intros [|w vs] k H; cbn [rets_ok] in H; try discriminate; cbn.
      apply andb_true_iff in H. destruct H as (H1 & H2). apply IH in H2. apply andb_true_iff in H1. destruct H1 as (H1 & _). apply andb_true_iff in H1. destruct H1 as (H1 & _).
      pose proof (scalar_msize q H1). unfold sizes in H2. lia. }
    assert (Pu : exists i1 i2 a1, is = (i1 ++ i2)%list /\ xp a i1 a1 /\ xp a1 i2 z /\ puts m a a1 (r0 + c) x /\ return_vals (c + msize r) vs rs st = COk (u, i2, st')).
    { cbn [return_vals] in H. take H L0 j0 st0 E0. apply get_lay_ok in E0. destruct E0 as (-> & -> & ->). fold L in H. fold r0 in H. cbn [app] in X |- *.
      destruct v as [[n|k|]|i|]; try discriminate H.
      - take H u1 j1 st1 E1. destruct (xp_app _ _ _ _ X) as (a1 & X1 & X2). exists j1, is, a1. split; auto. split; auto. split; auto.
        cbn [rep] in R. destruct r; try discriminate Sc; destruct x; try discriminate Sh; cbn [msize] in *; destruct R as [[R Rn]|[R Rn]]; try discriminate R; injection R as ->.
        + destruct (imm_puts n (r0 + c) (VFelt n) st u1 j1 st1 a a1 m E1 X1 Hm ltac:(lia) ltac:(lia) eq_refl Rn) as (-> & Pu). auto.
        + destruct (imm32_puts n (r0 + c) st u1 j1 st1 a a1 m E1 X1 Hm ltac:(lia) ltac:(lia) Rn) as (-> & Pu). auto.
      - take H u1 j1 st1 E1. destruct (xp_app _ _ _ _ X) as (a1 & X1 & X2). exists j1, is, a1. split; auto. split; auto. split; auto.
        cbn [rep] in R. subst x. destruct r; try discriminate Sc; try discriminate Sh. cbn [msize] in *.
        destruct (imm_puts (bz k) (r0 + c) (VBool k) st u1 j1 st1 a a1 m E1 X1 Hm ltac:(lia) ltac:(lia) eq_refl (bz_P k)) as (-> & Pu). auto.
      - take H u1 j1 st1 E1. destruct (xp_app _ _ _ _ X) as (a1 & X1 & X2). exists j1, is, a1. split; auto. split; auto. split; auto.
        destruct R as (s & n & Ss & S1 & S2 & C). rewrite Ss in Sl, E1. unfold get_size in H. rewrite Ss in H.
        assert (n = msize r) by lia. subst n.
        destruct (Z.eqb_spec s (r0 + c)) as [Es|Ns].
        + apply ret_ok in E1. destruct E1 as (_ & -> & ->). apply xp_nil in X1. subst a1. split; auto.
          exists m. split; [constructor|]. split; auto. split; [rewrite <- Es; exact C|auto].
        + take E1 s' j2 st2 E2. apply offset_ok in E2. destruct E2 as (-> & -> & n' & E2). fold L in E2. rewrite Ss in E2. injection E2 as <- <-.
          unfold get_size in E1. fold L in E1. rewrite Ss in E1. rewrite <- Wx in E1. cbn [app] in X1.
          destruct (copy_x s (r0 + c) x st u1 _ st1 a a1 m E1 X1 Hm C ltac:(lia) ltac:(lia) ltac:(lia) ltac:(lia) ltac:(lia)) as (-> & Pu). auto. }
    destruct Pu as (i1 & i2 & a1 & -> & X1 & X2 & (m1 & R1 & F1 & C1 & K1) & H1). rewrite Wx in K1.
    assert (A1 : rets_ok L r0 (r0 + (c + msize r)) vs rs = true) by (rewrite Z.add_assoc; exact Ok').
    assert (A2 : forall i, In i (vals_ids vs) -> below NS L i = true) by (intros i Hi; apply Be; unfold vals_ids; cbn; apply in_or_app; auto).
    assert (A3 : forall i y, In i (vals_ids vs) -> e i = Some y -> has L m1 i y).
    { eapply (rets_has vs rs L r0 (r0 + c + msize r) m m1 (r0 + c) (r0 + c + msize r)); [exact Ok'| | |lia|lia].
      - intros i y Hi Ey. apply HA; auto. unfold vals_ids. cbn. apply in_or_app. auto.
      - intros y Hy. apply K1. lia. }
    destruct (IH rs (c + msize r) st u i2 st' a1 z m1 ys e H1 X2 F1 Exs A1 ltac:(lia) ltac:(unfold L in *; lia) Hn Hf A2 A3) as (T & m2 & R2 & F2 & C2 & K2).
    fold L in C2, K2. fold r0 in C2. 
    assert (Q1 : m1 (b - 1) = m (b - 1)) by (apply K1; unfold r0; lia). assert (Q2 : m1 (b - 2) = m (b - 2)) by (apply K1; unfold r0; lia).
    rewrite Q1, Q2 in R2. split; [cbn [typed]; auto|]. exists m2. split; [eapply msteps_trans; eauto|]. split; auto. split.
    + cbn [cells_at]. rewrite Wx. split.
      * eapply cel_same; [exact C1|]. intros y Hy. apply K2. unfold r0 in *. lia.
      * replace (r0 + c + msize r) with (r0 + (c + msize r)) by lia. exact C2.
    + intros y Hy. rewrite K2 by lia. apply K1. unfold r0 in *. lia.
Qed.
End Call.
