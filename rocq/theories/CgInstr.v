(** Generated code for instructions other than calls. *)
From Coq Require Import ZArith Bool String List Lia.
From Verif Require Import M31 M31Facts Instr InstrFacts Isa IsaFacts Mir MirSem MirPasses MirLocalFacts MirIsa MirIsaFacts
  Cg CgLink CgSpec CgPassFacts CgStepFacts CgBoolFacts CgLinkFacts CgCheck CgExec CgArith CgOps CgCompute.
Import ListNotations.
Open Scope Z_scope.
Set Default Proof Using "All".

Lemma shape_width : forall t x, scalar t = true -> shape t x = true -> width x = msize t.
Proof. intros [] [] S H; try discriminate S; try discriminate H; reflexivity. Qed.
Lemma target_ok : forall f d rest t dir st o is st', target f d rest t dir st = COk (o, is, st') -> is = [] /\ st' = st.
Proof.
  intros f d rest t dir st o is st' H. unfold target in H. take H tg j0 st0 E0.
  assert (A : j0 = [] /\ st0 = st).
  { unfold arg_target in E0. take E0 L j1 st1 E1. injection E1 as <- <- <-.
    destruct rest as [|[] rest]; try (apply ret_ok in E0; destruct E0 as (_ & -> & ->); auto).
    destruct (position d args); apply ret_ok in E0; destruct E0 as (_ & -> & ->); auto. }
  destruct A as (-> & ->). destruct tg as [o0|]; [apply ret_ok in H; destruct H as (_ & -> & ->); auto|].
  destruct dir; [|apply ret_ok in H; destruct H as (_ & -> & ->); auto].
  unfold ret_target in H. destruct t as [?|? ? ?|? ? ? ? ?|vs|]; try (apply ret_ok in H; destruct H as (_ & -> & ->); auto).
  destruct (types_of f (f_rets f)) as [rs|]; [|discriminate]. destruct (position d vs) as [k|].
  - destruct (Nat.ltb k (length rs)); [|discriminate]. apply ret_ok in H. destruct H as (_ & -> & ->). auto.
  - apply ret_ok in H. destruct H as (_ & -> & ->). auto.
Qed.
(** The destination gets a slot below the frame size; no other value moves. *)
Definition gets (L L1 : layout) (d : nat) (o : Z) : Prop :=
  (exists n, slots L1 d = Some (o, n) /\ o + n <= frame L1) /\ (forall v, v <> d -> slots L1 v = slots L v) /\
  frame L <= frame L1 /\ nret L1 = nret L.
Lemma map_gets : forall d o st u is st', map_to d o st = COk (u, is, st') -> is = [] /\ gets (lay st) (lay st') d o.
Proof.
  intros d o st u is st' H. injection H as <- <- <-. split; auto. unfold gets. cbn. split; [|split; [|split; auto]].
  - exists (get_size (lay st) d). rewrite Nat.eqb_refl. split; auto. lia.
  - intros v Hv. apply Nat.eqb_neq in Hv. rewrite Hv. auto.
  - lia.
Qed.
Lemma below_gets : forall NS st d o, below NS (lay st) d = true -> (exists n, slots (lay st) d = Some (o, n)) -> gets (lay st) (lay st) d o.
Proof.
  intros NS st d o B (n & S). unfold below in B. rewrite S in B. split; [|split; [|split; auto]]; try lia.
  - exists n. split; auto. lia.
  - auto.
Qed.
Lemma place_ok : forall NS d tg st o is st', place_dest d tg st = COk (o, is, st') -> below NS (lay st) d = true ->
  is = [] /\ gets (lay st) (lay st') d o.
Proof.
  intros NS d [o0|] st o is st' H B; cbn [place_dest] in H.
  - take H u j0 st0 E0. apply map_gets in E0. destruct E0 as (-> & G). apply ret_ok in H. destruct H as (-> & -> & ->). auto.
  - apply offset_ok in H. destruct H as (-> & -> & S). split; auto. eapply below_gets; eauto.
Qed.
Lemma alloc_ok : forall NS d n st o is st', allocate d n st = COk (o, is, st') -> below NS (lay st) d = true ->
  is = [] /\ gets (lay st) (lay st') d o.
Proof.
  intros NS d n st o is st' H B. unfold allocate in H. destruct (slots (lay st) d) as [[o' n']|] eqn:S.
  - injection H as <- <- <-. split; auto. eapply below_gets; eauto.
  - unfold below in B. rewrite S in B. discriminate.
Qed.
Lemma alloc2_ok : forall NS d n tg st o is st', match tg with Some o => map_to d o ;;; ret o | None => allocate d n end st = COk (o, is, st') ->
  below NS (lay st) d = true -> is = [] /\ gets (lay st) (lay st') d o.
Proof.
  intros NS d n [o0|] st o is st' H B.
  - take H u j0 st0 E0. apply map_gets in E0. destruct E0 as (-> & G). apply ret_ok in H. destruct H as (-> & -> & ->). auto.
  - eapply alloc_ok; eauto.
Qed.
Lemma same_slot_eq : forall L L' v, same_slot L L' v = true -> exists o n, slots L v = Some (o, n) /\ slots L' v = Some (o, n).
Proof.
  intros L L' v H. unfold same_slot in H. destruct (slots L v) as [[o n]|]; [|discriminate].
  destruct (slots L' v) as [[o' n']|]; [|discriminate]. exists o, n. split; auto. f_equal. f_equal; lia.
Qed.
Lemma bz_P : forall c, 0 <= bz c < P.
Proof. intros []; unfold P; cbn; lia. Qed.
Lemma quiet_assert : forall l r, quiet (assert_eq l r).
Proof. intros. unfold assert_eq, assert_off, store_imm, out. quiets. Qed.
Lemma cel_scalar_sum : forall n, 0 <= n < B32 -> (n <? P) = ((n / B16 <=? 32766) || ((n / B16 <=? 32767) && (n mod B16 <=? 65534))).
Proof.
  intros n H. unfold B32, B16, P in *. pose proof (Z.div_mod n 65536 ltac:(lia)). pose proof (Z.mod_pos_bound n 65536 ltac:(lia)).
  destruct (Z.ltb_spec n 2147483647), (Z.leb_spec (n / 65536) 32766), (Z.leb_spec (n / 65536) 32767), (Z.leb_spec (n mod 65536) 65534); cbn; auto; lia.
Qed.

Lemma quiet_copies : forall n s d, quiet (copies s d n).
Proof. induction n; intros s d; cbn [copies]; [apply quiet_ret|]. unfold copy1, out. quiets. apply IHn. Qed.
Lemma quiet_assign : forall v t o, quiet (match v with
  | Lit (LInt k) => if msize t =? 1 then store_imm k o else match t with TU32 => store_u32 k o | _ => fail end
  | Lit (LBool c) => if msize t =? 1 then store_imm (bz c) o else fail
  | Op i => s <- offset i ;; if msize t =? 1 then copy1 s o else match t with TU32 => copy32 s o | _ => copy_slots s o (msize t) end
  | _ => fail
  end).
Proof.
  intros v t o. destruct v as [[k|c|]|i|]; try apply quiet_fail.
  - unfold store_imm, store_u32, out. quiets.
  - unfold store_imm, out. quiets.
  - apply quiet_bind; [apply quiet_offset|]. intros s. destruct (msize t =? 1); [apply quiet_emit|].
    destruct t; try apply quiet_copies. apply quiet_emit.
Qed.

Section Instr.
Variable M : machine.
Variable lab : string -> option Z.
Hypothesis lab_ok : forall l b, lab l = Some b -> 0 <= b < P.
Hypothesis code_ok : forall a i, code M a = Some i -> (0 <= a < P /\ 0 <= fp_min M a) /\ iwf i.
Variable FS : Z.
Variables NS LO : Z.
Hypothesis FS_lo : 0 <= NS <= LO /\ NS <= FS.
Hypothesis FS_hi : fp_max M + FS < P.
Variable FL : Z.
Hypothesis FL_ok : 0 <= FL.
Hypothesis FL_le : FL <= FS.
Variable b : Z.
Hypothesis b_ok : LO <= b <= fp_max M.
Notation xp := (xp M lab FS LO FL).
Notation keeps := (keeps b).
Notation wordv := (wordv NS b).
Notation run_s := (CgArith.run_s M lab lab_ok code_ok FS NS LO FS_lo FS_hi FL FL_ok FL_le b b_ok).
Notation run_t := (CgArith.run_t M lab lab_ok code_ok FS NS LO FS_lo FS_hi FL FL_ok FL_le b b_ok).
Notation run_store := (CgArith.run_store M lab lab_ok code_ok FS NS LO FS_lo FS_hi FL FL_ok FL_le b b_ok).
Notation slot_lin := (CgExec.slot_lin M lab lab_ok code_ok FS NS LO FS_lo FS_hi).
Notation xp_cons := (CgExec.xp_cons M lab lab_ok code_ok FS NS LO FS_lo FS_hi FL FL_ok).
Notation xp_app := (CgExec.xp_app M lab lab_ok code_ok FS NS LO FS_lo FS_hi FL FL_ok).
Notation xp_stable := (CgExec.xp_stable M lab lab_ok code_ok FS NS LO FS_lo FS_hi FL FL_ok).
Notation xp_range := (CgExec.xp_range M lab lab_ok code_ok FS NS LO FS_lo FS_hi FL FL_ok).
Notation felt_arith_ok := (CgArith.felt_arith_ok M lab lab_ok code_ok FS NS LO FS_lo FS_hi FL FL_ok FL_le b b_ok).
Notation msteps_felts := (CgExec.msteps_felts M lab lab_ok code_ok FS NS LO FS_lo FS_hi).
Notation no_second := (CgArith.no_second M lab lab_ok code_ok FS NS LO FS_lo FS_hi FL FL_ok FL_le b b_ok).

(** The cells of a value at slot [k]. *)
Notation cel := (cel b).
Notation gives := (gives M b).
Notation rep := (rep NS b).
Notation u32v := (u32v NS b).
Notation cel_keeps := (CgOps.cel_keeps M lab lab_ok code_ok FS NS LO FS_lo FS_hi FL FL_ok FL_le b b_ok).
Notation gives_low := (CgOps.gives_low M lab lab_ok code_ok FS NS LO FS_lo FS_hi FL FL_ok FL_le b b_ok).
Notation store_u32_ok := (CgOps.store_u32_ok M lab lab_ok code_ok FS NS LO FS_lo FS_hi FL FL_ok FL_le b b_ok).
Notation store_bool_ok := (CgOps.store_bool_ok M lab lab_ok code_ok FS NS LO FS_lo FS_hi FL FL_ok FL_le b b_ok).
Notation run_u32imm := (CgOps.run_u32imm M lab lab_ok code_ok FS NS LO FS_lo FS_hi FL FL_ok FL_le b b_ok).
Notation u32_op_ok := (CgOps.u32_op_ok M lab lab_ok code_ok FS NS LO FS_lo FS_hi FL FL_ok FL_le b b_ok).
Notation set_bool_ok := (CgOps.set_bool_ok M lab lab_ok code_ok FS NS LO FS_lo FS_hi FL FL_ok FL_le b b_ok).
Notation rep_lay := (CgOps.rep_lay M lab lab_ok code_ok FS NS LO FS_lo FS_hi FL FL_ok FL_le b b_ok).
Notation rep_word := (CgOps.rep_word M lab lab_ok code_ok FS NS LO FS_lo FS_hi FL FL_ok FL_le b b_ok).
Notation rep_u32 := (CgOps.rep_u32 M lab lab_ok code_ok FS NS LO FS_lo FS_hi FL FL_ok FL_le b b_ok).
Notation rep_bool := (CgOps.rep_bool M lab lab_ok code_ok FS NS LO FS_lo FS_hi FL FL_ok FL_le b b_ok).
Notation apart_elsewhere := (CgOps.apart_elsewhere M lab lab_ok code_ok FS NS LO FS_lo FS_hi FL FL_ok FL_le b b_ok).
Notation leaves_gives := (CgOps.leaves_gives M lab lab_ok code_ok FS NS LO FS_lo FS_hi FL FL_ok FL_le b b_ok).
Notation fsem_range := (CgOps.fsem_range M lab lab_ok code_ok FS NS LO FS_lo FS_hi FL FL_ok FL_le b b_ok).
Notation wordv_range := (CgOps.wordv_range M lab lab_ok code_ok FS NS LO FS_lo FS_hi FL FL_ok FL_le b b_ok).
Notation felt_test_ok := (CgOps.felt_test_ok M lab lab_ok code_ok FS NS LO FS_lo FS_hi FL FL_ok FL_le b b_ok).
Notation cel_holds := (CgOps.cel_holds M lab lab_ok code_ok FS NS LO FS_lo FS_hi FL FL_ok FL_le b b_ok).
Notation cel_ext := (CgOps.cel_ext M lab lab_ok code_ok FS NS LO FS_lo FS_hi FL FL_ok FL_le b b_ok).

Notation compute_ok := (CgCompute.compute_ok M lab lab_ok code_ok FS NS LO FS_lo FS_hi FL FL_ok FL_le b b_ok).
Notation unary_ok := (CgCompute.unary_ok M lab lab_ok code_ok FS NS LO FS_lo FS_hi FL FL_ok FL_le b b_ok).
Notation u1_ok := (CgOps.u1_ok M lab lab_ok code_ok FS NS LO FS_lo FS_hi FL FL_ok FL_le b b_ok).
Notation sl := (CgArith.sl M lab lab_ok code_ok FS NS LO FS_lo FS_hi FL FL_ok FL_le b b_ok).
Notation hi_lin := (CgArith.hi_lin M lab lab_ok code_ok FS NS LO FS_lo FS_hi FL FL_ok FL_le b b_ok).
Notation run_one_slot := (CgArith.run_one_slot M lab lab_ok code_ok FS NS LO FS_lo FS_hi FL FL_ok FL_le b b_ok).
Notation felt1_ok := (CgArith.felt1_ok M lab lab_ok code_ok FS NS LO FS_lo FS_hi FL FL_ok FL_le b b_ok).
Notation felt2_ok := (CgArith.felt2_ok M lab lab_ok code_ok FS NS LO FS_lo FS_hi FL FL_ok FL_le b b_ok).
Notation xp_label := (CgExec.xp_label M lab lab_ok code_ok FS NS LO FS_lo FS_hi FL FL_ok).
Notation xp_nil := (CgExec.xp_nil M lab lab_ok code_ok FS NS LO FS_lo FS_hi FL FL_ok).
Notation xp_le := (CgExec.xp_le M lab lab_ok code_ok FS NS LO FS_lo FS_hi FL FL_ok).

(** A value is where the layout says. *)
Definition has (L : layout) (m : Z -> Z) (v : nat) (x : val) : Prop := exists o, slots L v = Some (o, width x) /\ cel m o x.
(** The values in [vs] that are bound are where the layout says. *)
Definition holds_all (L : layout) (m : Z -> Z) (e : env) (vs : list nat) : Prop :=
  forall v x, In v vs -> e v = Some x -> has L m v x.
Lemma has_rep : forall L m i x, has L m i x -> below NS L i = true -> rep L m (Op i) x.
Proof.
  intros L m i x (o & S & C) B. unfold below in B. rewrite S in B. exists o, (width x). split; auto. split; [lia|]. split; [lia|]. auto.
Qed.
Definition known (L : layout) (m : Z -> Z) (e : env) (v : value) : Prop :=
  forall i, In i (val_ids v) -> below NS L i = true /\ forall x, e i = Some x -> has L m i x.
Lemma eval_as_rep : forall e t v x L m, eval_as e t v = Some x -> scalar t = true -> lit_in t v = true -> known L m e v ->
  rep L m v x /\ shape t x = true.
Proof.
  intros e t [[n|c|]|i|] x L m H S R K; cbn [eval_as] in H; try discriminate.
  - cbn [lit_in] in R. destruct t; try discriminate S; cbn [lit_as] in H; try discriminate; injection H as <-; cbn [rep shape].
    + rewrite Z.mod_small by lia. unfold wfb. split; [left; split; auto; lia|lia].
    + rewrite Z.mod_small by lia. unfold u32b. split; [right; split; auto; lia|lia].
  - destruct t; try discriminate S; cbn [lit_as] in H; try discriminate; injection H as <-; split; reflexivity.
  - destruct t; try discriminate S; discriminate H.
  - destruct (e i) as [y|] eqn:E; [|discriminate]. destruct (shape t y) eqn:Sh; [|discriminate]. injection H as <-.
    destruct (K i (or_introl eq_refl)) as (B & K'). split; auto. apply has_rep; auto.
Qed.
Lemma eval_any_rep : forall e v x L m, eval_any e v = Some x -> lit_in TFelt v = true -> known L m e v ->
  rep L m v x \/ x = VUnit.
Proof.
  intros e [[n|c|]|i|] x L m H R K; cbn [eval_any] in H; try discriminate.
  - cbn [lit_in] in R. injection H as <-. left. left. rewrite Z.mod_small by lia. split; auto. lia.
  - injection H as <-. left. reflexivity.
  - injection H as <-. auto.
  - left. destruct (K i (or_introl eq_refl)) as (B & K'). apply has_rep; auto. apply K'.
    destruct (e i) as [[]|]; try discriminate H; try congruence. destruct (wfb z); [congruence|discriminate].
Qed.
Lemma known_app : forall L m e vs i, (forall v, In v vs -> below NS L v = true) -> holds_all L m e vs ->
  (forall v, In v (val_ids i) -> In v vs) -> known L m e i.
Proof. intros L m e vs i B H I v Hv. split; auto. Qed.

(** What an instruction does: its results end up in their slots, nothing else below [lo] changes. *)
Definition lands (L' : layout) (ds : list nat) (lo : Z) (m : Z -> Z) (a z : Z) (r : MirSem.res (list val * unit)) : Prop :=
  match r with
  | ROk (vs, _) => exists m', msteps M m (St a b) m' (St z b) /\ felts m' /\ Forall2 (has L' m') ds vs /\
      (forall c, c < b + lo -> (forall d o n, In d ds -> slots L' d = Some (o, n) -> c < b + o \/ b + o + n <= c) -> m' c = m c)
  | RTrap => mtraps M m (St a b)
  | _ => True
  end.
Definition one (r : MirSem.res val) : MirSem.res (list val * unit) := rbind r (fun v => ROk ([v], tt)).
Lemma gives_lands : forall L' d o lo m a z r n, gives m a z o lo r -> slots L' d = Some (o, n) ->
  (forall v, r = ROk v -> width v = n) -> lands L' [d] lo m a z (one r).
Proof.
  intros L' d o lo m a z [v| | |] n G S W; cbn [one rbind lands gives] in *; auto.
  destruct G as (m' & R & F & C & K). exists m'. split; auto. split; auto. rewrite (W v eq_refl) in K. split.
  - constructor; [|constructor]. exists o. rewrite (W v eq_refl). auto.
  - intros c Hc Hd. apply K; auto. apply (Hd d o n); cbn; auto.
Qed.
Lemma lands_low : forall L' ds lo lo' m a z r, lands L' ds lo m a z r -> lo' <= lo -> lands L' ds lo' m a z r.
Proof.
  intros L' ds lo lo' m a z [[vs []]| | |] H L; cbn [lands] in *; auto. destruct H as (m' & R & F & H & K). exists m'.
  split; auto. split; auto. split; auto. intros c Hc. apply K. lia.
Qed.
Lemma sem_bin_width : forall op x y v, sem_bin op x y = ROk v -> width v = msize (res_type op).
Proof.
  intros op x y v H. destruct op, x, y; cbn [sem_bin] in H; try discriminate H;
    try match type of H with (if ?c then _ else _) = _ => destruct c; try discriminate H end; injection H as <-; reflexivity.
Qed.

(** ** Copies, exactly *)
Lemma copy1_x : forall a z s d m, xp a [CI (StoreAddFpImm (mfrom s) 0 (mfrom d)) None] z -> felts m -> - NS <= s <= FS -> - NS <= d <= FS ->
  msteps M m (St a b) (upds m [(b + d, m (b + s))]) (St z b).
Proof.
  intros a z s d m X Hm S D. destruct (xp_range _ _ _ X) as (Ra & Rz). pose proof (xp_fit _ _ _ _ _ _ _ _ _ b_ok X) as XF. apply xp_stable in X; [|reflexivity].
  assert (E : isa (StoreAddFpImm (mfrom s) 0 (mfrom d)) m (St a b) =
     Some (Eff [(fp (St a b) + mfrom s) mod P] [] [((fp (St a b) + mfrom d) mod P, (m ((fp (St a b) + mfrom s) mod P) + 0) mod P)] (goes_on (St a b) 1))) by reflexivity.
  rewrite !sl in E by lia. rewrite Z.add_0_r, Z.mod_small in E by apply Hm.
  destruct (run_plain M lab lab_ok _ _ _ _ m (St a b) _ X eq_refl ltac:(lia) Rz XF E eq_refl) as (R & Z0).
  cbn [placed] in Z0. rewrite Z0 in R. exact R.
Qed.
Lemma imm_x : forall a z n d m, xp a [CI (StoreImm (mfrom n) (mfrom d)) None] z -> - NS <= d <= FS ->
  msteps M m (St a b) (upds m [(b + d, mfrom n)]) (St z b).
Proof.
  intros a z n d m X D. destruct (xp_range _ _ _ X) as (Ra & Rz). pose proof (xp_fit _ _ _ _ _ _ _ _ _ b_ok X) as XF. apply xp_stable in X; [|reflexivity].
  destruct (run_imm M lab lab_ok _ _ d _ z m (St a b) X eq_refl ltac:(lia) Rz XF) as (R & Z0).
  cbn [placed] in Z0. rewrite Z0 in R. rewrite slot_lin in R by (cbn [fp]; lia). exact R.
Qed.
Lemma imm32_x : forall a z n d m, xp a [CI (U32StoreImm (lo16 n) (hi16 n) (mfrom d)) None] z -> 0 <= n < B32 -> - NS <= d < FS ->
  exists w, msteps M m (St a b) (upds m w) (St z b) /\ w = [(b + d, n mod B16); (b + (d + 1), n / B16)].
Proof.
  intros a z n d m X Hn D. destruct (imm_limbs n Hn) as (Li & Lv). destruct (xp_range _ _ _ X) as (Ra & Rz). pose proof (xp_fit _ _ _ _ _ _ _ _ _ b_ok X) as XF. apply xp_stable in X; [|reflexivity].
  assert (E : isa (U32StoreImm (lo16 n) (hi16 n) (mfrom d)) m (St a b) =
    Some (Eff [] [] [(slot (St a b) d, n mod B16); ((slot (St a b) d + 1) mod P, n / B16)] (St ((a + 1) mod P) b))).
  { cbn [isa]. rewrite Li, Lv, slot_mfrom. reflexivity. }
  clear Li Lv. rewrite slot_hi, !slot_lin in E by (cbn [fp]; clear - D FS_lo FS_hi b_ok; lia).
  destruct (run_plain M lab lab_ok _ _ _ _ m (St a b) _ X eq_refl ltac:(lia) Rz XF E eq_refl) as (R & Z0).
  cbn [placed] in Z0. rewrite Z0 in R. eexists. split; [exact R|]. reflexivity.
Qed.

(** A scalar written to slot [d], nothing else changed. *)
Definition puts (m : Z -> Z) (a z d : Z) (x : val) : Prop :=
  exists m', msteps M m (St a b) m' (St z b) /\ felts m' /\ cel m' d x /\ (forall c, c < b + d \/ b + d + width x <= c -> m' c = m c).
Lemma copy_x : forall s d x st u is st' a z m, copy_slots s d (width x) st = COk (u, is, st') -> xp a is z -> felts m -> cel m s x ->
  - NS <= s -> s + width x <= FS -> - NS <= d -> d + width x <= FS -> s + width x <= d \/ d + width x <= s ->
  st' = st /\ puts m a z d x.
Proof.
  intros s d x st u is st' a z m H X Hm C S1 S2 D1 D2 Dj.
  assert (W1 : 1 <= width x) by (destruct x; cbn; lia).
  assert (O : forall st u is st' a z m, (copy1 s d ;;; ret tt) st = COk (u, is, st') -> xp a is z -> felts m ->
     st' = st /\ exists m', msteps M m (St a b) m' (St z b) /\ m' = upds m [(b + d, m (b + s))]).
  { intros st0 u0 is0 st0' a0 z0 m0 H0 X0 F0. take H0 u1 j1 st1 E1. apply out_ok in E1. destruct E1 as (-> & ->).
    apply ret_ok in H0. destruct H0 as (_ & -> & ->). split; auto. cbn [app] in X0.
    eexists. split; [apply copy1_x; eauto; lia|reflexivity]. }
  assert (WC : width x = 1 \/ exists n, x = VU32 n) by (destruct x; cbn; eauto).
  destruct WC as [W|(n & ->)].
  - unfold copy_slots in H. rewrite W in H. change (Z.to_nat 1) with 1%nat in H. cbn [copies] in H.
    destruct (O _ _ _ _ _ _ _ H X Hm) as (-> & m' & R & ->). split; auto. eexists. split; [exact R|]. split; [eapply msteps_felts; eauto|].
    rewrite W. cbn [upds]. split.
    + destruct x; cbn [cel width] in *; try contradiction; try lia; rewrite Z.eqb_refl; auto.
    + intros c Hc. destruct (Z.eqb_spec c (b + d)); auto. lia.
  - cbn [width] in *. unfold copy_slots in H. change (Z.to_nat 2) with 2%nat in H. cbn [copies] in H.
    take H u1 j1 st1 E1. apply out_ok in E1. destruct E1 as (-> & ->).
    take H u2 j2 st2 E2. apply out_ok in E2. destruct E2 as (-> & ->).
    apply ret_ok in H. destruct H as (_ & -> & ->). split; auto. cbn [app] in X.
    destruct (xp_cons _ _ _ _ X) as (a1 & X1 & X2).
    pose proof (copy1_x _ _ _ _ m X1 Hm ltac:(lia) ltac:(lia)) as R1.
    assert (F1 : felts (upds m [(b + d, m (b + s))])) by (eapply msteps_felts; eauto).
    pose proof (copy1_x _ _ _ _ _ X2 F1 ltac:(lia) ltac:(lia)) as R2. cbn [upds] in R2.
    eexists. split; [eapply msteps_trans; [exact R1|exact R2]|]. split; [eapply msteps_felts; [exact R2|exact F1]|].
    cbn [cel upds] in *. destruct C as (Rn & C1 & C2). split.
    + destruct (Z.eqb_spec (b + d) (b + (d + 1))); [lia|]. rewrite !Z.eqb_refl. split; auto. split; auto.
      destruct (Z.eqb_spec (b + (s + 1)) (b + d)); [lia|]. auto.
    + intros c Hc. cbn [width] in Hc. destruct (Z.eqb_spec c (b + (d + 1))); [lia|]. destruct (Z.eqb_spec c (b + d)); [lia|]. auto.
Qed.
Lemma imm_puts : forall n d x st u is st' a z m, store_imm n d st = COk (u, is, st') -> xp a is z -> felts m -> 
  - NS <= d -> d + 1 <= FS -> one_word x = Some n -> 0 <= n < P -> st' = st /\ puts m a z d x.
Proof.
  intros n d x st u is st' a z m H X Hm D1 D2 O Rn. apply out_ok in H. destruct H as (-> & ->). split; auto.
  pose proof (imm_x a z n d m X ltac:(lia)) as R. rewrite mfrom_id in R by auto.
  eexists. split; [exact R|]. split; [eapply msteps_felts; eauto|]. cbn [upds].
  assert (W : width x = 1) by (destruct x; try discriminate O; reflexivity). rewrite W. split.
  - destruct x; try discriminate O; cbn [cel]; rewrite Z.eqb_refl; cbn [one_word] in O.
    + split; congruence || (injection O as ->; auto).
    + unfold bz. congruence.
  - intros c Hc. destruct (Z.eqb_spec c (b + d)); auto. lia.
Qed.
Lemma imm32_puts : forall n d st u is st' a z m, store_u32 n d st = COk (u, is, st') -> xp a is z -> felts m ->
  - NS <= d -> d + 2 <= FS -> 0 <= n < B32 -> st' = st /\ puts m a z d (VU32 n).
Proof.
  intros n d st u is st' a z m H X Hm D1 D2 Rn. apply out_ok in H. destruct H as (-> & ->). split; auto.
  destruct (imm32_x a z n d m X Rn ltac:(lia)) as (w & R & ->).
  eexists. split; [exact R|]. split; [eapply msteps_felts; eauto|]. cbn [upds cel width]. split.
  - destruct (Z.eqb_spec (b + d) (b + (d + 1))); [lia|]. rewrite !Z.eqb_refl. auto.
  - intros c Hc. destruct (Z.eqb_spec c (b + (d + 1))); [lia|]. destruct (Z.eqb_spec c (b + d)); [lia|]. auto.
Qed.
Lemma puts_gives : forall m a z d x lo, puts m a z d x -> gives m a z d lo (ROk x).
Proof. intros m a z d x lo (m' & R & F & C & K). exists m'. split; auto. split; auto. split; auto. intros c _ Hd. apply K. lia. Qed.

(** ** Jumps *)
Lemma xp_jnz : forall a o l r z m, xp a (CI (JnzFpImm (mfrom o) 0) (Some l) :: r) z -> - NS <= o <= FS ->
  exists c, lab l = Some c /\ xp (a + 1) r z /\ msteps M m (St a b) m (St (if m (b + o) =? 0 then a + 1 else c) b).
Proof.
  intros a o l r z m X O. destruct (xp_cons _ _ _ _ X) as (a1 & X1 & X2). destruct (xp_range _ _ _ X1) as (Ra & Rz).
  pose proof (xp_fit _ _ _ _ _ _ _ _ _ b_ok X1) as XF. apply xp_stable in X1; [|reflexivity].
  destruct (run_jnz M lab lab_ok _ _ _ _ _ m (St a b) X1 eq_refl ltac:(lia) Rz XF) as (c & Lc & HP & R).
  cbn [placed] in HP. subst a1. exists c. split; auto. split; auto.
  unfold slot in R. rewrite sl in R by lia. exact R.
Qed.
Lemma xp_jump : forall a l r z m, xp a (CI (JmpRelImm 0) (Some l) :: r) z ->
  exists c, lab l = Some c /\ xp (a + 1) r z /\ msteps M m (St a b) m (St c b).
Proof.
  intros a l r z m X. destruct (xp_cons _ _ _ _ X) as (a1 & X1 & X2).
  pose proof (xp_fit _ _ _ _ _ _ _ _ _ b_ok X1) as XF. apply xp_stable in X1; [|reflexivity].
  destruct (run_jump M lab lab_ok _ _ _ _ m (St a b) X1 eq_refl XF) as (c & Lc & R & HP).
  cbn [placed] in HP. subst a1. exists c. auto.
Qed.

(** ** Assignments *)
Lemma assign_ok : forall v t o x st u is st' a z m,
  match v with
  | Lit (LInt k) => if msize t =? 1 then store_imm k o else match t with TU32 => store_u32 k o | _ => fail end
  | Lit (LBool c) => if msize t =? 1 then store_imm (bz c) o else fail
  | Op i => s <- offset i ;; if msize t =? 1 then copy1 s o else match t with TU32 => copy32 s o | _ => copy_slots s o (msize t) end
  | _ => fail
  end st = COk (u, is, st') -> xp a is z -> felts m -> scalar t = true -> rep (lay st) m v x -> shape t x = true ->
  frame (lay st') <= FL -> - NS <= o -> o + msize t <= frame (lay st) ->
  gives m a z o (frame (lay st)) (ROk x).
Proof.
  intros v t o x st u is st' a z m H X Hm S R Sh Fr D1 D2.
  assert (Fm : frame (lay st) <= frame (lay st')) by apply (quiet_assign v t o st u is st' H).
  assert (W : forall i w, one_word x = Some w -> rep (lay st) m (Op i) x -> (s <- offset i ;; copy1 s o) st = COk (u, is, st') -> o + 1 <= frame (lay st) ->
     gives m a z o (frame (lay st)) (ROk x)).
  { intros i w O (s & n & Ss & S1 & S2 & C) H0 D3. take H0 s' j0 st0 E0. apply offset_ok in E0. destruct E0 as (-> & -> & k & E0).
    rewrite Ss in E0. injection E0 as <- <-. apply out_ok in H0. destruct H0 as (-> & ->). cbn [app] in X.
    assert (1 <= width x) by (destruct x; cbn; lia).
    pose proof (copy1_x _ _ _ _ m X Hm ltac:(lia) ltac:(lia)) as R1.
    eexists. split; [exact R1|]. split; [eapply msteps_felts; eauto|]. cbn [upds]. split.
    - destruct x; try discriminate O; cbn [cel] in *; rewrite Z.eqb_refl; auto.
    - intros c Hc Hd. destruct (Z.eqb_spec c (b + o)); auto. assert (width x = 1) by (destruct x; try discriminate O; reflexivity). lia. }
  destruct t; try discriminate S; destruct x; try discriminate Sh; cbn [shape msize] in *; change (1 =? 1) with true in H; cbn [Z.eqb] in H; cbv iota in H.
  - destruct v as [[n|c|]|i|]; try discriminate H.
    + cbn [rep] in R. destruct R as [[R Rn]|[R _]]; [|discriminate]. injection R as ->.
      eapply puts_gives. eapply (imm_puts n o (VFelt n)); [exact H|exact X|exact Hm|lia|lia|reflexivity|exact Rn].
    + discriminate R.
    + eapply W; [reflexivity|exact R|exact H|lia].
  - destruct v as [[n|c|]|i|]; try discriminate H.
    + cbn [rep] in R. destruct R as [[R _]|[R _]]; discriminate.
    + cbn [rep] in R. injection R as ->. eapply puts_gives.
      eapply (imm_puts (bz c) o (VBool c)); [exact H|exact X|exact Hm|lia|lia|reflexivity|apply bz_P].
    + eapply W; [reflexivity|exact R|exact H|lia].
  - destruct v as [[n|c|]|i|]; try discriminate H.
    + cbn [rep] in R. destruct R as [[R _]|[R Rn]]; [discriminate|]. injection R as ->.
      eapply puts_gives. eapply imm32_puts; [exact H|exact X|exact Hm|lia|lia|exact Rn].
    + destruct R as (s & n & Ss & S1 & S2 & C). take H s' j0 st0 E0. apply offset_ok in E0. destruct E0 as (-> & -> & k & E0).
      rewrite Ss in E0. injection E0 as <- <-. cbn [app] in X. cbn [width] in S2.
      assert (R0 := C). cbn [cel] in R0. destruct R0 as (R0 & _).
      assert (G : gives m a z o (frame (lay st)) (sem_bin U32Add (VU32 z0) (VU32 0))).
      { eapply (u1_ok U32Add s 0 o st); [exact H|exact X|exact Hm|lia|lia| |unfold B32; lia|split; discriminate|lia|cbn [res_width]; lia|exact C].
        apply out_ok in H. destruct H as (_ & ->). lia. }
      cbn [sem_bin] in G. rewrite Z.add_0_r, Z.mod_small in G by exact R0. exact G.
Qed.

(** ** Casts *)
Lemma le_ok : forall a z s k d m, xp a [CI (StoreLeFpImm (mfrom s) k (mfrom d)) None] z -> felts m -> - NS <= s <= FS -> - NS <= d -> d + 1 <= FL ->
  exists m', msteps M m (St a b) m' (St z b) /\ felts m' /\ m' (b + d) = (if m (b + s) <=? k then 1 else 0) /\ keeps d 1 FL m m'.
Proof.
  intros a z s k d m X Hm S D1 D2.
  eapply (run_one_slot a (StoreLeFpImm (mfrom s) k (mfrom d))); [exact X|reflexivity|exact Hm|apply no_second; reflexivity| |lia|lia].
  cbn [isa]. rewrite (sl a s) by lia. reflexivity.
Qed.
Lemma assert_x : forall a z o k m, xp a [CI (AssertEqFpImm (mfrom o) k) None] z -> felts m -> - NS <= o <= FS ->
  if m (b + o) =? k then exists m', msteps M m (St a b) m' (St z b) /\ felts m' /\ (forall c, c < b + FL -> m' c = m c)
  else mtraps M m (St a b).
Proof.
  intros a z o k m X Hm O.
  destruct (m (b + o) =? k) eqn:E.
  - destruct (run_s a (AssertEqFpImm (mfrom o) k) z m (Eff [b + o] [] [] (goes_on (St a b) 1)) X eq_refl Hm (no_second (AssertEqFpImm (mfrom o) k) eq_refl)) as (m' & R & F & K).
    { cbn [isa]. rewrite (sl a o) by lia. rewrite E. reflexivity. }
    exists m'. split; auto.
  - eapply (run_t a (AssertEqFpImm (mfrom o) k)); [exact X|reflexivity|exact Hm|apply no_second; reflexivity| |discriminate].
    cbn [isa]. rewrite (sl a o) by lia. rewrite E. reflexivity.
Qed.
Lemma cast_tail : forall a z s t o n m, xp a [CI (StoreMulFpImm (mfrom (s + 1)) 65536 (mfrom t)) None; CI (StoreAddFpFp (mfrom s) (mfrom t) (mfrom o)) None] z ->
  felts m -> - NS <= s -> s + 2 <= t -> t + 1 <= FL -> - NS <= o -> o + 1 <= t -> m (b + s) = n mod B16 -> m (b + (s + 1)) = n / B16 -> 0 <= n < P ->
  exists m', msteps M m (St a b) m' (St z b) /\ felts m' /\ m' (b + o) = n /\ keeps o 1 t m m'.
Proof.
  intros a z s t o n m X Hm S1 S2 T O1 O2 C1 C2 Rn. destruct (xp_cons _ _ _ _ X) as (a1 & X1 & X2).
  destruct (felt1_ok Mul (s + 1) (LInt 65536) 65536 t (Est (Lay (fun _ => None) 0 0) 0 0 0 [] false) tt [CI (StoreMulFpImm (mfrom (s + 1)) 65536 (mfrom t)) None]
     (Est (Lay (fun _ => None) 0 0) 0 0 0 [] false) a a1 m eq_refl X1 Hm ltac:(cbn; unfold P; lia) ltac:(lia) ltac:(lia) ltac:(lia) ltac:(lia)) as (v & Ev & m1 & R1 & F1 & V1 & K1).
  cbn [fsem] in Ev. rewrite C2 in Ev.
  pose proof (felt2_ok Add s t o (Est (Lay (fun _ => None) 0 0) 0 0 0 [] false) tt [CI (StoreAddFpFp (mfrom s) (mfrom t) (mfrom o)) None]
     (Est (Lay (fun _ => None) 0 0) 0 0 0 [] false) a1 z m1 eq_refl X2 F1 ltac:(lia) ltac:(lia) ltac:(lia) ltac:(lia) ltac:(lia) ltac:(lia)) as G.
  cbn [fsem] in G. destruct G as (m2 & R2 & F2 & V2 & K2).
  assert (Q1 : m1 (b + s) = n mod B16) by (rewrite K1 by (clear - S2 T; lia); exact C1).
  exists m2. split; [eapply msteps_trans; eauto|]. split; auto. split.
  - rewrite V2, Q1, V1. assert (v = n / B16 * 65536 mod P) as -> by congruence. rewrite Zplus_mod_idemp_r.
    replace (n mod B16 + n / B16 * 65536) with n; [apply Z.mod_small; exact Rn|].
    pose proof (Z.div_mod n B16 ltac:(discriminate)). unfold B16 in *. lia.
  - intros c Hc Hd. rewrite K2, K1; [reflexivity|clear - Hc T; lia|clear - Hc; lia|clear - Hc T; lia|exact Hd].
Qed.
Lemma cast_ok : forall v o n st u is st' a z m,
  match v with
  | Op i =>
    s <- offset i ;;
    t1 <- reserve 1 ;; out (StoreLeFpImm (mfrom (s + 1)) 32766 (mfrom t1)) ;;;
    ok <- fresh "u32_cast_ok"%string ;; jnz_off t1 ok ;;;
    t2 <- reserve 1 ;; out (StoreLeFpImm (mfrom (s + 1)) 32767 (mfrom t2)) ;;;
    t3 <- reserve 1 ;; out (StoreSubFpFp (mfrom t2) (mfrom t1) (mfrom t3)) ;;;
    t4 <- reserve 1 ;; out (StoreLeFpImm (mfrom s) 65534 (mfrom t4)) ;;;
    t5 <- reserve 1 ;; out (StoreMulFpFp (mfrom t3) (mfrom t4) (mfrom t5)) ;;;
    out (AssertEqFpImm (mfrom t5) 1) ;;;
    label ok ;;;
    t6 <- reserve 1 ;; out (StoreMulFpImm (mfrom (s + 1)) 65536 (mfrom t6)) ;;;
    out (StoreAddFpFp (mfrom s) (mfrom t6) (mfrom o))
  | Lit (LInt n) => if mfrom n =? n then store_imm n o else fail
  | _ => fail
  end st = COk (u, is, st') -> xp a is z -> felts m -> rep (lay st) m v (VU32 n) -> 
  frame (lay st') <= FL -> - NS <= o -> o + 1 <= frame (lay st) ->
  gives m a z o (frame (lay st)) (if n <? P then ROk (VFelt n) else RTrap).
Proof.
  intros v o n st u is st' a z m H X Hm R Fr D1 D2.
  destruct v as [[k|c|]|i|]; try discriminate H.
  - cbn [rep] in R. destruct R as [[R _]|[R Rn]]; [discriminate|]. injection R as ->.
    destruct (Z.eqb_spec (mfrom k) k) as [E|]; [|discriminate]. assert (Rk : 0 <= k < P) by (rewrite <- E; apply Z.mod_pos_bound; reflexivity).
    destruct (Z.ltb_spec k P); [|lia]. eapply puts_gives.
    eapply (imm_puts k o (VFelt k)); [exact H|exact X|exact Hm|lia| |reflexivity|exact Rk].
    apply out_ok in H. destruct H as (_ & ->). lia.
  - destruct R as (s & w & Ss & S1 & S2 & C). cbn [width] in S2. cbn [cel] in C. destruct C as (Rn & C1 & C2).
    pose proof (Z.mod_pos_bound n B16 ltac:(reflexivity)) as Rlo. assert (Rhi : 0 <= n / B16 < B16).
    { split; [apply Z.div_pos; [lia|reflexivity]|apply Z.div_lt_upper_bound; [reflexivity|exact (proj2 Rn)]]. }
    rewrite cel_scalar_sum by exact Rn.
    take H s' j0 st0 E0. apply offset_ok in E0. destruct E0 as (-> & -> & k & E0). rewrite Ss in E0. injection E0 as <- <-.
    take H t1 j1 st1 E1. apply reserve_ok in E1. destruct E1 as (-> & -> & ->).
    take H u2 j2 st2 E2. apply out_ok in E2. destruct E2 as (-> & ->).
    take H ok j3 st3 E3. apply fresh_ok in E3. destruct E3 as (-> & -> & V3).
    take H u4 j4 st4 E4. apply emit_ok in E4. destruct E4 as (-> & ->).
    take H t2 j5 st5 E5. apply reserve_ok in E5. destruct E5 as (-> & -> & ->).
    take H u6 j6 st6 E6. apply out_ok in E6. destruct E6 as (-> & ->).
    take H t3 j7 st7 E7. apply reserve_ok in E7. destruct E7 as (-> & -> & ->).
    take H u8 j8 st8 E8. apply out_ok in E8. destruct E8 as (-> & ->).
    take H t4 j9 st9 E9. apply reserve_ok in E9. destruct E9 as (-> & -> & ->).
    take H u10 j10 st10 E10. apply out_ok in E10. destruct E10 as (-> & ->).
    take H t5 j11 st11 E11. apply reserve_ok in E11. destruct E11 as (-> & -> & ->).
    take H u12 j12 st12 E12. apply out_ok in E12. destruct E12 as (-> & ->).
    take H u13 j13 st13 E13. apply out_ok in E13. destruct E13 as (-> & ->).
    take H u14 j14 st14 E14. apply label_ok in E14. destruct E14 as (-> & ->).
    take H t6 j15 st15 E15. apply reserve_ok in E15. destruct E15 as (-> & -> & ->).
    take H u16 j16 st16 E16. apply out_ok in E16. destruct E16 as (-> & ->).
    apply out_ok in H. destruct H as (-> & ->).
    cbn [with_lay lay set_frame frame] in Fr, X. cbn [app] in X. rewrite ?V3 in Fr, X. cbn [with_lay lay set_frame frame] in Fr, X.
    set (F := frame (lay st)) in *. set (lo := n mod B16) in *. set (hi := n / B16) in *.
    set (ok := numbered _ _) in X. clear V3.
    destruct (xp_cons _ _ _ _ X) as (a1 & X1 & Y1). clear X.
    destruct (le_ok a a1 (s + 1) 32766 F m X1 Hm ltac:(lia) ltac:(lia) ltac:(lia)) as (m1 & R1 & F1 & V1 & K1). rewrite C2 in V1.
    assert (Q1 : m1 (b + s) = lo) by (rewrite K1 by lia; exact C1).
    assert (Q2 : m1 (b + (s + 1)) = hi) by (rewrite K1 by lia; exact C2).
    destruct (xp_jnz _ _ _ _ _ m1 Y1 ltac:(lia)) as (c & Lc & Y2 & Rj). clear Y1.
    destruct (xp_cons _ _ _ _ Y2) as (a2 & X2 & Y3). clear Y2.
    destruct (xp_cons _ _ _ _ Y3) as (a3 & X3 & Y4). clear Y3.
    destruct (xp_cons _ _ _ _ Y4) as (a4 & X4 & Y5). clear Y4.
    destruct (xp_cons _ _ _ _ Y5) as (a5 & X5 & Y6). clear Y5.
    destruct (xp_cons _ _ _ _ Y6) as (a6 & X6 & Y7). clear Y6.
    destruct (xp_label _ _ _ _ Y7) as (L6 & Y8). clear Y7.
    assert (c = a6) by congruence. subst c. rewrite V1 in Rj.
    assert (NP : n = hi * B16 + lo).
    { unfold hi, lo. pose proof (Z.div_mod n B16 ltac:(discriminate)). lia. }
    assert (Lo : n mod B16 = lo) by reflexivity. assert (Hi : n / B16 = hi) by reflexivity.
    clearbody lo hi F. clear Ss.
    destruct (hi <=? 32766) eqn:B1; cbn [Z.eqb orb] in Rj |- *.
    + destruct (cast_tail _ _ s _ o n m1 Y8 F1 ltac:(clear - S1 S2 Fr FL_le D1 D2; lia) ltac:(clear - S1 S2 Fr FL_le D1 D2; lia) ltac:(clear - S1 S2 Fr FL_le D1 D2; lia) ltac:(clear - S1 S2 Fr FL_le D1 D2; lia) ltac:(clear - S1 S2 Fr FL_le D1 D2; lia) (eq_trans Q1 (eq_sym Lo)) (eq_trans Q2 (eq_sym Hi))) as (m2 & R2 & F2 & V2 & K2).
      { clear - NP Rlo Rhi B1. unfold B16, P in *. lia. }
      exists m2. split; [eapply msteps_trans; [exact R1|eapply msteps_trans; [exact Rj|exact R2]]|]. split; auto. split.
      * cbn [cel]. split; auto. clear - NP Rlo Rhi B1. unfold B16, P in *. lia.
      * intros x Hx Hd. cbn [width] in Hd. rewrite K2, K1; auto; clear - Hx Hd D2 Fr; lia.
    + destruct (le_ok _ _ (s + 1) 32767 (F + 1) m1 X2 F1 ltac:(clear - S1 S2 Fr FL_le D1 D2; lia) ltac:(clear - S1 S2 Fr FL_le D1 D2; lia) ltac:(clear - S1 S2 Fr FL_le D1 D2; lia)) as (m2 & R2 & F2 & V2 & K2). rewrite Q2 in V2.
      pose proof (felt2_ok Sub (F + 1) F (F + 1 + 1) (Est (Lay (fun _ => None) 0 0) 0 0 0 [] false) tt _
        (Est (Lay (fun _ => None) 0 0) 0 0 0 [] false) _ _ m2 eq_refl X3 F2 ltac:(clear - S1 S2 Fr FL_le D1 D2; lia) ltac:(clear - S1 S2 Fr FL_le D1 D2; lia) ltac:(clear - S1 S2 Fr FL_le D1 D2; lia) ltac:(clear - S1 S2 Fr FL_le D1 D2; lia) ltac:(clear - S1 S2 Fr FL_le D1 D2; lia) ltac:(clear - S1 S2 Fr FL_le D1 D2; lia)) as G3.
      cbn [fsem] in G3. destruct G3 as (m3 & R3 & F3 & V3 & K3).
      rewrite V2, (K2 (b + F)), V1, Z.sub_0_r in V3 by (clear - Fr; lia).
      assert (Q3 : m3 (b + s) = lo) by (rewrite K3, K2 by (clear - S2 Fr; lia); exact Q1).
      destruct (le_ok _ _ s 65534 (F + 1 + 1 + 1) m3 X4 F3 ltac:(clear - S1 S2 Fr FL_le D1 D2; lia) ltac:(clear - S1 S2 Fr FL_le D1 D2; lia) ltac:(clear - S1 S2 Fr FL_le D1 D2; lia)) as (m4 & R4 & F4 & V4 & K4). rewrite Q3 in V4.
      pose proof (felt2_ok Mul (F + 1 + 1) (F + 1 + 1 + 1) (F + 1 + 1 + 1 + 1) (Est (Lay (fun _ => None) 0 0) 0 0 0 [] false) tt _
        (Est (Lay (fun _ => None) 0 0) 0 0 0 [] false) _ _ m4 eq_refl X5 F4 ltac:(clear - S1 S2 Fr FL_le D1 D2; lia) ltac:(clear - S1 S2 Fr FL_le D1 D2; lia) ltac:(clear - S1 S2 Fr FL_le D1 D2; lia) ltac:(clear - S1 S2 Fr FL_le D1 D2; lia) ltac:(clear - S1 S2 Fr FL_le D1 D2; lia) ltac:(clear - S1 S2 Fr FL_le D1 D2; lia)) as G5.
      cbn [fsem] in G5. destruct G5 as (m5 & R5 & F5 & V5 & K5).
      rewrite V4, (K4 (b + (F + 1 + 1))), V3 in V5 by (clear - Fr; lia).
      assert (R05 : msteps M m (St a b) m5 (St a5 b)).
      { eapply msteps_trans; [exact R1|]. eapply msteps_trans; [exact Rj|]. eapply msteps_trans; [exact R2|].
        eapply msteps_trans; [exact R3|]. eapply msteps_trans; [exact R4|]. exact R5. }
      pose proof (assert_x _ _ (F + 1 + 1 + 1 + 1) 1 m5 X6 F5 ltac:(clear - S1 S2 Fr FL_le D1 D2; lia)) as G6. rewrite V5 in G6.
      destruct (hi <=? 32767) eqn:B2, (lo <=? 65534) eqn:B3; cbn [andb];
        match type of G6 with if ?x =? 1 then _ else _ => let y := eval vm_compute in x in change x with y in G6 end;
        cbn [Z.eqb Pos.eqb] in G6; try (eapply mtraps_after; [exact R05|exact G6]).
      destruct G6 as (m6 & R6 & F6 & K6).
      assert (Q6 : m6 (b + s) = lo) by (rewrite K6, K5, K4 by (clear - S2 Fr; lia); exact Q3).
      assert (Q7 : m6 (b + (s + 1)) = hi) by (rewrite K6, K5, K4, K3, K2 by (clear - S2 Fr; lia); exact Q2).
      destruct (cast_tail _ _ s _ o n m6 Y8 F6 ltac:(clear - S1 S2 Fr FL_le D1 D2; lia) ltac:(clear - S1 S2 Fr FL_le D1 D2; lia) ltac:(clear - S1 S2 Fr FL_le D1 D2; lia) ltac:(clear - S1 S2 Fr FL_le D1 D2; lia) ltac:(clear - S1 S2 Fr FL_le D1 D2; lia) (eq_trans Q6 (eq_sym Lo)) (eq_trans Q7 (eq_sym Hi))) as (m7 & R7 & F7 & V7 & K7).
      { clear - NP Rlo Rhi B1 B2 B3. unfold B16, P in *. lia. }
      exists m7. split; [eapply msteps_trans; [exact R05|eapply msteps_trans; [exact R6|exact R7]]|]. split; auto. split.
      * cbn [cel]. split; auto. clear - NP Rlo Rhi B1 B2 B3. unfold B16, P in *. lia.
      * intros x Hx Hd. cbn [width] in Hd. rewrite K7, K6, K5, K4, K3, K2, K1; auto; clear - Hx Hd D2 Fr; lia.
Qed.

(** ** Assertions *)
Lemma lw_int : forall l w, lw l w -> lit_int l = Some w.
Proof. intros [n|c|] w H; cbn in *; try contradiction; destruct H as (-> & _) || subst w; reflexivity. Qed.
Lemma assert_ok : forall l r st u is st' a z m x y, assert_eq l r st = COk (u, is, st') -> xp a is z -> felts m -> 0 <= frame (lay st) -> frame (lay st') <= FL ->
  wordv (lay st) m l x -> wordv (lay st) m r y ->
  if x =? y then exists m', msteps M m (St a b) m' (St z b) /\ felts m' /\ (forall c, c < b + frame (lay st) -> m' c = m c)
  else mtraps M m (St a b).
Proof.
  intros l r st u is st' a z m x y H X Hm F0 Fr Wl Wr.
  assert (Fm : frame (lay st) <= frame (lay st')) by apply (quiet_assert l r st u is st' H).
  assert (OL : forall i k x y, wordv (lay st) m (Op i) x -> mfrom k = y -> assert_off i k st = COk (u, is, st') ->
    if x =? y then exists m', msteps M m (St a b) m' (St z b) /\ felts m' /\ (forall c, c < b + frame (lay st) -> m' c = m c)
    else mtraps M m (St a b)).
  { intros i k x0 y0 (o & n & S & O1 & O2 & V) Ek H0. unfold assert_off in H0. take H0 o' j0 st0 E0. apply offset_ok in E0.
    destruct E0 as (-> & -> & n' & E0). rewrite S in E0. injection E0 as <- <-. apply out_ok in H0. destruct H0 as (-> & ->). cbn [app] in X.
    pose proof (assert_x a z o (mfrom k) m X Hm ltac:(lia)) as G. rewrite V, Ek in G. destruct (x0 =? y0); auto.
    destruct G as (m' & R & F & K). exists m'. split; auto. split; auto. intros c Hc. apply K. lia. }
  assert (W : forall l w, lw l w -> mfrom (match l with LInt n => i32_of n | LBool c => bz c | LUnit => 0 end) = w).
  { intros l0 w Hw. destruct (lw_range _ _ Hw) as (R & E & _). destruct l0; cbn [lit_i32] in E; rewrite E; apply mfrom_id; auto. }
  assert (Sw : (x =? y) = (y =? x)) by apply Z.eqb_sym.
  unfold assert_eq in H. destruct l as [l|i|], r as [r|j|]; try (destruct Wl; fail); try (destruct Wr; fail).
  - cbn [wordv] in Wl, Wr. pose proof (lw_int _ _ Wl) as E1. pose proof (lw_int _ _ Wr) as E2.
    assert (H' : (t <- reserve 1 ;; store_imm (bz (x =? y)) t ;;; out (AssertEqFpImm (mfrom t) 1)) st = COk (u, is, st')).
    { destruct l, r; cbn [lit_int] in *; try discriminate; injection E1 as <-; injection E2 as <-; exact H. }
    clear H. take H' t j0 st0 E0. apply reserve_ok in E0. destruct E0 as (-> & -> & ->).
    take H' u1 j1 st1 E3. apply out_ok in E3. destruct E3 as (-> & ->). apply out_ok in H'. destruct H' as (-> & ->). cbn [app] in X.
    cbn [with_lay lay set_frame frame] in Fr. destruct (xp_cons _ _ _ _ X) as (a1 & X1 & X2).
    pose proof (imm_x a a1 (bz (x =? y)) (frame (lay st)) m X1 ltac:(lia)) as R1. rewrite mfrom_id in R1 by apply bz_P.
    assert (F1 : felts (upds m [(b + frame (lay st), bz (x =? y))])) by (eapply msteps_felts; eauto).
    pose proof (assert_x a1 z (frame (lay st)) 1 _ X2 F1 ltac:(lia)) as G. cbn [upds] in G. rewrite Z.eqb_refl in G.
    destruct (x =? y); cbn [bz Z.eqb Pos.eqb] in G.
    + destruct G as (m' & R & F & K). exists m'. split; [eapply msteps_trans; eauto|]. split; auto.
      intros c Hc. rewrite K by lia. destruct (Z.eqb_spec c (b + frame (lay st))); auto. lia.
    + eapply mtraps_after; eauto.
  - cbn [wordv] in Wr. pose proof (W _ _ Wl) as Ek. destruct l as [n|c|]; try contradiction Wl; rewrite Sw; eapply OL; eauto.
  - cbn [wordv] in Wr. pose proof (W _ _ Wr) as Ek. destruct r as [n|c|]; try contradiction Wr; eapply OL; eauto.
  - discriminate H.
Qed.

(** ** One instruction other than a call *)
Lemma dest_slot : forall L L1 L' d o t, gets L L1 d o -> slots L' = slots L1 -> dest_ok FS L' d t = true -> nret L' + 2 <= NS -> 
  scalar t = true /\ - NS <= o /\ o + msize t <= frame L1 /\ slots L' d = Some (o, msize t).
Proof.
  intros L L1 L' d o t ((n & S & B) & _) E D N. unfold dest_ok in D. rewrite E, S in D. apply andb_true_iff in D. destruct D as (D & D').
  assert (n = msize t) by lia. subst n. split; auto. split; [lia|]. split; [lia|]. congruence.
Qed.
Lemma rep_moved : forall L L1 L' d o m v x, gets L L1 d o -> slots L' = slots L1 -> forallb (same_slot L L') (val_ids v) = true ->
  rep L m v x -> rep L1 m v x.
Proof.
  intros L L1 L' d o m v x (_ & Ot & Fm & _) E S R. eapply rep_lay; [|exact Fm|exact R]. intros i ->. cbn [val_ids forallb] in S.
  rewrite andb_true_r in S. apply same_slot_eq in S. destruct S as (p & q & S1 & S2). congruence.
Qed.
Definition no_call (i : minstr) : bool := match i with ICall _ _ _ _ => false | _ => true end.
Lemma below_known : forall L m e vs v, forallb (below NS L) vs = true -> holds_all L m e vs -> (forall i, In i (val_ids v) -> In i vs) -> known L m e v.
Proof. intros L m e vs v B H I. eapply known_app; eauto. apply forallb_forall. exact B. Qed.
Lemma forallb_incl : forall (p : nat -> bool) l l', (forall x, In x l' -> In x l) -> forallb p l = true -> forallb p l' = true.
Proof. intros p l l' I H. apply forallb_forall. intros x Hx. rewrite forallb_forall in H. auto. Qed.
Lemma below_app1 : forall L a c, forallb (below NS L) (a ++ c) = true -> forallb (below NS L) a = true.
Proof. intros. rewrite forallb_app in H. apply andb_true_iff in H. tauto. Qed.

Lemma plain_step : forall ms f t i rest after st u is st' a z m e W tys,
  gen_instr ms f t i rest st = COk (u, is, st') -> xp a is z -> felts m -> 0 <= frame (lay st) -> frame (lay st') <= FL ->
  instr_ok ms FS NS i (lay st) (lay st') (maxw st) after = true -> nret (lay st') + 2 <= NS -> no_call i = true ->
  holds_all (lay st) m e (uses i) ->
  lands (lay st') (dests i) (frame (lay st)) m a z (effect W tys e tt i).
Proof.
  intros ms f t i rest after st u is st' a z m e W tys H X Hm F0 Fr Ok N NC HA.
  assert (KN : forall v, plain_ok NS (lay st) (lay st') i after = true -> (forall j, In j (val_ids v) -> In j (uses i)) -> known (lay st) m e v).
  { intros v Pl I. unfold plain_ok in Pl. apply andb_true_iff in Pl. destruct Pl as (Pl & _). apply andb_true_iff in Pl. destruct Pl as (Pl & _).
    eapply below_known; [eapply below_app1; exact Pl|exact HA|exact I]. }
  assert (BD : forall d, plain_ok NS (lay st) (lay st') i after = true -> In d (dests i) -> below NS (lay st) d = true).
  { intros d Pl I. unfold plain_ok in Pl. apply andb_true_iff in Pl. destruct Pl as (Pl & _). apply andb_true_iff in Pl. destruct Pl as (Pl & _).
    rewrite forallb_forall in Pl. apply Pl. apply in_or_app. right. apply in_or_app. auto. }
  assert (SM : forall v, plain_ok NS (lay st) (lay st') i after = true -> (forall j, In j (val_ids v) -> In j (uses i)) ->
     forallb (same_slot (lay st) (lay st')) (val_ids v) = true).
  { intros v Pl I. unfold plain_ok in Pl. apply andb_true_iff in Pl. destruct Pl as (Pl & _). apply andb_true_iff in Pl. destruct Pl as (_ & Pl).
    eapply forallb_incl; [|exact Pl]. exact I. }
  destruct i as [d src t0|op d v|op d l r|ds c args ps|d v t1 t2|d pl0 t0|pl0 v t0|s0 vs| |d t0 ss|d es|d v k t0|d fs t0|d v k t0|d v k w t0|d v k w t0|d es t0 k|l r|d k];
    try discriminate Ok; try discriminate NC; cbn [gen_instr instr_ok dests uses effect] in *.
  - (* assign *)
    apply andb_true_iff in Ok. destruct Ok as (Ok & Li). apply andb_true_iff in Ok. destruct Ok as (Pl & Dk).
    take H tg j0 st0 E0. apply target_ok in E0. destruct E0 as (-> & ->). unfold assign in H. take H o j1 st1 E1.
    apply (alloc2_ok NS) in E1; [|apply BD; cbn; auto]. destruct E1 as (-> & G). cbn [app] in X.
    destruct (quiet_assign _ _ _ _ _ _ _ H) as (Qs & Qn & Qf).
    destruct (dest_slot _ _ _ _ _ _ G Qs Dk N) as (Sc & O1 & O2 & Sd).
    destruct (eval_as e t0 src) as [x|] eqn:Ev; [|exact Logic.I].
    destruct (eval_as_rep _ _ _ _ _ _ Ev Sc Li (KN src Pl ltac:(auto))) as (R & Sh).
    eapply rep_moved in R; [|exact G|exact Qs|apply SM; auto].
    pose proof (assign_ok _ _ _ _ _ _ _ _ _ _ _ H X Hm Sc R Sh Fr O1 O2) as Gv.
    eapply lands_low; [eapply (gives_lands _ _ _ _ _ _ _ _ _ Gv Sd)|apply G].
    intros v Hv. injection Hv as <-. apply shape_width; auto.
  - (* unary *)
    apply andb_true_iff in Ok. destruct Ok as (Ok & Li). apply andb_true_iff in Ok. destruct Ok as (Pl & Dk).
    take H tg j0 st0 E0. apply target_ok in E0. destruct E0 as (-> & ->). unfold unary_op in H. take H o j1 st1 E1.
    apply (place_ok NS) in E1; [|apply BD; cbn; auto]. destruct E1 as (-> & G). cbn [app] in X.
    assert (Q : slots (lay st') = slots (lay st1) /\ nret (lay st') = nret (lay st1) /\ frame (lay st1) <= frame (lay st')).
    { destruct op; [eapply quiet_not; exact H|eapply quiet_felt_arith; exact H]. }
    destruct Q as (Qs & Qn & Qf).
    destruct (dest_slot _ _ _ _ _ _ G Qs Dk N) as (Sc & O1 & O2 & Sd).
    destruct (eval_any e v) as [x|] eqn:Ev; [|exact Logic.I]. cbn [of_opt rbind].
    destruct (eval_any_rep _ _ _ _ _ Ev Li (KN v Pl ltac:(auto))) as [R| ->]; [|destruct op; exact Logic.I].
    eapply rep_moved in R; [|exact G|exact Qs|apply SM; auto].
    assert (O3 : o + 1 <= frame (lay st1)) by (destruct op; exact O2).
    pose proof (unary_ok _ _ _ _ _ _ _ _ _ _ _ H X Hm Fr O1 O3 R) as Gv.
    eapply lands_low; [eapply (gives_lands _ _ _ _ _ _ _ _ _ Gv Sd)|apply G].
    intros w Hw. destruct op, x; try discriminate Hw; injection Hw as <-; reflexivity.
  - (* binary *)
    apply andb_true_iff in Ok. destruct Ok as (Ok & El). apply andb_true_iff in Ok. destruct Ok as (Ok & Lr).
    apply andb_true_iff in Ok. destruct Ok as (Ok & Ll). apply andb_true_iff in Ok. destruct Ok as (Pl & Dk).
    take H tg j0 st0 E0. apply target_ok in E0. destruct E0 as (-> & ->). unfold binary_op in H. take H o j1 st1 E1.
    apply (place_ok NS) in E1; [|apply BD; cbn; auto]. destruct E1 as (-> & G). cbn [app] in X.
    destruct (quiet_compute _ _ _ _ _ _ _ _ H) as (Qs & Qn & Qf).
    destruct (dest_slot _ _ _ _ _ _ G Qs Dk N) as (Sc & O1 & O2 & Sd).
    assert (EO : forall v x, eval_opnd e op v = Some x -> lit_in (opnd_type op) v = true -> (forall j, In j (val_ids v) -> In j (val_ids l ++ val_ids r)) ->
      rep (lay st1) m v x \/ x = VUnit).
    { intros v x Ev Lv I. unfold eval_opnd, opnd_type in *. destruct (op_type op) as [ot|] eqn:Eo.
      - left. assert (So : scalar ot = true) by (destruct op; cbn in Eo; try discriminate Eo; injection Eo as <-; reflexivity).
        destruct (eval_as_rep _ _ _ _ _ _ Ev So Lv (KN v Pl I)) as (R & _).
        eapply rep_moved; [exact G|exact Qs|apply SM; auto|exact R].
      - destruct (eval_any_rep _ _ _ _ _ Ev Lv (KN v Pl I)) as [R|Hu]; auto. left.
        eapply rep_moved; [exact G|exact Qs|apply SM; auto|exact R]. }
    unfold eval_bin. destruct (eval_opnd e op l) as [x|] eqn:Ex; [|exact Logic.I].
    destruct (eval_opnd e op r) as [y|] eqn:Ey; [|exact Logic.I]. cbn [of_opt rbind].
    destruct (EO l x Ex Ll) as [Rl| ->]; [intros j Hj; apply in_or_app; auto| |destruct op; exact Logic.I].
    destruct (EO r y Ey Lr) as [Rr| ->]; [intros j Hj; apply in_or_app; auto| |destruct op, x; exact Logic.I].
    assert (Gv : gives m a z o (frame (lay st1)) (sem_bin op x y)).
    { eapply compute_ok; [exact H|exact X|exact Hm|exact Fr|exact O1|exact O2|exact Rl|exact Rr|].
      assert (EB : forall v, elsewhereb (lay st') d v = true -> apart_from (lay st1) o v).
      { intros v Hv i o' n -> Si. unfold elsewhereb in Hv. rewrite Sd, Qs, Si in Hv. lia. }
      intros [-> | ->]; apply andb_true_iff in El; destruct El; split; apply EB; auto. }
    eapply lands_low; [eapply (gives_lands _ _ _ _ _ _ _ _ _ Gv Sd)|apply G].
    intros w Hw. eapply sem_bin_width; eauto.
  - (* cast *)
    apply andb_true_iff in Ok. destruct Ok as (Ok & Li). apply andb_true_iff in Ok. destruct Ok as (Pl & Dk).
    unfold cast in H. destruct t1; try exact Logic.I. destruct t2; try exact Logic.I.
    take H o j1 st1 E1. apply (alloc_ok NS) in E1; [|apply BD; cbn; auto]. destruct E1 as (-> & G). cbn [app] in X.
    assert (Q : slots (lay st') = slots (lay st1) /\ nret (lay st') = nret (lay st1) /\ frame (lay st1) <= frame (lay st')).
    { match type of H with ?c st1 = _ => assert (Qc : quiet c) by (unfold store_imm, jnz_off, out; quiets) end. eapply Qc; exact H. }
    destruct Q as (Qs & Qn & Qf).
    destruct (dest_slot _ _ _ _ _ _ G Qs Dk N) as (Sc & O1 & O2 & Sd).
    destruct (eval_as e TU32 v) as [x|] eqn:Ev; [|exact Logic.I].
    destruct (eval_as_rep _ _ _ _ _ _ Ev eq_refl Li (KN v Pl ltac:(auto))) as (R & Sh). destruct x as [x|x|x| |x|x|x]; try discriminate Sh.
    eapply rep_moved in R; [|exact G|exact Qs|apply SM; auto].
    pose proof (cast_ok v o x st1 _ _ _ a z m H X Hm R Fr O1 O2) as Gv. cbn [of_opt rbind].
    eapply lands_low; [eapply (gives_lands _ _ _ _ _ _ _ _ _ Gv Sd)|apply G].
    intros w Hw. destruct (x <? P); [|discriminate]. injection Hw as <-. reflexivity.
  - (* nop *)
    apply ret_ok in H. destruct H as (_ & -> & ->). apply xp_nil in X. subst z.
    exists m. split; [constructor|]. split; auto.
  - (* assertion *)
    apply andb_true_iff in Ok. destruct Ok as (Ok & Lr). apply andb_true_iff in Ok. destruct Ok as (Pl & Ll).
    destruct (eval_any e l) as [x|] eqn:Ex; [|exact Logic.I]. destruct (eval_any e r) as [y|] eqn:Ey; [|exact Logic.I]. cbn [of_opt rbind].
    destruct (one_word x) as [p|] eqn:Op1; [|exact Logic.I]. destruct (one_word y) as [q|] eqn:Oq; [|exact Logic.I].
    destruct (eval_any_rep _ _ _ _ _ Ex Ll (KN l Pl ltac:(intros; apply in_or_app; auto))) as [Rl| ->]; [|discriminate].
    destruct (eval_any_rep _ _ _ _ _ Ey Lr (KN r Pl ltac:(intros; apply in_or_app; auto))) as [Rr| ->]; [|discriminate].
    pose proof (assert_ok _ _ _ _ _ _ a z m p q H X Hm F0 Fr (rep_word _ _ _ _ _ Rl Op1) (rep_word _ _ _ _ _ Rr Oq)) as G.
    destruct (p =? q); cbn [lands]; auto. destruct G as (m' & R & F & K). exists m'. split; auto.
Qed.
End Instr.
