(** The code for operators computes what the operators mean. *)
From Coq Require Import ZArith Bool String List Lia.
From Verif Require Import M31 M31Facts Instr InstrFacts Isa IsaFacts Mir MirSem MirPasses MirLocalFacts MirIsa MirIsaFacts
  Cg CgLink CgSpec CgPassFacts CgStepFacts CgBoolFacts CgLinkFacts CgExec.
Import ListNotations.
Open Scope Z_scope.

(** ** Emission that only takes temporaries *)
Definition quiet {A} (c : Cg.M A) : Prop :=
  forall s a is s', c s = COk (a, is, s') ->
    slots (lay s') = slots (lay s) /\ nret (lay s') = nret (lay s) /\ frame (lay s) <= frame (lay s').
Lemma quiet_bind : forall A B (c : Cg.M A) (k : A -> Cg.M B), quiet c -> (forall a, quiet (k a)) -> quiet (bind c k).
Proof.
  intros A B c k Hc Hk s x is s' H. apply bind_ok in H. destruct H as (a & i1 & s1 & i2 & E1 & E2 & ->).
  apply Hc in E1. apply Hk in E2. destruct E1 as (A1 & A2 & A3). destruct E2 as (B1 & B2 & B3).
  split; [congruence|]. split; [congruence|]. lia.
Qed.
Lemma quiet_ret : forall A (a : A), quiet (ret a).
Proof. intros A a s x is s' H. apply ret_ok in H. destruct H as (_ & _ & ->). split; auto. split; auto. lia. Qed.
Lemma quiet_fail : forall A, quiet (@fail A). Proof. intros A s x is s' H. discriminate. Qed.
Lemma quiet_panic : forall A, quiet (@panic A). Proof. intros A s x is s' H. discriminate. Qed.
Lemma quiet_emit : forall i t, quiet (emit i t).
Proof. intros i t s x is s' H. apply emit_ok in H. destruct H as (_ & ->). split; auto. split; auto. lia. Qed.
Lemma quiet_label : forall n, quiet (label n).
Proof. intros i s x is s' H. apply label_ok in H. destruct H as (_ & ->). split; auto. split; auto. lia. Qed.
Lemma quiet_offset : forall v, quiet (offset v).
Proof. intros i s x is s' H. apply offset_ok in H. destruct H as (_ & -> & _). split; auto. split; auto. lia. Qed.
Lemma quiet_fresh : forall p, quiet (fresh p).
Proof. intros i s x is s' H. apply fresh_ok in H. destruct H as (_ & _ & ->). split; auto. split; auto. lia. Qed.
Lemma quiet_reserve : forall n, 0 <= n -> quiet (reserve n).
Proof. intros n Hn s x is s' H. apply reserve_ok in H. destruct H as (_ & _ & ->). cbn. split; auto. split; auto. lia. Qed.
Lemma quiet_get_lay : quiet get_lay.
Proof. intros s x is s' H. injection H as <- <- <-. split; auto. split; auto. lia. Qed.
Ltac quiets := repeat first
  [ apply quiet_bind; [|intros ?] | apply quiet_ret | apply quiet_fail | apply quiet_panic | apply quiet_emit
  | apply quiet_label | apply quiet_offset | apply quiet_fresh | apply quiet_get_lay | (apply quiet_reserve; lia)
  | match goal with |- quiet (match ?x with _ => _ end) => destruct x end
  | match goal with |- quiet (if ?x then _ else _) => destruct x end ].
Lemma quiet_felt_arith : forall op d l r, quiet (felt_arith op d l r).
Proof.
  intros. unfold felt_arith. destruct (swap_imm (commutes_felt op) l r) as [l' r'].
  unfold felt_fp_imm, felt_fp_fp, store_imm, out. quiets.
Qed.
Lemma quiet_u32_op : forall op d l r, quiet (u32_op op d l r).
Proof.
  intros. unfold u32_op. destruct (swap_imm (commutes_u32 op) l r) as [l' r'].
  unfold u32_fp_imm, u32_fp_fp, store_u32, store_imm, out. quiets.
Qed.
Lemma quiet_compute : forall op d l r, quiet (compute op d l r).
Proof.
  intros. unfold compute.
  assert (quiet (felt_eq d l r)).
  { unfold felt_eq. apply quiet_bind; [apply quiet_felt_arith|]. intros _. unfold set_bool, jnz_off, jump, store_imm, out. quiets. }
  assert (quiet (felt_neq d l r)).
  { unfold felt_neq. apply quiet_bind; [apply quiet_felt_arith|]. intros _. unfold set_bool, jnz_off, jump, store_imm, out. quiets. }
  assert (quiet (sc_or d l r)) by (unfold sc_or, branch_nz, jump, jnz_off, store_imm, out; quiets).
  assert (quiet (sc_and d l r)) by (unfold sc_and, branch_nz, jump, jnz_off, store_imm, out; quiets).
  destruct op; auto; try apply quiet_fail; try apply quiet_felt_arith; apply quiet_u32_op.
Qed.

(** ** Emission of items that rewriting leaves alone *)
Definition calm {A} (c : Cg.M A) : Prop := forall s a is s', c s = COk (a, is, s') -> forallb stable is = true.
Lemma calm_bind : forall A B (c : Cg.M A) (k : A -> Cg.M B), calm c -> (forall a, calm (k a)) -> calm (bind c k).
Proof.
  intros A B c k Hc Hk s x is s' H. apply bind_ok in H. destruct H as (a & i1 & s1 & i2 & E1 & E2 & ->).
  rewrite forallb_app. apply andb_true_iff. split; [eapply Hc|eapply Hk]; eauto.
Qed.
Lemma calm_ret : forall A (a : A), calm (ret a).
Proof. intros A a s x is s' H. apply ret_ok in H. destruct H as (_ & -> & _). auto. Qed.
Lemma calm_fail : forall A, calm (@fail A). Proof. intros A s x is s' H. discriminate. Qed.
Lemma calm_panic : forall A, calm (@panic A). Proof. intros A s x is s' H. discriminate. Qed.
Lemma calm_emit : forall i t, stable (CI i t) = true -> calm (emit i t).
Proof. intros i t Hs s x is s' H. apply emit_ok in H. destruct H as (-> & _). cbn. rewrite andb_true_r. exact Hs. Qed.
Lemma calm_label : forall n, calm (label n).
Proof. intros i s x is s' H. apply label_ok in H. destruct H as (-> & _). auto. Qed.
Lemma calm_offset : forall v, calm (offset v).
Proof. intros i s x is s' H. apply offset_ok in H. destruct H as (-> & _). auto. Qed.
Lemma calm_fresh : forall p, calm (fresh p).
Proof. intros i s x is s' H. apply fresh_ok in H. destruct H as (-> & _). auto. Qed.
Ltac calms := repeat first
  [ apply calm_bind; [|intros ?] | apply calm_ret | apply calm_fail | apply calm_panic | (apply calm_emit; reflexivity)
  | apply calm_label | apply calm_offset | apply calm_fresh
  | match goal with |- calm (match ?x with _ => _ end) => destruct x end
  | match goal with |- calm (if ?x then _ else _) => destruct x end ].
Lemma calm_or : forall d l r, calm (sc_or d l r).
Proof. intros. unfold sc_or, branch_nz, jump, jnz_off, store_imm, out. calms. Qed.
Lemma calm_and : forall d l r, calm (sc_and d l r).
Proof. intros. unfold sc_and, branch_nz, jump, jnz_off, store_imm, out. calms. Qed.
Lemma calm_not : forall d v, calm (sc_not d v).
Proof. intros. unfold sc_not, jump, jnz_off, store_imm, out. calms. Qed.
Lemma calm_set_bool : forall d z x y, calm (set_bool d z x y).
Proof. intros. unfold set_bool, jump, jnz_off, store_imm, out. calms. Qed.

(** What the felt operators compute; [None] is a division by zero. *)
Definition fsem (op : binop) (x y : Z) : option Z :=
  match op with
  | Add => Some ((x + y) mod P)
  | Sub => Some ((x - y) mod P)
  | Mul => Some ((x * y) mod P)
  | Div => if y =? 0 then None else Some ((x * minv y) mod P)
  | _ => Some 0
  end.
Definition lw (l : lit) (w : Z) : Prop :=
  match l with LInt n => n = w /\ 0 <= n < P | LBool c => w = bz c | LUnit => False end.
Lemma lw_range : forall l w, lw l w -> 0 <= w < P /\ lit_i32 l = w /\ lit_u32 l = w.
Proof.
  intros [n|c|] w H; cbn in H.
  - destruct H as (<- & H). split; auto. split; auto. cbn. unfold i32_of.
    destruct (Z.ltb_spec n 2147483648); auto. unfold P in H. lia.
  - subst w. split; auto. destruct c; cbn; unfold P; lia.
  - destruct H.
Qed.
Lemma mfrom_id : forall w, 0 <= w < P -> mfrom w = w.
Proof. intros. unfold mfrom. apply Z.mod_small. auto. Qed.

Set Default Proof Using "All".
Section Arith.
Variable M : machine.
Variable lab : string -> option Z.
Hypothesis lab_ok : forall l b, lab l = Some b -> 0 <= b < P.
Hypothesis code_ok : forall a i, code M a = Some i -> (0 <= a < P /\ 0 <= fp_min M a) /\ iwf i.
Variable FS : Z.
Variables NS LO : Z.
Hypothesis FS_lo : 0 <= NS <= LO /\ NS <= FS.
Hypothesis FS_hi : fp_max M + FS < P.
Variable FL : Z.
Hypothesis FL_ok : 0 <= FL.
Hypothesis FL_le : FL <= FS.
Variable b : Z.
Hypothesis b_ok : LO <= b <= fp_max M.
Notation xp := (xp M lab FS LO FL).

Lemma sl : forall a k, - NS <= k <= FS -> (fp (St a b) + mfrom k) mod P = b + k.
Proof. intros a k H. rewrite slot_mfrom. apply (slot_lin M lab lab_ok code_ok FS NS LO FS_lo FS_hi); auto. Qed.
Lemma hi_lin : forall k, - NS <= k < FS -> (b + k + 1) mod P = b + (k + 1).
Proof. intros k H. rewrite Z.mod_small; lia. Qed.

(** [m'] is [m] below slot [lo], apart from [n] slots from [d] on. *)
Definition keeps (d n lo : Z) (m m' : Z -> Z) : Prop :=
  forall c, c < b + lo -> (c < b + d \/ b + d + n <= c) -> m' c = m c.
Lemma keeps_trans : forall d n lo m m1 m2, keeps d n lo m m1 -> keeps d n lo m1 m2 -> keeps d n lo m m2.
Proof. intros d n lo m m1 m2 H1 H2 c Hc Hd. rewrite H2, H1; auto. Qed.

(** The machine word of an operand. *)
Definition wordv (L : layout) (m : Z -> Z) (v : value) (w : Z) : Prop :=
  match v with
  | Lit l => lw l w
  | Op i => exists o n, slots L i = Some (o, n) /\ - NS <= o /\ o + 1 <= frame L /\ m (b + o) = w
  | VErr => False
  end.
Lemma wordv_lay : forall L L' m v w, slots L' = slots L -> frame L <= frame L' -> wordv L m v w -> wordv L' m v w.
Proof.
  intros L L' m [l|i|] w E F H; cbn in *; auto. destruct H as (o & n & A & B & C & D). exists o, n.
  rewrite E. split; auto. split; auto. split; auto. lia.
Qed.

Lemma run_s : forall a i z m e, xp a [CI i None] z -> straight i = true -> felts m -> second_ok NS FL i ->
  isa i m (St a b) = Some e ->
  exists m', msteps M m (St a b) m' (St z b) /\ felts m' /\ (forall c, c < b + FL -> m' c = upds m (writes e) c).
Proof.
  intros a i z m e H S Hm H2 E. pose proof (run1 M lab lab_ok code_ok FS NS LO FS_lo FS_hi FL FL_ok b b_ok a i z m H S Hm H2) as R.
  rewrite E in R. destruct R as (m' & R & K). exists m'. split; auto. split; auto.
  eapply (msteps_felts M lab lab_ok code_ok FS NS LO FS_lo FS_hi); eauto.
Qed.
Lemma run_t : forall a i z m, xp a [CI i None] z -> straight i = true -> felts m -> second_ok NS FL i ->
  isa i m (St a b) = None -> (forall x d, i <> U32StoreMulFpImm x 0 0 d) -> mtraps M m (St a b).
Proof.
  intros a i z m H S Hm H2 E. pose proof (run1 M lab lab_ok code_ok FS NS LO FS_lo FS_hi FL FL_ok b b_ok a i z m H S Hm H2) as R.
  rewrite E in R. exact R.
Qed.
Lemma no_second : forall i, second i = None -> second_ok NS FL i.
Proof. intros i H y n E. congruence. Qed.

(** One felt instruction writing one slot. *)
Lemma run_one_slot : forall a i z m d v rd pk nx, xp a [CI i None] z -> straight i = true -> felts m -> second_ok NS FL i ->
  isa i m (St a b) = Some (Eff rd pk [((fp (St a b) + mfrom d) mod P, v)] nx) -> - NS <= d -> d + 1 <= FL ->
  exists m', msteps M m (St a b) m' (St z b) /\ felts m' /\ m' (b + d) = v /\ keeps d 1 FL m m'.
Proof.
  intros a i z m d v rd pk nx H S Hm H2 E D1 D2. rewrite sl in E by lia.
  destruct (run_s a i z m _ H S Hm H2 E) as (m' & R & F & K). cbn [writes upds] in K.
  exists m'. split; auto. split; auto. split.
  - rewrite K by lia. rewrite Z.eqb_refl. auto.
  - intros c Hc Hd. rewrite K by lia. destruct (Z.eqb_spec c (b + d)); [lia|auto].
Qed.
Lemma run_store : forall a z m n d, xp a [CI (StoreImm (mfrom n) (mfrom d)) None] z -> felts m ->
  - NS <= d -> d + 1 <= FL ->
  exists m', msteps M m (St a b) m' (St z b) /\ felts m' /\ m' (b + d) = mfrom n /\ keeps d 1 FL m m'.
Proof.
  intros a z m n d H Hm D1 D2. eapply run_one_slot; eauto; [apply no_second; reflexivity|reflexivity].
Qed.

Lemma felt2_ok : forall op x y d st u is st' a z m, felt_fp_fp op x y d st = COk (u, is, st') -> xp a is z -> felts m ->
  - NS <= x -> x + 1 <= FL -> - NS <= y -> y + 1 <= FL -> - NS <= d -> d + 1 <= FL ->
  match fsem op (m (b + x)) (m (b + y)) with
  | Some w => exists m', msteps M m (St a b) m' (St z b) /\ felts m' /\ m' (b + d) = w /\ keeps d 1 FL m m'
  | None => mtraps M m (St a b)
  end.
Proof.
  intros op x y d st u is st' a z m H X Hm X1 X2 Y1 Y2 D1 D2.
  assert (S2 : forall i, second i = Some (mfrom y, 1) -> second_ok NS FL i).
  { intros i Hi y' n E. rewrite Hi in E. injection E as <- <-. exists y. auto. }
  destruct op; try discriminate H; apply out_ok in H; destruct H as (-> & ->); cbn [fsem];
    try (eapply run_one_slot; [exact X|reflexivity|exact Hm|apply S2; reflexivity|cbn [isa]; rewrite !(sl a x), !(sl a y) by lia; reflexivity|lia|lia]).
  destruct (Z.eqb_spec (m (b + y)) 0) as [E|E].
  - eapply run_t; [exact X|reflexivity|exact Hm|apply S2; reflexivity| |discriminate].
    cbn [isa]. rewrite !(sl a y) by lia. rewrite E. reflexivity.
  - eapply run_one_slot; [exact X|reflexivity|exact Hm|apply S2; reflexivity| |lia|lia]. cbn [isa].
    rewrite !(sl a x), !(sl a y) by lia. apply Z.eqb_neq in E. rewrite E. reflexivity.
Qed.
Lemma felt1_ok : forall op x l w d st u is st' a z m, felt_fp_imm op x l d st = COk (u, is, st') -> xp a is z -> felts m ->
  lw l w -> - NS <= x -> x + 1 <= FL -> - NS <= d -> d + 1 <= FL ->
  exists v, fsem op (m (b + x)) w = Some v /\
  exists m', msteps M m (St a b) m' (St z b) /\ felts m' /\ m' (b + d) = v /\ keeps d 1 FL m m'.
Proof.
  intros op x l w d st u is st' a z m H X Hm W X1 X2 D1 D2. destruct (lw_range l w W) as (R & Ei & Eu).
  unfold felt_fp_imm in H. rewrite Ei, Eu, !(mfrom_id w) in H by auto.
  destruct op; try discriminate H; cbn [fsem].
  1,2,3: apply out_ok in H; destruct H as (-> & ->); eexists; split; [reflexivity|];
    eapply run_one_slot; [exact X|reflexivity|exact Hm|apply no_second; reflexivity|cbn [isa]; rewrite !(sl a x) by lia|lia|lia].
  - reflexivity.
  - unfold mneg. rewrite Zplus_mod_idemp_r. reflexivity.
  - reflexivity.
  - destruct (w =? 0) eqn:E; [discriminate|]. apply out_ok in H. destruct H as (-> & ->).
    eexists; split; [reflexivity|].
    eapply run_one_slot; [exact X|reflexivity|exact Hm|apply no_second; reflexivity|cbn [isa]; rewrite !(sl a x) by lia|lia|lia]. reflexivity.
Qed.

Lemma keeps_low : forall d n lo lo' m m', keeps d n lo m m' -> lo' <= lo -> keeps d n lo' m m'.
Proof. intros d n lo lo' m m' H L c Hc. apply H. lia. Qed.

Lemma felt_arith_ok : forall op d l r st u is st' a z m x y, felt_arith op d l r st = COk (u, is, st') ->
  xp a is z -> felts m -> frame (lay st') <= FL -> - NS <= d -> d + 1 <= frame (lay st) ->
  wordv (lay st) m l x -> wordv (lay st) m r y ->
  match fsem op x y with
  | Some w => exists m', msteps M m (St a b) m' (St z b) /\ felts m' /\ m' (b + d) = w /\ keeps d 1 (frame (lay st)) m m'
  | None => mtraps M m (St a b)
  end.
Proof.
  intros op d l r st u is st' a z m x y H X Hm Fr D1 D2 Wl Wr.
  destruct (quiet_felt_arith op d l r st u is st' H) as (_ & _ & Fm).
  assert (OI : forall i n x y, wordv (lay st) m (Op i) x -> lw n y ->
     (x0 <- offset i ;; felt_fp_imm op x0 n d) st = COk (u, is, st') ->
     exists w, fsem op x y = Some w /\ exists m', msteps M m (St a b) m' (St z b) /\ felts m' /\ m' (b + d) = w /\ keeps d 1 (frame (lay st)) m m').
  { intros i n x0 y0 (o & k & A & B & C & D) W0 H0. take H0 o' j0 st0 E0. apply offset_ok in E0. destruct E0 as (-> & -> & k' & E0).
    rewrite A in E0. injection E0 as <- <-. cbn [app] in X.
    destruct (felt1_ok op o n y0 d _ _ _ _ a z m H0 X Hm W0 ltac:(lia) ltac:(lia) ltac:(lia) ltac:(lia)) as (w & E & m' & R & F & V & K).
    rewrite D in E. exists w. split; auto. exists m'. split; auto. split; auto. split; auto. eapply keeps_low; [eassumption|lia]. }
  unfold felt_arith in H.
  destruct l as [l|i|], r as [r|j|]; try (destruct Wl; fail); try (destruct Wr; fail).
  - (* two literals *)
    cbn in Wl, Wr. destruct (lw_range _ _ Wl) as (R1 & _ & U1). destruct (lw_range _ _ Wr) as (R2 & _ & U2).
    replace (swap_imm (commutes_felt op) (Lit l) (Lit r)) with (Lit l, Lit r) in H by (destruct (commutes_felt op), l; reflexivity).
    rewrite U1, U2, !mfrom_id in H by auto.
    assert (ST : forall w, fsem op x y = Some w -> 0 <= w < P -> store_imm w d st = COk (u, is, st') ->
      match fsem op x y with
      | Some w => exists m', msteps M m (St a b) m' (St z b) /\ felts m' /\ m' (b + d) = w /\ keeps d 1 (frame (lay st)) m m'
      | None => mtraps M m (St a b) end).
    { intros w E Rw K. rewrite E. apply out_ok in K. destruct K as (-> & ->).
      destruct (run_store a z m w d X Hm ltac:(lia) ltac:(lia)) as (m' & R & F & V & K). exists m'. rewrite mfrom_id in V by auto.
      split; auto. split; auto. split; auto. eapply keeps_low; [eassumption|lia]. }
    pose proof (fun t => Z.mod_pos_bound t P ltac:(reflexivity)) as Mb.
    destruct op; try discriminate H.
    1,2,3: eapply ST; [reflexivity| |exact H]; apply Mb.
    cbn [fsem] in *. destruct (y =? 0) eqn:E; [discriminate|].
    eapply ST; [reflexivity| |exact H]. apply Mb.
  - (* literal, operand *)
    cbn in Wl. destruct (lw_range _ _ Wl) as (R1 & _ & U1).
    assert (Sw : commutes_felt op = true -> (match l with LInt _ => true | _ => false end) = true ->
       match fsem op x y with
       | Some w => exists m', msteps M m (St a b) m' (St z b) /\ felts m' /\ m' (b + d) = w /\ keeps d 1 (frame (lay st)) m m'
       | None => mtraps M m (St a b) end).
    { intros Cc Ll. destruct l; try discriminate Ll. rewrite Cc in H. cbn [swap_imm] in H.
      destruct (OI j _ y x Wr Wl H) as (w & E & K).
      replace (fsem op x y) with (fsem op y x). { rewrite E. exact K. }
      destruct op; try discriminate Cc; cbn [fsem]; do 2 f_equal; lia. }
    destruct (commutes_felt op && match l with LInt _ => true | _ => false end) eqn:Es.
    { apply andb_true_iff in Es. destruct Es as (Es1 & Es2). exact (Sw Es1 Es2). }
    replace (swap_imm (commutes_felt op) (Lit l) (Op j)) with (Lit l, Op j) in H
      by (clear - Es; destruct (commutes_felt op), l; try reflexivity; discriminate).
    assert (SD : (t <- reserve 1 ;; store_imm (lit_u32 l) t ;;; y <- offset j ;; felt_fp_fp op t y d) st = COk (u, is, st') ->
       match fsem op x y with
       | Some w => exists m', msteps M m (St a b) m' (St z b) /\ felts m' /\ m' (b + d) = w /\ keeps d 1 (frame (lay st)) m m'
       | None => mtraps M m (St a b) end).
    { clear H. intros H. take H t j0 st0 E0. apply reserve_ok in E0. destruct E0 as (-> & -> & ->).
      take H u1 j1 st1 E1. apply out_ok in E1. destruct E1 as (-> & ->).
      take H o j2 st2 E2. apply offset_ok in E2. destruct E2 as (-> & -> & k' & E2). cbn [with_lay lay set_frame slots] in E2.
      destruct Wr as (o' & k & A & B & C & D). rewrite A in E2. injection E2 as <- <-. cbn [app] in X.
      assert (Fr' : frame (lay st) + 1 <= FL).
      { destruct op; try discriminate H; apply out_ok in H; destruct H as (_ & ->); cbn in Fr; lia. }
      destruct (xp_cons M lab lab_ok code_ok FS NS LO FS_lo FS_hi FL FL_ok _ _ _ _ X) as (a1 & X1 & X2).
      destruct (run_store a a1 m _ _ X1 Hm ltac:(lia) ltac:(lia)) as (m1 & R1' & F1 & V1 & K1).
      rewrite U1, mfrom_id in V1 by auto.
      pose proof (felt2_ok op (frame (lay st)) o' d _ _ _ _ a1 z m1 H X2 F1 ltac:(lia) ltac:(lia) ltac:(lia) ltac:(lia) ltac:(lia) ltac:(lia)) as G.
      rewrite V1, (K1 (b + o')), D in G by lia.
      destruct (fsem op x y) as [w|].
      - destruct G as (m' & R2 & F2 & V2 & K2). exists m'. split; [eapply msteps_trans; eauto|]. split; auto. split; auto.
        intros c Hc Hd. rewrite K2, K1; auto; lia.
      - eapply mtraps_after; eauto. }
    destruct op; try discriminate H; try (apply SD; exact H).
    + destruct (OI j l y x Wr Wl H) as (w & E & K).
      replace (fsem Add x y) with (fsem Add y x) by (cbn; do 2 f_equal; lia). rewrite E. exact K.
    + destruct (OI j l y x Wr Wl H) as (w & E & K).
      replace (fsem Mul x y) with (fsem Mul y x) by (cbn; do 2 f_equal; lia). rewrite E. exact K.
  - (* operand, literal *)
    replace (swap_imm (commutes_felt op) (Op i) (Lit r)) with (Op i, Lit r) in H by (destruct (commutes_felt op); reflexivity).
    destruct (OI i r x y Wl Wr H) as (w & -> & K). exact K.
  - replace (swap_imm (commutes_felt op) (Op i) (Op j)) with (Op i, Op j) in H by (destruct (commutes_felt op); reflexivity).
    take H o j0 st0 E0. apply offset_ok in E0. destruct E0 as (-> & -> & k0 & E0).
    take H o1 j1 st1 E1. apply offset_ok in E1. destruct E1 as (-> & -> & k1 & E1). cbn [app] in X.
    destruct Wl as (o' & k & A & B & C & D). rewrite A in E0. injection E0 as <- <-.
    destruct Wr as (o2 & k2 & A2 & B2 & C2 & D3). rewrite A2 in E1. injection E1 as <- <-.
    pose proof (felt2_ok op o' o2 d _ _ _ _ a z m H X Hm ltac:(lia) ltac:(lia) ltac:(lia) ltac:(lia) ltac:(lia) ltac:(lia)) as G.
    rewrite D, D3 in G. destruct (fsem op x y) as [w|]; auto.
    destruct G as (m' & R & F & V & K). exists m'. split; auto. split; auto. split; auto. eapply keeps_low; [eassumption|lia].
Qed.
End Arith.
