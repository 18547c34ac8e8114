(** The dispatch over operators, assignments, casts and assertions. *)
From Coq Require Import ZArith Bool String List Lia.
From Verif Require Import M31 M31Facts Instr InstrFacts Isa IsaFacts Mir MirSem MirPasses MirLocalFacts MirIsa MirIsaFacts
  Cg CgLink CgSpec CgPassFacts CgStepFacts CgBoolFacts CgLinkFacts CgCheck CgExec CgArith CgOps.
Import ListNotations.
Open Scope Z_scope.

Section Compute.
Variable M : machine.
Variable lab : string -> option Z.
Hypothesis lab_ok : forall l b, lab l = Some b -> 0 <= b < P.
Hypothesis code_ok : forall a i, code M a = Some i -> (0 <= a < P /\ 0 <= fp_min M a) /\ iwf i.
Variable FS : Z.
Variables NS LO : Z.
Hypothesis FS_lo : 0 <= NS <= LO /\ NS <= FS.
Hypothesis FS_hi : fp_max M + FS < P.
Variable FL : Z.
Hypothesis FL_ok : 0 <= FL.
Hypothesis FL_le : FL <= FS.
Variable b : Z.
Hypothesis b_ok : LO <= b <= fp_max M.
Notation xp := (xp M lab FS LO FL).
Notation keeps := (keeps b).
Notation wordv := (wordv NS b).
Notation run_s := (CgArith.run_s M lab lab_ok code_ok FS NS LO FS_lo FS_hi FL FL_ok FL_le b b_ok).
Notation run_t := (CgArith.run_t M lab lab_ok code_ok FS NS LO FS_lo FS_hi FL FL_ok FL_le b b_ok).
Notation run_store := (CgArith.run_store M lab lab_ok code_ok FS NS LO FS_lo FS_hi FL FL_ok FL_le b b_ok).
Notation slot_lin := (CgExec.slot_lin M lab lab_ok code_ok FS NS LO FS_lo FS_hi).
Notation xp_cons := (CgExec.xp_cons M lab lab_ok code_ok FS NS LO FS_lo FS_hi FL FL_ok).
Notation xp_app := (CgExec.xp_app M lab lab_ok code_ok FS NS LO FS_lo FS_hi FL FL_ok).
Notation xp_stable := (CgExec.xp_stable M lab lab_ok code_ok FS NS LO FS_lo FS_hi FL FL_ok).
Notation xp_range := (CgExec.xp_range M lab lab_ok code_ok FS NS LO FS_lo FS_hi FL FL_ok).
Notation felt_arith_ok := (CgArith.felt_arith_ok M lab lab_ok code_ok FS NS LO FS_lo FS_hi FL FL_ok FL_le b b_ok).
Notation msteps_felts := (CgExec.msteps_felts M lab lab_ok code_ok FS NS LO FS_lo FS_hi).
Notation no_second := (CgArith.no_second M lab lab_ok code_ok FS NS LO FS_lo FS_hi FL FL_ok FL_le b b_ok).

(** The cells of a value at slot [k]. *)
Notation cel := (cel b).
Notation gives := (gives M b).
Notation rep := (rep NS b).
Notation u32v := (u32v NS b).
Notation cel_keeps := (CgOps.cel_keeps M lab lab_ok code_ok FS NS LO FS_lo FS_hi FL FL_ok FL_le b b_ok).
Notation gives_low := (CgOps.gives_low M lab lab_ok code_ok FS NS LO FS_lo FS_hi FL FL_ok FL_le b b_ok).
Notation store_u32_ok := (CgOps.store_u32_ok M lab lab_ok code_ok FS NS LO FS_lo FS_hi FL FL_ok FL_le b b_ok).
Notation store_bool_ok := (CgOps.store_bool_ok M lab lab_ok code_ok FS NS LO FS_lo FS_hi FL FL_ok FL_le b b_ok).
Notation run_u32imm := (CgOps.run_u32imm M lab lab_ok code_ok FS NS LO FS_lo FS_hi FL FL_ok FL_le b b_ok).
Notation u32_op_ok := (CgOps.u32_op_ok M lab lab_ok code_ok FS NS LO FS_lo FS_hi FL FL_ok FL_le b b_ok).
Notation set_bool_ok := (CgOps.set_bool_ok M lab lab_ok code_ok FS NS LO FS_lo FS_hi FL FL_ok FL_le b b_ok).
Notation rep_lay := (CgOps.rep_lay M lab lab_ok code_ok FS NS LO FS_lo FS_hi FL FL_ok FL_le b b_ok).
Notation rep_word := (CgOps.rep_word M lab lab_ok code_ok FS NS LO FS_lo FS_hi FL FL_ok FL_le b b_ok).
Notation rep_u32 := (CgOps.rep_u32 M lab lab_ok code_ok FS NS LO FS_lo FS_hi FL FL_ok FL_le b b_ok).
Notation rep_bool := (CgOps.rep_bool M lab lab_ok code_ok FS NS LO FS_lo FS_hi FL FL_ok FL_le b b_ok).
Notation apart_elsewhere := (CgOps.apart_elsewhere M lab lab_ok code_ok FS NS LO FS_lo FS_hi FL FL_ok FL_le b b_ok).
Notation leaves_gives := (CgOps.leaves_gives M lab lab_ok code_ok FS NS LO FS_lo FS_hi FL FL_ok FL_le b b_ok).
Notation fsem_range := (CgOps.fsem_range M lab lab_ok code_ok FS NS LO FS_lo FS_hi FL FL_ok FL_le b b_ok).
Notation wordv_range := (CgOps.wordv_range M lab lab_ok code_ok FS NS LO FS_lo FS_hi FL FL_ok FL_le b b_ok).
Notation felt_test_ok := (CgOps.felt_test_ok M lab lab_ok code_ok FS NS LO FS_lo FS_hi FL FL_ok FL_le b b_ok).
Notation cel_holds := (CgOps.cel_holds M lab lab_ok code_ok FS NS LO FS_lo FS_hi FL FL_ok FL_le b b_ok).
Notation cel_ext := (CgOps.cel_ext M lab lab_ok code_ok FS NS LO FS_lo FS_hi FL FL_ok FL_le b b_ok).

Lemma compute_ok : forall op d l r st u is st' a z m x y, compute op d l r st = COk (u, is, st') ->
  xp a is z -> felts m -> frame (lay st') <= FL -> - NS <= d -> d + msize (res_type op) <= frame (lay st) ->
  rep (lay st) m l x -> rep (lay st) m r y ->
  (op = And \/ op = Or -> apart_from (lay st) d l /\ apart_from (lay st) d r) ->
  gives m a z d (frame (lay st)) (sem_bin op x y).
Proof.
  intros op d l r st u is st' a z m x y H X Hm Fr D1 D2 Rl Rr El.
  destruct (quiet_compute op d l r st u is st' H) as (_ & _ & Fm).
  assert (FA : forall p, (p = Add \/ p = Sub \/ p = Mul \/ p = Div) -> op = p -> gives m a z d (frame (lay st)) (sem_bin op x y)).
  { intros p Hp ->. assert (H' : felt_arith p d l r st = COk (u, is, st')) by (destruct Hp as [->|[->|[->| ->]]]; exact H).
    assert (D3 : d + 1 <= frame (lay st)) by (destruct Hp as [->|[->|[->| ->]]]; exact D2).
    destruct x as [x|x|x| |x|x|x]; try (destruct Hp as [->|[->|[->| ->]]]; exact Logic.I).
    destruct y as [y|y|y| |y|y|y]; try (destruct Hp as [->|[->|[->| ->]]]; exact Logic.I).
    pose proof (felt_arith_ok p d l r st _ _ _ a z m x y H' X Hm Fr D1 D3 (rep_word _ _ _ _ _ Rl eq_refl) (rep_word _ _ _ _ _ Rr eq_refl)) as G.
    destruct (fsem p x y) as [w|] eqn:Ew.
    - assert (sem_bin p (VFelt x) (VFelt y) = ROk (VFelt w)) as ->.
      { destruct Hp as [->|[->|[->| ->]]]; cbn [fsem sem_bin] in *; try congruence. destruct (y =? 0); congruence. }
      destruct G as (m' & R & F & V & K). exists m'. split; auto. split; auto. split; auto. split; auto. eapply fsem_range; eauto.
    - assert (sem_bin p (VFelt x) (VFelt y) = RTrap) as ->; auto.
      destruct Hp as [->|[->|[->| ->]]]; cbn [fsem sem_bin] in *; try discriminate. destruct (y =? 0); congruence. }
  assert (UA : forall T (w1 w2 : T), match op with Add | Sub | Mul | Div | Eq | Neq | And | Or | Less | Greater | LessEqual | GreaterEqual => w1 | _ => w2 end = w2 ->
     w1 <> w2 -> gives m a z d (frame (lay st)) (sem_bin op x y)).
  { intros T w1 w2 Hop Hw. assert (H' : u32_op op d l r st = COk (u, is, st')) by (destruct op; try contradiction (Hw Hop); exact H).
    assert (D3 : d + res_width op <= frame (lay st)) by (destruct op; try contradiction (Hw Hop); exact D2 || discriminate H').
    destruct x as [x|x|x| |x|x|x]; try (destruct op; exact Logic.I || contradiction (Hw Hop)).
    destruct y as [y|y|y| |y|y|y]; try (destruct op; exact Logic.I || contradiction (Hw Hop)).
    eapply u32_op_ok; eauto using rep_u32. }
  destruct op; try (eapply FA; [|reflexivity]; auto; fail); try (eapply (UA bool true false); [reflexivity|discriminate]);
    try discriminate H; clear FA UA; cbn [res_type] in D2; cbn [compute] in H.
  - (* Eq *) change (msize TBool) with 1 in D2.
    destruct x as [x|x|x| |x|x|x]; try exact Logic.I; destruct y as [y|y|y| |y|y|y]; try exact Logic.I;
    pose proof (felt_test_ok _ _ _ _ _ _ _ _ _ _ a z m _ _ H X Hm Fr D1 D2 (rep_word _ _ _ _ _ Rl eq_refl) (rep_word _ _ _ _ _ Rr eq_refl)) as G; cbn [sem_bin].
    + destruct (x =? y); exact G.
    + destruct x, y; exact G.
  - change (msize TBool) with 1 in D2.
    destruct x as [x|x|x| |x|x|x]; try exact Logic.I; destruct y as [y|y|y| |y|y|y]; try exact Logic.I;
    pose proof (felt_test_ok _ _ _ _ _ _ _ _ _ _ a z m _ _ H X Hm Fr D1 D2 (rep_word _ _ _ _ _ Rl eq_refl) (rep_word _ _ _ _ _ Rr eq_refl)) as G; cbn [sem_bin].
    + destruct (x =? y); exact G.
    + destruct x, y; exact G.
  - change (msize TBool) with 1 in D2. destruct (El (or_introl eq_refl)) as (A1 & A2).
    destruct x as [x|x|x| |x|x|x]; try exact Logic.I; destruct y as [y|y|y| |y|y|y]; try exact Logic.I. cbn [sem_bin].
    destruct (xp_range _ _ _ X) as (Ra & Rz).
    eapply gives_low; [|exact Fm]. eapply gives_low; [|exact Fr]. apply leaves_gives; auto; [|lia].
    eapply (and_ok M lab lab_ok); [exact H|eapply xp_stable; [eapply calm_and; exact H|exact X]|reflexivity|lia|lia|exact (xp_fit _ _ _ _ _ _ _ _ _ b_ok X)| | | | ].
    + eapply rep_bool; eauto; lia.
    + eapply rep_bool; eauto; lia.
    + eapply apart_elsewhere; eauto; cbn [width]; lia.
    + eapply apart_elsewhere; eauto; cbn [width]; lia.
  - change (msize TBool) with 1 in D2. destruct (El (or_intror eq_refl)) as (A1 & A2).
    destruct x as [x|x|x| |x|x|x]; try exact Logic.I; destruct y as [y|y|y| |y|y|y]; try exact Logic.I. cbn [sem_bin].
    destruct (xp_range _ _ _ X) as (Ra & Rz).
    eapply gives_low; [|exact Fm]. eapply gives_low; [|exact Fr]. apply leaves_gives; auto; [|lia].
    eapply (or_ok M lab lab_ok); [exact H|eapply xp_stable; [eapply calm_or; exact H|exact X]|reflexivity|lia|lia|exact (xp_fit _ _ _ _ _ _ _ _ _ b_ok X)| | | | ].
    + eapply rep_bool; eauto; lia.
    + eapply rep_bool; eauto; lia.
    + eapply apart_elsewhere; eauto; cbn [width]; lia.
    + eapply apart_elsewhere; eauto; cbn [width]; lia.
Qed.

Lemma quiet_not : forall d v, quiet (sc_not d v).
Proof. intros. unfold sc_not, jump, jnz_off, store_imm, out. quiets. Qed.
Lemma unary_ok : forall op d v st u is st' a z m x,
  match op with Neg => felt_arith Sub d (Lit (LInt 0)) v | Not => sc_not d v end st = COk (u, is, st') ->
  xp a is z -> felts m -> frame (lay st') <= FL -> - NS <= d -> d + 1 <= frame (lay st) -> rep (lay st) m v x ->
  gives m a z d (frame (lay st)) (sem_un op x).
Proof.
  intros op d v st u is st' a z m x H X Hm Fr D1 D2 R. destruct op.
  - destruct x as [x|x|x| |x|x|x]; try exact Logic.I. cbn [sem_un].
    assert (Fm : frame (lay st) <= frame (lay st')) by (apply (quiet_not d v st u is st' H)).
    destruct (xp_range _ _ _ X) as (Ra & Rz).
    eapply gives_low; [|exact Fm]. eapply gives_low; [|exact Fr]. apply leaves_gives; auto; [|lia].
    eapply (not_ok M lab lab_ok); [exact H|eapply xp_stable; [eapply calm_not; exact H|exact X]|reflexivity|lia|lia|exact (xp_fit _ _ _ _ _ _ _ _ _ b_ok X)| ].
    eapply rep_bool; eauto; lia.
  - destruct x as [x|x|x| |x|x|x]; try exact Logic.I. cbn [sem_un].
    pose proof (felt_arith_ok Sub d _ _ st _ _ _ a z m 0 x H X Hm Fr D1 D2 (conj eq_refl (conj (Z.le_refl 0) eq_refl)) (rep_word _ _ _ _ _ R eq_refl)) as G.
    cbn [fsem] in G. destruct G as (m' & R' & F & V & K). exists m'. split; auto. split; auto. split; auto.
    split; [rewrite V; reflexivity|apply Z.mod_pos_bound; reflexivity].
Qed.
End Compute.
