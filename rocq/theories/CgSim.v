(** Generated code for whole functions. *)
From Coq Require Import ZArith Bool String List Lia.
From Verif Require Import M31 M31Facts Instr InstrFacts Isa IsaFacts Mir MirSem MirPasses MirLocalFacts MirIsa MirIsaFacts
  Cg CgLink CgSpec CgPassFacts CgStepFacts CgBoolFacts CgLayoutFacts CgLinkFacts CgCheck CgExec CgArith CgOps CgCompute CgInstr CgCall.
Import ListNotations.
Open Scope Z_scope.
Set Default Proof Using "All".

(** ** Frames only grow *)
Definition grows {A} (c : Cg.M A) : Prop :=
  forall s a is s', c s = COk (a, is, s') -> nret (lay s') = nret (lay s) /\ frame (lay s) <= frame (lay s').
Lemma grows_quiet : forall A (c : Cg.M A), quiet c -> grows c.
Proof. intros A c Q s a is s' H. apply Q in H. tauto. Qed.
Lemma grows_bind : forall A B (c : Cg.M A) (k : A -> Cg.M B), grows c -> (forall a, grows (k a)) -> grows (bind c k).
Proof.
  intros A B c k H K s a is s' E. apply bind_ok in E. destruct E as (x & i1 & s1 & i2 & E1 & E2 & _).
  apply H in E1. apply K in E2. destruct E1, E2. split; [congruence|lia].
Qed.
Lemma grows_map : forall d o, grows (map_to d o).
Proof. intros d o s a is s' H. injection H as <- <- <-. cbn. split; auto. lia. Qed.
Lemma grows_alloc : forall d n, 0 <= n -> grows (allocate d n).
Proof. intros d n Hn s a is s' H. unfold allocate in H. destruct (slots (lay s) d) as [[o w]|]; injection H as <- <- <-; cbn; split; auto; lia. Qed.
Lemma grows_target : forall f d rest t dir, grows (target f d rest t dir).
Proof. intros f d rest t dir s a is s' H. apply target_ok in H. destruct H as (_ & ->). split; auto. lia. Qed.
Lemma grows_place : forall d tg, grows (place_dest d tg).
Proof.
  intros d [o|]; cbn [place_dest].
  - apply grows_bind; [apply grows_map|]. intros _. apply grows_quiet. apply quiet_ret.
  - apply grows_quiet. apply quiet_offset.
Qed.
Lemma grows_alloc2 : forall d t (tg : option Z), grows (match tg with Some o => map_to d o ;;; ret o | None => allocate d (msize t) end).
Proof.
  intros d t [o|]; [apply grows_bind; [apply grows_map|intros; apply grows_quiet, quiet_ret]|]. apply grows_alloc, msize_nonneg.
Qed.
Lemma quiet_copy_args : forall args ps o, quiet (copy_args o args ps).
Proof.
  induction args as [|v args IH]; intros [|p ps] o; cbn [copy_args]; try apply quiet_ret; try apply quiet_fail; try apply quiet_panic.
  apply quiet_bind; [|auto]. unfold store_imm, store_u32, copy_slots, out. 
  destruct v as [[n|c|]|i|]; quiets; try apply quiet_copies.
Qed.

Lemma quiet_return : forall vs rs c, quiet (return_vals c vs rs).
Proof.
  induction vs as [|v vs IH]; intros rs c; cbn [return_vals]; [apply quiet_emit|]. destruct rs as [|r rs]; [apply quiet_panic|].
  apply quiet_bind; [apply quiet_get_lay|]. intros L. unfold store_u32, store_imm, out, copy_slots.
  destruct v as [[n|k|]|i|]; quiets; auto; apply quiet_copies.
Qed.
Lemma quiet_jump_next : forall fn next k, quiet (jump_unless_next fn next k).
Proof. intros. unfold jump_unless_next, jump. quiets. Qed.
Lemma quiet_term : forall fn f t next, quiet (gen_term fn f t next).
Proof.
  intros fn f [k|c x y|op l r x y|vs|] next; cbn [gen_term].
  - apply quiet_jump_next.
  - unfold jnz, jump, jnz_off. quiets.
  - apply quiet_bind; [apply quiet_reserve; lia|]. intros o. unfold jnz_off.
    destruct op; try apply quiet_fail; (apply quiet_bind; [apply quiet_compute|intros _]; apply quiet_bind; [apply quiet_emit|intros _]; apply quiet_jump_next).
  - destruct (types_of f (f_rets f)); [apply quiet_return|apply quiet_panic].
  - apply quiet_ret.
Qed.
Lemma grows_call : forall n args ps rs ds, grows (lower_call n args ps rs ds).
Proof.
  intros n args ps rs ds. unfold lower_call. apply grows_bind.
  - apply grows_quiet. unfold pass_args. destruct (Nat.eqb _ _); [|apply quiet_fail].
    apply quiet_bind; [apply quiet_get_lay|]. intros L. apply quiet_bind.
    { intros s a is s' H. injection H as <- <- <-. split; auto. split; auto. lia. }
    intros mw. destruct (in_place L mw args ps); [apply quiet_ret|]. apply quiet_bind; [apply quiet_copy_args|intros _; apply quiet_ret].
  - intros o. destruct ds as [|d ds]; [destruct rs; [apply grows_quiet, quiet_emit|apply grows_quiet, quiet_fail]|].
    generalize (d :: ds) as l. intros l. apply grows_bind.
    + generalize (o + sizes ps) as k, rs as qs. induction l as [|q l IH]; intros k qs; cbn [map_dests]; [apply grows_quiet, quiet_ret|].
      apply grows_bind; [apply grows_map|]. intros _. destruct qs; auto.
    + intros _. apply grows_bind; [apply grows_quiet, quiet_reserve, sizes_nonneg|]. intros _.
      apply grows_bind; [|intros _; apply grows_quiet, quiet_emit].
      intros s a is s' H. injection H as <- <- <-. cbn. split; auto. lia.
Qed.
Lemma grows_instr : forall ms FS NS f t i rest after st u is st', gen_instr ms f t i rest st = COk (u, is, st') ->
  instr_ok ms FS NS i (lay st) (lay st') (maxw st) after = true -> nret (lay st') = nret (lay st) /\ frame (lay st) <= frame (lay st').
Proof.
  intros ms FS NS f t i rest after st u is st' H Ok.
  assert (G : grows (gen_instr ms f t i rest)); [|eapply G; exact H].
  destruct i; try discriminate Ok; cbn [gen_instr].
  - apply grows_bind; [apply grows_target|]. intros o. unfold assign. apply grows_bind; [apply grows_alloc2|].
    intros p. apply grows_quiet, quiet_assign.
  - apply grows_bind; [apply grows_target|]. intros o. unfold unary_op. apply grows_bind; [apply grows_place|].
    intros p. apply grows_quiet. destruct op; [unfold sc_not, jump, jnz_off, store_imm, out; quiets|apply quiet_felt_arith].
  - apply grows_bind; [apply grows_target|]. intros o. unfold binary_op. apply grows_bind; [apply grows_place|].
    intros p. apply grows_quiet, quiet_compute.
  - destruct (nth_error ms callee) as [[n g]|]; [|apply grows_quiet, quiet_fail]. destruct (types_of g (f_rets g)); [|apply grows_quiet, quiet_fail].
    apply grows_call.
  - unfold cast. repeat match goal with |- grows (match ?x with _ => _ end) => destruct x; try (apply grows_quiet, quiet_fail) end.
    apply grows_bind; [apply grows_alloc; lia|]. intros o. apply grows_quiet. unfold store_imm, jnz_off, out. quiets.
  - apply grows_quiet, quiet_ret.
  - apply grows_quiet, quiet_assert.
Qed.
Lemma grows_instrs : forall ms FS NS f t out is st u js st', gen_instrs ms f t is st = COk (u, js, st') -> instrs_ok ms FS NS f t is out st = true ->
  nret (lay st') = nret (lay st) /\ frame (lay st) <= frame (lay st').
Proof.
  induction is as [|i is IH]; intros st u js st' H Ok; cbn [gen_instrs instrs_ok] in *.
  - apply ret_ok in H. destruct H as (_ & _ & ->). split; auto. lia.
  - take H u1 j1 st1 E1. rewrite E1 in Ok. apply andb_true_iff in Ok. destruct Ok as (O1 & O2).
    destruct (grows_instr _ _ _ _ _ _ _ _ _ _ _ _ E1 O1). destruct (IH _ _ _ _ H O2). split; [congruence|lia].
Qed.

(** ** What the checks of an instruction say *)
Lemma forallb_sub : forall (p : nat -> bool) l l', (forall x, In x l' -> In x l) -> forallb p l = true -> forallb p l' = true.
Proof. intros p l l' I H. rewrite forallb_forall in *. auto. Qed.
Lemma memb_in : forall v l, memb v l = true <-> In v l.
Proof.
  intros v l. unfold memb. rewrite existsb_exists. split.
  - intros (x & I & E). apply Nat.eqb_eq in E. subst. auto.
  - intros I. exists v. split; auto. apply Nat.eqb_refl.
Qed.
Lemma nodupb_ok : forall l, nodupb l = true -> NoDup l.
Proof.
  induction l as [|x l IH]; cbn; intros H; constructor; apply andb_true_iff in H; destruct H as (H1 & H2); auto.
  intros I. apply memb_in in I. rewrite I in H1. discriminate.
Qed.
Lemma bind_all_get : forall ds vs e e' (R : nat -> val -> Prop), bind_all e ds vs = Some e' -> NoDup ds -> Forall2 R ds vs ->
  forall v x, e' v = Some x -> In v ds /\ R v x \/ ~ In v ds /\ e v = Some x.
Proof.
  induction ds as [|d ds IH]; intros [|w vs] e e' R H N F v x E; cbn [bind_all] in H; try discriminate.
  - injection H as <-. right. auto.
  - inversion N as [|? ? N1 N2]; subst. inversion F as [|? ? ? ? F1 F2]; subst.
    destruct (IH _ _ _ R H N2 F2 v x E) as [(I & Rv)|(I & Ev)]; [left; cbn; auto|].
    unfold upd in Ev. destruct (Nat.eqb_spec v d) as [->|Nv].
    + injection Ev as <-. left. cbn. auto.
    + right. cbn. split; auto. intros [Q|Q]; auto.
Qed.
Definition bound_of (i : minstr) (st : est) : Z :=
  match i with ICall ds c args ps => call_bound (lay st) (maxw st) args ps | _ => frame (lay st) end.
Lemma dests_each : forall FS L' ds rs o d, dests_at FS L' o ds rs = true -> In d ds -> exists t, dest_ok FS L' d t = true.
Proof.
  induction ds as [|d0 ds IH]; intros [|r rs] o d H I; cbn [dests_at In] in *; try discriminate; try contradiction.
  apply andb_true_iff in H. destruct H as (H & H2). apply andb_true_iff in H. destruct H as (_ & H). destruct I as [->|I]; eauto.
Qed.
Lemma instr_facts : forall ms FS NS i st L' after, instr_ok ms FS NS i (lay st) L' (maxw st) after = true -> 0 <= frame (lay st) ->
  forallb (survives (lay st) L' (bound_of i st) (dests i)) after = true /\ NoDup (dests i) /\
  (forall d, In d (dests i) -> exists t, dest_ok FS L' d t = true) /\ 0 <= bound_of i st /\ forallb (below NS (lay st)) after = true.
Proof.
  intros ms FS NS i st L' after Ok F0.
  assert (Pl : plain_ok NS (lay st) L' i after = true -> forallb (survives (lay st) L' (frame (lay st)) (dests i)) after = true /\ forallb (below NS (lay st)) after = true).
  { intros Pl. unfold plain_ok in Pl. apply andb_true_iff in Pl. destruct Pl as (Pl & S). apply andb_true_iff in Pl. destruct Pl as (B & _).
    split; auto. eapply forallb_sub; [|exact B]. intros x Hx. apply in_or_app. right. apply in_or_app. auto. }
  assert (One : forall d t, dests i = [d] -> plain_ok NS (lay st) L' i after = true -> dest_ok FS L' d t = true -> bound_of i st = frame (lay st) ->
    forallb (survives (lay st) L' (bound_of i st) (dests i)) after = true /\ NoDup (dests i) /\
    (forall d, In d (dests i) -> exists t, dest_ok FS L' d t = true) /\ 0 <= bound_of i st /\ forallb (below NS (lay st)) after = true).
  { intros d t E P D Bd. destruct (Pl P) as (S & B). rewrite Bd. split; auto. rewrite E. split; [constructor; [intros []|constructor]|].
    split; [intros x [<-|[]]; eauto|]. auto. }
  destruct i; try discriminate Ok; cbn [instr_ok] in Ok.
  - apply andb_true_iff in Ok. destruct Ok as (Ok & _). apply andb_true_iff in Ok. destruct Ok as (P & D). eapply One; eauto; reflexivity.
  - apply andb_true_iff in Ok. destruct Ok as (Ok & _). apply andb_true_iff in Ok. destruct Ok as (P & D). eapply One; eauto; reflexivity.
  - apply andb_true_iff in Ok. destruct Ok as (Ok & _). apply andb_true_iff in Ok. destruct Ok as (Ok & _). apply andb_true_iff in Ok. destruct Ok as (Ok & _).
    apply andb_true_iff in Ok. destruct Ok as (P & D). eapply One; eauto; reflexivity.
  - destruct (nth_error ms callee) as [[fn g]|]; [|discriminate]. destruct (types_of g (f_params g)) as [qs|]; [|discriminate].
    destruct (types_of g (f_rets g)) as [rs|]; [|discriminate].
    apply andb_true_iff in Ok. destruct Ok as (Ok & B2). apply andb_true_iff in Ok. destruct Ok as (Ok & B1). apply andb_true_iff in Ok. destruct Ok as (Ok & B_).
    apply andb_true_iff in Ok. destruct Ok as (Ok & Da). apply andb_true_iff in Ok. destruct Ok as (Ok & Ao).
    apply andb_true_iff in Ok. destruct Ok as (Ok & Te). apply andb_true_iff in Ok. destruct Ok as (Ok & S). apply andb_true_iff in Ok. destruct Ok as (Be & Nd).
    cbn [bound_of Mir.dests]. split; auto. split; [apply nodupb_ok; auto|]. split; [intros d I; eapply dests_each; eauto|]. split.
    + unfold call_bound, call_base in *. destruct (in_place _ _ _ _); [apply Z.leb_le; auto|lia].
    + eapply forallb_sub; [|exact Be]. intros x Hx. apply in_or_app. auto.
  - apply andb_true_iff in Ok. destruct Ok as (Ok & _). apply andb_true_iff in Ok. destruct Ok as (P & D). eapply One; eauto; reflexivity.
  - destruct (Pl Ok) as (S & B). cbn [bound_of Mir.dests]. split; auto. split; [constructor|]. split; [intros d []|]. auto.
  - apply andb_true_iff in Ok. destruct Ok as (Ok & _). apply andb_true_iff in Ok. destruct Ok as (P & _). destruct (Pl P) as (S & B).
    cbn [bound_of Mir.dests]. split; auto. split; [constructor|]. split; [intros d []|]. auto.
Qed.

(** Blocks and functions do not shrink the frame. *)
Lemma block_grows : forall ms FS NS f fn ins live k last blk st u is st', gen_block ms fn f k last blk st = COk (u, is, st') ->
  block_ok ms FS NS f ins live k blk st = true -> nret (lay st') = nret (lay st) /\ frame (lay st) <= frame (lay st').
Proof.
  intros ms FS NS f fn ins live k last blk st u is st' H Ok. unfold gen_block in H. take H u1 j1 st1 E1. apply label_ok in E1. destruct E1 as (-> & ->).
  take H u2 j2 st2 E2. unfold block_ok in Ok. rewrite E2 in Ok.
  apply andb_true_iff in Ok. destruct Ok as (Ok & Tg). apply andb_true_iff in Ok. destruct Ok as (Ok & Fs). apply andb_true_iff in Ok. destruct Ok as (Ok & To).
  apply andb_true_iff in Ok. destruct Ok as (Ok & Be). apply andb_true_iff in Ok. destruct Ok as (Nd & Io).
  destruct (grows_instrs _ _ _ _ _ _ _ _ _ _ _ E2 Io) as (N3 & G3). pose proof (quiet_term _ _ _ _ _ _ _ _ H) as (_ & N4 & G4). split; [congruence|lia].
Qed.
Lemma blocks_grow : forall ms FS NS f fn ins live bs k st u is st', gen_blocks ms fn f k bs st = COk (u, is, st') ->
  blocks_ok ms FS NS f fn ins live k bs st = true -> nret (lay st') = nret (lay st) /\ frame (lay st) <= frame (lay st').
Proof.
  induction bs as [|blk bs IH]; intros k st u is st' H Ok; cbn [gen_blocks blocks_ok] in *.
  - apply ret_ok in H. destruct H as (_ & _ & ->). split; auto. lia.
  - take H u1 j1 st1 E1. rewrite E1 in Ok. apply andb_true_iff in Ok. destruct Ok as (O1 & O2).
    destruct (block_grows _ _ _ _ _ _ _ _ _ _ _ _ _ _ E1 O1). destruct (IH _ _ _ _ _ H O2). split; [congruence|lia].
Qed.

Section Sim.
Variable M : machine.
Variable lab : string -> option Z.
Hypothesis lab_ok : forall l b, lab l = Some b -> 0 <= b < P.
Hypothesis code_ok : forall a i, code M a = Some i -> (0 <= a < P /\ 0 <= fp_min M a) /\ iwf i.
Variable FS : Z.
Variables NS LO : Z.
Hypothesis FS_lo : 0 <= NS <= LO /\ NS <= FS.
Hypothesis FS_hi : fp_max M + FS < P.
Variable FL : Z.
Hypothesis FL_ok : 0 <= FL.
Hypothesis FL_le : FL <= FS.
Variable b : Z.
Hypothesis b_ok : LO <= b <= fp_max M.
Notation xp := (xp M lab FS LO FL).
Notation keeps := (keeps b).
Notation wordv := (wordv NS b).
Notation run_s := (CgArith.run_s M lab lab_ok code_ok FS NS LO FS_lo FS_hi FL FL_ok FL_le b b_ok).
Notation run_t := (CgArith.run_t M lab lab_ok code_ok FS NS LO FS_lo FS_hi FL FL_ok FL_le b b_ok).
Notation run_store := (CgArith.run_store M lab lab_ok code_ok FS NS LO FS_lo FS_hi FL FL_ok FL_le b b_ok).
Notation slot_lin := (CgExec.slot_lin M lab lab_ok code_ok FS NS LO FS_lo FS_hi).
Notation xp_cons := (CgExec.xp_cons M lab lab_ok code_ok FS NS LO FS_lo FS_hi FL FL_ok).
Notation xp_app := (CgExec.xp_app M lab lab_ok code_ok FS NS LO FS_lo FS_hi FL FL_ok).
Notation xp_stable := (CgExec.xp_stable M lab lab_ok code_ok FS NS LO FS_lo FS_hi FL FL_ok).
Notation xp_range := (CgExec.xp_range M lab lab_ok code_ok FS NS LO FS_lo FS_hi FL FL_ok).
Notation felt_arith_ok := (CgArith.felt_arith_ok M lab lab_ok code_ok FS NS LO FS_lo FS_hi FL FL_ok FL_le b b_ok).
Notation msteps_felts := (CgExec.msteps_felts M lab lab_ok code_ok FS NS LO FS_lo FS_hi).
Notation no_second := (CgArith.no_second M lab lab_ok code_ok FS NS LO FS_lo FS_hi FL FL_ok FL_le b b_ok).

(** The cells of a value at slot [k]. *)
Notation cel := (cel b).
Notation gives := (gives M b).
Notation rep := (rep NS b).
Notation u32v := (u32v NS b).
Notation cel_keeps := (CgOps.cel_keeps M lab lab_ok code_ok FS NS LO FS_lo FS_hi FL FL_ok FL_le b b_ok).
Notation gives_low := (CgOps.gives_low M lab lab_ok code_ok FS NS LO FS_lo FS_hi FL FL_ok FL_le b b_ok).
Notation store_u32_ok := (CgOps.store_u32_ok M lab lab_ok code_ok FS NS LO FS_lo FS_hi FL FL_ok FL_le b b_ok).
Notation store_bool_ok := (CgOps.store_bool_ok M lab lab_ok code_ok FS NS LO FS_lo FS_hi FL FL_ok FL_le b b_ok).
Notation run_u32imm := (CgOps.run_u32imm M lab lab_ok code_ok FS NS LO FS_lo FS_hi FL FL_ok FL_le b b_ok).
Notation u32_op_ok := (CgOps.u32_op_ok M lab lab_ok code_ok FS NS LO FS_lo FS_hi FL FL_ok FL_le b b_ok).
Notation set_bool_ok := (CgOps.set_bool_ok M lab lab_ok code_ok FS NS LO FS_lo FS_hi FL FL_ok FL_le b b_ok).
Notation rep_lay := (CgOps.rep_lay M lab lab_ok code_ok FS NS LO FS_lo FS_hi FL FL_ok FL_le b b_ok).
Notation rep_word := (CgOps.rep_word M lab lab_ok code_ok FS NS LO FS_lo FS_hi FL FL_ok FL_le b b_ok).
Notation rep_u32 := (CgOps.rep_u32 M lab lab_ok code_ok FS NS LO FS_lo FS_hi FL FL_ok FL_le b b_ok).
Notation rep_bool := (CgOps.rep_bool M lab lab_ok code_ok FS NS LO FS_lo FS_hi FL FL_ok FL_le b b_ok).
Notation apart_elsewhere := (CgOps.apart_elsewhere M lab lab_ok code_ok FS NS LO FS_lo FS_hi FL FL_ok FL_le b b_ok).
Notation leaves_gives := (CgOps.leaves_gives M lab lab_ok code_ok FS NS LO FS_lo FS_hi FL FL_ok FL_le b b_ok).
Notation fsem_range := (CgOps.fsem_range M lab lab_ok code_ok FS NS LO FS_lo FS_hi FL FL_ok FL_le b b_ok).
Notation wordv_range := (CgOps.wordv_range M lab lab_ok code_ok FS NS LO FS_lo FS_hi FL FL_ok FL_le b b_ok).
Notation felt_test_ok := (CgOps.felt_test_ok M lab lab_ok code_ok FS NS LO FS_lo FS_hi FL FL_ok FL_le b b_ok).
Notation cel_holds := (CgOps.cel_holds M lab lab_ok code_ok FS NS LO FS_lo FS_hi FL FL_ok FL_le b b_ok).
Notation cel_ext := (CgOps.cel_ext M lab lab_ok code_ok FS NS LO FS_lo FS_hi FL FL_ok FL_le b b_ok).

Notation compute_ok := (CgCompute.compute_ok M lab lab_ok code_ok FS NS LO FS_lo FS_hi FL FL_ok FL_le b b_ok).
Notation unary_ok := (CgCompute.unary_ok M lab lab_ok code_ok FS NS LO FS_lo FS_hi FL FL_ok FL_le b b_ok).
Notation u1_ok := (CgOps.u1_ok M lab lab_ok code_ok FS NS LO FS_lo FS_hi FL FL_ok FL_le b b_ok).
Notation sl := (CgArith.sl M lab lab_ok code_ok FS NS LO FS_lo FS_hi FL FL_ok FL_le b b_ok).
Notation hi_lin := (CgArith.hi_lin M lab lab_ok code_ok FS NS LO FS_lo FS_hi FL FL_ok FL_le b b_ok).
Notation run_one_slot := (CgArith.run_one_slot M lab lab_ok code_ok FS NS LO FS_lo FS_hi FL FL_ok FL_le b b_ok).
Notation felt1_ok := (CgArith.felt1_ok M lab lab_ok code_ok FS NS LO FS_lo FS_hi FL FL_ok FL_le b b_ok).
Notation felt2_ok := (CgArith.felt2_ok M lab lab_ok code_ok FS NS LO FS_lo FS_hi FL FL_ok FL_le b b_ok).
Notation xp_label := (CgExec.xp_label M lab lab_ok code_ok FS NS LO FS_lo FS_hi FL FL_ok).
Notation xp_nil := (CgExec.xp_nil M lab lab_ok code_ok FS NS LO FS_lo FS_hi FL FL_ok).
Notation xp_le := (CgExec.xp_le M lab lab_ok code_ok FS NS LO FS_lo FS_hi FL FL_ok).
Notation has := (has b).
Notation holds_all := (holds_all b).
Notation has_rep := (CgInstr.has_rep M lab lab_ok code_ok FS NS LO FS_lo FS_hi FL FL_ok FL_le b b_ok).
Notation known := (known NS b).
Notation eval_as_rep := (CgInstr.eval_as_rep M lab lab_ok code_ok FS NS LO FS_lo FS_hi FL FL_ok FL_le b b_ok).
Notation eval_any_rep := (CgInstr.eval_any_rep M lab lab_ok code_ok FS NS LO FS_lo FS_hi FL FL_ok FL_le b b_ok).
Notation known_app := (CgInstr.known_app M lab lab_ok code_ok FS NS LO FS_lo FS_hi FL FL_ok FL_le b b_ok).
Notation lands := (lands M b).
Notation gives_lands := (CgInstr.gives_lands M lab lab_ok code_ok FS NS LO FS_lo FS_hi FL FL_ok FL_le b b_ok).
Notation lands_low := (CgInstr.lands_low M lab lab_ok code_ok FS NS LO FS_lo FS_hi FL FL_ok FL_le b b_ok).
Notation sem_bin_width := (CgInstr.sem_bin_width M lab lab_ok code_ok FS NS LO FS_lo FS_hi FL FL_ok FL_le b b_ok).
Notation copy1_x := (CgInstr.copy1_x M lab lab_ok code_ok FS NS LO FS_lo FS_hi FL FL_ok FL_le b b_ok).
Notation imm_x := (CgInstr.imm_x M lab lab_ok code_ok FS NS LO FS_lo FS_hi FL FL_ok FL_le b b_ok).
Notation imm32_x := (CgInstr.imm32_x M lab lab_ok code_ok FS NS LO FS_lo FS_hi FL FL_ok FL_le b b_ok).
Notation puts := (puts M b).
Notation copy_x := (CgInstr.copy_x M lab lab_ok code_ok FS NS LO FS_lo FS_hi FL FL_ok FL_le b b_ok).
Notation imm_puts := (CgInstr.imm_puts M lab lab_ok code_ok FS NS LO FS_lo FS_hi FL FL_ok FL_le b b_ok).
Notation imm32_puts := (CgInstr.imm32_puts M lab lab_ok code_ok FS NS LO FS_lo FS_hi FL FL_ok FL_le b b_ok).
Notation puts_gives := (CgInstr.puts_gives M lab lab_ok code_ok FS NS LO FS_lo FS_hi FL FL_ok FL_le b b_ok).
Notation xp_jnz := (CgInstr.xp_jnz M lab lab_ok code_ok FS NS LO FS_lo FS_hi FL FL_ok FL_le b b_ok).
Notation xp_jump := (CgInstr.xp_jump M lab lab_ok code_ok FS NS LO FS_lo FS_hi FL FL_ok FL_le b b_ok).
Notation assign_ok := (CgInstr.assign_ok M lab lab_ok code_ok FS NS LO FS_lo FS_hi FL FL_ok FL_le b b_ok).
Notation le_ok := (CgInstr.le_ok M lab lab_ok code_ok FS NS LO FS_lo FS_hi FL FL_ok FL_le b b_ok).
Notation assert_x := (CgInstr.assert_x M lab lab_ok code_ok FS NS LO FS_lo FS_hi FL FL_ok FL_le b b_ok).
Notation cast_tail := (CgInstr.cast_tail M lab lab_ok code_ok FS NS LO FS_lo FS_hi FL FL_ok FL_le b b_ok).
Notation cast_ok := (CgInstr.cast_ok M lab lab_ok code_ok FS NS LO FS_lo FS_hi FL FL_ok FL_le b b_ok).
Notation lw_int := (CgInstr.lw_int M lab lab_ok code_ok FS NS LO FS_lo FS_hi FL FL_ok FL_le b b_ok).
Notation assert_ok := (CgInstr.assert_ok M lab lab_ok code_ok FS NS LO FS_lo FS_hi FL FL_ok FL_le b b_ok).
Notation dest_slot := (CgInstr.dest_slot M lab lab_ok code_ok FS NS LO FS_lo FS_hi FL FL_ok FL_le b b_ok).
Notation rep_moved := (CgInstr.rep_moved M lab lab_ok code_ok FS NS LO FS_lo FS_hi FL FL_ok FL_le b b_ok).
Notation below_known := (CgInstr.below_known M lab lab_ok code_ok FS NS LO FS_lo FS_hi FL FL_ok FL_le b b_ok).
Notation forallb_incl := (CgInstr.forallb_incl M lab lab_ok code_ok FS NS LO FS_lo FS_hi FL FL_ok FL_le b b_ok).
Notation below_app1 := (CgInstr.below_app1 M lab lab_ok code_ok FS NS LO FS_lo FS_hi FL FL_ok FL_le b b_ok).
Notation plain_step := (CgInstr.plain_step M lab lab_ok code_ok FS NS LO FS_lo FS_hi FL FL_ok FL_le b b_ok).
Hypothesis FS_two : 2 <= NS.
Notation has_same := (CgCall.has_same M lab lab_ok code_ok FS NS LO FS_lo FS_hi FL FL_ok FL_le b b_ok FS_two).
Notation copy_args_ok := (CgCall.copy_args_ok M lab lab_ok code_ok FS NS LO FS_lo FS_hi FL FL_ok FL_le b b_ok FS_two).
Notation in_row_ok := (CgCall.in_row_ok M lab lab_ok code_ok FS NS LO FS_lo FS_hi FL FL_ok FL_le b b_ok FS_two).
Notation pass_ok := (CgCall.pass_ok M lab lab_ok code_ok FS NS LO FS_lo FS_hi FL FL_ok FL_le b b_ok FS_two).
Notation xp_call := (CgCall.xp_call M lab lab_ok code_ok FS NS LO FS_lo FS_hi FL FL_ok FL_le b b_ok FS_two).
Notation map_dests_ok := (CgCall.map_dests_ok M lab lab_ok code_ok FS NS LO FS_lo FS_hi FL FL_ok FL_le b b_ok FS_two).
Notation dests_has := (CgCall.dests_has M lab lab_ok code_ok FS NS LO FS_lo FS_hi FL FL_ok FL_le b b_ok FS_two).
Notation dests_below := (CgCall.dests_below M lab lab_ok code_ok FS NS LO FS_lo FS_hi FL FL_ok FL_le b b_ok FS_two).
Notation call_step := (CgCall.call_step M lab lab_ok code_ok FS NS LO FS_lo FS_hi FL FL_ok FL_le b b_ok FS_two).
Notation xp_ret := (CgCall.xp_ret M lab lab_ok code_ok FS NS LO FS_lo FS_hi FL FL_ok FL_le b b_ok FS_two).
Notation rets_has := (CgCall.rets_has M lab lab_ok code_ok FS NS LO FS_lo FS_hi FL FL_ok FL_le b b_ok FS_two).
Notation return_ok := (CgCall.return_ok M lab lab_ok code_ok FS NS LO FS_lo FS_hi FL FL_ok FL_le b b_ok FS_two).

(** What a function keeps of its caller's memory: everything below the return slots, and
    the two saved registers. *)
Definition kept (R : Z) (m m' : Z -> Z) : Prop := forall c, c < b - (R + 2) \/ c = b - 1 \/ c = b - 2 -> m' c = m c.
Lemma kept_trans : forall R m m1 m2, kept R m m1 -> kept R m1 m2 -> kept R m m2.
Proof. intros R m m1 m2 H1 H2 c Hc. rewrite H2, H1; auto. Qed.

Section Body.
Variable ms : funcs.
Variable f : func.
Variable W : world unit.
Variables base lim : Z.
Hypothesis W_ok : call_sound M lab ms W base lim.
Hypothesis base_ok : base + NS <= b.
Hypothesis lim_ok : b + FS <= lim.
Notation exec := (exec W (f_types f)).

Lemma instr_step : forall t i rest after st u is st' a z m e,
  gen_instr ms f t i rest st = COk (u, is, st') -> xp a is z -> felts m -> 0 <= frame (lay st) -> frame (lay st') <= FL ->
  instr_ok ms FS NS i (lay st) (lay st') (maxw st) after = true -> nret (lay st') + 2 <= NS -> 0 <= nret (lay st') ->
  holds_all (lay st) m e (uses i ++ filter (fun v => negb (memb v (dests i))) after) ->
  match exec e tt i with
  | ROk (e', _) => exists m', msteps M m (St a b) m' (St z b) /\ felts m' /\ holds_all (lay st') m' e' after /\ kept (nret (lay st')) m m'
  | RTrap => mtraps M m (St a b)
  | _ => True
  end.
Proof.
  intros t i rest after st u is st' a z m e H X Hm F0 Fr Ok N N0 HA.
  destruct (instr_facts ms FS NS i st (lay st') after Ok F0) as (Sv & Nd & De & B0 & Be).
  assert (HU : holds_all (lay st) m e (uses i)) by (intros v x Hv; apply HA; apply in_or_app; auto).
  assert (G : lands (lay st') (dests i) (bound_of i st) m a z (effect W (f_types f) e tt i)).
  { destruct (no_call i) eqn:NC.
    - replace (bound_of i st) with (frame (lay st)) by (destruct i; try discriminate NC; reflexivity).
      eapply plain_step; [exact H|exact X|exact Hm|exact F0|exact Fr|exact Ok|exact N|exact NC|exact HU].
    - destruct i; try discriminate NC. cbn [bound_of Mir.dests]. eapply call_step; [exact H|exact X|exact Hm|exact F0|exact Ok|exact W_ok|exact base_ok|exact lim_ok|exact HU]. }
  unfold MirSem.exec. destruct (effect W (f_types f) e tt i) as [[vs []]| | |]; cbn [rbind lands fst snd] in *; auto.
  destruct (bind_all e (dests i) vs) as [e'|] eqn:Eb; cbn [of_opt rbind]; auto.
  destruct G as (m' & R & F & Fa & K). exists m'. split; auto. split; auto. split.
  - intros v x Hv Ev. destruct (bind_all_get _ _ _ _ _ Eb Nd Fa v x Ev) as [(I & Hx)|(I & Ex)]; [exact Hx|].
    rewrite forallb_forall in Sv. specialize (Sv v Hv). unfold survives in Sv.
    assert (Mb : memb v (dests i) = false) by (destruct (memb v (dests i)) eqn:Q; auto; apply memb_in in Q; contradiction).
    rewrite Mb in Sv. cbn [orb] in Sv.
    assert (Hh : has (lay st) m v x).
    { apply HA; auto. apply in_or_app. right. apply filter_In. rewrite Mb. auto. }
    destruct Hh as (o & So & Co). rewrite So in Sv. apply andb_true_iff in Sv. destruct Sv as (Sv & Cl). apply andb_true_iff in Sv. destruct Sv as (Ss & Lo).
    destruct (same_slot_eq _ _ _ Ss) as (o1 & n1 & S1 & S2). rewrite So in S1. injection S1 as <- <-.
    exists o. split; auto. eapply cel_same; [exact Co|]. intros c Hc. apply K; [lia|].
    intros d o' n' Hd Sd. rewrite forallb_forall in Cl. specialize (Cl d Hd). unfold clear_of in Cl. rewrite Sd in Cl. lia.
  - intros c Hc. apply K; [lia|]. intros d o n Hd Sd. destruct (De d Hd) as (t0 & D). unfold dest_ok in D. rewrite Sd in D.
    apply andb_true_iff in D. destruct D as (_ & D). lia.
Qed.

Lemma instrs_step : forall t out is st u js st' a z m e,
  gen_instrs ms f t is st = COk (u, js, st') -> xp a js z -> felts m -> 0 <= frame (lay st) -> frame (lay st') <= FL ->
  instrs_ok ms FS NS f t is out st = true -> nret (lay st') + 2 <= NS -> 0 <= nret (lay st') -> holds_all (lay st) m e (needed is out) ->
  match exec_list W (f_types f) e tt is with
  | ROk (e', _) => exists m', msteps M m (St a b) m' (St z b) /\ felts m' /\ holds_all (lay st') m' e' out /\ kept (nret (lay st')) m m'
  | RTrap => mtraps M m (St a b)
  | _ => True
  end.
Proof.
  induction is as [|i is IH]; intros st u js st' a z m e H X Hm F0 Fr Ok N N0 HA; cbn [gen_instrs instrs_ok exec_list] in *.
  - apply ret_ok in H. destruct H as (_ & -> & ->). apply xp_nil in X. subst z. exists m. split; [constructor|]. split; auto. split; auto. intros c _. auto.
  - take H u1 j1 st1 E1. rewrite E1 in Ok. apply andb_true_iff in Ok. destruct Ok as (O1 & O2).
    destruct (grows_instr _ _ _ _ _ _ _ _ _ _ _ _ E1 O1) as (N1 & G1). destruct (grows_instrs _ _ _ _ _ _ _ _ _ _ _ H O2) as (N2 & G2).
    destruct (xp_app _ _ _ _ X) as (a1 & X1 & X2).
    pose proof (instr_step t i is (needed is out) st u1 j1 st1 a a1 m e E1 X1 Hm F0 ltac:(lia) O1 ltac:(lia) ltac:(lia) HA) as S.
    destruct (exec e tt i) as [[e1 []]| | |]; cbn [rbind fst snd]; auto.
    destruct S as (m1 & R1 & F1 & H1 & K1).
    pose proof (IH st1 u _ st' a1 z m1 e1 H X2 F1 ltac:(lia) Fr O2 N N0 H1) as S.
    destruct (exec_list W (f_types f) e1 tt is) as [[e2 []]| | |]; auto.
    + destruct S as (m2 & R2 & F2 & H2 & K2). exists m2. split; [eapply msteps_trans; eauto|]. split; auto. split; auto.
      eapply kept_trans; [rewrite N2; exact K1|exact K2].
    + eapply mtraps_after; eauto.
Qed.

(** Where a terminator leads. *)
Definition leads (fn : string) (live : list (list nat)) (ins : list layout) (rs : list ty) (R : Z) (m : Z -> Z) (a : Z) (e : env) (r : MirSem.res nxt) : Prop :=
  match r with
  | ROk (NGo t) => exists m' c L, msteps M m (St a b) m' (St c b) /\ felts m' /\ lab (block_label fn t) = Some c /\
      nth_error ins t = Some L /\ holds_all L m' e (live_at live t) /\ kept R m m'
  | ROk (NRet vs) => exists m', msteps M m (St a b) m' (St (m (b - 1)) (m (b - 2))) /\ felts m' /\ typed rs vs /\
      cells_at b m' (- (R + 2)) vs /\ (forall c, c < b - (R + 2) -> m' c = m c)
  | RTrap => mtraps M m (St a b)
  | _ => True
  end.

Lemma same_holds : forall L L' m e vs, holds_all L m e vs -> forallb (same_slot L L') vs = true -> holds_all L' m e vs.
Proof.
  intros L L' m e vs H S v x Hv Ex. rewrite forallb_forall in S. destruct (same_slot_eq _ _ _ (S v Hv)) as (o & n & S1 & S2).
  destruct (H v x Hv Ex) as (o' & So & C). rewrite So in S1. injection S1 as <- <-. exists o'. auto.
Qed.
Lemma jump_next_ok : forall fn next k st u is st' a z m, jump_unless_next fn next k st = COk (u, is, st') -> xp a is z ->
  (forall n, next = Some n -> lab (block_label fn n) = Some z) ->
  exists c, lab (block_label fn k) = Some c /\ msteps M m (St a b) m (St c b).
Proof.
  intros fn next k st u is st' a z m H X Hn. unfold jump_unless_next in H.
  assert (J : jump (block_label fn k) st = COk (u, is, st') -> exists c, lab (block_label fn k) = Some c /\ msteps M m (St a b) m (St c b)).
  { intros J. unfold jump in J. apply emit_ok in J. destruct J as (-> & _). destruct (xp_jump _ _ _ _ m X) as (c & Lc & _ & R). eauto. }
  destruct next as [n|]; auto. destruct (Nat.eqb_spec n k) as [->|Nk]; auto.
  apply ret_ok in H. destruct H as (_ & -> & ->). apply xp_nil in X. subst z. exists a. split; [auto|constructor].
Qed.
(** Values below the frame survive a computation into a fresh slot. *)
Lemma fresh_keeps : forall L m m' e vs d n, forallb (below NS L) vs = true -> holds_all L m e vs -> frame L <= d ->
  keeps d n (frame L) m m' -> holds_all L m' e vs.
Proof.
  intros L m m' e vs d n Be H D K v x Hv Ex. rewrite forallb_forall in Be. specialize (Be v Hv). unfold below in Be.
  eapply has_same; [apply H; auto|]. intros o So c Hc. rewrite So in Be. apply K; lia.
Qed.
Lemma term_step : forall fn live ins t next st u is st' a z m e rs,
  gen_term fn f t next st = COk (u, is, st') -> xp a is z -> felts m -> 0 <= frame (lay st) -> frame (lay st') <= FL ->
  types_of f (f_rets f) = Some rs -> nret (lay st) = sizes rs -> nret (lay st) + 2 <= NS ->
  forallb (below NS (lay st)) (term_uses t ++ flat_map (live_at live) (targets t)) = true -> term_ok f t (lay st) = true ->
  forallb (fun t => match nth_error ins t with
                    | Some L => forallb (same_slot (lay st) L) (live_at live t)
                    | None => false
                    end) (targets t) = true ->
  (forall n, next = Some n -> lab (block_label fn n) = Some z) ->
  holds_all (lay st) m e (term_uses t ++ flat_map (live_at live) (targets t)) ->
  leads fn live ins rs (nret (lay st)) m a e (exec_term e (map (f_types f) (f_rets f)) t).
Proof.
  intros fn live ins t next st u is st' a z m e rs H X Hm F0 Fr Tr Nr N2 Be Ok Tg Hn HA.
  assert (Qf : frame (lay st) <= FS) by (pose proof (quiet_term _ _ _ _ _ _ _ _ H); lia).
  assert (Ns : 0 <= nret (lay st)) by (rewrite Nr; apply sizes_nonneg).
  assert (Go : forall k c m', In k (targets t) -> lab (block_label fn k) = Some c -> msteps M m (St a b) m' (St c b) -> felts m' ->
    holds_all (lay st) m' e (term_uses t ++ flat_map (live_at live) (targets t)) -> kept (nret (lay st)) m m' ->
    leads fn live ins rs (nret (lay st)) m a e (ROk (NGo k))).
  { intros k c m' I Lc R F HA' K. rewrite forallb_forall in Tg. specialize (Tg k I). destruct (nth_error ins k) as [L|] eqn:Ni; [|discriminate].
    exists m', c, L. split; auto. split; auto. split; auto. split; auto. split; auto. eapply same_holds; [|exact Tg].
    intros v x Hv. apply HA'. apply in_or_app. right. apply in_flat_map. eauto. }
  assert (KN : forall v, (forall i, In i (val_ids v) -> In i (term_uses t)) -> known (lay st) m e v).
  { intros v I. eapply below_known; [exact Be|exact HA|]. intros i Hi. apply in_or_app. auto. }
  destruct t as [k|c x y|op l r x y|vs|]; cbn [gen_term exec_term targets term_uses] in *.
  - destruct (jump_next_ok _ _ _ _ _ _ _ _ _ m H X Hn) as (c & Lc & R). eapply Go; eauto; [cbn; auto|intros i _; auto].
  - destruct (truth e c) as [tv|] eqn:Et; [|exact Logic.I]. cbn [of_opt rbind].
    unfold jnz in H. destruct c as [[n|cb|]|i|]; try discriminate Et.
    + cbn [truth] in Et. injection Et as <-. take H u1 j1 st1 E1. destruct cb.
      * unfold jump in E1. apply emit_ok in E1. destruct E1 as (-> & ->). destruct (xp_app _ _ _ _ X) as (a1 & X1 & _).
        destruct (xp_jump _ _ _ _ m X1) as (c & Lc & _ & R). eapply Go; eauto; [cbn; auto|intros j _; auto].
      * apply ret_ok in E1. destruct E1 as (_ & -> & ->). cbn [app] in X. unfold jump in H. apply emit_ok in H. destruct H as (-> & _).
        destruct (xp_jump _ _ _ _ m X) as (c & Lc & _ & R). eapply Go; eauto; [cbn; auto|intros j _; auto].
    + take H u1 j1 st1 E1. take E1 o j2 st2 E2. apply offset_ok in E2. destruct E2 as (-> & -> & n & So). unfold jnz_off in E1. apply emit_ok in E1. destruct E1 as (-> & ->).
      unfold jump in H. apply emit_ok in H. destruct H as (-> & _). cbn [app] in X.
      assert (Bi : below NS (lay st) i = true) by (rewrite forallb_forall in Be; apply Be; cbn; auto).
      unfold below in Bi. rewrite So in Bi.
      destruct (xp_jnz _ _ _ _ _ m X ltac:(lia)) as (c & Lc & X2 & R). destruct (xp_jump _ _ _ _ m X2) as (c2 & Lc2 & _ & R2).
      assert (Tv : (m (b + o) =? 0) = negb tv).
      { cbn [truth] in Et. destruct (e i) as [v|] eqn:Ei; [|discriminate]. destruct (HA i v ltac:(cbn; auto) Ei) as (o' & So' & C).
        rewrite So in So'. injection So' as <- _. destruct v as [w|w|w| |w|w|w]; try discriminate Et; cbn [cel] in C.
        - destruct C as (-> & C). destruct (wfb w); [|discriminate]. injection Et as <-. rewrite negb_involutive. auto.
        - destruct C as (_ & -> & _). destruct (u32b w); [|discriminate]. injection Et as <-. rewrite negb_involutive. auto.
        - rewrite C. injection Et as <-. destruct w; reflexivity. }
      rewrite Tv in R. destruct tv; cbn [negb] in R.
      * eapply Go; eauto; [cbn; auto|intros j _; auto].
      * eapply Go; [cbn; auto|exact Lc2|eapply msteps_trans; eauto|exact Hm|exact HA|intros j _; auto].
  - destruct (branch_op op) eqn:Bo; [|exact Logic.I].
    apply andb_true_iff in Ok. destruct Ok as (Ll & Lr).
    take H o j1 st1 E1. apply reserve_ok in E1. destruct E1 as (-> & -> & ->). cbn [app] in X.
    match type of H with _ ?q = _ => set (st1 := q) in H end.
    assert (F1 : frame (lay st1) = frame (lay st) + 1) by reflexivity.
    assert (S1 : slots (lay st1) = slots (lay st)) by reflexivity.
    set (o := frame (lay st)) in *.
    (* compute a word, test it *)
    assert (Tail : forall c k1 k2 tv, (c ;;; jnz_off o (block_label fn k1) ;;; jump_unless_next fn next k2) st1 = COk (u, is0, st') ->
      quiet c -> In k1 [x; y] -> In k2 [x; y] ->
      (forall i2 st2 a2, c st1 = COk (tt, i2, st2) -> xp a i2 a2 -> frame (lay st2) <= FL ->
         exists m1, msteps M m (St a b) m1 (St a2 b) /\ felts m1 /\ (m1 (b + o) =? 0) = tv /\ keeps o 1 (frame (lay st1)) m m1) ->
      leads fn live ins rs (nret (lay st)) m a e (ROk (NGo (if tv then k2 else k1)))).
    { intros c k1 k2 tv Hc Qc I1 I2 Cc. take Hc u2 j2 st2 E2. destruct (xp_app _ _ _ _ X) as (a2 & X2 & X3).
      take Hc u3 j3 st3 E3. unfold jnz_off in E3. apply emit_ok in E3. destruct E3 as (-> & ->).
      pose proof (quiet_jump_next _ _ _ _ _ _ _ Hc) as (_ & _ & Fj). apply Qc in E2 as Q2. destruct u2.
      destruct (Cc j2 st2 a2 E2 X2 ltac:(lia)) as (m1 & R1 & Fe & V & K).
      cbn [app] in X3. destruct (xp_jnz _ _ _ _ _ m1 X3 ltac:(lia)) as (c1 & Lc1 & X4 & R2). rewrite V in R2.
      destruct (jump_next_ok _ _ _ _ _ _ _ _ _ m1 Hc X4 Hn) as (c2 & Lc2 & R3).
      assert (HA1 : holds_all (lay st) m1 e ((val_ids l ++ val_ids r) ++ flat_map (live_at live) [x; y])).
      { eapply fresh_keeps; [exact Be|exact HA|apply Z.le_refl|intros q Hq Hd; apply K; [lia|exact Hd]]. }
      assert (Kp : kept (nret (lay st)) m m1) by (intros q Hq; apply K; lia).
      destruct tv.
      - eapply Go; [exact I2|exact Lc2|eapply msteps_trans; [exact R1|eapply msteps_trans; [exact R2|exact R3]]|exact Fe|exact HA1|exact Kp].
      - eapply Go; [exact I1|exact Lc1|eapply msteps_trans; [exact R1|exact R2]|exact Fe|exact HA1|exact Kp]. }
    assert (EO : forall v w, eval_opnd e op v = Some w -> lit_in (opnd_type op) v = true -> (forall j, In j (val_ids v) -> In j (val_ids l ++ val_ids r)) ->
      rep (lay st1) m v w \/ w = VUnit).
    { intros v w Ev Lv I.
      assert (Rl : rep (lay st) m v w -> rep (lay st1) m v w) by (apply rep_lay; [intros; rewrite S1; auto|lia]).
      unfold eval_opnd, opnd_type in *. destruct (op_type op) as [ot|] eqn:Eo.
      - left. assert (So : scalar ot = true) by (destruct op; cbn in Eo; try discriminate Eo; injection Eo as <-; reflexivity).
        destruct (eval_as_rep _ _ _ _ _ _ Ev So Lv (KN v I)) as (R & _). auto.
      - destruct (eval_any_rep _ _ _ _ _ Ev Lv (KN v I)) as [R|Hu]; auto. }
    unfold eval_bin. destruct (eval_opnd e op l) as [p|] eqn:Ep; [|exact Logic.I].
    destruct (eval_opnd e op r) as [q|] eqn:Eq2; [|exact Logic.I]. cbn [of_opt rbind].
    destruct (EO l p Ep Ll) as [Rl| ->]; [intros j Hj; apply in_or_app; auto| |destruct op; exact Logic.I].
    destruct (EO r q Eq2 Lr) as [Rr| ->]; [intros j Hj; apply in_or_app; auto| |destruct op, p; exact Logic.I].
    assert (Wd : forall v w, (op = Eq \/ op = Neq) -> one_word p = Some v -> one_word q = Some w ->
      forall i2 st2 a2, compute Sub o l r st1 = COk (tt, i2, st2) -> xp a i2 a2 -> frame (lay st2) <= FL ->
         exists m1, msteps M m (St a b) m1 (St a2 b) /\ felts m1 /\ (m1 (b + o) =? 0) = (v =? w) /\ keeps o 1 (frame (lay st1)) m m1).
    { intros v w _ Ov Ow i2 st2 a2 E2 X2 F2. apply rep_word with (w := v) in Rl; auto. apply rep_word with (w := w) in Rr; auto.
      pose proof (felt_arith_ok Sub o l r st1 _ _ _ a a2 m v w E2 X2 Hm F2 ltac:(lia) ltac:(lia) Rl Rr) as G. cbn [fsem] in G.
      destruct G as (m1 & R1 & Fe & C & K). exists m1. split; auto. split; auto. split; auto. rewrite C. 
      apply (CgOps.felt_sub_zero M lab lab_ok code_ok FS NS LO FS_lo FS_hi FL FL_ok FL_le b b_ok); [eapply wordv_range; [exact Hm|exact Rl]|eapply wordv_range; [exact Hm|exact Rr]]. }
    assert (Wu : forall v w, p = VU32 v -> q = VU32 w ->
      forall i2 st2 a2, compute U32Eq o l r st1 = COk (tt, i2, st2) -> xp a i2 a2 -> frame (lay st2) <= FL ->
         exists m1, msteps M m (St a b) m1 (St a2 b) /\ felts m1 /\ (m1 (b + o) =? 0) = negb (v =? w) /\ keeps o 1 (frame (lay st1)) m m1).
    { intros v w -> -> i2 st2 a2 E2 X2 F2.
      assert (G : gives m a a2 o (frame (lay st1)) (sem_bin U32Eq (VU32 v) (VU32 w))).
      { eapply compute_ok; [exact E2|exact X2|exact Hm|exact F2|lia|cbn [res_type msize]; lia|exact Rl|exact Rr|intros [Q|Q]; discriminate Q]. }
      cbn [sem_bin gives] in G. destruct G as (m1 & R1 & Fe & C & K). exists m1. split; auto. split; auto. split; [|exact K].
      cbn [cel] in C. rewrite C. destruct (v =? w); reflexivity. }
    clear Ep Eq2 EO Rl Rr. cbn [In] in Tail.
    destruct op; try discriminate Bo.
    + destruct p as [v|v|v| |v|v|v], q as [w|w|w| |w|w|w]; try exact Logic.I; cbn [sem_bin rbind].
      * pose proof (Tail _ y x (v =? w) H (quiet_compute _ _ _ _) ltac:(auto) ltac:(auto) (Wd v w ltac:(auto) eq_refl eq_refl)) as T. exact T.
      * pose proof (Tail _ y x (bz v =? bz w) H (quiet_compute _ _ _ _) ltac:(auto) ltac:(auto) (Wd (bz v) (bz w) ltac:(auto) eq_refl eq_refl)) as T.
        destruct v, w; exact T.
    + destruct p as [v|v|v| |v|v|v], q as [w|w|w| |w|w|w]; try exact Logic.I; cbn [sem_bin rbind].
      * pose proof (Tail _ x y (v =? w) H (quiet_compute _ _ _ _) ltac:(auto) ltac:(auto) (Wd v w ltac:(auto) eq_refl eq_refl)) as T.
        destruct (v =? w); exact T.
      * pose proof (Tail _ x y (bz v =? bz w) H (quiet_compute _ _ _ _) ltac:(auto) ltac:(auto) (Wd (bz v) (bz w) ltac:(auto) eq_refl eq_refl)) as T.
        destruct v, w; exact T.
    + destruct p as [v|v|v| |v|v|v], q as [w|w|w| |w|w|w]; try exact Logic.I; cbn [sem_bin rbind].
      pose proof (Tail _ x y (negb (v =? w)) H (quiet_compute _ _ _ _) ltac:(auto) ltac:(auto) (Wu v w eq_refl eq_refl)) as T.
      destruct (v =? w); exact T.
    + destruct p as [v|v|v| |v|v|v], q as [w|w|w| |w|w|w]; try exact Logic.I; cbn [sem_bin rbind].
      pose proof (Tail _ y x (negb (v =? w)) H (quiet_compute _ _ _ _) ltac:(auto) ltac:(auto) (Wu v w eq_refl eq_refl)) as T.
      destruct (v =? w); exact T.
  - cbn [term_ok] in Ok. rewrite Tr in H, Ok. apply andb_true_iff in Ok. destruct Ok as (Ro & _).
    assert (Et : omap (fun t => t) (map (f_types f) (f_rets f)) = Some rs).
    { clear - Tr. revert rs Tr. induction (f_rets f) as [|v l IH]; intros rs H; cbn [types_of map omap] in *; [injection H as <-; auto|].
      destruct (f_types f v); [|discriminate]. destruct (types_of f l); [|discriminate]. injection H as <-. rewrite (IH _ eq_refl). auto. }
    rewrite Et. cbn [of_opt rbind]. destruct (eval_list e rs vs) as [xs|] eqn:Ev; [|exact Logic.I]. cbn [of_opt rbind leads].
    rewrite app_nil_r in Be. rewrite app_nil_r in HA. cbn [flat_map] in HA, Be. 
    destruct (return_ok vs rs 0 st u is st' a z m xs e H X Hm Ev) as (T & m' & R & F & C & K); try lia.
    + rewrite Z.add_0_r. exact Ro.
    + intros i Hi. rewrite forallb_forall in Be. auto.
    + exact HA.
    + exists m'. rewrite Z.add_0_r in C. split; auto. split; auto. split; auto. split; auto. intros c Hc. apply K. lia.
  - exact Logic.I.
Qed.

Lemma leads_after : forall fn live ins rs R m a m1 a1 e r, msteps M m (St a b) m1 (St a1 b) -> kept R m m1 -> leads fn live ins rs R m1 a1 e r ->
  leads fn live ins rs R m a e r.
Proof.
  intros fn live ins rs R m a m1 a1 e [[t|vs]| | |] S K L; cbn [leads] in *; auto.
  - destruct L as (m' & c & L & R1 & F & Lc & Ni & HA & K1). exists m', c, L. split; [eapply msteps_trans; eauto|].
    split; auto. split; auto. split; auto. split; auto. eapply kept_trans; eauto.
  - destruct L as (m' & R1 & F & T & C & K1). rewrite !K in R1 by auto. exists m'. split; [eapply msteps_trans; eauto|].
    split; auto. split; auto. split; auto. intros c Hc. rewrite K1, K; auto.
  - eapply mtraps_after; eauto.
Qed.
Lemma no_phi : forall t is out st, instrs_ok ms FS NS f t is out st = true -> span_phi is = ([], is).
Proof. intros t [|[] is] out st H; try reflexivity. discriminate H. Qed.

(** One block. *)
Lemma block_step : forall fn live ins rs k last blk st u is st' a z m e,
  gen_block ms fn f k last blk st = COk (u, is, st') -> xp a is z -> felts m -> 0 <= frame (lay st) -> frame (lay st') <= FL ->
  types_of f (f_rets f) = Some rs -> nret (lay st) = sizes rs -> nret (lay st) + 2 <= NS ->
  block_ok ms FS NS f ins live k blk st = true -> (last = false -> lab (block_label fn (S k)) = Some z) ->
  holds_all (lay st) m e (live_at live k) ->
  lab (block_label fn k) = Some a /\
  leads fn live ins rs (nret (lay st)) m a
    match exec_list W (f_types f) e tt (b_instrs blk) with ROk (e', _) => e' | _ => e end
    (rbind (exec_list W (f_types f) e tt (b_instrs blk)) (fun x => exec_term (fst x) (map (f_types f) (f_rets f)) (b_term blk))).
Proof.
  intros fn live ins rs k last blk st u is st' a z m e H X Hm F0 Fr Tr Nr N2 Ok Hl HA. unfold gen_block in H.
  take H u1 j1 st1 E1. apply label_ok in E1. destruct E1 as (-> & ->). cbn [app] in X. apply xp_label in X. destruct X as (La & X). split; auto.
  take H u2 j2 st2 E2. destruct (xp_app _ _ _ _ X) as (a2 & X2 & X3). unfold block_ok in Ok. rewrite E2 in Ok.
  apply andb_true_iff in Ok. destruct Ok as (Ok & Tg). apply andb_true_iff in Ok. destruct Ok as (Ok & Fs). apply andb_true_iff in Ok. destruct Ok as (Ok & To).
  apply andb_true_iff in Ok. destruct Ok as (Ok & Be). apply andb_true_iff in Ok. destruct Ok as (Nd & Io).
  destruct (grows_instrs _ _ _ _ _ _ _ _ _ _ _ E2 Io) as (N3 & G3). pose proof (quiet_term _ _ _ _ _ _ _ _ H) as (_ & N4 & G4).
  pose proof (sizes_nonneg rs) as Sr.
  match type of Io with instrs_ok _ _ _ _ _ _ ?o _ = _ => set (out := o) in * end.
  pose proof (instrs_step _ out _ _ _ _ _ _ _ m e E2 X2 Hm F0 ltac:(lia) Io ltac:(lia) ltac:(lia)) as S.
  assert (HN : holds_all (lay st) m e (needed (b_instrs blk) out)).
  { intros v x Hv Ex. apply HA; auto. rewrite forallb_forall in Nd. apply memb_in. auto. }
  specialize (S HN). destruct (exec_list W (f_types f) e tt (b_instrs blk)) as [[e' []]| | |]; cbn [rbind fst leads]; auto.
  destruct S as (m1 & R1 & F1 & H1 & K1). rewrite N3 in K1. eapply leads_after; [exact R1|exact K1|]. rewrite <- N3.
  eapply term_step; [exact H|exact X3|exact F1|lia|exact Fr|exact Tr|lia|lia|exact Be|exact To|exact Tg| |exact H1].
  intros n Hn. destruct last; [discriminate|]. injection Hn as <-. auto.
Qed.

(** All blocks. *)
Lemma blocks_at : forall fn ins live bs k st u is st' a z, gen_blocks ms fn f k bs st = COk (u, is, st') -> xp a is z ->
  blocks_ok ms FS NS f fn ins live k bs st = true ->
  forall j blk, nth_error bs j = Some blk -> exists last sj uj ij sj' aj zj,
    gen_block ms fn f (k + j) last blk sj = COk (uj, ij, sj') /\ xp aj ij zj /\ block_ok ms FS NS f ins live (k + j) blk sj = true /\
    nth_error (entry_lays ms f fn k bs st) j = Some (lay sj) /\ (last = false -> lab (block_label fn (S (k + j))) = Some zj) /\
    nret (lay sj) = nret (lay st) /\ frame (lay st) <= frame (lay sj) /\ frame (lay sj') <= frame (lay st').
Proof.
  induction bs as [|blk0 bs IH]; intros k st u is st' a z H X Ok j blk Nj; cbn [gen_blocks blocks_ok] in *; [destruct j; discriminate|].
  take H u1 j1 st1 E1. rewrite E1 in Ok. apply andb_true_iff in Ok. destruct Ok as (O1 & O2). destruct (xp_app _ _ _ _ X) as (a1 & X1 & X2).
  destruct (block_grows _ _ _ _ _ _ _ _ _ _ _ _ _ _ E1 O1) as (N1 & G1). destruct (blocks_grow _ _ _ _ _ _ _ _ _ _ _ _ _ H O2) as (N2 & G2).
  destruct j as [|j]; cbn [nth_error] in Nj.
  - injection Nj as ->. rewrite Nat.add_0_r. eexists _, st, u1, j1, st1, a, a1. split; [exact E1|]. split; auto. split; auto.
    cbn [entry_lays nth_error]. split; auto. split; [|split; [auto|split; lia]].
    destruct bs as [|blk1 bs]; [discriminate|]. intros _. cbn [gen_blocks] in H. take H u3 j3 st3 E3. unfold gen_block in E3.
    take E3 u4 j4 st4 E4. apply label_ok in E4. destruct E4 as (-> & ->). cbn [app] in X2. apply xp_label in X2. tauto.
  - destruct (IH _ _ _ _ _ _ _ H X2 O2 j blk Nj) as (last & sj & uj & ij & sj' & aj & zj & Q1 & Q2 & Q3 & Q4 & Q5 & Q6 & Q7 & Q8).
    replace (S k + j)%nat with (k + S j)%nat in * by lia. exists last, sj, uj, ij, sj', aj, zj. split; auto. split; auto. split; auto.
    cbn [entry_lays nth_error]. rewrite E1. split; auto. split; auto. split; [congruence|]. split; lia.
Qed.

Lemma run_ok : forall fn live st u is st' a0 z0 rs, gen_blocks ms fn f 0 (f_blocks f) st = COk (u, is, st') -> xp a0 is z0 ->
  frame (lay st') <= FL -> 0 <= frame (lay st) -> types_of f (f_rets f) = Some rs -> nret (lay st) = sizes rs -> nret (lay st) + 2 <= NS ->
  blocks_ok ms FS NS f fn (entry_lays ms f fn 0 (f_blocks f) st) live 0 (f_blocks f) st = true ->
  forall fuel prev cur e m a L, nth_error (entry_lays ms f fn 0 (f_blocks f) st) cur = Some L ->
  lab (block_label fn cur) = Some a -> felts m -> holds_all L m e (live_at live cur) ->
  match run W f fuel prev cur e tt with
  | ROk (rets, _) => exists m', msteps M m (St a b) m' (St (m (b - 1)) (m (b - 2))) /\ felts m' /\ typed rs rets /\
      cells_at b m' (- (sizes rs + 2)) rets /\ (forall c, c < b - (sizes rs + 2) -> m' c = m c)
  | RTrap => mtraps M m (St a b)
  | _ => True
  end.
Proof.
  intros fn live st u is st' a0 z0 rs H X Fr F0 Tr Nr N2 Ok. set (ins := entry_lays ms f fn 0 (f_blocks f) st) in *.
  induction fuel as [|fuel IH]; intros prev cur e m a L Ni La Hm HA; cbn [run]; [exact Logic.I|].
  destruct (nth_error (f_blocks f) cur) as [blk|] eqn:Nb; [|exact Logic.I].
  destruct (blocks_at _ _ _ _ _ _ _ _ _ _ _ H X Ok cur blk Nb) as (last & sj & uj & ij & sj' & aj & zj & Q1 & Q2 & Q3 & Q4 & Q5 & Q6 & Q7 & Q8).
  fold ins in Q4. cbn [Nat.add] in *. rewrite Ni in Q4. injection Q4 as ->.
  assert (Sp : span_phi (b_instrs blk) = ([], b_instrs blk)).
  { unfold block_ok in Q3. destruct (gen_instrs _ _ _ _ _) as [[[? ?] ?]| |]; try discriminate.
    do 4 (apply andb_true_iff in Q3; destruct Q3 as (Q3 & _)). 
    apply andb_true_iff in Q3; destruct Q3 as (_ & Q3). eapply no_phi; exact Q3. }
  rewrite Sp. cbn [fst snd enter omap bind_all map of_opt rbind].
  destruct (block_step fn live ins rs cur last blk sj uj ij sj' aj zj m e Q1 Q2 Hm ltac:(lia) ltac:(lia) Tr ltac:(lia) ltac:(lia) Q3 Q5 HA) as (La' & S).
  rewrite La in La'. injection La' as ->. rewrite Q6, Nr in S.
  destruct (exec_list W (f_types f) e tt (b_instrs blk)) as [[e' []]| | |]; cbn [rbind fst snd leads] in *; auto.
  destruct (exec_term e' (map (f_types f) (f_rets f)) (b_term blk)) as [[t|vs]| | |]; cbn [rbind leads] in *; auto.
  destruct S as (m1 & c & L1 & R1 & F1 & Lc & Nt & H1 & K1).
  specialize (IH (Some cur) t e' m1 c L1 Nt Lc F1 H1).
  destruct (run W f fuel (Some cur) t e' tt) as [[rets []]| | |]; auto.
  - destruct IH as (m2 & R2 & F2 & T2 & C2 & K2). rewrite !K1 in R2 by auto. exists m2. split; [eapply msteps_trans; eauto|].
    split; auto. split; auto. split; auto. intros q Hq. rewrite K2, K1; auto.
  - eapply mtraps_after; eauto.
Qed.

(** Parameters are where the caller put them. *)
Lemma params_has : forall ps vs ts L o m e e', typed ts vs -> length ps = length ts -> NoDup ps -> bind_all e ps vs = Some e' ->
  cells_at b m o vs -> (forall k p t, nth_error ps k = Some p -> nth_error ts k = Some t -> slots L p = Some (o + sizes (firstn k ts), msize t)) ->
  forall v x, e' v = Some x -> has L m v x \/ ~ In v ps /\ e v = Some x.
Proof.
  induction ps as [|p ps IH]; intros [|w vs] [|t ts] L o m e e' T Ln N Hb C Sl v x Ex; cbn [bind_all typed cells_at length] in *; try discriminate; try contradiction.
  - injection Hb as <-. right. auto.
  - inversion N as [|? ? N1 N2]; subst. destruct T as (Sc & Sh & T). destruct C as (C1 & C2). pose proof (shape_width _ _ Sc Sh) as Wt.
    rewrite Wt in C2. injection Ln as Ln.
    destruct (IH vs ts L (o + msize t) m _ _ T Ln N2 Hb C2) with (v := v) (x := x) as [Hh|(Nv & Ev)]; auto.
    + intros k q s Hq Hs. rewrite (Sl (S k) q s Hq Hs). cbn [firstn]. change (sizes (t :: firstn k ts)) with (msize t + sizes (firstn k ts)). do 2 f_equal. lia.
    + unfold upd in Ev. destruct (Nat.eqb_spec v p) as [->|Np].
      * injection Ev as <-. left. exists o. rewrite (Sl 0%nat p t eq_refl eq_refl). cbn [firstn]. change (sizes []) with 0. rewrite Wt. split; [do 2 f_equal; lia|auto].
      * right. split; auto. intros [Q|Q]; auto.
Qed.

Lemma func_step : forall fn live L cn bs h u is s addr z ps rs F m args,
  lay_new f = COk L -> gen_func ms fn f (est0 L cn bs h) = COk (u, is, s) -> xp addr is z -> frame (lay s) <= FL ->
  func_ok ms FS NS f fn live (est0 L cn bs h) = true ->
  types_of f (f_params f) = Some ps -> types_of f (f_rets f) = Some rs ->
  felts m -> typed ps args -> cells_at b m (- (sizes ps + sizes rs + 2)) args ->
  lab fn = Some addr /\
  match call_fn W f F args tt with
  | ROk (rets, _) => exists m', msteps M m (St addr b) m' (St (m (b - 1)) (m (b - 2))) /\ felts m' /\
      typed rs rets /\ cells_at b m' (- (sizes rs + 2)) rets /\ (forall x, x < b - (sizes rs + 2) -> m' x = m x)
  | RTrap => mtraps M m (St addr b)
  | _ => True
  end.
Proof.
  intros fn live L cn bs h u is s addr z ps rs F m args Hl H X Fr Ok Tp Tr Hm T C. unfold gen_func in H.
  take H u1 j1 st1 E1. apply label_ok in E1. destruct E1 as (-> & ->). cbn [app] in X. apply xp_label in X. destruct X as (La & X). split; auto.
  unfold func_ok in Ok. rewrite Tp, Tr in Ok.
  apply andb_true_iff in Ok. destruct Ok as (Ok & Bo). apply andb_true_iff in Ok. destruct Ok as (Ok & Sz). apply andb_true_iff in Ok. destruct Ok as (Ok & Nr).
  apply andb_true_iff in Ok. destruct Ok as (Ok & Sr). apply andb_true_iff in Ok. destruct Ok as (Ok & Sp). apply andb_true_iff in Ok. destruct Ok as (En & Nd).
  apply Nat.eqb_eq in En. apply Z.eqb_eq in Nr. apply Z.leb_le in Sz. apply nodupb_ok in Nd.
  destruct (layout_ok f L ps rs Hl Nd Tp Tr) as (_ & F0 & Pa & _).
  unfold call_fn. destruct (bind_all (fun _ => None) (f_params f) args) as [e|] eqn:Eb; [|exact Logic.I]. rewrite En.
  assert (Qs : 0 <= sizes ps) by apply sizes_nonneg.
  destruct (f_blocks f) as [|blk bl] eqn:Fb.
  { destruct F as [|F]; cbn [run]; [exact Logic.I|]. rewrite Fb. exact Logic.I. }
  rewrite <- Fb in *.
  assert (N0 : nth_error (entry_lays ms f fn 0 (f_blocks f) (est0 L cn bs h)) 0 = Some L) by (rewrite Fb; reflexivity).
  assert (L0 : lab (block_label fn 0) = Some addr).
  { rewrite Fb in H. cbn [gen_blocks] in H. take H u3 j3 st3 E3. unfold gen_block in E3.
    take E3 u4 j4 st4 E4. apply label_ok in E4. destruct E4 as (-> & ->). cbn [app] in X. apply xp_label in X. tauto. }
  apply (run_ok fn live (est0 L cn bs h) u _ s addr z rs H X Fr F0 Tr Nr ltac:(lia) Bo F None 0%nat e m addr L N0 L0 Hm).
  intros v x Hv Ex.
  destruct (params_has _ _ ps L (- (sizes ps + sizes rs + 2)) m _ _ T (eq_sym (types_of_length _ _ _ Tp)) Nd Eb C) with (v := v) (x := x) as [Hh|(_ & Ev)]; auto; [|discriminate].
  intros k p t Hp Ht. rewrite (Pa k p t Hp Ht). do 2 f_equal. lia.
Qed.
End Body.
End Sim.
