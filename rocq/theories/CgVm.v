(** From the machine of [CgSpec], whose memory holds field elements and whose code is
    given, to the virtual machine, whose code is in its memory. *)
From Coq Require Import ZArith Bool String List Lia.
From Verif Require VmMem VmMemFacts.
From Verif Require Import M31 M31Facts Instr InstrFacts Vm Isa IsaFacts Machine VmFacts RunFacts LoadFacts.
From Verif Require Import Mir MirSem MirIsa MirLegal
  Cg CgLink CgSpec CgRun CgPassFacts CgStepFacts CgLinkFacts CgCheck CgOps CgCall CgModule CgLayoutFacts.
Import ListNotations.
Open Scope Z_scope.
Notation zlen := VmMem.zlen.
Notation locals := VmMem.locals.
Notation raw := VmMem.raw.
Notation zlen_app := VmMemFacts.zlen_app.
Notation zlen_nonneg := VmMemFacts.zlen_nonneg.

(** ** Accesses stay near the frame *)
Definition inside (n a : Z) : Prop := n <= a < ADDRS.
Lemma near_inside : forall n D FS o f, 0 <= n -> 2 <= D -> n + D <= f -> f + FS <= ADDRS -> f < ADDRS -> near D FS o = true ->
  inside n ((f + o) mod P) /\ inside n (((f + o) mod P + 1) mod P).
Proof.
  intros n D FS o f Hn HD Hf HF Hff H. unfold near in H. apply andb_true_iff in H. destruct H as (H & K).
  apply andb_true_iff in H. destruct H as (H1 & H2). apply Z.leb_le in H1. apply Z.ltb_lt in H2.
  assert (E : exists x, (f + o) mod P = x /\ n <= x /\ x + 1 < ADDRS + 1 /\ x + 1 < P /\ inside n (x + 1)).
  { apply orb_true_iff in K. destruct K as [K|K].
    - apply Z.ltb_lt in K. exists (f + o). rewrite Z.mod_small by (unfold ADDRS, P in *; lia). unfold inside, ADDRS, P in *. lia.
    - apply Z.leb_le in K. exists (f + o - P). split.
      + symmetry. apply (Z.mod_unique_pos _ _ 1); unfold ADDRS, P in *; lia.
      + unfold inside, ADDRS, P in *. lia. }
  destruct E as (x & -> & A & B & C & E). rewrite (Z.mod_small (x + 1)) by (unfold inside in E; lia). split; [unfold inside in *; lia|exact E].
Qed.

Lemma isa_inside : forall i m s e n D FS, 0 <= n -> 2 <= D -> n + D <= fp s -> fp s + FS <= ADDRS -> fp s < ADDRS ->
  operands_ok D FS i = true -> isa i m s = Some e ->
  Forall (inside n) (reads e ++ peeks e) /\ Forall (fun w => inside n (fst w)) (writes e).
Proof.
  intros i m s e n D FS Hn HD Hf HF Hff Ho He. unfold operands_ok in Ho. apply andb_true_iff in Ho. destruct Ho as (Ho & _).
  assert (Hnear : forall o, near D FS o = true -> inside n ((fp s + o) mod P) /\ inside n (((fp s + o) mod P + 1) mod P))
    by (intros; eapply near_inside; eauto).
  destruct i; cbn [frame_operands] in Ho; try discriminate Ho; cbn [forallb] in Ho;
  repeat match goal with
  | H : _ && _ = true |- _ => apply andb_true_iff in H; destruct H
  | H : near D FS _ = true |- _ => apply Hnear in H; destruct H
  end; unfold isa in He;
  repeat match type of He with context [if ?b then _ else _] => destruct b end;
  try discriminate He; injection He as <-; cbn [reads peeks writes app];
  (split; [|repeat (apply Forall_cons; [cbn [fst]; assumption|]); try apply Forall_nil]);
  repeat (apply Forall_cons; [assumption|]); try apply Forall_nil.
  apply Forall_cons; [|apply Forall_cons; [|apply Forall_nil]]; rewrite Z.mod_small by (unfold ADDRS, P in *; lia); unfold inside; lia.
Qed.

Lemma code_fits_at : forall FS l is x a i, code_fits FS l x is = true -> fetch is a = Some i ->
  2 <= span_depth l (x + a) /\ operands_ok (span_depth l (x + a)) FS i = true /\ 0 <= a /\ a + size_qm31 i <= total is.
Proof.
  intros FS l. induction is as [|j is IH]; intros x a i H F; cbn [fetch code_fits] in *; [discriminate|].
  apply andb_true_iff in H. destruct H as (H & R). apply andb_true_iff in H. destruct H as (H1 & H2). apply Z.leb_le in H1.
  assert (T : 0 <= total is).
  { clear. induction is as [|i is IH]; cbn; [lia|]. destruct (size_qm31_cases i) as [[E _]|[E _]]; unfold total in IH; lia. }
  destruct (Z.eqb_spec a 0) as [->|Na].
  - injection F as ->. rewrite Z.add_0_r. cbn [total fold_right]. fold (total is). repeat split; auto; lia.
  - destruct (Z.ltb_spec a 0); [discriminate|]. destruct (IH _ _ _ R F) as (A & B & C & E).
    replace (x + size_qm31 j + (a - size_qm31 j)) with (x + a) in * by lia. cbn [total fold_right]. fold (total is).
    destruct (size_qm31_cases j) as [[Es _]|[Es _]]; repeat split; auto; lia.
Qed.
Lemma operands_iwf : forall D FS i, operands_ok D FS i = true -> iwf i.
Proof.
  intros D FS i H. unfold operands_ok in H. apply andb_true_iff in H. destruct H as (_ & H). unfold iwf. apply Forall_forall. intros z Hz.
  rewrite forallb_forall in H. specialize (H _ Hz). apply andb_true_iff in H. destruct H as (A & B). apply Z.leb_le in A. apply Z.ltb_lt in B.
  unfold wf. lia.
Qed.

(** ** Code in memory *)
Lemma fetch_nth : forall is a i, fetch is a = Some i -> exists k, nth_error is k = Some i /\ a = start is k.
Proof.
  induction is as [|j is IH]; intros a i H; cbn [fetch] in H; [discriminate|].
  destruct (Z.eqb_spec a 0) as [->|Na].
  - injection H as ->. exists 0%nat. split; reflexivity.
  - destruct (Z.ltb_spec a 0); [discriminate|]. destruct (IH _ _ H) as (k & A & B). exists (Datatypes.S k). split; [exact A|].
    unfold start in *. cbn [firstn total fold_right]. fold (total (firstn k is)). lia.
Qed.
Lemma code_words : forall is, zlen (flat_map pwords (map PInstr is)) = total is.
Proof.
  induction is as [|i is IH]; [reflexivity|]. cbn [map flat_map pwords total fold_right]. fold (total is). rewrite zlen_app, IH.
  unfold zlen at 1. rewrite to_words_length. reflexivity.
Qed.
Lemma image_words : forall p, zlen (flat_map pwords (image p)) = total (p_code p) + zlen (p_data p).
Proof.
  intros p. unfold image. rewrite flat_map_app, zlen_app, code_words. f_equal. unfold zlen. f_equal.
  induction (p_data p) as [|z l IH]; [reflexivity|]. cbn [map flat_map pwords app length]. rewrite IH. reflexivity.
Qed.
Lemma start_image : forall p k, (k <= length (p_code p))%nat -> start_of (image p) k = start (p_code p) k.
Proof.
  intros p k Hk. unfold start_of, start, image. rewrite firstn_app, map_length.
  replace (k - length (p_code p))%nat with 0%nat by lia. rewrite firstn_O, app_nil_r, firstn_map. apply code_words.
Qed.
Lemma image_fetch : forall p a i, zlen (flat_map pwords (image p)) <= ADDRS -> fetch (p_code p) a = Some i ->
  instr_at (raw (v_mem (Vm.load (image p)))) a i /\
  (forall b, In b (code_addrs a i) -> 0 <= b < zlen (flat_map pwords (image p))).
Proof.
  intros p a i Hn H. destruct (fetch_nth _ _ _ H) as (k & N & ->).
  assert (Hk : (k < length (p_code p))%nat) by (apply nth_error_Some; congruence).
  assert (N' : nth_error (image p) k = Some (PInstr i)).
  { unfold image. rewrite nth_error_app1 by (rewrite map_length; exact Hk). rewrite nth_error_map, N. reflexivity. }
  destruct (load_fetch _ _ _ Hn N') as (A & B & _). rewrite start_image in A, B by lia. split; [exact A|exact B].
Qed.

(** ** Steps *)
Section Run.
Variable p : program.
Variable dep : Z -> Z.
Variables FS fmax : Z.
Notation n := (zlen (flat_map pwords (image p))).
Notation M := (Mach (fetch (p_code p)) (fun x => n + dep x) fmax).
Hypothesis code_near : forall a i, fetch (p_code p) a = Some i -> 2 <= dep a /\ operands_ok (dep a) FS i = true /\ 0 <= a /\ a + size_qm31 i <= total (p_code p).
Hypothesis room : fmax + FS <= ADDRS.
Hypothesis FS_pos : 0 < FS.
Set Default Proof Using "All".

(** The virtual machine has the program in its memory and field elements behind it. *)
Record follows (v : vm) (m : Z -> Z) : Prop := {
  f_ok : vok v;
  f_final : v_final v = n;
  f_len : n <= zlen (locals (v_mem v));
  f_small : n <= ADDRS;
  f_code : forall a, 0 <= a < n -> raw (v_mem v) a = raw (v_mem (Vm.load (image p))) a;
  f_data : forall a, n <= a -> is_felt (raw (v_mem v) a);
  f_mem : forall a, q0 (raw (v_mem v) a) = m a }.

Lemma n_pos : 0 <= n.
Proof. apply zlen_nonneg. Qed.
Lemma code_in_image : forall a i b, fetch (p_code p) a = Some i -> n <= ADDRS -> In b (code_addrs a i) -> 0 <= b < n.
Proof. intros a i b F Hn Hb. destruct (image_fetch p a i Hn F) as (_ & B). auto. Qed.
Lemma follows_code : forall v m a i, follows v m -> fetch (p_code p) a = Some i ->
  instr_at (raw (v_mem v)) a i /\ (forall b, In b (code_addrs a i) -> 0 <= b < zlen (locals (v_mem v))) /\ a < n.
Proof.
  intros v m a i Hv F. destruct (image_fetch p a i (f_small _ _ Hv) F) as ((r & A) & B).
  assert (Ia : 0 <= a < n) by (apply B; unfold code_addrs; destruct (size_m31 i <=? 4); left; reflexivity).
  pose proof (f_len _ _ Hv). split; [|split; [|lia]].
  - unfold instr_at, code_addrs in *. destruct (Z.leb_spec (size_m31 i) 4) as [S4|S4].
    + rewrite (f_code _ _ Hv) by lia.
      assert (El : exists r', qlist (raw (v_mem (Vm.load (image p))) a) = encode i ++ r').
      { assert (Hl := encode_length i). exists (firstn (4 - length (encode i)) r).
        assert (K := f_equal (firstn 4) A). rewrite firstn_app, (qlist_length (raw (v_mem (Vm.load (image p))) a)) in K.
        change (4 - 4)%nat with 0%nat in K. rewrite firstn_O, app_nil_r in K.
        rewrite firstn_app in K. rewrite (firstn_all2 (encode i)) in K by lia. rewrite <- K. rewrite firstn_all2 by (rewrite qlist_length; lia). reflexivity. }
      destruct El as (r' & ->). rewrite <- app_assoc. eauto.
    + assert (Ib : 0 <= (a + 1) mod P < n) by (apply B; right; left; reflexivity).
      rewrite !(f_code _ _ Hv) by lia. exists r. exact A.
  - intros b Hb. apply B in Hb. lia.
Qed.

Lemma upds_out : forall {A} ws (f : Z -> A) a, (forall w, In w ws -> fst w <> a) -> upds f ws a = f a.
Proof.
  intros A. induction ws as [|[x y] ws IH]; intros f a H; [reflexivity|]. cbn [upds]. rewrite IH by (intros w Hw; apply H; right; exact Hw).
  destruct (Z.eqb_spec a x) as [->|]; [|reflexivity]. exfalso. apply (H (x, y)); [left; reflexivity|reflexivity].
Qed.
Lemma stored_felt : forall ws (f : flat) a, is_felt (f a) -> is_felt (upds f (stored ws) a).
Proof.
  induction ws as [|[x y] ws IH]; intros f a H; [exact H|]. cbn [stored map upds]. apply IH.
  cbn [fst snd]. destruct (a =? x); [reflexivity|exact H].
Qed.
Lemma stored_q0 : forall ws (f : flat) m a, (forall a, q0 (f a) = m a) -> q0 (upds f (stored ws) a) = upds m ws a.
Proof.
  induction ws as [|[x y] ws IH]; intros f m a H; [apply H|]. cbn [stored map upds]. apply IH.
  intros c. cbn [fst snd]. destruct (c =? x); [reflexivity|apply H].
Qed.

Lemma step_follows : forall m s m' s' v, mstep M m s m' s' -> v_st v = s -> follows v m ->
  exists v', pc (v_st v) <> v_final v /\ step v = (v', None) /\ v_st v' = s' /\ follows v' m'.
Proof.
  intros m s m' s' v ((F1 & F2) & i & e & C & E & -> & ->) Hs Hv. cbn [code fp_min fp_max] in *.
  destruct (code_near _ _ C) as (D2 & Op & A0 & _). destruct (follows_code _ _ _ _ Hv C) as (At & Bs & Ln).
  destruct (isa_inside i m s e n (dep (pc s)) FS n_pos D2 F1 ltac:(lia) ltac:(lia) Op E) as (Rd & Wr).
  rewrite Forall_forall in Rd, Wr.
  assert (E' : isa i (fun a => q0 (raw (v_mem v) a)) (v_st v) = Some e).
  { rewrite Hs, <- E. apply felt_ext_isa. apply (f_mem _ _ Hv). }
  rewrite <- Hs in At, Bs.
  assert (ST : fstep (raw (v_mem v)) (v_st v) i (upds (raw (v_mem v)) (stored (writes e))) (next e)
     (seen (raw (v_mem v)) (code_addrs (pc (v_st v)) i) ++ seen (raw (v_mem v)) (reads e) ++ stored (writes e))).
  { split; [exact At|]. exists e. split; [exact E'|]. split; [|split; [|auto]].
    - intros a Ha. apply Rd in Ha. destruct Ha. split; [assumption|]. apply (f_data _ _ Hv). assumption.
    - intros w Hw. apply Wr in Hw. apply Hw. }
  destruct (step_complete _ _ _ _ _ (f_ok _ _ Hv) ST Bs) as (v' & S1 & S2 & S3).
  exists v'. split; [rewrite Hs, (f_final _ _ Hv); lia|]. split; [exact S1|]. split; [exact S2|].
  destruct (step_ok _ _ (f_ok _ _ Hv) S1) as (i2 & lg & _ & _ & V' & _ & _ & _ & L' & Fi & _).
  pose proof (f_len _ _ Hv). constructor.
  - exact V'.
  - rewrite Fi. apply Hv.
  - lia.
  - apply Hv.
  - intros a Ha. rewrite S3. rewrite upds_out; [apply Hv; exact Ha|]. intros w Hw. apply in_map_iff in Hw. destruct Hw as (x & <- & Hx).
    apply Wr in Hx. cbn [fst]. unfold inside in Hx. lia.
  - intros a Ha. rewrite S3. apply stored_felt. apply Hv. exact Ha.
  - intros a. rewrite S3. apply stored_q0. apply Hv.
Qed.

Lemma run_follows : forall m s m' s', msteps M m s m' s' -> forall v, v_st v = s -> follows v m ->
  exists k v', run_to k v v' /\ v_st v' = s' /\ follows v' m'.
Proof.
  induction 1 as [m s|m s m1 s1 m2 s2 H1 H2 IH]; intros v Hs Hv.
  - exists 0%nat, v. split; [constructor|]. auto.
  - destruct (step_follows _ _ _ _ _ H1 Hs Hv) as (v1 & A & B & C & D). destruct (IH _ C D) as (k & v' & K1 & K2 & K3).
    exists (Datatypes.S k), v'. split; [econstructor; eassumption|]. auto.
Qed.

Lemma trap_follows : forall m s v, mtraps M m s -> v_st v = s -> follows v m ->
  exists k u w e, run_to k v u /\ pc (v_st u) <> v_final u /\ step u = (w, Some e).
Proof.
  intros m s v (m' & s' & R & _ & i & C & E) Hs Hv. destruct (run_follows _ _ _ _ R _ Hs Hv) as (k & u & K1 & K2 & K3).
  cbn [code] in C. destruct (follows_code _ _ _ _ K3 C) as (At & Bs & Ln). destruct (step u) as [w [e|]] eqn:St.
  - exists k, u, w, e. split; [exact K1|]. split; [rewrite K2, (f_final _ _ K3); lia|exact St].
  - exfalso. destruct (step_ok _ _ (f_ok _ _ K3) St) as (i2 & lg & (At2 & e2 & E2 & _) & _).
    rewrite <- K2 in At. pose proof (instr_at_unique _ _ _ _ At At2). subst i2.
    rewrite <- K2 in E. rewrite (felt_ext_isa i _ m' _ (f_mem _ _ K3)) in E2. congruence.
Qed.
End Run.

(** ** Cells of arguments and results *)
Lemma typed_cells_length : forall ts vs, typed ts vs -> zlen (flat_map vcells vs) = sizes ts /\ Forall wf (flat_map vcells vs).
Proof.
  induction ts as [|t ts IH]; intros [|v vs] H; cbn [typed] in H; try contradiction; [split; [reflexivity|constructor]|].
  destruct H as (Sc & Sh & H). apply IH in H. destruct H as (A & B). cbn [flat_map sizes fold_right]. fold (sizes ts). rewrite zlen_app, A.
  destruct t; try discriminate Sc; destruct v; try discriminate Sh; cbn [vcells msize]; cbn [shape] in Sh.
  - split; [reflexivity|]. constructor; [|exact B]. apply wfb_wf. exact Sh.
  - split; [reflexivity|]. constructor; [|exact B]. destruct b; unfold wf, P; cbn; lia.
  - unfold u32b in Sh. apply andb_true_iff in Sh. destruct Sh as (S1 & S2). apply Z.leb_le in S1. apply Z.ltb_lt in S2.
    split; [reflexivity|]. pose proof (Z.mod_pos_bound z B16 eq_refl). pose proof (Z.div_lt_upper_bound z B16 B16 eq_refl S2).
    pose proof (Z.div_pos z B16 S1 eq_refl). constructor; [|constructor; [|exact B]]; unfold wf, P, B16 in *; lia.
Qed.
Lemma cells_read : forall ts vs b m k, typed ts vs -> cells_at b m k vs ->
  forall i x, nth_error (flat_map vcells vs) i = Some x -> m (b + k + Z.of_nat i) = x.
Proof.
  induction ts as [|t ts IH]; intros [|v vs] b m k H C i x N; cbn [typed] in H; try contradiction; [destruct i; discriminate N|].
  destruct H as (Sc & Sh & H). cbn [cells_at] in C. destruct C as (C1 & C2). cbn [flat_map] in N.
  destruct t; try discriminate Sc; destruct v; try discriminate Sh; cbn [vcells] in N; cbn [cel width] in C1, C2.
  - destruct i as [|i]; cbn [app nth_error] in N.
    + injection N as <-. rewrite Z.add_0_r. apply C1.
    + rewrite <- (IH _ _ _ _ H C2 _ _ N). f_equal. lia.
  - destruct i as [|i]; cbn [app nth_error] in N.
    + injection N as <-. rewrite Z.add_0_r. apply C1.
    + rewrite <- (IH _ _ _ _ H C2 _ _ N). f_equal. lia.
  - destruct i as [|[|i]]; cbn [app nth_error] in N.
    + injection N as <-. rewrite Z.add_0_r. apply C1.
    + injection N as <-. replace (b + k + Z.of_nat 1) with (b + (k + 1)) by lia. apply C1.
    + rewrite <- (IH _ _ _ _ H C2 _ _ N). f_equal. lia.
Qed.
Lemma cells_written : forall ts vs b m k, typed ts vs ->
  (forall i x, nth_error (flat_map vcells vs) i = Some x -> m (b + k + Z.of_nat i) = x) -> cells_at b m k vs.
Proof.
  induction ts as [|t ts IH]; intros [|v vs] b m k H C; cbn [typed] in H; try contradiction; [exact Logic.I|].
  destruct H as (Sc & Sh & H). cbn [flat_map] in C. cbn [cells_at].
  destruct t; try discriminate Sc; destruct v; try discriminate Sh; cbn [vcells] in C; cbn [cel width]; cbn [shape] in Sh.
  - split; [split|].
    + rewrite <- (C 0%nat _ eq_refl). f_equal. lia.
    + apply wfb_wf in Sh. exact Sh.
    + apply IH; [exact H|]. intros i x N. rewrite <- (C (Datatypes.S i) x N). f_equal. lia.
  - split.
    + rewrite <- (C 0%nat _ eq_refl). f_equal. lia.
    + apply IH; [exact H|]. intros i x N. rewrite <- (C (Datatypes.S i) x N). f_equal. lia.
  - unfold u32b in Sh. apply andb_true_iff in Sh. destruct Sh as (S1 & S2). apply Z.leb_le in S1. apply Z.ltb_lt in S2.
    split; [split; [lia|split]|].
    + rewrite <- (C 0%nat _ eq_refl). f_equal. lia.
    + rewrite <- (C 1%nat _ eq_refl). f_equal. lia.
    + apply IH; [exact H|]. intros i x N. rewrite <- (C (Datatypes.S (Datatypes.S i)) x N). f_equal. lia.
Qed.

(** ** Whole runs *)
Lemma run_end_det : forall n v u n' u', run_to n v u -> run_to n' v u' -> pc (v_st u) = v_final u -> pc (v_st u') = v_final u' -> u = u'.
Proof.
  induction n as [|n IH]; intros v u n' u' R R' E E'.
  - inversion R; subst. destruct n' as [|n']; [inversion R'; reflexivity|]. apply run_to_pc in R'. contradiction.
  - destruct n' as [|n']; [inversion R'; subst; apply run_to_pc in R; contradiction|].
    inversion R as [|? ? v1 ? _ S1 R1]; subst. inversion R' as [|? ? v2 ? _ S2 R2]; subst.
    rewrite S1 in S2. injection S2 as <-. eapply IH; eauto.
Qed.
Lemma seg_loop_end : forall n v u, run_to n v u -> RunFacts.fresh v -> pc (v_st u) = v_final u ->
  forall fuel sfuel k, 1 <= k -> (n < fuel)%nat -> (n < sfuel)%nat ->
  exists v', seg_loop fuel sfuel k v = (v', LOk tt) /\ v_st v' = v_st u /\ forall a, raw (v_mem v') a = raw (v_mem u) a.
Proof.
  intros n v u R Fr E fuel sfuel k Hk H1 H2. destruct (seg_loop_run n v u R Fr fuel sfuel k Hk H1 H2) as (A & _).
  destruct (A E) as (v' & Sl). exists v'. split; [exact Sl|].
  destruct (seg_loop_ok _ _ _ _ _ Hk Fr Sl) as (n' & u' & news & R' & E' & _ & _ & S1 & S2 & S3 & _).
  pose proof (run_end_det _ _ _ _ _ R R' E E') as ->. split; [exact S1|]. intros a. unfold VmMem.raw. rewrite S2, S3. reflexivity.
Qed.

Notation n_of l := (zlen (flat_map pwords l)).
Lemma raw_load_out : forall l a, n_of l <= a -> raw (v_mem (Vm.load l)) a = qzero.
Proof.
  intros l a H. unfold Vm.load, VmMem.raw. cbn [v_mem VmMem.locals VmMem.heap]. pose proof (zlen_nonneg (flat_map pwords l)).
  rewrite VmMemFacts.znth_out by lia. rewrite VmMemFacts.znth_out; [reflexivity|]. change (zlen (@nil qm31)) with 0. lia.
Qed.
Lemma znth_nth : forall {A} (l : list A) i x, VmMem.znth l i = Some x -> 0 <= i /\ nth_error l (Z.to_nat i) = Some x.
Proof. intros A l i x H. unfold VmMem.znth in H. destruct (Z.ltb_spec i 0); [discriminate|]. auto. Qed.

(** A prepared call of entry point [a]: the virtual machine, and the memory it shows. *)
Lemma prepared : forall p a cells nret, Forall pdwf (image p) -> 0 <= nret -> wf a -> Forall wf cells ->
  let n := zlen (flat_map pwords (image p)) in let b0 := n + (zlen cells + nret + 2) in 0 < n -> b0 <= 134217728 ->
  exists v m, prepare (Vm.load (image p)) a (zlen cells + nret + 2) cells nret = (v, VmMem.Ok tt) /\ RunFacts.fresh v /\
    v_st v = St a b0 /\ v_final v = n /\ follows p v m /\ felts m /\ m (b0 - 1) = n /\ m (b0 - 2) = b0 /\
    forall i x, nth_error cells i = Some x -> m (b0 - (zlen cells + nret + 2) + Z.of_nat i) = x.
Proof.
  intros p a cells nret Hp Hr Ha Hc n b0 Hn Hb. pose proof (zlen_nonneg cells) as Zc.
  assert (Hok : vok (Vm.load (image p))) by (apply load_ok; [exact Hp|fold n; unfold ADDRS; unfold b0 in Hb; lia]).
  destruct (prepare_spec (Vm.load (image p)) a (zlen cells + nret + 2) cells nret) as (v & E & F1 & F2 & F3 & _ & _ & F6 & F7); auto;
    try (cbn [Vm.load v_final v_st fp v_mem VmMem.locals]; fold n; unfold wf, P; unfold b0 in Hb; lia).
  cbn [Vm.load v_st fp v_final] in F2, F3, F6, F7. fold n in F2, F3, F6, F7. fold b0 in F2, F6, F7.
  exists v, (fun x => q0 (raw (v_mem v) x)). split; [exact E|]. split; [exact F1|]. split; [exact F2|]. split; [exact F3|].
  pose proof (proj1 F1) as V.
  split; [|split; [|split; [|split]]].
  - constructor; auto.
    + rewrite F6. unfold b0. fold n. lia.
    + fold n. unfold ADDRS, b0 in *. lia.
    + intros x Hx. fold n in Hx. rewrite F7. destruct (Z.eqb_spec x (b0 - 2)); [unfold b0 in *; lia|]. destruct (Z.eqb_spec x (b0 - 1)); [unfold b0 in *; lia|].
      rewrite VmMemFacts.znth_out; [reflexivity|]. left. unfold b0. lia.
    + intros x Hx. fold n in Hx. rewrite F7. destruct (x =? b0 - 2); [reflexivity|]. destruct (x =? b0 - 1); [reflexivity|].
      destruct (VmMem.znth _ _); [reflexivity|]. rewrite raw_load_out by exact Hx. reflexivity.
  - intros x. apply V.
  - rewrite F7. destruct (Z.eqb_spec (b0 - 1) (b0 - 2)); [lia|]. rewrite Z.eqb_refl. reflexivity.
  - rewrite F7, Z.eqb_refl. reflexivity.
  - intros i x N. assert (Li : (i < length cells)%nat) by (apply nth_error_Some; congruence). assert (Li' : Z.of_nat i < zlen cells) by (unfold VmMem.zlen; lia).
    rewrite F7. destruct (Z.eqb_spec (b0 - (zlen cells + nret + 2) + Z.of_nat i) (b0 - 2)); [lia|].
    destruct (Z.eqb_spec (b0 - (zlen cells + nret + 2) + Z.of_nat i) (b0 - 1)); [lia|].
    replace (b0 - (zlen cells + nret + 2) + Z.of_nat i - (b0 - 2 - nret - zlen cells)) with (Z.of_nat i) by lia.
    unfold VmMem.znth. destruct (Z.ltb_spec (Z.of_nat i) 0); [lia|]. rewrite Nat2Z.id, N. reflexivity.
Qed.

Lemma code_fits_wf : forall FS l is x, code_fits FS l x is = true -> Forall iwf is.
Proof.
  intros FS l. induction is as [|i is IH]; intros x H; constructor; cbn [code_fits] in H; apply andb_true_iff in H; destruct H as (H & R).
  - apply andb_true_iff in H. destruct H as (_ & H). eapply operands_iwf; eauto.
  - eapply IH; eauto.
Qed.
Lemma image_wf : forall FS l p, code_fits FS l 0 (p_code p) = true -> forallb (fun z => (0 <=? z) && (z <? P)) (p_data p) = true ->
  Forall pdwf (image p).
Proof.
  intros FS l p H D. unfold image. apply Forall_app. split.
  - apply Forall_map. apply code_fits_wf in H. eapply Forall_impl; [|exact H]. intros i Hi. exact Hi.
  - apply Forall_map, Forall_forall. intros z Hz. rewrite forallb_forall in D. apply D in Hz. apply andb_true_iff in Hz.
    destruct Hz as (A & B). apply Z.leb_le in A. apply Z.ltb_lt in B. apply qofm_wf. unfold wf. lia.
Qed.
Lemma read_result : forall m a x, VmMemFacts.readable m a -> x = VmMemFacts.felt m a -> match snd (VmMem.get_data a m) with VmMem.Ok q => Some q | VmMem.Err _ => None end = Some x.
Proof. intros m a x R ->. rewrite VmMemFacts.get_data_ok by exact R. reflexivity. Qed.

(** The room a call needs: the arguments and results, and [FS] cells for each nesting. *)
Definition fits_memory (p : program) (FS : Z) (d : nat) (cells : Z) : Prop :=
  zlen (flat_map pwords (image p)) + cells + 2 <= 134217728 /\
  zlen (flat_map pwords (image p)) + cells + 2 + Z.of_nat d * FS <= ADDRS.

Theorem compiled_legal : forall fs p FS lives F d c fn g ps rs args,
  compile fs = COk p -> checked fs FS lives = true -> 0 < FS ->
  nth_error (legal_funcs fs) c = Some (fn, g) -> types_of g (f_params g) = Some ps -> types_of g (f_rets g) = Some rs ->
  typed ps args -> fits_memory p FS d (sizes ps + sizes rs) ->
  exists a, find_entry fn (p_entries p) = Some a /\
  match mir_call (legal_funcs fs) F d c args with
  | ROk (rets, _) => typed rs rets /\ exists N, forall fuel sfuel k, (N <= fuel)%nat -> (N <= sfuel)%nat -> 1 <= k ->
      run_program fuel sfuel k p fn (flat_map vcells args) (sizes rs) = Some (map Some (flat_map vcells rets))
  | RTrap => exists N, forall fuel sfuel k, (N <= fuel)%nat -> (N <= sfuel)%nat -> 1 <= k ->
      exists v e, run_from_entrypoint fuel sfuel k (Vm.load (image p)) a (sizes ps + sizes rs + 2) (flat_map vcells args) (sizes rs) = (v, LErr e)
  | _ => True
  end.
Proof.
  intros fs p FS lives F d c fn g ps rs args Hc Hk FS0 Ng Tp Tr Ta (Rm1 & Rm2).
  destruct (compile_sits _ _ _ _ Hc Hk) as (Ls & lab & HL & Lab & Tt & Cf & (Da & Ne) & En & Si).
  destruct (En _ _ _ Ng) as (a & Fe & La). exists a. split; [exact Fe|].
  set (n := zlen (flat_map pwords (image p))) in *. set (l := spans (legal_funcs fs) 0 [] false (legal_funcs fs) Ls) in *.
  destruct (typed_cells_length _ _ Ta) as (Lc & Wc). pose proof (sizes_nonneg ps) as Sp. pose proof (sizes_nonneg rs) as Sr.
  assert (n0 : 0 < n).
  { unfold n. rewrite image_words. destruct (p_code p) as [|i r] eqn:Ep; [contradiction|]. cbn [total fold_right]. fold (total r).
    pose proof (zlen_nonneg (p_data p)). pose proof (code_words r) as Q1. pose proof (zlen_nonneg (flat_map pwords (map PInstr r))).
    destruct (size_qm31_cases i) as [[E _]|[E _]]; lia. }
  assert (Wa : wf a) by (apply Lab in La; unfold wf, LIMIT, P in *; lia).
  destruct (prepared p a (flat_map vcells args) (sizes rs) (image_wf _ _ _ Cf Da) Sr Wa Wc n0) as (v & m & Ep & Fr & Vs & Vf & Fo & Fm & M1 & M2 & Mc);
    [fold n; lia|]. fold n in Vs, Vf, M1, M2, Mc. rewrite Lc in *.
  set (b0 := n + (sizes ps + sizes rs + 2)) in *.
  set (M := Mach (fetch (p_code p)) (fun x => n + span_depth l x) (ADDRS - FS)).
  assert (Near : forall a i, fetch (p_code p) a = Some i -> 2 <= span_depth l a /\ operands_ok (span_depth l a) FS i = true /\ 0 <= a /\ a + size_qm31 i <= total (p_code p)).
  { intros x i Hx. apply (code_fits_at _ _ _ 0 _ _ Cf Hx). }
  assert (CO : forall a i, code M a = Some i -> (0 <= a < P /\ 0 <= fp_min M a) /\ iwf i).
  { intros x i Hx. cbn [M code] in Hx. destruct (Near _ _ Hx) as (N1 & N2 & N3 & N4). cbn [M fp_min].
    split; [|eapply operands_iwf; eauto]. destruct (size_qm31_cases i) as [[E _]|[E _]]; unfold LIMIT, P in *; lia. }
  assert (LO : forall l b, lab l = Some b -> 0 <= b < P) by (intros x y H; apply Lab in H; unfold LIMIT, P in *; lia).
  pose proof (module_sound M lab LO CO FS n ltac:(cbn [M fp_max]; unfold ADDRS, P; lia) ltac:(lia) ltac:(lia) (legal_funcs fs) (fun c fn g H => Si n (ADDRS - FS) c fn g H) F d) as MS.
  specialize (MS c fn g ps rs a b0 m args Ng Tp Tr La). cbn [M fp_max] in MS. fold M in MS.
  specialize (MS ltac:(unfold b0; lia) Fm Ta). fold (mir_call (legal_funcs fs) F d c args) in MS.
  assert (Ca : cells_at b0 m (- (sizes ps + sizes rs + 2)) args).
  { eapply cells_written; [exact Ta|]. intros i x N. rewrite <- (Mc i x N). f_equal; lia. }
  specialize (MS Ca). rewrite M1, M2 in MS.
  destruct (mir_call (legal_funcs fs) F d c args) as [[rets u]| | |]; auto.
  - destruct MS as (m' & R & Fm' & Tr' & Cr & _). split; [exact Tr'|].
    destruct (run_follows p (span_depth l) FS (ADDRS - FS) Near ltac:(lia) FS0 _ _ _ _ R v Vs Fo) as (k & w & K1 & K2 & K3).
    exists (Datatypes.S k). intros fuel sfuel q Hf Hs Hq.
    assert (Ew : pc (v_st w) = v_final w) by (rewrite K2, (f_final _ _ _ K3); reflexivity).
    destruct (seg_loop_end _ _ _ K1 Fr Ew fuel sfuel q Hq ltac:(lia) ltac:(lia)) as (w' & Sl & W1 & W2).
    unfold run_program. rewrite Fe. unfold run_from_entrypoint. rewrite Lc, Ep, Sl.
    destruct (typed_cells_length _ _ Tr') as (Lr & _). f_equal. rewrite W1, K2. cbn [fp].
    assert (Len : Z.to_nat (sizes rs) = length (flat_map vcells rets)) by (rewrite <- Lr; unfold VmMem.zlen; lia). rewrite Len.
    apply nth_ext with (d := None) (d' := None).
    { rewrite !map_length, seq_length. reflexivity. }
    intros i Hi. rewrite map_length, seq_length in Hi.
    destruct (nth_error (flat_map vcells rets) i) as [x|] eqn:Ex; [|apply nth_error_None in Ex; lia].
    erewrite (nth_indep (map Some _)) by (rewrite map_length; exact Hi). rewrite (map_nth Some _ 0), (nth_error_nth _ _ 0 Ex).
    erewrite nth_indep by (rewrite map_length, seq_length; exact Hi).
    rewrite (map_nth _ _ 0%nat). rewrite seq_nth by exact Hi. cbn [Nat.add].
    assert (Li : Z.of_nat i < sizes rs) by lia.
    assert (Ad : msub b0 (mfrom (sizes rs + 2 - Z.of_nat i)) = b0 + - (sizes rs + 2) + Z.of_nat i).
    { unfold msub, mfrom. rewrite (Z.mod_small (sizes rs + 2 - Z.of_nat i)) by (unfold P; lia). rewrite Z.mod_small by (unfold b0, P; lia). lia. }
    rewrite Ad. apply read_result.
    + apply readable_flat. rewrite W2. split; [unfold b0, ADDRS; lia|]. apply (f_data _ _ _ K3). fold n. unfold b0. lia.
    + unfold VmMemFacts.felt. rewrite W2, (f_mem _ _ _ K3). symmetry. eapply cells_read; eauto.
  - destruct (trap_follows p (span_depth l) FS (ADDRS - FS) Near ltac:(lia) FS0 _ _ v MS Vs Fo) as (k & w & w2 & e & K1 & K2 & K3).
    exists (Datatypes.S k). intros fuel sfuel q Hf Hs Hq.
    destruct (seg_loop_run _ _ _ K1 Fr fuel sfuel q Hq ltac:(lia) ltac:(lia)) as (_ & B).
    destruct (B _ _ K2 K3) as (v' & Sl & _). exists v', e. unfold run_from_entrypoint. rewrite Ep. exact Sl.
Qed.
