(** Local common-subexpression elimination on functions in single assignment form. *)
From Coq Require Import ZArith Bool String List Lia.
From Verif Require Import M31 Isa Mir MirSem MirPasses MirFacts MirLocalFacts MirSim MirFuseFacts MirBranchFacts
  MirDce MirDceFacts MirSsa MirSsaFacts MirSsaMap MirCopy MirCopyFacts MirCse.
Import ListNotations.
Open Scope nat_scope.

(** ** Hypotheses on the function. *)
(** The recorded type of a keyed value is the type of its expression. *)
Definition key_type (f : func) (i : minstr) (t : ty) : Prop :=
  match i with
  | IBinary op _ _ _ => t = result_type op
  | IUnary Not _ _ => t = TBool
  | IUnary Neg _ _ => t = TFelt
  | IExtractTuple _ _ _ u | IExtractField _ _ _ u | IMakeStruct _ _ u => t = u
  | IMakeTuple _ es => exists ts, t = TTuple ts /\
      Forall2 (fun v u => match v with Op i => f_types f i = Some u | _ => True end) es ts
  | _ => True
  end.
Definition keys_typed (f : func) : Prop :=
  forall b i d, In b (f_blocks f) -> In i (b_instrs b) -> key_of i <> None -> dest i = Some d ->
    exists t, f_types f d = Some t /\ key_type f i t.
(** No array is built from operands only. *)
Definition no_keyed_arrays (f : func) : Prop :=
  forall b d es t c, In b (f_blocks f) -> In (IMakeArray d es t c) (b_instrs b) -> op_ids es = None.
(** The number of calls, allocations and array constructions. *)
Definition effectful (i : minstr) : bool :=
  match i with ICall _ _ _ _ | IAlloc _ _ | IMakeArray _ _ _ _ => true | _ => false end.
Definition effects (f : func) : nat :=
  fold_right (fun b n => length (filter effectful (b_instrs b)) + n) 0 (f_blocks f).

(** ** Keys. *)
Lemma binop_eqb_eq : forall a b, binop_eqb a b = true -> a = b.
Proof. intros [] []; cbn; intro; try discriminate; reflexivity. Qed.
Lemma list_eqb_eq : forall A (eqb : A -> A -> bool) a b,
  (forall x y, eqb x y = true -> x = y) -> list_eqb eqb a b = true -> a = b.
Proof.
  induction a as [|x a IH]; intros [|y b] H E; cbn in E; try discriminate; auto.
  apply andb_true_iff in E. destruct E as [E1 E2]. rewrite (H _ _ E1), (IH _ H E2). reflexivity.
Qed.
Lemma ekey_eqb_eq : forall a b, ekey_eqb a b = true -> a = b.
Proof.
  intros a b H. destruct a, b; cbn in H; try discriminate;
    repeat match goal with
    | H : _ && _ = true |- _ => apply andb_true_iff in H; destruct H
    | H : Nat.eqb _ _ = true |- _ => apply Nat.eqb_eq in H
    | H : String.eqb _ _ = true |- _ => apply String.eqb_eq in H
    | H : ty_eqb _ _ = true |- _ => apply ty_eqb_eq in H
    | H : binop_eqb _ _ = true |- _ => apply binop_eqb_eq in H
    end; subst; auto.
  - destruct op; discriminate.
  - destruct op, op0; try discriminate; apply Nat.eqb_eq in H; subst; reflexivity.
  - destruct op; discriminate.
  - destruct op; discriminate.
  - destruct op; discriminate.
  - destruct op; discriminate.
  - f_equal. apply (list_eqb_eq _ Nat.eqb); auto. intros x y. apply Nat.eqb_eq.
  - f_equal. apply (list_eqb_eq _ _ _ _) with (2 := H). intros [] [] E. cbn in E.
    apply andb_true_iff in E. destruct E as [E1 E2]. apply String.eqb_eq in E1. apply Nat.eqb_eq in E2. congruence.
Qed.
Lemma op_ids_inv : forall es ids, op_ids es = Some ids -> es = map Op ids.
Proof.
  induction es as [|v es IH]; intros ids H; cbn in H; [injection H as <-; auto|].
  destruct v; cbn in H; try discriminate. destruct (op_ids es); [|discriminate]. injection H as <-.
  cbn. rewrite (IH l eq_refl). reflexivity.
Qed.
Lemma field_ids_inv : forall fs ids, field_ids fs = Some ids -> fs = map (fun p => (fst p, Op (snd p))) ids.
Proof.
  induction fs as [|[n v] fs IH]; intros ids H; cbn in H; [injection H as <-; auto|].
  destruct v; cbn in H; try discriminate. destruct (field_ids fs); [|discriminate]. injection H as <-.
  cbn. rewrite (IH l eq_refl). reflexivity.
Qed.
Lemma keyed_dest : forall i, key_of i <> None -> is_phi i = false /\ exists d, dests i = [d] /\ dest i = Some d.
Proof. intros i H. destruct i; cbn in H; try congruence; split; auto; eexists; split; reflexivity. Qed.

Definition is_array (i : minstr) : bool := match i with IMakeArray _ _ _ _ => true | _ => false end.
(** Two instructions with the same key compute the same. *)
Lemma same_key_effect : forall S (W : world S) tys e s i i' k d d',
  key_of i = Some k -> key_of i' = Some k -> is_array i = false -> is_array i' = false ->
  dest i = Some d -> dest i' = Some d' -> tys d = tys d' ->
  effect W tys e s i = effect W tys e s i'.
Proof.
  intros S W tys e s i i' k d d' K K' A A' D D' T.
  destruct i; cbn in K; try discriminate; destruct i'; cbn in K'; try discriminate;
    cbn in D, D'; injection D as ->; injection D' as ->.
  all: try (destruct source; try discriminate). all: try (destruct source0; try discriminate).
  all: try (destruct left; try discriminate). all: try (destruct left0; try discriminate).
  all: try (destruct right; try discriminate). all: try (destruct right0; try discriminate).
  all: try (destruct tuple; try discriminate). all: try (destruct tuple0; try discriminate).
  all: try (destruct struct_val; try discriminate). all: try (destruct struct_val0; try discriminate).
  all: try (destruct (op_ids elements) as [ids|] eqn:E1; try discriminate).
  all: try (destruct (op_ids elements0) as [ids0|] eqn:E2; try discriminate).
  all: try (destruct (field_ids fields) as [fids|] eqn:E3; try discriminate).
  all: try (destruct (field_ids fields0) as [fids0|] eqn:E4; try discriminate).
  all: try (apply op_ids_inv in E1). all: try (apply op_ids_inv in E2).
  all: try (apply field_ids_inv in E3). all: try (apply field_ids_inv in E4).
  all: cbn in K, K'; subst; try discriminate.
  all: rewrite <- K in K'; try discriminate; injection K'; intros; subst; cbn; rewrite ?T; reflexivity.
Qed.
Lemma keyed_effect : forall S (W : world S) tys e s i r, key_of i <> None -> is_array i = false ->
  effect W tys e s i = ROk r ->
  exists x, fst r = [x] /\ snd r = s /\ forall S' (W' : world S') s', effect W' tys e s' i = ROk ([x], s').
Proof.
  intros S W tys e s i r K A H.
  assert (G : forall r0, rbind r0 (fun v : val => ROk ([v], s)) = ROk r ->
    exists x, fst r = [x] /\ snd r = s /\ forall S' (s' : S'), rbind r0 (fun v : val => ROk ([v], s')) = ROk ([x], s')).
  { intros r0 E. apply rbind_ok in E. destruct E as (v & -> & E). injection E as <-. exists v. auto. }
  destruct i; cbn in K; try congruence; cbn in A; try discriminate; cbn [effect] in H |- *.
  - destruct (G _ H) as (x & A1 & A2 & A3). exists x. auto.
  - destruct (G _ H) as (x & A1 & A2 & A3). exists x. auto.
  - destruct (tys dest) as [[]|]; try discriminate. destruct (G _ H) as (x & A1 & A2 & A3). exists x. auto.
  - destruct (G _ H) as (x & A1 & A2 & A3). exists x. auto.
  - destruct struct_ty; try discriminate. destruct (G _ H) as (x & A1 & A2 & A3). exists x. auto.
  - destruct (G _ H) as (x & A1 & A2 & A3). exists x. auto.
Qed.

(** ** The scan. *)
Lemma find_key_some : forall k tab s, find_key k tab = Some s -> In (k, s) tab.
Proof.
  induction tab as [|[k' s'] tab IH]; intros s H; cbn in H; [discriminate|].
  destruct (ekey_eqb k k') eqn:E; [|right; auto]. injection H as <-. apply ekey_eqb_eq in E. subst. left; auto.
Qed.
Lemma scan_spec : forall is tab d s, In (d, s) (scan tab is) ->
  exists k i K, nth_error is k = Some i /\ key_of i = Some K /\ dest i = Some d /\
    (In (K, s) tab \/ exists j i', j < k /\ nth_error is j = Some i' /\ key_of i' = Some K /\ dest i' = Some s).
Proof.
  assert (LIFT : forall i0 is (tab : list (ekey * nat)) d s,
    (exists k i K, nth_error is k = Some i /\ key_of i = Some K /\ dest i = Some d /\
      (In (K, s) tab \/ exists j i', j < k /\ nth_error is j = Some i' /\ key_of i' = Some K /\ dest i' = Some s)) ->
    exists k i K, nth_error (i0 :: is) k = Some i /\ key_of i = Some K /\ dest i = Some d /\
      (In (K, s) tab \/ exists j i', j < k /\ nth_error (i0 :: is) j = Some i' /\ key_of i' = Some K /\ dest i' = Some s)).
  { intros i0 is tab d s (k & i & K & A & B & C & D). exists (S k), i, K. repeat split; auto.
    destruct D as [D|(j & i' & D1 & D2 & D3 & D4)]; auto. right. exists (S j), i'. repeat split; auto. lia. }
  induction is as [|i is IH]; intros tab d s H; cbn in H; [destruct H|].
  destruct (key_of i) as [K|] eqn:EK; [|apply LIFT; auto].
  destruct (dest i) as [d0|] eqn:ED; [|apply LIFT; auto].
  destruct (find_key K tab) as [s0|] eqn:EF.
  - destruct H as [H|H]; [|apply LIFT; auto]. injection H as -> ->.
    exists 0, i, K. repeat split; auto. left. apply find_key_some; auto.
  - destruct (IH _ _ _ H) as (k & j & K' & A & B & C & [[D|D]|(j' & i' & D1 & D2 & D3 & D4)]).
    + injection D as -> ->. exists (S k), j, K'. repeat split; auto. right. exists 0, i.
      repeat split; auto. lia.
    + exists (S k), j, K'. repeat split; auto.
    + exists (S k), j, K'. repeat split; auto. right. exists (S j'), i'. repeat split; auto. lia.
Qed.
Lemma scan_fst : forall is tab d, In d (map fst (scan tab is)) -> In d (flat_map dests is).
Proof.
  intros is tab d H. apply in_map_iff in H. destruct H as ([d' s] & E & H). cbn in E. subst d'.
  destruct (scan_spec _ _ _ _ H) as (k & i & K & A & B & C & _). apply in_flat_map. exists i.
  split; [eapply nth_error_In; eauto|]. unfold dest in C. destruct (dests i) as [|x [|]]; try discriminate.
  injection C as ->. left; auto.
Qed.
Lemma scan_disjoint : forall is tab, NoDup (map snd tab ++ flat_map dests is) ->
  forall s, In s (map snd (scan tab is)) -> ~ In s (map fst (scan tab is)).
Proof.
  induction is as [|i is IH]; intros tab N s Hs Hf; cbn in *; [contradiction|].
  assert (N' : NoDup (map snd tab ++ flat_map dests is)).
  { clear -N. revert N. generalize (dests i) as l. induction l as [|a l IHl]; cbn; auto.
    intro N. apply IHl. eapply NoDup_remove_1; eauto. }
  destruct (key_of i) as [K|] eqn:EK; [|eapply IH; eauto].
  destruct (dest i) as [d0|] eqn:ED; [|eapply IH; eauto].
  assert (Di : dests i = [d0]).
  { unfold dest in ED. destruct (dests i) as [|x [|]]; try discriminate. congruence. }
  rewrite Di in N. cbn [app] in N.
  destruct (find_key K tab) as [s0|] eqn:EF.
  - apply find_key_some in EF. apply (in_map snd) in EF. cbn in EF. cbn in Hs, Hf.
    assert (SND : forall x, In x (map snd (scan tab is)) -> In x (map snd tab) \/ In x (flat_map dests is)).
    { intros x Hx. apply in_map_iff in Hx. destruct Hx as ([d' x'] & E & Hx). cbn in E. subst x'.
      destruct (scan_spec _ _ _ _ Hx) as (k & j & K' & _ & _ & _ & [D|(j' & i' & _ & D1 & D2 & D3)]).
      - left. apply (in_map snd) in D. exact D.
      - right. apply in_flat_map. exists i'. split; [eapply nth_error_In; eauto|].
        unfold dest in D3. destruct (dests i') as [|y [|]]; try discriminate. injection D3 as ->. left; auto. }
    destruct Hs as [<-|Hs], Hf as [E|Hf].
    + subst d0. apply (NoDup_app_disj _ _ _ s0 N); auto. left; auto.
    + apply scan_fst in Hf. apply (NoDup_app_disj _ _ _ s0 N'); auto.
    + subst d0. pose proof (NoDup_remove_2 _ _ _ N) as Q. apply Q. apply in_or_app. apply SND; auto.
    + eapply IH; eauto.
  - eapply (IH ((K, d0) :: tab)); eauto. cbn.
    constructor.
    + apply NoDup_remove_2 in N. exact N.
    + auto.
Qed.
Lemma dest_dests : forall i d, dest i = Some d -> dests i = [d].
Proof. intros i d H. unfold dest in H. destruct (dests i) as [|x [|]]; try discriminate. congruence. Qed.
Lemma scan_fun : forall is tab d s s', NoDup (flat_map dests is) ->
  In (d, s) (scan tab is) -> In (d, s') (scan tab is) -> s = s'.
Proof.
  induction is as [|i is IH]; intros tab d s s' N H H'; cbn in *; [contradiction|].
  assert (N' : NoDup (flat_map dests is)) by (eapply NoDup_app_r; eauto).
  destruct (key_of i) as [K|] eqn:EK; [|exact (IH _ d s s' N' H H')].
  destruct (dest i) as [d0|] eqn:ED; [|exact (IH _ d s s' N' H H')].
  destruct (find_key K tab) as [s0|]; [|exact (IH _ d s s' N' H H')].
  assert (Q : forall x, In (d0, x) (scan tab is) -> False).
  { intros x Hx. apply (in_map fst) in Hx. apply scan_fst in Hx. cbn in Hx.
    apply (NoDup_app_disj _ _ _ d0 N); auto. rewrite (dest_dests _ _ ED). left; auto. }
  destruct H as [H|H], H' as [H'|H'].
  - congruence.
  - injection H as <- <-. destruct (Q _ H').
  - injection H' as <- <-. destruct (Q _ H).
  - exact (IH _ d s s' N' H H').
Qed.

Lemma use_count_used : forall f v, 0 < use_count f v ->
  exists b, In b (f_blocks f) /\ ((exists i, In i (b_instrs b) /\ In v (uses i)) \/ In v (term_uses (b_term b))).
Proof.
  intros f v U. unfold use_count in U. induction (f_blocks f) as [|c bs IH]; cbn in U; [lia|].
  destruct (mem_nat v (term_uses (b_term c))) eqn:E1.
  { exists c. split; [left; auto|]. right. apply mem_nat_in; auto. }
  destruct (filter (fun i => mem_nat v (uses i)) (b_instrs c)) as [|j r] eqn:E2.
  - destruct IH as (c' & A & B); [cbn in U; lia|]. exists c'. split; [right; auto|auto].
  - exists c. split; [left; auto|]. left. exists j.
    assert (In j (filter (fun i => mem_nat v (uses i)) (b_instrs c))) as F by (rewrite E2; left; auto).
    apply filter_In in F. destruct F as [F1 F2]. split; auto. apply mem_nat_in; auto.
Qed.
(** The state after an instruction that has one result and is no call, allocation or array. *)
Lemma effect_state : forall S (W : world S) tys e s i r, effectful i = false -> dest i <> None ->
  effect W tys e s i = ROk r -> snd r = s.
Proof.
  intros S W tys e s i r Ef D Ee.
  assert (K : forall (x : res val) k, rbind x (fun v : val => ROk ([v], k)) = ROk r -> snd r = k).
  { intros x k. destruct x; cbn; try discriminate. intro Q; injection Q as <-. reflexivity. }
  destruct i; try discriminate; cbn [effect] in Ee; try (eapply K; eassumption);
    try (exfalso; apply D; reflexivity).
  - destruct source_type; try discriminate; destruct target_type; try discriminate; eapply K; eassumption.
  - destruct (e (pl_base pl)); [|discriminate]. cbn [of_opt rbind] in Ee.
    destruct (omap (eval_proj e) (pl_projs pl)); [|discriminate]. cbn [of_opt rbind] in Ee.
    eapply K; eassumption.
  - destruct (tys dest) as [[]|]; try discriminate; eapply K; eassumption.
  - destruct struct_ty; try discriminate; eapply K; eassumption.
  - destruct struct_ty; try discriminate; eapply K; eassumption.
  - destruct tuple_ty; try discriminate; eapply K; eassumption.
Qed.

(** ** One block. *)
Definition cse_ready (f : func) : Prop :=
  ssa f /\ phis_first f /\ (forall r, In r (f_rets f) -> ~ In r (all_dests f)) /\
  keys_typed f /\ no_keyed_arrays f.

Section Block.
  Variables (f : func) (b0 : nat) (blk0 : block).
  Hypothesis Hready : cse_ready f.
  Hypothesis Hb0 : nth_error (f_blocks f) b0 = Some blk0.
  Let l := scan [] (b_instrs blk0).
  Let sg := subst_id l.
  Let f1 := replace_list l f.
  Let g := remove_unused b0 f1.
  Let Hssa : ssa f := proj1 Hready.
  Let sd : single_def f := proj1 Hssa.
  Let Hphis : phis_first f := proj1 (proj2 Hready).
  Let Hrets := proj1 (proj2 (proj2 Hready)).
  Let Htyped : keys_typed f := proj1 (proj2 (proj2 (proj2 Hready))).
  Let Harr : no_keyed_arrays f := proj2 (proj2 (proj2 (proj2 Hready))).

  Definition epairs (d s : nat) : Prop := In (d, s) l.
  Lemma epairs_at : forall d s, epairs d s -> exists j k i i' K, j < k /\
    nth_error (b_instrs blk0) k = Some i /\ nth_error (b_instrs blk0) j = Some i' /\
    key_of i = Some K /\ key_of i' = Some K /\ dest i = Some d /\ dest i' = Some s.
  Proof.
    intros d s H. destruct (scan_spec _ _ _ _ H) as (k & i & K & A & B & C & [[]|(j & i' & D1 & D2 & D3 & D4)]).
    exists j, k, i, i', K. auto 10.
  Qed.
  Lemma def_b0 : forall k i d, nth_error (b_instrs blk0) k = Some i -> dest i = Some d -> def_at f b0 k d.
  Proof. intros k i d H D. exists blk0, i. rewrite (dest_dests _ _ D). cbn; auto. Qed.
  Lemma epairs_ok : forall d s, epairs d s -> exists B blk K i,
    nth_error (f_blocks f) B = Some blk /\ nth_error (b_instrs blk) K = Some i /\
    is_phi i = false /\ dests i = [d] /\ dom f s B K.
  Proof.
    intros d s H. destruct (epairs_at d s H) as (j & k & i & i' & K & L & Hk & Hj & Ki & Kj & Di & Dj).
    exists b0, blk0, k, i. repeat split; auto.
    - apply keyed_dest. congruence.
    - apply dest_dests; auto.
    - intros w HW. right; left. exists j. split; auto. eapply def_b0; eauto.
  Qed.
  Lemma blk_nodup : NoDup (flat_map dests (b_instrs blk0)).
  Proof.
    pose proof (NoDup_app_r _ _ _ sd) as N. unfold all_dests in N.
    exact (NoDup_flat_map_in _ _ _ _ blk0 N (nth_error_In _ _ Hb0)).
  Qed.
  Lemma epairs_fun : forall d s s', epairs d s -> epairs d s' -> s = s'.
  Proof. intros d s s'. apply scan_fun. exact blk_nodup. Qed.
  Lemma snd_not_fst : forall d s, epairs d s -> ~ In s (map fst l).
  Proof.
    intros d s H. unfold l. apply scan_disjoint.
    - exact blk_nodup.
    - apply (in_map snd) in H. exact H.
  Qed.
  Lemma sg_key : forall d s, epairs d s -> sg d = s.
  Proof.
    intros d s H. apply subst_in.
    - apply (in_map fst) in H. exact H.
    - intros t Ht. eapply epairs_fun; eauto.
    - eapply snd_not_fst; eauto.
  Qed.
  Lemma sg_cases : forall v, (sg v = v /\ ~ In v (map fst l)) \/ epairs v (sg v).
  Proof.
    intro v. destruct (in_dec Nat.eq_dec v (map fst l)) as [H|H].
    - right. apply in_map_iff in H. destruct H as ([d s] & E & H). cbn in E. subst d. rewrite (sg_key v s); auto.
    - left. split; auto. apply subst_notin; auto.
  Qed.
  Lemma sg_not_fst : forall v, ~ In (sg v) (map fst l).
  Proof. intro v. destruct (sg_cases v) as [[-> H]|H]; auto. eapply snd_not_fst; eauto. Qed.
  Lemma not_array : forall k i, nth_error (b_instrs blk0) k = Some i -> key_of i <> None -> is_array i = false.
  Proof.
    intros k i Hk K. destruct i; auto. exfalso. apply K. cbn.
    rewrite (Harr blk0 dest elements element_ty is_const); auto; eapply nth_error_In; eauto.
  Qed.
  Lemma epairs_type : forall d s, epairs d s -> f_types f d = f_types f s /\ f_types f s <> None.
  Proof.
    intros d s H. destruct (epairs_at d s H) as (j & k & i & i' & K & L & Hk & Hj & Ki & Kj & Di & Dj).
    pose proof (nth_error_In _ _ Hb0) as Hin.
    destruct (Htyped blk0 i d Hin (nth_error_In _ _ Hk)) as (t & T & KT); auto; [congruence|].
    destruct (Htyped blk0 i' s Hin (nth_error_In _ _ Hj)) as (t' & T' & KT'); auto; [congruence|].
    pose proof (not_array k i Hk ltac:(congruence)) as Na. pose proof (not_array j i' Hj ltac:(congruence)) as Na'.
    rewrite T, T'. split; [|discriminate]. f_equal. clear -Ki Kj KT KT' Na Na'.
    destruct i; cbn in Ki; try discriminate; destruct i'; cbn in Kj; try discriminate.
    all: try (destruct source; try discriminate). all: try (destruct source0; try discriminate).
    all: try (destruct left; try discriminate). all: try (destruct left0; try discriminate).
    all: try (destruct right; try discriminate). all: try (destruct right0; try discriminate).
    all: try (destruct tuple; try discriminate). all: try (destruct tuple0; try discriminate).
    all: try (destruct struct_val; try discriminate). all: try (destruct struct_val0; try discriminate).
    all: try (destruct (op_ids elements) as [ids|] eqn:E1; try discriminate).
    all: try (destruct (op_ids elements0) as [ids0|] eqn:E2; try discriminate).
    all: try (destruct (field_ids fields) as [fids|] eqn:E3; try discriminate).
    all: try (destruct (field_ids fields0) as [fids0|] eqn:E4; try discriminate).
    all: try (apply op_ids_inv in E1). all: try (apply op_ids_inv in E2).
    all: cbn in Ki, Kj; subst; try discriminate.
    all: rewrite <- Ki in Kj; try discriminate; injection Kj; intros; subst; cbn in KT, KT'; try congruence.
    - destruct op; congruence.
    - destruct KT as (ts & -> & F). destruct KT' as (ts' & -> & F'). f_equal.
      clear -F F'. revert ts ts' F F'. induction ids as [|v ids IH]; intros ts ts' F F'; cbn in *;
        inversion F; subst; inversion F'; subst; auto. f_equal; [congruence|auto].
  Qed.
  Lemma types_f1 : forall v, ~ In v (map fst l) -> f_types g v = f_types f v.
  Proof.
    intros v H. unfold g, remove_unused. cbn [with_blocks f_types]. apply replace_list_types; auto.
    intro K. apply in_map_iff in K. destruct K as ([d s] & E & K). cbn in E. subst s. apply (epairs_type d v K).
  Qed.
  Lemma types_sg : forall v, f_types g (sg v) = f_types f v.
  Proof.
    intro v. rewrite types_f1 by apply sg_not_fst. destruct (sg_cases v) as [[-> _]|H]; auto.
    symmetry. apply (epairs_type v (sg v) H).
  Qed.

  (** *** Shape of the result. *)
  Definition ckeep (b : nat) (i : minstr) : bool := if Nat.eqb b b0 then result_used f1 i else true.
  Lemma f1_blocks : f_blocks f1 = map (bmap (imap (subst_val l) sg) (tmap (subst_val l))) (f_blocks f).
  Proof. exact (proj1 (replace_list_blocks l f)). Qed.
  Lemma filter_true : forall A (is : list A), filter (fun _ => true) is = is.
  Proof. induction is; cbn; congruence. Qed.
  Lemma g_block : forall b blk, nth_error (f_blocks f) b = Some blk ->
    nth_error (f_blocks g) b = Some (Block (filter (ckeep b) (map (imap (subst_val l) sg) (b_instrs blk)))
                                           (tmap (subst_val l) (b_term blk)) (b_preds blk)).
  Proof.
    intros b blk Hb. unfold g, remove_unused. cbn [with_blocks f_blocks]. unfold ckeep.
    assert (E1 : nth_error (f_blocks f1) b = Some (bmap (imap (subst_val l) sg) (tmap (subst_val l)) blk)).
    { rewrite f1_blocks, nth_error_map, Hb. reflexivity. }
    destruct (Nat.eqb_spec b b0) as [->|N].
    - rewrite (nth_upd_same _ _ _ _ _ E1). reflexivity.
    - rewrite nth_upd_other by auto. rewrite E1. rewrite filter_true. reflexivity.
  Qed.
  Lemma g_len : length (f_blocks g) = length (f_blocks f).
  Proof.
    unfold g, remove_unused. cbn [with_blocks f_blocks]. rewrite upd_nth_length, f1_blocks, map_length. reflexivity.
  Qed.
  Lemma g_params : f_params g = f_params f.
  Proof.
    unfold g, remove_unused, f1. cbn [with_blocks f_params].
    rewrite (proj1 (proj2 (proj2 (replace_list_blocks l f)))). rewrite <- map_id. apply map_ext_in.
    intros v Hv. apply subst_notin. intro K. apply in_map_iff in K. destruct K as ([d s] & E & K). cbn in E. subst d.
    destruct (epairs_ok v s K) as (B & blk & K' & i & HB & HK & _ & Di & _).
    apply (def_not_param f B K' v sd); auto. exists blk, i. rewrite Di. cbn; auto.
  Qed.
  Lemma pair_dest : forall d s, epairs d s -> In d (all_dests f).
  Proof.
    intros d s K. destruct (epairs_ok d s K) as (B & blk & K' & i & HB & HK & _ & Di & _).
    apply in_flat_map. exists blk. split; [eapply nth_error_In; eauto|]. apply in_flat_map. exists i.
    split; [eapply nth_error_In; eauto|]. rewrite Di; left; auto.
  Qed.
  Lemma g_rets : f_rets g = f_rets f.
  Proof.
    unfold g, remove_unused, f1. cbn [with_blocks f_rets].
    rewrite (proj2 (proj2 (proj2 (replace_list_blocks l f)))). rewrite <- map_id. apply map_ext_in.
    intros v Hv. apply subst_notin. intro K. apply in_map_iff in K. destruct K as ([d s] & E & K). cbn in E. subst d.
    apply (Hrets v Hv). eapply pair_dest; eauto.
  Qed.
  Lemma used_f1 : forall b blk v, nth_error (f_blocks f) b = Some blk ->
    (exists i, In i (map (imap (subst_val l) sg) (b_instrs blk)) /\ In v (uses i)) \/
    In v (term_uses (tmap (subst_val l) (b_term blk))) -> 0 < use_count f1 v.
  Proof.
    intros b blk v Hb H.
    apply (use_count_pos f1 v (bmap (imap (subst_val l) sg) (tmap (subst_val l)) blk)); auto.
    rewrite f1_blocks. apply in_map. eapply nth_error_In; eauto.
  Qed.

  (** *** What is dropped. *)
  Lemma filter_le : forall (p q : minstr -> bool) is, length (filter p (filter q is)) <= length (filter p is).
  Proof.
    induction is as [|i is IH]; cbn; auto. destruct (q i), (p i) eqn:E; cbn; rewrite ?E; cbn; lia.
  Qed.
  Lemma filter_eq : forall (p q : minstr -> bool) is, length (filter p (filter q is)) = length (filter p is) ->
    forall i, In i is -> p i = true -> q i = true.
  Proof.
    induction is as [|j is IH]; intros H i Hi Hp; [destruct Hi|].
    pose proof (filter_le p q is). cbn in H. destruct (q j) eqn:Eq; cbn in H; destruct (p j) eqn:Ep; cbn in H; try lia.
    - destruct Hi as [<-|Hi]; auto.
    - destruct Hi as [<-|Hi]; [congruence|]. apply IH; auto.
    - destruct Hi as [<-|Hi]; [congruence|]. apply IH; auto.
  Qed.
  Lemma eff_imap : forall fv fb is, length (filter effectful (map (imap fv fb) is)) = length (filter effectful is).
  Proof.
    induction is as [|i is IH]; cbn; auto.
    assert (E : effectful (imap fv fb i) = effectful i) by (destruct i; reflexivity).
    rewrite E. destruct (effectful i); cbn; auto.
  Qed.
  Lemma effects_f1 : effects f1 = effects f.
  Proof.
    unfold effects. rewrite f1_blocks. generalize (f_blocks f). intro bs.
    induction bs as [|b bs IH]; cbn [map fold_right bmap b_instrs]; [reflexivity|].
    rewrite IH, eff_imap. reflexivity.
  Qed.
  Lemma effects_upd : forall (p : minstr -> bool) n bs,
    let h := fun blk => Block (filter p (b_instrs blk)) (b_term blk) (b_preds blk) in
    let cnt := fold_right (fun b n => length (filter effectful (b_instrs b)) + n) 0 in
    cnt (upd_nth n h bs) <= cnt bs /\
    (cnt (upd_nth n h bs) = cnt bs -> forall blk, nth_error bs n = Some blk ->
      length (filter effectful (filter p (b_instrs blk))) = length (filter effectful (b_instrs blk))).
  Proof.
    intros p n bs h cnt. revert n. induction bs as [|b bs IH]; intros [|n]; cbn [upd_nth]; split; auto;
      try (intros _ blk HH; discriminate); unfold cnt; cbn [fold_right]; fold cnt.
    - unfold h at 1; cbn [b_instrs]. pose proof (filter_le effectful p (b_instrs b)). lia.
    - intros E blk HH. cbn in HH. injection HH as <-. unfold h in E at 1; cbn [b_instrs] in E. lia.
    - destruct (IH n). lia.
    - intros E blk HH. cbn in HH. destruct (IH n) as [_ K]. apply K; auto. lia.
  Qed.
  Lemma effects_le : effects g <= effects f.
  Proof.
    rewrite <- effects_f1. unfold effects, g, remove_unused. cbn [with_blocks f_blocks].
    apply (effects_upd (result_used f1) b0 (f_blocks f1)).
  Qed.
  Lemma dropped_pure : effects g = effects f -> forall i, In i (b_instrs blk0) -> result_used f1 (imap (subst_val l) sg i) = false ->
    effectful i = false.
  Proof.
    intros E i Hi H. rewrite <- effects_f1 in E. unfold effects, g, remove_unused in E.
    cbn [with_blocks f_blocks] in E.
    destruct (effects_upd (result_used f1) b0 (f_blocks f1)) as [_ K].
    specialize (K E (bmap (imap (subst_val l) sg) (tmap (subst_val l)) blk0)).
    rewrite f1_blocks in K. rewrite nth_error_map, Hb0 in K. specialize (K eq_refl). cbn [bmap b_instrs] in K.
    destruct (effectful i) eqn:Ef; auto.
    rewrite (filter_eq effectful (result_used f1) _ K (imap (subst_val l) sg i)) in H; [discriminate| |].
    - apply in_map; auto.
    - destruct i; auto.
  Qed.

  (** *** Simulation. *)
  Definition unused (v : nat) : Prop := use_count f1 v = 0.
  Lemma fst_unused : forall d, In d (map fst l) -> unused d.
  Proof.
    intros d Hd. unfold unused. destruct (use_count f1 d) eqn:E; auto. exfalso.
    destruct (use_count_used f1 d) as (b & Hb & H); [lia|]. rewrite f1_blocks in Hb.
    apply in_map_iff in Hb. destruct Hb as (blk & <- & Hb). cbn [bmap b_instrs b_term] in H.
    destruct H as [(i & Hi & Hu)|Hu].
    - apply in_map_iff in Hi. destruct Hi as (i0 & <- & Hi). apply uses_imap in Hu.
      destruct Hu as [(x & Hx & Hw)|(c & Hc & ->)].
      + destruct x as [y|v|]; cbn in Hw; try contradiction. destruct Hw as [<-|[]]. exact (sg_not_fst v Hd).
      + exact (sg_not_fst c Hd).
    - apply term_uses_tmap in Hu. destruct Hu as (x & Hx & Hw).
      destruct x as [y|v|]; cbn in Hw; try contradiction. destruct Hw as [<-|[]]. exact (sg_not_fst v Hd).
  Qed.
  Definition avail (b pos : nat) (e : env) : Prop :=
    forall blk k i d, nth_error (f_blocks f) b = Some blk -> k < pos -> nth_error (b_instrs blk) k = Some i ->
      key_of i <> None -> is_array i = false -> dest i = Some d ->
      exists x, e d = Some x /\ forall S (W : world S) s, effect W (f_types f) e s i = ROk ([x], s).
  Definition cinv (b pos : nat) (e : env) : Prop := pinv f epairs b pos e /\ avail b pos e.
  Lemma effect_keep : forall S (W : world S) e e1 s i r, (forall v, In v (uses i) -> e1 v = e v) ->
    effect W (f_types f) e s i = ROk r -> effect W (f_types f) e1 s i = ROk r.
  Proof.
    intros S W e e1 s i r H E. pose proof (effect_agree S W true (f_types f) (f_types f) e e1 s i H
      (fun _ _ => eq_refl) (fun _ _ _ => eq_refl)) as K. rewrite E in K. destruct K as (y & K & <-). exact K.
  Qed.
  Lemma use_not_dest : forall b blk pos i k j v, nth_error (f_blocks f) b = Some blk ->
    nth_error (b_instrs blk) pos = Some i -> nth_error (b_instrs blk) k = Some j -> is_phi j = false -> k <= pos ->
    (exists w, walk f (b :: w)) -> In v (uses j) -> ~ In v (dests i).
  Proof.
    intros b blk pos i k j v Hb Hi Hj Np L HW Hv Hd.
    apply (not_dom_self f b pos v sd); auto; [exists blk, i; auto|].
    apply (dom_mono f v b k pos L). eapply (proj1 (proj2 Hssa b blk Hb)); eauto.
  Qed.
  Lemma cinv_step : forall S (W : world S) b blk pos i e s e1 s1,
    nth_error (f_blocks f) b = Some blk -> nth_error (b_instrs blk) pos = Some i ->
    is_phi i = false -> cinv b pos e -> exec W (f_types f) e s i = ROk (e1, s1) -> cinv b (Datatypes.S pos) e1.
  Proof.
    intros S W b blk pos i e s e1 s1 Hb Hi Np [HI HA] Ex.
    unfold exec in Ex. apply rbind_ok in Ex. destruct Ex as ([vs s2] & Ef & Ex). cbn [fst snd] in Ex.
    destruct (bind_all e (dests i) vs) as [e2|] eqn:Eb; [|discriminate]. cbn in Ex. injection Ex as -> ->.
    pose proof (bind_all_get _ _ _ _ Eb) as Get.
    split.
    - apply (pinv_step f epairs sd epairs_ok b blk pos i e e1 vs Hb Hi HI Eb).
      intros d t Hp Hd Ht Nt.
      destruct (epairs_at d t Hp) as (j & k & i0 & i' & K & L & Hk & Hj & Ki & Kj & Di & Dj).
      destruct (def_at_uniq f b pos b0 k d sd) as [-> ->].
      { exists blk, i. rewrite Hd. cbn; auto. }
      { eapply def_b0; eauto. }
      assert (blk = blk0) by congruence. subst blk. assert (i0 = i) by congruence. subst i0.
      pose proof (not_array k i Hk ltac:(congruence)) as Na. pose proof (not_array j i' Hj ltac:(congruence)) as Na'.
      destruct (HA blk0 j i' t Hb0 L Hj ltac:(congruence) Na' Dj) as (x & Ex & Ee).
      rewrite (same_key_effect S W (f_types f) e s i i' K d t Ki Kj Na Na' Di Dj (proj1 (epairs_type d t Hp))) in Ef.
      rewrite Ee in Ef. injection Ef as <- <-. rewrite Hd in Eb. cbn in Eb. injection Eb as <-.
      unfold upd. rewrite Nat.eqb_refl. destruct (Nat.eqb_spec t d); [contradiction|]. auto.
    - intros blk' k j d Hb' L Hj Kj Na Dj. assert (blk' = blk) by congruence. subst blk'.
      assert (Npj : is_phi j = false) by (apply keyed_dest; auto).
      assert (Hu : forall v, In v (uses j) -> e1 v = e v).
      { intros v Hv. apply Get. eapply (use_not_dest b blk pos i k j); eauto; [lia|apply HI]. }
      destruct (Nat.eq_dec k pos) as [->|N].
      + assert (j = i) by congruence. subst j.
        destruct (keyed_effect S W (f_types f) e s i (vs, s1) Kj Na Ef) as (x & E1 & E2 & E3).
        cbn in E1, E2. subst vs. exists x. rewrite (dest_dests _ _ Dj) in Eb. cbn in Eb. injection Eb as <-.
        split; [unfold upd; rewrite Nat.eqb_refl; auto|]. intros S' W' s'. eapply effect_keep; eauto.
      + destruct (HA blk k j d Hb ltac:(lia) Hj Kj Na Dj) as (x & E1 & E2). exists x. split.
        * rewrite <- E1. apply Get. intro Hd. apply N.
          apply (def_at_uniq f b k b pos d sd); [exists blk, j; rewrite (dest_dests _ _ Dj); cbn; auto|exists blk, i; auto].
        * intros S' W' s'. eapply effect_keep; eauto.
  Qed.
  Lemma cinv_edge : forall b blk b' blk' e e1,
    nth_error (f_blocks f) b = Some blk -> nth_error (f_blocks f) b' = Some blk' ->
    In b' (targets (b_term blk)) -> cinv b (length (b_instrs blk)) e ->
    enter e (Some b) (fst (span_phi (b_instrs blk'))) = Some e1 -> cinv b' (nphis blk') e1.
  Proof.
    intros b blk b' blk' e e1 Q1 Q2 Q3 [Q4 _] Q5. split.
    - exact (pinv_edge f epairs sd epairs_ok b blk b' blk' e e1 Q1 Q2 Q3 Q4 Q5).
    - intros blk2 k i d Hb L Hk Ki. assert (blk2 = blk') by congruence. subst blk2. exfalso.
      destruct (phi_pos f epairs epairs_ok blk' k L) as (ph & E & _). rewrite E in Hk. injection Hk as <-. apply Ki. reflexivity.
  Qed.

  Lemma sg_point : forall v b pos e, cinv b pos e -> dom f v b pos -> e (sg v) = e v.
  Proof.
    intros v b pos e [HI _] HD. destruct (sg_cases v) as [[-> _]|H]; auto. symmetry. apply HI; auto.
  Qed.
  Lemma val_point : forall v b pos e e', cinv b pos e -> erel unused e e' ->
    (forall i, In i (val_ids v) -> dom f i b pos) -> (forall i, In i (val_ids (subst_val l v)) -> ~ unused i) ->
    vsim e e' v (subst_val l v).
  Proof.
    intros [w|v|] b pos e e' HI HR HD HU; split; intros; auto; cbn [subst_val eval_as eval_any] in *.
    - fold sg. rewrite (HR (sg v)) by (apply HU; cbn; auto). rewrite (sg_point v b pos e HI); auto. apply HD; cbn; auto.
    - fold sg. rewrite (HR (sg v)) by (apply HU; cbn; auto). rewrite (sg_point v b pos e HI); auto. apply HD; cbn; auto.
  Qed.
  Lemma src_map : forall p ss, src_from p (map (fun s : nat * value => (fst s, subst_val l (snd s))) ss)
    = option_map (subst_val l) (src_from p ss).
  Proof. induction ss as [|[q v] ss IH]; cbn; auto. destruct (Nat.eqb p q); auto. Qed.
  Lemma src_in : forall p ss v, src_from p ss = Some v -> In v (map snd ss).
  Proof.
    induction ss as [|[q w] ss IH]; intros v H; cbn in *; [discriminate|].
    destruct (Nat.eqb p q); [injection H as ->; auto|right; auto].
  Qed.
  Lemma f1_used : forall b blk i v, nth_error (f_blocks f) b = Some blk -> In i (b_instrs blk) ->
    In v (uses (imap (subst_val l) sg i)) -> ~ unused v.
  Proof.
    intros b blk i v Hb Hi Hv U. pose proof (used_f1 b blk v Hb) as K. unfold unused in U.
    assert (0 < use_count f1 v); [|lia]. apply K. left. exists (imap (subst_val l) sg i). split; auto. apply in_map; auto.
  Qed.
  Lemma ivals_imap : forall fv fb i, ivals (imap fv fb i) = map fv (ivals i).
  Proof.
    intros fv fb i.
    assert (PV : forall ps, flat_map (fun x => match x with PIdx v => [v] | _ => [] end) (map (pmap fv) ps)
      = map fv (flat_map (fun x => match x with PIdx v => [v] | _ => [] end) ps)).
    { induction ps as [|[] ps IH]; cbn; congruence. }
    destruct i; cbn; rewrite ?PV, ?map_map; cbn; auto.
  Qed.
  Lemma use_of_val : forall i w v, In w (ivals i) -> In v (val_ids (subst_val l w)) ->
    In v (uses (imap (subst_val l) sg i)).
  Proof.
    intros i w v Hw Hv. apply uses_ivals. left. exists (subst_val l w). split; auto. rewrite ivals_imap. apply in_map; auto.
  Qed.
  Lemma use_of_base : forall i c, In c (ibases i) -> In (sg c) (uses (imap (subst_val l) sg i)).
  Proof.
    intros i c Hc. apply uses_ivals. right. destruct i; cbn in Hc |- *; try contradiction; destruct Hc as [<-|[]]; auto.
  Qed.
  Lemma keep_not_fst : forall b blk k i d, nth_error (f_blocks f) b = Some blk -> nth_error (b_instrs blk) k = Some i ->
    ckeep b (imap (subst_val l) sg i) = true -> dest i = Some d -> ~ In d (map fst l).
  Proof.
    intros b blk k i d Hb Hk Kp D Hd. pose proof (fst_unused d Hd) as U. unfold unused in U.
    apply in_map_iff in Hd. destruct Hd as ([d' t] & E & Hd). cbn in E. subst d'.
    destruct (epairs_at d t Hd) as (j & k' & i0 & i' & K & L & Hk' & _ & _ & _ & Di & _).
    destruct (def_at_uniq f b k b0 k' d sd) as [-> ->].
    { exists blk, i. rewrite (dest_dests _ _ D). cbn; auto. }
    { eapply def_b0; eauto. }
    unfold ckeep in Kp. rewrite Nat.eqb_refl in Kp. unfold result_used in Kp.
    assert (E : dest (imap (subst_val l) sg i) = dest i) by (unfold dest; rewrite dests_imap; auto).
    rewrite E, D, U in Kp. discriminate.
  Qed.

  Theorem cse_block_sim : effects g = effects f -> forall S (W : world S) fuel args s,
    rrel false eq (call_fn W f fuel args s) (call_fn W g fuel args s).
  Proof.
    intros Heff S W fuel args s.
    apply sim_calls with (X := unused) (I := cinv) (okW := fun _ _ => True).
    - intros S0 W0 b blk pos i e s0 e1 s1 _ Q1 Q2 Q3 Q4 Q5. exact (cinv_step S0 W0 b blk pos i e s0 e1 s1 Q1 Q2 Q3 Q4 Q5).
    - intros b blk b1 blk1 e e1 Q1 Q2 Q3 Q4 Q5. exact (cinv_edge b blk b1 blk1 e e1 Q1 Q2 Q3 Q4 Q5).
    - intros blk args0 e Q1 Q2 Q3. split.
      + exact (pinv_entry f epairs sd epairs_ok blk args0 e Q1 Q3).
      + intros blk2 k i d Hb L. lia.
    - exact Hphis.
    - unfold g, remove_unused. cbn [with_blocks f_entry]. exact (proj1 (proj2 (replace_list_blocks l f))).
    - exact g_params.
    - intros b blk Hb. eexists. split; [exact (g_block b blk Hb)|]. cbn [b_instrs b_term].
      destruct (proj2 Hssa b blk Hb) as (U1 & U2 & U3). split.
      + assert (G : forall is pos, (forall k i, nth_error is k = Some i -> nth_error (b_instrs blk) (pos + k) = Some i) ->
          lsim f g false unused cinv (fun _ _ => True) b pos is (filter (ckeep b) (map (imap (subst_val l) sg) is))).
        { induction is as [|i is IH]; intros pos Hk; [constructor|].
          assert (Hi : nth_error (b_instrs blk) pos = Some i).
          { specialize (Hk 0 i eq_refl). rewrite Nat.add_0_r in Hk. exact Hk. }
          assert (IH' : lsim f g false unused cinv (fun _ _ => True) b (Datatypes.S pos) is
            (filter (ckeep b) (map (imap (subst_val l) sg) is))).
          { apply IH. intros k j Hj. specialize (Hk (Datatypes.S k) j Hj). rewrite <- plus_n_Sm in Hk. exact Hk. }
          clear IH. cbn [map filter]. pose proof (nth_error_In _ _ Hi) as Hin.
          assert (ED : dest (imap (subst_val l) sg i) = dest i) by (unfold dest; rewrite dests_imap; auto).
          destruct (ckeep b (imap (subst_val l) sg i)) eqn:Ek.
          - destruct (is_phi i) eqn:Ep.
            + destruct i; try discriminate. cbn [imap]. apply ls_phi; auto.
              split; [reflexivity|]. intros p pblk e e' x Hp Ht HI HRl. unfold phi_val; cbn [fst snd].
              rewrite src_map. destruct (src_from p sources) as [v|] eqn:Es; cbn [option_map]; [|discriminate].
              apply (val_point v p (length (b_instrs pblk)) e e' HI HRl).
              * intros j Hj. destruct v as [|v|]; cbn in Hj; try contradiction. destruct Hj as [<-|[]].
                eapply U2; eauto.
              * intros j Hj. apply (f1_used b blk _ j Hb Hin). apply (use_of_val _ v j); [|exact Hj].
                cbn [ivals]. apply (src_in p); exact Es.
            + apply ls_keep; auto. split; [auto|]. split; [rewrite is_phi_imap; auto|].
              split; [apply dests_imap|].
              intros S0 W0 s1 e e' _ HI HRl. apply effect_sim.
              * intros v Hv. apply (val_point v b pos e e' HI HRl).
                -- intros j Hj. eapply U1; eauto. apply uses_ivals. left; eauto.
                -- intros j Hj. apply (f1_used b blk i j Hb Hin). apply (use_of_val i v j Hv Hj).
              * intros v x Hv Ev. split; [|apply types_sg].
                rewrite (HRl (sg v)).
                -- rewrite (sg_point v b pos e HI); auto. eapply U1; eauto. apply uses_ivals; auto.
                -- apply (f1_used b blk i _ Hb Hin). apply use_of_base; auto.
              * intros d es ->. apply types_f1. exact (keep_not_fst b blk pos _ d Hb Hi Ek eq_refl).
          - unfold ckeep in Ek. destruct (Nat.eqb_spec b b0) as [->|]; [|discriminate].
            assert (blk = blk0) by congruence. subst blk.
            pose proof (dropped_pure Heff i Hin Ek) as Pure.
            unfold result_used in Ek. rewrite ED in Ek. destruct (dest i) as [d|] eqn:Ed; [|discriminate].
            apply Nat.ltb_ge in Ek. assert (Ud : unused d) by (unfold unused; lia).
            destruct (is_phi i) eqn:Ep.
            + destruct i; try discriminate. cbn in Ed. injection Ed as ->. apply ls_phi_drop; auto.
            + apply ls_drop; auto. split; [auto|]. split.
              * intros x Hx. rewrite (dest_dests _ _ Ed) in Hx. destruct Hx as [<-|[]]; auto.
              * intros S0 W0 s1 e _ _. destruct (effect W0 (f_types f) e s1 i) as [r| | |] eqn:Ee; auto.
                apply (effect_state _ W0 (f_types f) e s1 i r); auto. congruence. }
        apply (G (b_instrs blk) 0). auto.
      + intros e e' HI HRl.
        assert (HT : map (f_types g) (f_rets g) = map (f_types f) (f_rets f)).
        { rewrite g_rets. apply map_ext_in. intros r Hr. apply types_f1. intro K. apply (Hrets r Hr).
          apply in_map_iff in K. destruct K as ([d t] & E & K). cbn in E. subst d. eapply pair_dest; eauto. }
        rewrite HT.
        assert (VP : forall v, In v (tvals (b_term blk)) -> vsim e e' v (subst_val l v)).
        { intros v Hv. apply (val_point v b (length (b_instrs blk)) e e' HI HRl).
          - intros j Hj. apply U3. eapply term_uses_tvals; eauto.
          - intros j Hj U. unfold unused in U.
            assert (0 < use_count f1 j); [|lia]. apply (used_f1 b blk j Hb). right.
            clear -Hv Hj. destruct (b_term blk); cbn in *; try contradiction.
            + destruct Hv as [<-|[]]; auto.
            + apply in_or_app. destruct Hv as [<-|[<-|[]]]; auto.
            + unfold vals_ids. apply in_flat_map. exists (subst_val l v). split; auto. apply in_map; auto. }
        destruct (b_term blk) as [x|c x y|op l0 r x y|vs|] eqn:Et; cbn [tmap exec_term]; cbn [tvals] in VP.
        * apply rrel_eq_refl.
        * apply rrel_bind with (R := eq); [|intros ? ? _ _ <-; apply rrel_eq_refl].
          apply rrel_of_opt. intros z Hz. destruct c as [lt|v|]; cbn in *; auto.
          assert (K : e' (subst_id l v) = e v); [|rewrite K; auto]. rewrite (HRl (subst_id l v)).
          -- apply (sg_point v b (length (b_instrs blk)) e HI). apply U3. cbn; auto.
          -- intro U. unfold unused in U. assert (0 < use_count f1 (subst_id l v)); [|lia].
             apply (used_f1 b blk _ Hb). right. rewrite Et. cbn; auto.
        * destruct (branch_op op); [|exact Logic.I].
          apply rrel_bind with (R := eq); [|intros ? ? _ _ <-; apply rrel_eq_refl].
          apply eval_bin_sim; apply VP; cbn; auto.
        * step_eq; [apply rrel_eq_refl|]. step_eq; [|apply rrel_eq_refl]. apply rrel_of_opt.
          intros z Hz. eapply eval_list_sim; eauto.
        * exact Logic.I.
    - exact Logic.I.
  Qed.

  (** *** The hypotheses hold of the result again. *)
  Lemma sg_stands : forall v, stands f v (sg v).
  Proof.
    intro v. destruct (sg_cases v) as [[E _]|H]; [left; auto|]. right.
    destruct (epairs_ok v (sg v) H) as (B & blk & K & i & HB & HK & _ & Di & Dom).
    assert (D : def_at f B K v) by (exists blk, i; rewrite Di; cbn; auto). split.
    - apply (def_not_param f B K v sd D).
    - intros B' K' D'. destruct (def_at_uniq f B K B' K' v sd D D') as [<- <-]. exact Dom.
  Qed.
  Lemma g_back : forall b blk', nth_error (f_blocks g) b = Some blk' -> exists blk,
    nth_error (f_blocks f) b = Some blk /\
    b_instrs blk' = filter (ckeep b) (map (imap (subst_val l) sg) (b_instrs blk)) /\
    b_term blk' = tmap (subst_val l) (b_term blk).
  Proof.
    intros b blk' Hb'. destruct (nth_error (f_blocks f) b) as [blk|] eqn:E.
    - pose proof (g_block b blk E) as K. rewrite Hb' in K. injection K as ->. exists blk. auto.
    - exfalso. apply nth_error_None in E. rewrite <- g_len in E. apply nth_error_None in E. congruence.
  Qed.
  Lemma dropped_unused : forall b i, ckeep b i = false -> exists d, dest i = Some d /\ use_count f1 d = 0.
  Proof.
    intros b i H. unfold ckeep in H. destruct (Nat.eqb b b0); [|discriminate]. unfold result_used in H.
    destruct (dest i) as [d|]; [|discriminate]. apply Nat.ltb_ge in H. exists d. split; auto. lia.
  Qed.
  Lemma key_imap : forall i, key_of (imap (subst_val l) sg i) <> None -> key_of i <> None.
  Proof.
    assert (O : forall es, op_ids (map (subst_val l) es) <> None -> op_ids es <> None).
    { induction es as [|[] es IH]; cbn; intro H; try congruence.
      destruct (op_ids (map (subst_val l) es)) eqn:E; [|congruence].
      destruct (op_ids es); [discriminate|]. intro. apply IH; congruence. }
    assert (F : forall fs, field_ids (map (fun x => (fst x, subst_val l (snd x))) fs) <> None -> field_ids fs <> None).
    { induction fs as [|[n []] fs IH]; cbn; intro H; try congruence.
      destruct (field_ids (map _ fs)) eqn:E; [|congruence].
      destruct (field_ids fs); [discriminate|]. intro. apply IH; congruence. }
    intros i H. destruct i; cbn in H |- *; try congruence.
    - destruct source; cbn in *; congruence.
    - destruct left; cbn in H; try congruence. destruct right; cbn in *; congruence.
    - specialize (O elements). destruct (op_ids (map (subst_val l) elements)); [|cbn in H; congruence].
      destruct (op_ids elements); [discriminate|]. exfalso. apply O; congruence.
    - destruct tuple; cbn in *; congruence.
    - specialize (F fields). destruct (field_ids (map _ fields)); [|cbn in H; congruence].
      destruct (field_ids fields); [discriminate|]. exfalso. apply F; congruence.
    - destruct struct_val; cbn in *; congruence.
    - specialize (O elements). destruct (op_ids (map (subst_val l) elements)); [|cbn in H; congruence].
      destruct (op_ids elements); [discriminate|]. exfalso. apply O; congruence.
  Qed.
  Theorem cse_block_ready : cse_ready g.
  Proof.
    assert (Hentry : f_entry g = f_entry f).
    { unfold g, remove_unused. cbn [with_blocks f_entry]. exact (proj1 (proj2 (replace_list_blocks l f))). }
    assert (Hblk : forall b blk, nth_error (f_blocks f) b = Some blk ->
      exists blk', nth_error (f_blocks g) b = Some blk' /\
      b_instrs blk' = filter (ckeep b) (map (imap (subst_val l) sg) (b_instrs blk)) /\
      b_term blk' = tmap (subst_val l) (b_term blk)).
    { intros b blk Hb. eexists. split; [exact (g_block b blk Hb)|]. auto. }
    assert (Hfv : forall x w, In w (val_ids (subst_val l x)) -> exists v, In v (val_ids x) /\ stands f v w).
    { intros [y|v|] w Hw; cbn in Hw; try contradiction. destruct Hw as [<-|[]].
      exists v. split; [cbn; auto|apply sg_stands]. }
    assert (Hkeep : forall b blk i, nth_error (f_blocks f) b = Some blk ->
      In i (map (imap (subst_val l) sg) (b_instrs blk)) -> ckeep b i = false ->
      forall d, In d (dests i) -> forall b' blk', nth_error (f_blocks g) b' = Some blk' ->
      (exists w, walk f (b' :: w)) -> ~ used_by f g d b' blk').
    { intros b blk i _ _ Hi d Hd b' blk' Hb' _ HU.
      destruct (dropped_unused b i Hi) as (d' & Ed & Z). rewrite (dest_dests _ _ Ed) in Hd. destruct Hd as [<-|[]].
      destruct (g_back b' blk' Hb') as (blk2 & Hb2 & Ei & Et).
      assert (0 < use_count f1 d'); [|lia]. apply (used_f1 b' blk2 d' Hb2). rewrite <- Et.
      destruct HU as [(j & Hj & _ & Hu)|[(d1 & t1 & ss & p & pblk & Hj & _ & _ & _ & Hs)|Hu]].
      - left. exists j. split; auto. rewrite Ei in Hj. apply filter_In in Hj. apply Hj.
      - left. exists (IPhi d1 t1 ss). split; [rewrite Ei in Hj; apply filter_In in Hj; apply Hj|].
        apply uses_ivals. left. exists (Op d'). cbn. split; auto. eapply src_in; eauto.
      - right; auto. }
    pose proof sg_stands as Hfb. pose proof g_params as Hpar. pose proof g_len as Hlen.
    split; [|split; [|split; [|split]]].
    - exact (ssa_map f g (subst_val l) sg ckeep Hssa Hentry Hpar Hlen Hblk Hfv Hfb Hkeep).
    - apply (phis_map f g (subst_val l) sg ckeep); auto.
    - apply (rets_map f g (subst_val l) sg ckeep); auto. exact g_rets.
    - intros blk' i' d Hin Hi' Kn D. apply In_nth_error in Hin. destruct Hin as (b & Hb').
      destruct (g_back b blk' Hb') as (blk & Hb & Ei & _). rewrite Ei in Hi'. apply filter_In in Hi'.
      destruct Hi' as [Hi' Kp]. apply in_map_iff in Hi'. destruct Hi' as (i & <- & Hi).
      apply key_imap in Kn.
      assert (D' : dest i = Some d) by (unfold dest in *; rewrite dests_imap in D; auto).
      destruct (Htyped blk i d (nth_error_In _ _ Hb) Hi Kn D') as (t & T & KT).
      apply In_nth_error in Hi. destruct Hi as (k & Hk).
      exists t. rewrite (types_f1 d (keep_not_fst b blk k i d Hb Hk Kp D')). split; auto.
      destruct i; cbn in *; auto. destruct KT as (ts & -> & F). exists ts. split; auto.
      pose proof types_sg as TS. change (f_types g) with (f_types f1) in TS. revert F TS. generalize (f_types f1) as tg. clear. intros tg F TS.
      induction F as [|v u es ts H F IH]; cbn; constructor; auto.
      destruct v; cbn; auto. rewrite <- H. apply TS.
    - intros blk' d es t c Hin Hi. apply In_nth_error in Hin. destruct Hin as (b & Hb').
      destruct (g_back b blk' Hb') as (blk & Hb & Ei & _). rewrite Ei in Hi. apply filter_In in Hi.
      destruct Hi as [Hi _]. apply in_map_iff in Hi. destruct Hi as (i & E & Hi).
      destruct i; try discriminate. cbn in E. injection E as -> <- -> ->.
      pose proof (Harr blk d elements t c (nth_error_In _ _ Hb) Hi) as Z.
      pose proof (key_imap (IMakeArray d elements t c)) as Q. cbn in Q. rewrite Z in Q. cbn in Q.
      destruct (op_ids (map (subst_val l) elements)); auto. exfalso. cbn in Q. apply Q; [discriminate|reflexivity].
  Qed.
End Block.

(** ** The whole pass. *)
Lemma process_block_case : forall f b, process_block f b = f \/
  exists blk, nth_error (f_blocks f) b = Some blk /\
    process_block f b = remove_unused b (replace_list (scan [] (b_instrs blk)) f).
Proof.
  intros f b. unfold process_block. destruct (nth_error (f_blocks f) b) as [blk|]; auto.
  destruct (scan [] (b_instrs blk)) eqn:E; auto. right. exists blk. rewrite E. auto.
Qed.
Lemma process_ready : forall f b, cse_ready f -> cse_ready (process_block f b) /\
  effects (process_block f b) <= effects f /\
  (effects (process_block f b) = effects f -> forall S (W : world S) fuel args s,
    rrel false eq (call_fn W f fuel args s) (call_fn W (process_block f b) fuel args s)).
Proof.
  intros f b H. destruct (process_block_case f b) as [->|(blk & Hb & ->)].
  - split; auto. split; auto. intros. apply rrel_eq_refl.
  - split; [exact (cse_block_ready f b blk H Hb)|]. split; [exact (effects_le f b blk H)|].
    exact (cse_block_sim f b blk H Hb).
Qed.
Lemma process_all : forall bs f, cse_ready f -> cse_ready (fold_left process_block bs f) /\
  effects (fold_left process_block bs f) <= effects f /\
  (effects (fold_left process_block bs f) = effects f -> forall S (W : world S) fuel args s,
    rrel false eq (call_fn W f fuel args s) (call_fn W (fold_left process_block bs f) fuel args s)).
Proof.
  induction bs as [|b bs IH]; intros f H; cbn [fold_left].
  - split; auto. split; auto. intros. apply rrel_eq_refl.
  - destruct (process_ready f b H) as (R & L & K). destruct (IH _ R) as (R' & L' & K').
    split; auto. split; [lia|]. intros E S W fuel args s.
    assert (E1 : effects (process_block f b) = effects f) by lia.
    specialize (K E1 S W fuel args s). specialize (K' ltac:(lia) S W fuel args s).
    destruct (call_fn W f fuel args s) as [x| | |]; cbn; auto; try discriminate.
    destruct K as (y & Ey & <-). rewrite Ey in K'. exact K'.
Qed.
Theorem local_cse_sim : forall f, cse_ready f -> effects (local_cse f) = effects f ->
  forall S (W : world S) fuel args s r,
    call_fn W f fuel args s = ROk r -> call_fn W (local_cse f) fuel args s = ROk r.
Proof.
  intros f H E S W fuel args s r Hr. destruct (process_all (seq 0 (length (f_blocks f))) f H) as (_ & _ & K).
  specialize (K E S W fuel args s). rewrite Hr in K. destruct K as (y & K & <-). exact K.
Qed.
Theorem local_cse_ready : forall f, cse_ready f -> cse_ready (local_cse f).
Proof. intros f H. apply (process_all (seq 0 (length (f_blocks f))) f H). Qed.
