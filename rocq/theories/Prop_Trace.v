(** Property C27: valid executions are provable, row by row. *)
From Coq Require Import ZArith Bool List Lia Permutation.
From Verif Require Import M31 M31Facts Abi Instr InstrFacts Isa Machine Air AirOpcodes AirSpec Adapter AdapterSpec AdapterFacts AdapterRun AdapterProps Trace TraceSpec
  TraceFacts TraceAll ProverSpec TraceRun.
Import ListNotations.
Open Scope Z_scope.

(** ** One instruction *)
(** The row generated for an executed instruction has the columns of its component,
    satisfies all constraints and lookups, moves the registers as the instruction does, and
    makes exactly the accesses the instruction makes; the log-up columns are those the
    constraints describe.  Missing: the two forms of u32 equality, see below. *)
Theorem C27_row_complete_partial : forall i f s e clk p ps c,
  executed f s i e clk p ps -> provable i = true -> component_of i = Some c ->
  let b := bundle_of f s i e clk p ps in
  faithful c (fill c 1 b) s clk (next e) (code_accs f (pc s) i p ++ data_accs f e ps) /\ same_logup c 1 b.
Proof. intros i f s e clk p ps c H Hp Hc. exact (all_complete i Hp f s e clk p ps c H Hc). Qed.
Print Assumptions C27_row_complete_partial.
(** Every instruction but the prints has a component. *)
Theorem C27_component_exists : forall i, (exists c, component_of i = Some c) \/ is_print i = true.
Proof. intros i. destruct i; cbn; eauto. Qed.
Print Assumptions C27_component_exists.

Ltac eq_example :=
  eexists; split; [split; cycle 3; [vm_compute; reflexivity
  | intros a Ha; cbn in Ha; repeat (destruct Ha as [<-|Ha]; [split; [reflexivity|unfold wf; vm_compute; split; [discriminate|reflexivity]]|]); destruct Ha
  | | repeat (apply Forall_cons; [unfold fresh_clock; lia|]); apply Forall_nil | reflexivity
  | unfold P; lia | split; unfold wf, P; cbn; lia | unfold iwf; cbn [operands]; repeat (apply Forall_cons; [unfold wf, P; lia|]); apply Forall_nil ] | reflexivity ].
(** A division of u32 values, 100000 / 7, at clock 5. *)
Definition div_flat : flat := fun a =>
  if a =? 3 then Q 18 0 2 4 else if a =? 4 then Q 6 0 0 0 else
  if a =? 20 then Q 34464 0 0 0 else if a =? 21 then Q 1 0 0 0 else if a =? 22 then Q 7 0 0 0 else qzero.
Example C27_row_example : exists e, executed div_flat (St 3 20) (U32StoreDivRemFpFp 0 2 4 6) e 5 1 [0; 0; 0; 0; 0; 0; 0; 0] /\
  map snd (writes e) = [14285; 0; 5; 0].
Proof.
  eq_example. exists 3%nat. vm_compute. reflexivity.
Qed.

(** Comparing two u32 values for equality: unless the result goes to the cell at the frame
    pointer itself, the row does not make the accesses of the instruction. *)
Theorem C27_eq_destination_refuted : forall f s a b d e clk p ps,
  executed f s (U32StoreEqFpFp a b d) e clk p ps -> d <> 0 ->
  ~ Permutation (tuples Memory (evaluate C_u32_store_eq_fp_fp
      (fill C_u32_store_eq_fp_fp 1 (bundle_of f s (U32StoreEqFpFp a b d) e clk p ps))))
    (mem_tuples clk (code_accs f (pc s) (U32StoreEqFpFp a b d) p ++ data_accs f e ps)).
Proof. exact eq_fp_fp_wrong. Qed.
Print Assumptions C27_eq_destination_refuted.
Definition eq_flat (i : instr) : flat := fun a =>
  if a =? 3 then Q (nth 0 (Instr.encode i) 0) (nth 1 (Instr.encode i) 0) (nth 2 (Instr.encode i) 0) (nth 3 (Instr.encode i) 0)
  else if a =? 4 then Q (nth 4 (Instr.encode i) 0) 0 0 0 else if a =? 20 then Q 7 0 0 0 else if a =? 22 then Q 7 0 0 0 else qzero.
Example C27_eq_destination_example : exists e,
  executed (eq_flat (U32StoreEqFpFp 0 2 4)) (St 3 20) (U32StoreEqFpFp 0 2 4) e 5 1 [0; 0; 0; 0; 0] /\ map snd (writes e) = [1].
Proof. eq_example. exists 0%nat. vm_compute. reflexivity. Qed.
(** Comparing a u32 value with an immediate: the log-up columns never match the constraints. *)
Theorem C27_eq_immediate_refuted : forall f s a lo hi d e clk p ps,
  executed f s (U32StoreEqFpImm a lo hi d) e clk p ps ->
  ~ same_logup C_u32_store_eq_fp_imm 1 (bundle_of f s (U32StoreEqFpImm a lo hi d) e clk p ps).
Proof. exact eq_fp_imm_wrong. Qed.
Print Assumptions C27_eq_immediate_refuted.
Example C27_eq_immediate_example : exists e,
  executed (eq_flat (U32StoreEqFpImm 0 7 0 4)) (St 3 20) (U32StoreEqFpImm 0 7 0 4) e 5 1 [0; 0; 0] /\ map snd (writes e) = [1].
Proof. eq_example. exists 3%nat. vm_compute. reflexivity. Qed.

(** ** Padding *)
(** Padding rows satisfy everything and contribute nothing to registers or memory. *)
Theorem C27_padding : forall c, let row := fill c 0 pad_bundle in
  length row = n_columns c /\ Forall wf row /\ satisfied (evaluate c row) /\
  (forall r, r = Registers \/ r = Memory -> Forall (fun t => fst t = 0) (tuples r (evaluate c row))) /\
  same_logup c 0 pad_bundle.
Proof. exact pad_facts. Qed.
Print Assumptions C27_padding.

(** ** A run *)
(** The rows made from the bundles the adapter produces for a run ([C21_adapter_reconstructs])
    are faithful, each to its instruction. *)
Theorem C27_run_rows_partial : forall ini f s ev f' s',
  eruns f s ev f' s' -> agrees ini f -> swf s -> (forall a, qwf (f a)) -> Z.of_nat (length ev) < P - 1 -> plain ini f ev ->
  let steps := hsteps ini [] 1 ev s' in
  map bundle_for steps = expected ini [] 1 ev /\ flat_map hs_ms steps = moves ini [] (timeline 1 ev) /\
  Forall (fun x => exists c, component_of (hs_i x) = Some c /\
    faithful c (fill c 1 (bundle_for x)) (hs_s x) (hs_clk x) (hs_t x) (map acc_of (hs_ms x)) /\ same_logup c 1 (bundle_for x)) steps.
Proof.
  intros ini f s ev f' s' He Ha Hs Hq Hl Hp steps. split; [apply hsteps_bundles|]. split; [apply hsteps_moves|].
  apply (run_rows ini f s ev f' s'); assumption.
Qed.
Print Assumptions C27_run_rows_partial.
(** So every row of every component is in order. *)
Theorem C27_traces_partial : forall ini f s ev f' s' c,
  eruns f s ev f' s' -> agrees ini f -> swf s -> (forall a, qwf (f a)) -> Z.of_nat (length ev) < P - 1 -> plain ini f ev ->
  Forall (fun row => length row = n_columns c /\ Forall wf row /\ satisfied (evaluate c row)) (trace_of c (expected ini [] 1 ev)).
Proof.
  intros ini f s ev f' s' c He Ha Hs Hq Hl Hp. pose proof (run_rows ini f s ev f' s' He Ha Hs Hq Hl Hp) as H.
  apply Forall_forall. intros row Hr. unfold trace_of in Hr. apply in_app_or in Hr. destruct Hr as [Hr|Hr].
  - apply in_map_iff in Hr. destruct Hr as (b & <- & Hb). apply filter_In in Hb. destruct Hb as [Hb Hm].
    rewrite <- (hsteps_bundles ini ev s') in Hb. apply in_map_iff in Hb. destruct Hb as (x & <- & Hx).
    rewrite Forall_forall in H. destruct (H x Hx) as (d & Ed & Hf & _).
    unfold mine, bundle_for in Hm. cbn [b_instr] in Hm. rewrite Ed in Hm. destruct (component_dec c d) as [->|]; [|discriminate Hm].
    split; [apply (fa_len _ _ _ _ _ _ Hf)|]. split; [apply (fa_wf _ _ _ _ _ _ Hf)|apply (fa_sat _ _ _ _ _ _ Hf)].
  - apply repeat_spec in Hr. subst row. destruct (pad_facts c) as (A & B & C & _). auto.
Qed.
Print Assumptions C27_traces_partial.
(** The number of rows: a power of two, at least 16, with room for all bundles. *)
Theorem C27_trace_size : forall c bs, exists k, 4 <= k /\ Z.of_nat (length (trace_of c bs)) = 2 ^ k /\
  (length (filter (mine c) bs) <= length (trace_of c bs))%nat.
Proof.
  intros c bs. unfold trace_of. rewrite app_length, map_length, repeat_length. set (n := length (filter (mine c) bs)).
  pose proof (Z.log2_up_nonneg (Z.of_nat n)) as L0.
  assert (Hle : (n <= n_rows n)%nat).
  { unfold n_rows. destruct n as [|[|n]]; [lia|lia|]. pose proof (Z.log2_up_spec (Z.of_nat (Datatypes.S (Datatypes.S n))) ltac:(lia)) as H. lia. }
  replace (n + (n_rows n - n))%nat with (n_rows n) by lia.
  exists (Z.max 4 (Z.log2_up (Z.of_nat n))). split; [lia|]. split; [|exact Hle]. unfold n_rows.
  destruct (Z.le_gt_cases (Z.log2_up (Z.of_nat n)) 4) as [H|H].
  - rewrite Z.max_l by lia. pose proof (Z.pow_le_mono_r 2 _ _ eq_refl H). change (2 ^ 4) with 16 in *. lia.
  - rewrite Z.max_r by lia. pose proof (Z.pow_le_mono_r 2 4 (Z.log2_up (Z.of_nat n)) eq_refl ltac:(lia)). change (2 ^ 4) with 16 in *. lia.
Qed.
Print Assumptions C27_trace_size.

(** A run of three instructions that meets the conditions. *)
Definition show_flat : flat := fun a =>
  if a =? 0 then Q 9 7 0 0 else if a =? 1 then Q 4 0 3 1 else if a =? 2 then Q 10 2 4 0 else qzero.
Definition show_ev : list event :=
  [(St 0 13, StoreImm 7 0, [(0, Q 9 7 0 0); (13, Q 7 0 0 0)]);
   (St 1 13, StoreAddFpImm 0 3 1, [(1, Q 4 0 3 1); (13, Q 7 0 0 0); (14, Q 10 0 0 0)]);
   (St 2 13, CallAbsImm 2 4, [(2, Q 10 2 4 0); (15, Q 13 0 0 0); (16, Q 3 0 0 0)])].
Ltac show :=
    split; [eexists; vm_compute; reflexivity|]; eexists; split; [vm_compute; reflexivity|];
    cbn [reads peeks writes next fp pc app In fst snd];
    split; [intros a Ha; repeat (destruct Ha as [<-|Ha]; [split; reflexivity|]); destruct Ha|];
    split; [intros w Hw; repeat (destruct Hw as [<-|Hw]; [reflexivity|]); destruct Hw|];
    split; [reflexivity|split; [intros a; reflexivity|vm_compute; reflexivity]].
Lemma show_run : eruns show_flat (St 0 13) show_ev
  (upds show_flat [(13, Q 7 0 0 0); (14, Q 10 0 0 0); (15, Q 13 0 0 0); (16, Q 3 0 0 0)]) (St 4 17).
Proof.
  econstructor; [show|]. econstructor; [show|]. econstructor; [show|]. constructor. intros a. reflexivity.
Qed.
Example C27_run_example : let ini := fun a => Some (show_flat a) in
  exists f', eruns show_flat (St 0 13) show_ev f' (St 4 17) /\ agrees ini show_flat /\ swf (St 0 13) /\
  (forall a, qwf (show_flat a)) /\ Z.of_nat (length show_ev) < P - 1 /\ plain ini show_flat show_ev.
Proof.
  intros ini. eexists. split; [exact show_run|]. split; [intros a v E; injection E as <-; reflexivity|].
  split; [split; unfold wf, P; cbn; lia|]. split.
  { intros a. unfold show_flat. destruct (a =? 0); [|destruct (a =? 1); [|destruct (a =? 2)]]; repeat split; unfold P; cbn; lia. }
  split; [reflexivity|]. split.
  - repeat constructor.
  - repeat (apply Forall_cons; [cbn [map fst ev_log snd]; repeat (constructor; [cbn; lia|]); constructor|]). constructor.
  - apply Forall_forall. intros x Hx Hg. exfalso. pose proof (timeline_bound _ _ _ _ _ Hx) as H1. cbn [length show_ev] in H1.
    destruct (timeline_order _ show_ev eq_refl x Hx) as [H2 _]. clear Hx. unfold GAP in *. lia.
  - repeat (apply Forall_cons; [first [exists 0%nat; reflexivity | exists 1%nat; reflexivity]|]). constructor.
  - intros e1 e2 a H1 H2. unfold show_ev in H1, H2. cbn [In] in H1, H2.
    repeat (destruct H1 as [<-|H1]; [repeat (destruct H2 as [<-|H2]; [cbn [ev_code ev_log ev_state ev_instr fst snd map In]; cbn; intros A B; first [reflexivity|exfalso; lia]|]); destruct H2|]). destruct H1.
  - repeat (apply Forall_cons; [repeat constructor|]). constructor.
Qed.
