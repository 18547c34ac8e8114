(** Properties C05-C14: the virtual machine. *)
From Coq Require Import ZArith Bool List Lia.
From Verif Require Import M31 M31Facts Instr InstrFacts VmMem VmMemFacts Vm Isa IsaFacts Machine VmFacts
  RunFacts LoadFacts MemSpec VmPropFacts ArithFacts.
Import ListNotations.
Open Scope Z_scope.

(** A small program used in the examples: compute 10, call a function, store a u32. *)
Definition demo : list pdata :=
  [PInstr (StoreImm 7 0); PInstr (StoreAddFpImm 0 3 1); PInstr (CallAbsImm 2 4); PInstr Ret;
   PInstr (U32StoreImm 65535 1 0); PInstr (U32StoreAddFpImm 0 1 0 2); PInstr Ret].
Definition demo_vm : vm := fst (prepare (load demo) 0 5 [42] 2).
Lemma demo_ok : vok (load demo).
Proof.
  apply load_ok; [|vm_compute; discriminate].
  repeat (apply Forall_cons; [cbn; unfold iwf; cbn; repeat (apply Forall_cons; [split; [intros H; discriminate H|reflexivity]|]); apply Forall_nil|]).
  apply Forall_nil.
Qed.
Lemma demo_fresh : fresh demo_vm.
Proof.
  destruct (prepare_spec (load demo) 0 5 [42] 2) as (v' & E & Hf & _).
  - apply demo_ok.
  - reflexivity.
  - reflexivity.
  - reflexivity.
  - split; [discriminate|reflexivity].
  - constructor; [split; [discriminate|reflexivity]|constructor].
  - split; [discriminate|reflexivity].
  - discriminate.
  - lia.
  - vm_compute; discriminate.
  - vm_compute; discriminate.
  - vm_compute; discriminate.
  - unfold demo_vm. rewrite E. exact Hf.
Qed.

(** ** C05: access counts *)
Theorem C05_access_counts : forall v v' i,
  vok v -> step v = (v', None) ->
  instr_at (raw (v_mem v)) (pc (v_st v)) i -> is_print i = false ->
  zlen (mtrace (v_mem v')) = zlen (mtrace (v_mem v)) + size_qm31 i + memory_accesses i.
Proof. exact step_log_length. Qed.
Print Assumptions C05_access_counts.
(** The print instructions announce accesses that are not logged. *)
Theorem C05_print_refuted :
  let v := load [PInstr (PrintM31 0)] in
  exists v', step v = (v', None) /\ memory_accesses (PrintM31 0) = 1 /\
    zlen (mtrace (v_mem v')) = zlen (mtrace (v_mem v)) + size_qm31 (PrintM31 0).
Proof. eexists. repeat split. Qed.
Print Assumptions C05_print_refuted.
Example C05_example : exists v', step demo_vm = (v', None) /\ zlen (mtrace (v_mem v')) = 0 + 1 + 1.
Proof. eexists. split; reflexivity. Qed.

(** ** C06: one flat map *)
Theorem C06_memory_is_a_map : forall ops m,
  minv_ok m ->
  Forall (fun o => match o with MRead a => 0 <= a | MWrite a _ => 0 <= a end) ops ->
  fst (mem_ops m ops) = map Some (fst (map_ops (raw m) ops)) /\
  forall a, raw (snd (mem_ops m ops)) a = snd (map_ops (raw m) ops) a.
Proof.
  intros ops m Hm Ho. destruct (mem_ops_refine ops m (raw m) Hm (fun a => eq_refl) Ho) as (H1 & H2 & _).
  split; assumption.
Qed.
Print Assumptions C06_memory_is_a_map.
(** The fresh memory and any memory holding a program of at most 2^28 words qualify, and
    every operation keeps the condition. *)
Theorem C06_invariant : forall p ops,
  zlen (flat_map pwords p) <= ADDRS ->
  Forall (fun o => match o with MRead a => 0 <= a | MWrite a _ => 0 <= a end) ops ->
  minv_ok (snd (mem_ops (v_mem (load p)) ops)).
Proof.
  intros p ops Hp Ho.
  assert (Hm : minv_ok (v_mem (load p))).
  { unfold minv_ok. change (zlen (heap (v_mem (load p)))) with 0. rewrite Z.add_0_r.
    change (zlen (locals (v_mem (load p)))) with (zlen (flat_map pwords p)). unfold ADDRS, MAX_ADDRESS in *. lia. }
  apply (mem_ops_refine ops _ (raw (v_mem (load p))) Hm (fun a => eq_refl) Ho).
Qed.
Print Assumptions C06_invariant.
Example C06_example :
  fst (mem_ops (Mem [] [] []) [MWrite 268435455 (qofm 5); MWrite 3 (qofm 6); MRead 268435455; MRead 3; MRead 7; MWrite 268435456 qzero])
  = [Some ODone; Some ODone; Some (OVal 5); Some (OVal 6); Some (OVal 0); Some (OOutOfBounds 268435456)].
Proof. reflexivity. Qed.

(** ** C10: each step is a step of the flat machine, and conversely *)
Theorem C10_step_effect : forall v v',
  vok v -> step v = (v', None) ->
  vok v' /\
  exists i lg, fstep (raw (v_mem v)) (v_st v) i (raw (v_mem v')) (v_st v') lg.
Proof.
  intros v v' Hv Hs. destruct (step_ok v v' Hv Hs) as (i & lg & Hf & _ & Hv' & _). split; [exact Hv'|eauto].
Qed.
Print Assumptions C10_step_effect.
(** Conversely, whenever the flat machine can execute the instruction at [pc] (and its
    words were stored below the VM's program/stack limit), the VM does. *)
Theorem C10_step_complete : forall v i f' s' lg,
  vok v -> fstep (raw (v_mem v)) (v_st v) i f' s' lg ->
  (forall b, In b (code_addrs (pc (v_st v)) i) -> 0 <= b < zlen (locals (v_mem v))) ->
  exists v', step v = (v', None) /\ v_st v' = s' /\ forall b, raw (v_mem v') b = f' b.
Proof. exact step_complete. Qed.
Print Assumptions C10_step_complete.
(** The flat machine is deterministic. *)
Theorem C10_deterministic : forall f s i f1 s1 l1 j f2 s2 l2,
  fstep f s i f1 s1 l1 -> fstep f s j f2 s2 l2 ->
  i = j /\ s1 = s2 /\ l1 = l2 /\ forall a, f1 a = f2 a.
Proof.
  intros f s i f1 s1 l1 j f2 s2 l2 (A & e & E & _ & _ & S1 & F1 & L1) (A' & e' & E' & _ & _ & S2 & F2 & L2).
  assert (i = j) by (eapply instr_at_unique; eassumption). subst j. rewrite E in E'. injection E' as <-.
  split; [reflexivity|]. split; [congruence|]. split; [congruence|]. intros a. rewrite F1, F2. reflexivity.
Qed.
Print Assumptions C10_deterministic.
Example C10_example : vok demo_vm /\ exists v', step demo_vm = (v', None) /\ raw (v_mem v') 13 = qofm 7 /\ v_st v' = St 1 13.
Proof. split; [apply demo_fresh|]. eexists. repeat split. Qed.

(** ** C07: the log *)
Theorem C07_trace_faithful : forall n v v',
  vok v -> steps n v v' ->
  exists tr lg,
    fruns (raw (v_mem v)) (v_st v) tr lg (raw (v_mem v')) (v_st v') /\
    length tr = n /\
    v_trace v' = v_trace v ++ map fst tr /\
    mtrace (v_mem v') = mtrace (v_mem v) ++ map (fun x => En (fst x) (snd x)) lg /\
    (forall a, upds (raw (v_mem v)) lg a = raw (v_mem v') a).
Proof.
  intros n v v' Hv Hs. destruct (steps_fruns n v v' Hv Hs) as (tr & lg & Hf & _ & Hn & Ht & Hm).
  exists tr, lg. repeat split; try assumption. exact (fruns_replay _ _ _ _ _ _ Hf).
Qed.
Print Assumptions C07_trace_faithful.
(** Around the k-th instruction the log splits; its reads show what replaying the
    earlier part of the log leaves in the cell. *)
Theorem C07_reads_show_replayed_content : forall f s tr1 sk i tr2 lg f' s',
  fruns f s (tr1 ++ (sk, i) :: tr2) lg f' s' ->
  exists l1 lk l2 fk f1 s1 e,
    lg = l1 ++ lk ++ l2 /\ (forall a, fk a = upds f l1 a) /\
    fstep fk sk i f1 s1 lk /\ isa i (fun a => q0 (fk a)) sk = Some e /\
    lk = seen fk (code_addrs (pc sk) i) ++ seen fk (reads e) ++ stored (writes e).
Proof.
  intros f s tr1 sk i tr2 lg f' s' H.
  destruct (fruns_split tr1 _ _ _ _ _ _ _ _ H) as (l1 & lk & l2 & fk & f1 & s1 & _ & B & _ & D & E).
  destruct B as (B1 & e & B2 & B3). exists l1, lk, l2, fk, f1, s1, e.
  split; [exact D|]. split; [exact E|]. split; [split; [exact B1|exists e; auto]|]. split; [exact B2|]. apply B3.
Qed.
Print Assumptions C07_reads_show_replayed_content.
Example C07_example : exists v', steps 7 demo_vm v' /\ zlen (mtrace (v_mem v')) = 23.
Proof.
  eexists. split; [|].
  - do 7 (eapply steps_S; [vm_compute; reflexivity|]). apply steps_0.
  - reflexivity.
Qed.

(** ** C08: u32 arithmetic *)
Theorem C08_u32_memory_operands : forall i a b d op s m x y,
  u32_fp_fp i = Some (a, b, d, op) -> okwf s i m ->
  u32_at (raw m) (at_ s a) x -> u32_at (raw m) (at_ s b) y -> room (at_ s d) 2 ->
  exists m', exec i s m = (m', Ok (St ((pc s + 1) mod P) (fp s))) /\
    u32_at (raw m') (at_ s d) (op x y) /\
    forall c, c <> at_ s d -> c <> at_ s d + 1 -> raw m' c = raw m c.
Proof. exact u32_fp_fp_ok. Qed.
Print Assumptions C08_u32_memory_operands.
Theorem C08_u32_immediate_operand : forall i a lo hi d op s m x,
  u32_fp_imm i = Some (a, lo, hi, d, op) -> okwf s i m ->
  lo < 65536 -> hi < 65536 ->
  u32_at (raw m) (at_ s a) x -> room (at_ s d) 2 ->
  exists m', exec i s m = (m', Ok (St ((pc s + 2) mod P) (fp s))) /\
    u32_at (raw m') (at_ s d) (op x (lo + 65536 * hi)) /\
    forall c, c <> at_ s d -> c <> at_ s d + 1 -> raw m' c = raw m c.
Proof. exact u32_fp_imm_ok. Qed.
Print Assumptions C08_u32_immediate_operand.
Theorem C08_u32_comparison : forall i a b d op s m x y,
  u32_cmp2 i = Some (a, b, d, op) -> okwf s i m ->
  u32_at (raw m) (at_ s a) x -> u32_at (raw m) (at_ s b) y -> room (at_ s d) 1 ->
  exists m', exec i s m = (m', Ok (St ((pc s + 1) mod P) (fp s))) /\
    felt_at (raw m') (at_ s d) (if op x y then 1 else 0) /\
    forall c, c <> at_ s d -> raw m' c = raw m c.
Proof. exact u32_cmp2_ok. Qed.
Print Assumptions C08_u32_comparison.
Theorem C08_u32_comparison_immediate : forall i a lo hi d op s m x,
  u32_cmp1 i = Some (a, lo, hi, d, op) -> okwf s i m ->
  lo < 65536 -> hi < 65536 ->
  u32_at (raw m) (at_ s a) x -> room (at_ s d) 1 ->
  exists m', exec i s m = (m', Ok (St ((pc s + 2) mod P) (fp s))) /\
    felt_at (raw m') (at_ s d) (if op x (lo + 65536 * hi) then 1 else 0) /\
    forall c, c <> at_ s d -> raw m' c = raw m c.
Proof. exact u32_cmp1_ok. Qed.
Print Assumptions C08_u32_comparison_immediate.
Theorem C08_u32_division : forall a b d r s m x y,
  okwf s (U32StoreDivRemFpFp a b d r) m ->
  u32_at (raw m) (at_ s a) x -> u32_at (raw m) (at_ s b) y ->
  room (at_ s d) 2 -> room (at_ s r) 2 -> apart (at_ s d) (at_ s r) -> y <> 0 ->
  exists m', exec (U32StoreDivRemFpFp a b d r) s m = (m', Ok (St ((pc s + 2) mod P) (fp s))) /\
    u32_at (raw m') (at_ s d) (x / y) /\ u32_at (raw m') (at_ s r) (x mod y) /\
    forall c, c <> at_ s d -> c <> at_ s d + 1 -> c <> at_ s r -> c <> at_ s r + 1 -> raw m' c = raw m c.
Proof. exact u32_div_ok. Qed.
Print Assumptions C08_u32_division.
Theorem C08_u32_division_immediate : forall a lo hi d r s m x,
  okwf s (U32StoreDivRemFpImm a lo hi d r) m -> lo < 65536 -> hi < 65536 ->
  u32_at (raw m) (at_ s a) x ->
  room (at_ s d) 2 -> room (at_ s r) 2 -> apart (at_ s d) (at_ s r) -> lo + 65536 * hi <> 0 ->
  exists m', exec (U32StoreDivRemFpImm a lo hi d r) s m = (m', Ok (St ((pc s + 2) mod P) (fp s))) /\
    u32_at (raw m') (at_ s d) (x / (lo + 65536 * hi)) /\ u32_at (raw m') (at_ s r) (x mod (lo + 65536 * hi)) /\
    forall c, c <> at_ s d -> c <> at_ s d + 1 -> c <> at_ s r -> c <> at_ s r + 1 -> raw m' c = raw m c.
Proof. exact u32_div_imm_ok. Qed.
Print Assumptions C08_u32_division_immediate.
Theorem C08_u32_constant : forall lo hi d s m,
  okwf s (U32StoreImm lo hi d) m -> lo < 65536 -> hi < 65536 -> room (at_ s d) 2 ->
  exists m', exec (U32StoreImm lo hi d) s m = (m', Ok (St ((pc s + 1) mod P) (fp s))) /\
    u32_at (raw m') (at_ s d) (lo + 65536 * hi) /\
    forall c, c <> at_ s d -> c <> at_ s d + 1 -> raw m' c = raw m c.
Proof. exact u32_imm_ok. Qed.
Print Assumptions C08_u32_constant.
(** Never a wrong result: out-of-range limbs and division by zero are errors. *)
Theorem C08_limb_errors : forall i s m o,
  okwf s i m -> In o (u32_operands i) ->
  65536 <= q0 (raw m (at_ s o)) \/ 65536 <= q0 (raw m ((at_ s o + 1) mod P)) ->
  exists m' er, exec i s m = (m', Err er) /\ forall b, raw m' b = raw m b.
Proof. exact u32_bad_operand. Qed.
Print Assumptions C08_limb_errors.
Theorem C08_immediate_limb_errors : forall i s m lo hi,
  okwf s i m -> u32_immediate i = Some (lo, hi) -> 65536 <= lo \/ 65536 <= hi ->
  exists m' er, exec i s m = (m', Err er) /\ forall b, raw m' b = raw m b.
Proof. exact u32_bad_imm. Qed.
Print Assumptions C08_immediate_limb_errors.
Theorem C08_division_by_zero : forall a b d r s m,
  okwf s (U32StoreDivRemFpFp a b d r) m -> u32_at (raw m) (at_ s b) 0 ->
  exists m' er, exec (U32StoreDivRemFpFp a b d r) s m = (m', Err er) /\ forall c, raw m' c = raw m c.
Proof. exact u32_div_zero. Qed.
Print Assumptions C08_division_by_zero.
Theorem C08_division_by_zero_immediate : forall a d r s m,
  okwf s (U32StoreDivRemFpImm a 0 0 d r) m ->
  exists m' er, exec (U32StoreDivRemFpImm a 0 0 d r) s m = (m', Err er) /\ forall c, raw m' c = raw m c.
Proof. exact u32_div_imm_zero. Qed.
Print Assumptions C08_division_by_zero_immediate.
(** Without [apart] the statement fails: equal destinations lose the quotient. *)
Theorem C08_division_overlap_refuted :
  let m := Mem [qofm 7; qofm 0; qofm 2; qofm 0] [] [] in
  exists m', exec (U32StoreDivRemFpFp 0 2 4 4) (St 0 0) m = (m', Ok (St 2 0)) /\
    u32_at (raw m) 0 7 /\ u32_at (raw m) 2 2 /\ ~ u32_at (raw m') 4 (7 / 2).
Proof.
  eexists. split; [reflexivity|]. split; [vm_compute; repeat split; discriminate|].
  split; [vm_compute; repeat split; discriminate|]. intros H. vm_compute in H.
  destruct H as (_ & _ & _ & H & _). discriminate H.
Qed.
Print Assumptions C08_division_overlap_refuted.
Example C08_example :
  let m := Mem [qofm 65535; qofm 65535; qofm 2; qofm 0] [] [] in
  u32_at (raw m) 0 4294967295 /\ u32_at (raw m) 2 2 /\
  exists m', exec (U32StoreAddFpFp 0 2 4) (St 0 0) m = (m', Ok (St 1 0)) /\ raw m' 4 = qofm 1 /\ raw m' 5 = qofm 0.
Proof.
  cbn zeta. split; [vm_compute; repeat split; discriminate|]. split; [vm_compute; repeat split; discriminate|].
  eexists. repeat split.
Qed.

(** ** C09: felt arithmetic *)
Theorem C09_felt_operations : forall i a b d R s m x y,
  felt_fp_fp i = Some (a, b, d, R) -> okwf s i m ->
  felt_at (raw m) (at_ s a) x -> felt_at (raw m) (at_ s b) y -> at_ s d < ADDRS ->
  (opcode i = 3 -> y <> 0) ->
  exists m' z, exec i s m = (m', Ok (St ((pc s + 1) mod P) (fp s))) /\
    0 <= z < P /\ R x y z /\ felt_at (raw m') (at_ s d) z /\
    forall c, c <> at_ s d -> raw m' c = raw m c.
Proof. exact felt_fp_fp_ok. Qed.
Print Assumptions C09_felt_operations.
Theorem C09_felt_immediate_operations : forall i a imm d op s m x,
  felt_fp_imm i = Some (a, imm, d, op) -> okwf s i m ->
  felt_at (raw m) (at_ s a) x -> at_ s d < ADDRS ->
  exists m', exec i s m = (m', Ok (St ((pc s + 1) mod P) (fp s))) /\
    felt_at (raw m') (at_ s d) (op x imm) /\
    forall c, c <> at_ s d -> raw m' c = raw m c.
Proof. exact felt_fp_imm_ok. Qed.
Print Assumptions C09_felt_immediate_operations.
(** The quotient is the only field element with that property. *)
Theorem C09_quotient_unique : forall x y z z',
  0 <= y < P -> y <> 0 -> 0 <= z < P -> 0 <= z' < P ->
  (z * y) mod P = x -> (z' * y) mod P = x -> z = z'.
Proof.
  intros x y z z' Hy Hn Hz Hz' E E'. rewrite <- (Z.mod_small z P), <- (Z.mod_small z' P) by assumption.
  apply (mul_cancel z z' y); [rewrite Z.mod_small; assumption|congruence].
Qed.
Print Assumptions C09_quotient_unique.
Theorem C09_division_by_zero : forall a b d s m,
  okwf s (StoreDivFpFp a b d) m -> felt_at (raw m) (at_ s b) 0 ->
  exists m' er, exec (StoreDivFpFp a b d) s m = (m', Err er) /\ forall c, raw m' c = raw m c.
Proof. exact felt_div_zero. Qed.
Print Assumptions C09_division_by_zero.
(** ... but the error is a panic of the process, not a reported VM error. *)
Theorem C09_division_by_zero_panics : 
  snd (exec (StoreDivFpFp 0 1 2) (St 0 0) (Mem [qofm 5; qofm 0] [] [])) = Err EPanic.
Proof. reflexivity. Qed.
Print Assumptions C09_division_by_zero_panics.
Example C09_example :
  let r := exec (StoreDivFpFp 0 1 2) (St 0 0) (Mem [qofm 1; qofm 2] [] []) in
  snd r = Ok (St 1 0) /\ raw (fst r) 2 = qofm 1073741824.
Proof. split; vm_compute; reflexivity. Qed.

(** ** C11: call and return *)
Theorem C11_call_return : forall v0 v1 v2 v3 n off t,
  vok v0 ->
  instr_at (raw (v_mem v0)) (pc (v_st v0)) (CallAbsImm off t) ->
  step v0 = (v1, None) ->
  steps n v1 v2 ->
  fp (v_st v2) = fp (v_st v1) ->
  raw (v_mem v2) ((fp (v_st v1) - 1) mod P) = raw (v_mem v1) ((fp (v_st v1) - 1) mod P) ->
  raw (v_mem v2) ((fp (v_st v1) - 2) mod P) = raw (v_mem v1) ((fp (v_st v1) - 2) mod P) ->
  instr_at (raw (v_mem v2)) (pc (v_st v2)) Ret ->
  step v2 = (v3, None) ->
  v_st v1 = St t ((fp (v_st v0) + off + 2) mod P) /\
  v_st v3 = St ((pc (v_st v0) + 1) mod P) (fp (v_st v0)).
Proof.
  intros v0 v1 v2 v3 n off t Hv Hc H1 Hn Hfp E1 E2 Hr H3.
  destruct (step_ok _ _ Hv H1) as (i & l1 & F1 & _ & Hv1 & _).
  assert (i = CallAbsImm off t) by (eapply instr_at_unique; [apply F1|exact Hc]). subst i.
  destruct (steps_fruns _ _ _ Hv1 Hn) as (tr & lg & _ & Hv2 & _).
  destruct (step_ok _ _ Hv2 H3) as (j & l3 & F3 & _).
  assert (j = Ret) by (eapply instr_at_unique; [apply F3|exact Hr]). subst j.
  split.
  - destruct F1 as (_ & e & E & _ & _ & -> & _). cbn [isa] in E. injection E as <-. reflexivity.
  - eapply call_ret; [apply Hv|exact F1|exact Hfp|exact E1|exact E2|exact F3].
Qed.
Print Assumptions C11_call_return.
(** It is enough that the callee's log does not mention the two saved cells. *)
Theorem C11_untouched_cells_keep : forall n v v' a,
  vok v -> steps n v v' ->
  (exists l, mtrace (v_mem v') = mtrace (v_mem v) ++ l /\ ~ In a (map e_addr l)) ->
  raw (v_mem v') a = raw (v_mem v) a.
Proof.
  intros n v v' a Hv Hs (l & Hl & Hn).
  destruct (steps_fruns _ _ _ Hv Hs) as (tr & lg & Hf & _ & _ & _ & Hm).
  eapply fruns_notin; [exact Hf|]. rewrite Hl in Hm. apply app_inv_head in Hm. subst l.
  intros Hi. apply Hn. unfold acc_log. rewrite map_map. exact Hi.
Qed.
Print Assumptions C11_untouched_cells_keep.
Example C11_example : exists v0 v1 v2 v3,
  steps 2 demo_vm v0 /\ step v0 = (v1, None) /\ steps 2 v1 v2 /\ step v2 = (v3, None) /\
  v_st v0 = St 2 13 /\ v_st v1 = St 4 17 /\ v_st v3 = St 3 13.
Proof.
  do 4 eexists. split; [do 2 (eapply steps_S; [vm_compute; reflexivity|]); apply steps_0|].
  split; [vm_compute; reflexivity|].
  split; [do 2 (eapply steps_S; [vm_compute; reflexivity|]); apply steps_0|].
  split; [vm_compute; reflexivity|]. repeat split.
Qed.

(** ** C12: failing instructions *)
Theorem C12_failure_keeps_registers : forall v v' er,
  vok v -> step v = (v', Some er) ->
  v_st v' = v_st v /\ vok v' /\
  (forall b, raw (v_mem v') b = raw (v_mem v) b) \/
  exists i e, instr_at (raw (v_mem v)) (pc (v_st v)) i /\
    isa i (fun a => q0 (raw (v_mem v) a)) (v_st v) = Some e /\
    v_st v' = v_st v /\ vok v' /\
    exists done_ rest, writes e = done_ ++ rest /\
      (forall b, raw (v_mem v') b = upds (raw (v_mem v)) (stored done_) b).
Proof. exact step_err. Qed.
Print Assumptions C12_failure_keeps_registers.
(** In particular every cell that is not a destination keeps its content. *)
Theorem C12_other_cells_kept : forall v v' er b,
  vok v -> step v = (v', Some er) ->
  (forall i e, instr_at (raw (v_mem v)) (pc (v_st v)) i ->
     isa i (fun a => q0 (raw (v_mem v) a)) (v_st v) = Some e -> ~ In b (map fst (writes e))) ->
  v_st v' = v_st v /\ raw (v_mem v') b = raw (v_mem v) b.
Proof.
  intros v v' er b Hv Hs Hb. destruct (step_err v v' er Hv Hs) as [(H1 & _ & H2)|(i & e & H1 & H2 & H3 & _ & dn & rs & H4 & H5)].
  - split; [exact H1|apply H2].
  - split; [exact H3|]. rewrite H5. apply upds_notin. intros Hi. apply (Hb i e H1 H2).
    rewrite H4, map_app. apply in_or_app. left. unfold stored in Hi. rewrite map_map in Hi. exact Hi.
Qed.
Print Assumptions C12_other_cells_kept.
Example C12_example :
  let v := load [PInstr (AssertEqFpImm 0 1)] in
  exists v', step v = (v', Some (EInstr (AssertionFailed 0 1))) /\ v_st v' = v_st v.
Proof. eexists. split; reflexivity. Qed.

(** ** C13: segmentation *)
Theorem C13_segmented_is_unsegmented : forall fuel sfuel k v v',
  1 <= k -> fresh v -> v_segs v = [] -> seg_loop fuel sfuel k v = (v', LOk tt) ->
  exists n w, (forall K, Z.of_nat n < K -> execute n K v = (w, LOk Complete)) /\
    v_st v' = v_st w /\ (forall a, raw (v_mem v') a = raw (v_mem w) a) /\
    join (map seg_trace (v_segs v')) = v_trace w /\
    concat (map seg_mtrace (v_segs v')) = mtrace (v_mem w) /\
    chain (raw (v_mem v)) (v_st v) (v_segs v') (raw (v_mem v')) (v_st v') /\
    (forall sg, In sg (v_segs v') -> zlen (seg_trace sg) <= k + 1).
Proof.
  intros fuel sfuel k v v' Hk Hv Hsg Hrun.
  destruct (seg_loop_ok _ _ _ _ _ Hk Hv Hrun) as (n & u & news & Hr & Hp & H1 & _ & H2 & H3 & H4 & H5 & H6 & H7 & H8).
  rewrite Hsg in H1. cbn [app] in H1. rewrite H1.
  exists n, (push_trace u (v_st u)). split.
  - intros K HK. destruct Hv as (_ & Htr & _ & _ & _ & Hfin). unfold execute.
    destruct (Z.eqb_spec (v_final v) 0); [contradiction|].
    assert (Ht := run_to_trace _ _ _ Hr). rewrite Htr in Ht. change (zlen (@nil state)) with 0 in Ht.
    rewrite (exec_loop_run _ _ _ _ _ Hr) by lia. rewrite exec_loop_stop by (left; exact Hp).
    destruct (Z.eqb_spec (pc (v_st u)) (v_final u)); [reflexivity|contradiction].
  - repeat split; try assumption.
    intros a. unfold raw. rewrite H3, H4. reflexivity.
Qed.
Print Assumptions C13_segmented_is_unsegmented.
(** Conversely an unlimited run that ends (or fails) does so under every positive limit. *)
Theorem C13_unsegmented_is_segmented : forall n K v w r fuel sfuel k,
  fresh v -> Z.of_nat n < K -> execute n K v = (w, r) ->
  1 <= k -> (n < fuel)%nat -> (n < sfuel)%nat ->
  match r with
  | LOk st => st = Complete /\ exists v', seg_loop fuel sfuel k v = (v', LOk tt)
  | LErr e => exists v', seg_loop fuel sfuel k v = (v', LErr e) /\ v_st v' = v_st w /\
      (forall a, raw (v_mem v') a = raw (v_mem w) a)
  | OutOfFuel => True
  end.
Proof.
  intros n K v w r fuel sfuel k Hv HK He Hk Hf Hsf.
  assert (Hv' := Hv). destruct Hv' as (_ & Htr & _ & _ & _ & Hfin).
  destruct r as [st|e|]; [| |exact I].
  - destruct (execute_ok _ _ _ _ _ Hfin He) as (n0 & u & Hn & Hr & -> & Hkk & Hp).
    assert (Ht := run_to_trace _ _ _ Hr). rewrite Htr in Ht. change (zlen (@nil state)) with 0 in Ht.
    destruct st; [|lia].
    split; [reflexivity|]. apply (seg_loop_run _ _ _ Hr Hv fuel sfuel k); solve [lia|exact Hp].
  - unfold execute in He. destruct (Z.eqb_spec (v_final v) 0) as [|_]; [contradiction|].
    destruct (exec_loop n K v) as [w0 [u0|e0|]] eqn:E; try discriminate. injection He as <- <-.
    destruct (exec_loop_err _ _ _ _ _ E) as (n0 & u & Hn & Hr & Hp & _ & Hs).
    destruct (seg_loop_run _ _ _ Hr Hv fuel sfuel k) as [_ HE]; [lia|lia|lia|].
    destruct (HE _ _ Hp Hs) as (v' & Hx & Hy & Hz1 & Hz2). exists v'. split; [exact Hx|]. split; [exact Hy|].
    intros a. unfold raw. rewrite Hz1, Hz2. reflexivity.
Qed.
Print Assumptions C13_unsegmented_is_segmented.
(** The limit must be positive: with limit 0 the segment loop never ends. *)
Theorem C13_zero_limit_diverges : forall fuel sfuel v,
  v_final v <> 0 -> pc (v_st v) <> v_final v -> snd (seg_loop fuel sfuel 0 v) = OutOfFuel.
Proof. exact seg_loop_zero. Qed.
Print Assumptions C13_zero_limit_diverges.
Example C13_example : fresh demo_vm /\
  (exists v', seg_loop 10 100 3 demo_vm = (v', LOk tt) /\ map (fun s => zlen (seg_trace s)) (v_segs v') = [4; 4; 2]) /\
  (exists w, execute 100 1000 demo_vm = (w, LOk Complete) /\ zlen (v_trace w) = 8).
Proof. split; [apply demo_fresh|]. split; eexists; split; vm_compute; reflexivity. Qed.

(** ** C14: completion *)
Theorem C14_stops_at_end : forall fuel K v v',
  vok v -> v_final v <> 0 -> v_trace v = [] -> execute fuel K v = (v', LOk Complete) ->
  exists tr lg, fruns (raw (v_mem v)) (v_st v) tr lg (raw (v_mem v')) (v_st v') /\
    v_trace v' = map fst tr ++ [v_st v'] /\ pc (v_st v') = v_final v /\
    Forall (fun s => pc s <> v_final v) (map fst tr) /\ Z.of_nat (length tr) <= Z.max 0 K.
Proof.
  intros fuel K v v' Hv Hf Ht He.
  destruct (execute_ok _ _ _ _ _ Hf He) as (n & u & Hn & Hr & -> & Hk & Hp).
  destruct (run_to_fruns _ _ _ Hv Hr) as (tr & lg & H1 & H2 & H3 & H4 & H5 & _ & H6 & _).
  destruct (run_to_nonfinal _ _ _ Hr) as (T & T1 & T2 & T3).
  rewrite Ht in *. cbn [app] in *. exists tr, lg. split; [exact H1|].
  split; [cbn; rewrite H4; reflexivity|]. split; [cbn; congruence|].
  split; [rewrite <- H4, T1; exact T3|].
  destruct Hk as [->|Hk]; [lia|]. rewrite H4 in Hk. unfold zlen in Hk. rewrite map_length in Hk. lia.
Qed.
Print Assumptions C14_stops_at_end.
(** A run cut by the limit has executed exactly the limit and is not at the end. *)
Theorem C14_ongoing : forall fuel K v v',
  vok v -> v_final v <> 0 -> v_trace v = [] -> 0 <= K -> execute fuel K v = (v', LOk Ongoing) ->
  pc (v_st v') <> v_final v /\ zlen (v_trace v') = K + 1.
Proof.
  intros fuel K v v' Hv Hf Ht HK He.
  destruct (execute_ok _ _ _ _ _ Hf He) as (n & u & Hn & Hr & -> & Hk & Hp & Hl).
  assert (Hx := run_to_trace _ _ _ Hr). rewrite Ht in Hx. change (zlen (@nil state)) with 0 in Hx.
  split; [cbn; destruct Hx; congruence|]. cbn [push_trace v_trace]. rewrite zlen_app.
  change (zlen [v_st u]) with 1. destruct Hk as [->|Hk]; lia.
Qed.
Print Assumptions C14_ongoing.
(** The empty program completes without executing anything. *)
Theorem C14_empty_program : forall fuel K v, v_final v = 0 -> execute fuel K v = (v, LOk Complete).
Proof. intros fuel K v H. unfold execute. rewrite H. reflexivity. Qed.
Print Assumptions C14_empty_program.
Example C14_example : exists v', execute 20 20 demo_vm = (v', LOk Complete) /\ v_final demo_vm = 8 /\
  map pc (v_trace v') = [0; 1; 2; 4; 5; 7; 3; 8].
Proof. eexists. split; [vm_compute; reflexivity|]. split; vm_compute; reflexivity. Qed.
