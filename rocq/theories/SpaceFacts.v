(** Every access of a run of the virtual machine is inside the address space, and every
    content is made of field elements. *)
From Coq Require Import ZArith Bool List Lia.
From Verif Require Import M31 M31Facts Instr InstrFacts VmMem VmMemFacts Vm Isa IsaFacts Machine VmFacts RunFacts.
Import ListNotations.
Open Scope Z_scope.

Definition entry_ok (x : Z * qm31) : Prop := 0 <= fst x < ADDRS /\ qwf (snd x).

Lemma zmod_wf x : wf (x mod P).
Proof. apply Z.mod_pos_bound. reflexivity. Qed.
Lemma zmod_nonneg x : 0 <= x mod P.
Proof. apply Z.mod_pos_bound. reflexivity. Qed.
Lemma mod16_wf x : wf (x mod B16).
Proof. apply limb_wf. apply Z.mod_pos_bound. reflexivity. Qed.
Lemma div16_wf x : 0 <= x < B32 -> wf (x / B16).
Proof. intros H. apply limb_wf. unfold B16, B32 in *. lia. Qed.

Lemma u32_space x y : wf x -> wf y -> x < B16 -> y < B16 -> 0 <= x + B16 * y < B32.
Proof. unfold wf, B16, B32. lia. Qed.
Lemma mod32 x : 0 <= x mod B32 < B32.
Proof. apply Z.mod_pos_bound. reflexivity. Qed.
Lemma ite_wf (b : bool) : wf (if b then 1 else 0).
Proof. destruct b; [apply wf_small; lia|apply wf0]. Qed.

Ltac bools := repeat match goal with
  | H : _ && _ = true |- _ => apply andb_prop in H; destruct H
  | H : (_ <? _) = true |- _ => apply Z.ltb_lt in H
  | H : negb _ = true |- _ => apply negb_true_iff in H; apply Z.eqb_neq in H
  end.
Local Opaque Z.mul.
Theorem isa_space i m s e : swf s -> iwf i -> (forall a, wf (m a)) -> isa i m s = Some e ->
  Forall (fun a => 0 <= a) (reads e ++ peeks e) /\ Forall (fun w => 0 <= fst w /\ wf (snd w)) (writes e).
Proof.
  intros Hs Hi Hm. unfold iwf in Hi.
  destruct i; cbn [operands] in Hi; unfold isa;
    repeat match goal with H : Forall wf (_ :: _) |- _ => apply Forall_cons_iff in H; destruct H end;
    repeat match goal with |- context [if ?b then Some _ else None] => destruct b eqn:? | |- context [if ?b then None else Some _] => destruct b eqn:? end;
    intros E; try discriminate; injection E as <-; cbn [reads peeks writes app]; bools;
    (split; [repeat (apply Forall_cons; [apply zmod_nonneg|]); apply Forall_nil|]);
    repeat (apply Forall_cons; [cbn [fst snd]; split; [apply zmod_nonneg|]|]); try apply Forall_nil;
    try first [apply zmod_wf | apply Hm | apply mod16_wf | apply ite_wf | apply Hs | assumption].
  all: apply div16_wf; try apply mod32; try (apply land32; apply u32_space; auto); try (apply lor32; apply u32_space; auto); try (apply lxor32; apply u32_space; auto).
  all: try (apply u32_space; auto).
  all: repeat match goal with |- context [?x + B16 * ?y] => pose proof (u32_space x y ltac:(auto) ltac:(auto) ltac:(assumption) ltac:(assumption)); generalize dependent (x + B16 * y); intros end.
  all: first [apply div32 | apply rem32]; assumption.
Qed.

Local Transparent Z.mul.

Lemma fstep_space f s i f' s' lg : swf s -> iwf i -> (forall a, qwf (f a)) ->
  Forall (fun b => 0 <= b < ADDRS) (code_addrs (pc s) i) -> fstep f s i f' s' lg -> Forall entry_ok lg.
Proof.
  intros Hs Hi Hf Hc (_ & e & He & Hr & Hw & _ & _ & ->).
  destruct (isa_space i _ s e Hs Hi (fun a => proj1 (Hf a)) He) as [A B].
  apply Forall_app in A. destruct A as [A _].
  apply Forall_app. split; [|apply Forall_app; split].
  - apply Forall_forall. intros x Hx. apply in_map_iff in Hx. destruct Hx as (a & <- & Ha).
    rewrite Forall_forall in Hc. split; [apply Hc, Ha|apply Hf].
  - apply Forall_forall. intros x Hx. apply in_map_iff in Hx. destruct Hx as (a & <- & Ha).
    rewrite Forall_forall in A. split; [split; [apply A, Ha|apply Hr, in_or_app; left; exact Ha]|apply Hf].
  - apply Forall_forall. intros x Hx. apply in_map_iff in Hx. destruct Hx as (w & <- & Ha).
    rewrite Forall_forall in B. split; [split; [apply B, Ha|apply Hw, Ha]|]. apply qofm_wf. apply B, Ha.
Qed.

Definition log_ok (l : list entry) : Prop := Forall (fun e => entry_ok (e_addr e, e_val e)) l.
Lemma acc_log_ok lg : Forall entry_ok lg -> log_ok (acc_log lg).
Proof. intros H. apply Forall_forall. intros e He. apply in_map_iff in He. destruct He as ([a q] & <- & Hx). rewrite Forall_forall in H. exact (H _ Hx). Qed.
Lemma run_to_space n v u : vok v -> run_to n v u -> log_ok (mtrace (v_mem v)) -> Forall swf (v_trace v) ->
  log_ok (mtrace (v_mem u)) /\ Forall swf (v_trace u).
Proof.
  intros Hv H. revert Hv. induction H as [v|n v v1 v2 Hp Hs Hr IH]; intros Hv A B; [auto|].
  destruct (step_ok _ _ Hv Hs) as (i & lg & Hf & Hi & Hv1 & Hc & Ht & Htr & _).
  apply IH; [exact Hv1| |].
  - rewrite Ht. apply Forall_app. split; [exact A|]. apply acc_log_ok.
    eapply fstep_space; [apply Hv|exact Hi|apply Hv| |exact Hf].
    apply Forall_forall. intros b Hb. specialize (Hc b Hb).
    destruct Hv as [[Hm _] _]. unfold minv_ok in Hm. pose proof (zlen_nonneg (heap (v_mem v))). unfold ADDRS, MAX_ADDRESS in *. lia.
  - rewrite Htr. apply Forall_app. split; [exact B|]. constructor; [apply Hv|constructor].
Qed.
(** A segment as the machine produces it. *)
Definition seg_ok (sg : segment) : Prop :=
  log_ok (seg_mtrace sg) /\ Forall swf (seg_trace sg) /\ (forall a q, seg_initial sg a = Some q -> entry_ok (a, q)).
Lemma initial_ok lo he mt tr : zlen lo + zlen he <= MAX_ADDRESS + 1 -> (forall a, qwf (raw (Mem lo he mt) a)) ->
  forall a q, seg_initial (Seg lo he mt tr) a = Some q -> entry_ok (a, q).
Proof.
  intros H Hq a q E. pose proof (seg_initial_raw lo he mt tr a H) as K. rewrite E in K. subst q. split; [|apply Hq].
  unfold seg_initial in E. cbn [seg_heap seg_locals] in E. cbn [fst].
  pose proof (zlen_nonneg lo). pose proof (zlen_nonneg he). unfold MAX_ADDRESS, ADDRS in *.
  destruct (znth he (268435455 - a)) as [w|] eqn:Eh; [apply znth_some in Eh; lia|]. apply znth_some in E. lia.
Qed.
Lemma seg_loop_space fuel sfuel k : forall v v', fresh v -> Forall seg_ok (v_segs v) ->
  seg_loop fuel sfuel k v = (v', LOk tt) -> Forall seg_ok (v_segs v').
Proof.
  induction fuel as [|fuel IH]; intros v v' Hv Hs; cbn [seg_loop]; [discriminate|].
  pose proof Hv as (Hok & Htr & Hmt & Hil & Hih & Hfin).
  assert (Hgo : forall n u, run_to n v u -> Forall seg_ok (v_segs u ++ [Seg (v_init_locals u) (v_init_heap u) (mtrace (v_mem u)) (v_trace u ++ [v_st u])]) /\ fresh (finalize_segment false (push_trace u (v_st u)))).
  { intros n u Hr. destruct (run_to_fruns _ _ _ Hok Hr) as (tr & lg & Hf & Hok' & _ & K1 & K2 & _ & K3 & K4 & K5 & K6).
    split; [|apply fresh_next; [exact Hok'|cbn [push_trace v_final]; congruence]].
    rewrite K6. apply Forall_app. split; [exact Hs|]. apply Forall_cons; [|apply Forall_nil].
    destruct (run_to_space _ _ _ Hok Hr) as [A B]; [rewrite Hmt; constructor|rewrite Htr; constructor|].
    split; [exact A|]. split; [apply Forall_app; split; [exact B|constructor; [apply Hok'|constructor]]|].
    rewrite K4, K5, Hil, Hih. apply initial_ok; [apply Hok|]. apply Hok. }
  destruct (execute sfuel k v) as [w [[]|e|]] eqn:Ee; try discriminate.
  - intros H. injection H as <-. destruct (execute_ok _ _ _ _ _ Hfin Ee) as (n & u & Hn & Hr & -> & _).
    apply (Hgo n u Hr).
  - destruct (execute_ok _ _ _ _ _ Hfin Ee) as (n & u & Hn & Hr & -> & _).
    destruct (Hgo n u Hr) as [A B]. apply IH; [exact B|exact A].
Qed.
