(** Execution loops: framing of the logs, segmentation. *)
From Coq Require Import ZArith Bool List Lia.
From Verif Require Import M31 M31Facts Instr InstrFacts VmMem VmMemFacts Vm Isa IsaFacts Machine VmFacts.
Import ListNotations.
Open Scope Z_scope.
Open Scope vm_scope.
Ltac Zify.zify_post_hook ::= Z.div_mod_to_equations.

(** ** Computations do not look at the log *)
Definition pre (L : list entry) (m : mem) : mem := Mem (locals m) (heap m) (L ++ mtrace m).
Definition framed {A} (c : M A) : Prop :=
  forall L m, c (pre L m) = (pre L (fst (c m)), snd (c m)).

Lemma framed_ret {A} (a : A) : framed (ret a).
Proof. intros L m. reflexivity. Qed.
Lemma framed_fail {A} e : framed (@fail A e).
Proof. intros L m. reflexivity. Qed.
Lemma framed_bind {A B} (x : M A) (f : A -> M B) :
  framed x -> (forall a, framed (f a)) -> framed (bind x f).
Proof.
  intros Hx Hf L m. unfold bind. rewrite Hx. destruct (x m) as [m' [a|e]]; cbn [fst snd].
  - apply Hf.
  - reflexivity.
Qed.
Lemma pre_log L m a v : log (pre L m) a v = pre L (log m a v).
Proof. unfold log, pre. cbn. rewrite app_assoc. reflexivity. Qed.
Lemma framed_get_data a : framed (get_data a).
Proof.
  intros L m. unfold get_data. change (get_qm31 (pre L m) a) with (get_qm31 m a).
  destruct (get_qm31 m a); [rewrite pre_log|]; reflexivity.
Qed.
Lemma framed_get_data_nt a : framed (get_data_no_trace a).
Proof.
  intros L m. unfold get_data_no_trace. change (get_qm31 (pre L m) a) with (get_qm31 m a).
  destruct (get_qm31 m a); reflexivity.
Qed.
Lemma framed_insert_no_trace a v : framed (insert_no_trace a v).
Proof.
  intros L m. unfold insert_no_trace. cbn [pre locals heap mtrace].
  repeat match goal with |- context [if ?b then _ else _] => destruct b end; reflexivity.
Qed.
Lemma framed_insert a v : framed (insert a v).
Proof.
  intros L m. unfold insert. rewrite framed_insert_no_trace.
  destruct (insert_no_trace a v m) as [m' [u|e]]; cbn [fst snd]; [rewrite pre_log|]; reflexivity.
Qed.
Lemma framed_get_u32 a : framed (get_u32 a).
Proof.
  apply framed_bind; [apply framed_get_data|intros lo].
  apply framed_bind; [apply framed_get_data|intros hi].
  destruct (limbs_ok lo hi); [apply framed_ret|apply framed_fail].
Qed.
Lemma framed_get_u32_nt a : framed (get_u32_no_trace a).
Proof.
  apply framed_bind; [apply framed_get_data_nt|intros lo].
  apply framed_bind; [apply framed_get_data_nt|intros hi].
  destruct (limbs_ok lo hi); [apply framed_ret|apply framed_fail].
Qed.
Lemma framed_insert_u32 a v : framed (insert_u32 a v).
Proof. apply framed_bind; intros; apply framed_insert. Qed.

Lemma framed_exec i s : framed (exec i s).
Proof.
  destruct i; cbn [exec];
  unfold bin_fp_fp, bin_fp_imm, u32_bin_fp_fp, u32_bin_fp_imm, u32_cmp_fp_fp, u32_cmp_fp_imm;
  repeat first
  [ apply framed_ret | apply framed_fail | apply framed_get_data | apply framed_get_data_nt
  | apply framed_insert | apply framed_get_u32 | apply framed_get_u32_nt | apply framed_insert_u32
  | apply framed_bind; [|intros ?]
  | match goal with |- framed (if ?b then _ else _) => destruct b end
  | match goal with |- framed (match ?o with Some _ => _ | None => _ end) => destruct o end
  | match goal with |- framed (let _ := _ in _) => cbv zeta end ].
Qed.

Lemma framed_fetch_more n k a acc : framed (fetch_more n k a acc).
Proof.
  revert k acc. induction n as [|n IH]; intros k acc L m; cbn [fetch_more]; [reflexivity|].
  cbn [pre locals]. destruct (znth (locals m) (madd a (mfrom k))) as [w|]; [|reflexivity].
  change (Mem (locals m) (heap m) (L ++ mtrace m)) with (pre L m). rewrite pre_log. apply IH.
Qed.
Lemma framed_get_instruction a : framed (get_instruction a).
Proof.
  intros L m. unfold get_instruction. cbn [pre locals].
  destruct (znth (locals m) a) as [w|]; [|reflexivity].
  change (Mem (locals m) (heap m) (L ++ mtrace m)) with (pre L m). rewrite pre_log.
  destruct (opcode_size (q0 w)) as [sz|]; [|reflexivity].
  rewrite framed_fetch_more. destruct (fetch_more _ _ _ _ _) as [m2 [l|e]]; reflexivity.
Qed.

(** A machine with older logs (and other bookkeeping) in front. *)
Definition fr (il ih : list qm31) (T : list state) (L : list entry) (G : list segment) (v : vm) : vm :=
  VM (v_final v) il ih (pre L (v_mem v)) (v_st v) (T ++ v_trace v) G.

Lemma step_fr il ih T L G v :
  step (fr il ih T L G v) = (fr il ih T L G (fst (step v)), snd (step v)).
Proof.
  unfold step. cbn [fr v_st v_mem]. rewrite framed_get_instruction.
  destruct (get_instruction (pc (v_st v)) (v_mem v)) as [m1 [ws|e]]; cbn [fst snd]; [|reflexivity].
  destruct (decode ws) as [i|e]; [|reflexivity]. rewrite framed_exec.
  destruct (exec i (v_st v) m1) as [m2 [s'|e]]; cbn [fst snd]; unfold fr, set_st, set_mem, push_trace; cbn;
  rewrite <- app_assoc; reflexivity.
Qed.

(** ** Counting steps *)
Inductive run_to : nat -> vm -> vm -> Prop :=
| rt_0 v : run_to 0 v v
| rt_S n v v1 v2 : pc (v_st v) <> v_final v -> step v = (v1, None) -> run_to n v1 v2 -> run_to (S n) v v2.

Lemma step_trace v v' : step v = (v', None) -> v_trace v' = v_trace v ++ [v_st v] /\ v_final v' = v_final v.
Proof.
  unfold step. destruct (get_instruction _ _) as [m1 [ws|e]]; [|discriminate].
  destruct (decode ws); [|discriminate]. destruct (exec _ _ _) as [m2 [s'|e]]; [|discriminate].
  intros H. injection H as <-. split; reflexivity.
Qed.
Lemma step_final v v' o : step v = (v', o) -> v_final v' = v_final v.
Proof.
  unfold step. destruct (get_instruction _ _) as [m1 [ws|e]];
    [|intros H; injection H as <- _; reflexivity].
  destruct (decode ws); [|intros H; injection H as <- _; reflexivity].
  destruct (exec _ _ _) as [m2 [s'|e]]; intros H; injection H as <- _; reflexivity.
Qed.

Lemma run_to_trace n v v' : run_to n v v' -> zlen (v_trace v') = zlen (v_trace v) + Z.of_nat n /\ v_final v' = v_final v.
Proof.
  induction 1 as [v|n v v1 v2 Hp Hs Hr [IH1 IH2]]; [split; [lia|reflexivity]|].
  apply step_trace in Hs as [Ht Hf]. rewrite IH1, IH2, Ht, Hf, zlen_app. split; [unfold zlen; cbn; lia|reflexivity].
Qed.

Lemma run_to_app n k v u w : run_to n v u -> run_to k u w -> run_to (n + k) v w.
Proof. induction 1; intros Hk; [exact Hk|]. cbn. econstructor; eauto. Qed.
Lemma run_to_split n k v w : run_to (n + k) v w -> exists u, run_to n v u /\ run_to k u w.
Proof.
  revert v; induction n as [|n IH]; intros v H; cbn in H; [exists v; split; [constructor|exact H]|].
  inversion H as [|? ? v1 ? Hp Hs Hr]; subst. destruct (IH _ Hr) as (u & H1 & H2).
  exists u. split; [econstructor; eauto|exact H2].
Qed.
Lemma run_to_fr il ih T L G n v u : run_to n v u -> run_to n (fr il ih T L G v) (fr il ih T L G u).
Proof.
  induction 1 as [v|n v v1 v2 Hp Hs Hr IH]; [constructor|].
  econstructor; [exact Hp| |exact IH]. rewrite step_fr, Hs. reflexivity.
Qed.

Lemma run_to_det n v u u' : run_to n v u -> run_to n v u' -> u = u'.
Proof.
  intros H; revert u'. induction H as [v|n v v1 v2 Hp Hs Hr IH]; intros u' H'; inversion H' as [|? ? w1 ? Hp' Hs' Hr']; subst; [reflexivity|].
  apply IH. congruence.
Qed.

(** What the loop of [execute] does. *)
Lemma exec_loop_ok fuel K v v' :
  exec_loop fuel K v = (v', LOk tt) ->
  exists n, (n <= fuel)%nat /\ run_to n v v' /\
    (pc (v_st v') = v_final v' \/ K <= zlen (v_trace v')) /\
    (n = 0%nat \/ zlen (v_trace v') <= K).
Proof.
  revert v; induction fuel as [|fuel IH]; intros v; cbn [exec_loop].
  - destruct (negb (pc (v_st v) =? v_final v) && (zlen (v_trace v) <? K)) eqn:E; [discriminate|].
    intros H. injection H as <-. exists 0%nat. split; [lia|]. split; [constructor|]. split; [|auto].
    destruct (Z.eqb_spec (pc (v_st v)) (v_final v)); [auto|]. destruct (Z.ltb_spec (zlen (v_trace v)) K); [discriminate|right; lia].
  - destruct (negb (pc (v_st v) =? v_final v) && (zlen (v_trace v) <? K)) eqn:E.
    + destruct (step v) as [v1 [e|]] eqn:Es; [discriminate|]. intros H.
      destruct (IH _ H) as (n & Hn & Hr & Hend & Hk). apply andb_prop in E as [E1 E2].
      apply Z.ltb_lt in E2. destruct (Z.eqb_spec (pc (v_st v)) (v_final v)) as [|Hne]; [discriminate|].
      exists (S n). split; [lia|]. split; [econstructor; eassumption|]. split; [exact Hend|]. right.
      destruct Hk as [->|Hk]; [|exact Hk]. inversion Hr; subst. apply step_trace in Es as [Et _].
      rewrite Et, zlen_app. unfold zlen in *; cbn; lia.
    + intros H. injection H as <-. exists 0%nat. split; [lia|]. split; [constructor|]. split; [|auto].
      destruct (Z.eqb_spec (pc (v_st v)) (v_final v)); [auto|]. destruct (Z.ltb_spec (zlen (v_trace v)) K); [discriminate|right; lia].
Qed.

Lemma exec_loop_err fuel K v v' e :
  exec_loop fuel K v = (v', LErr e) ->
  exists n u, (n < fuel)%nat /\ run_to n v u /\ pc (v_st u) <> v_final u /\
    zlen (v_trace u) < K /\ step u = (v', Some e).
Proof.
  revert v; induction fuel as [|fuel IH]; intros v; cbn [exec_loop];
  destruct (negb (pc (v_st v) =? v_final v) && (zlen (v_trace v) <? K)) eqn:E; try discriminate.
  apply andb_prop in E as [E1 E2]. apply Z.ltb_lt in E2.
  destruct (Z.eqb_spec (pc (v_st v)) (v_final v)) as [|Hne]; [discriminate|].
  destruct (step v) as [v1 [er|]] eqn:Es.
  - intros H. injection H as <- <-. exists 0%nat, v. repeat split; try assumption; try lia. constructor.
  - intros H. destruct (IH _ H) as (n & u & Hn & Hr & Hp & Hk & Hs).
    exists (S n), u. split; [lia|]. split; [econstructor; eassumption|]. auto.
Qed.

(** Running the loop when the number of steps is known. *)
Lemma exec_loop_run n v u fuel K :
  run_to n v u -> (n = 0%nat \/ zlen (v_trace u) <= K) -> (n <= fuel)%nat ->
  exec_loop fuel K v = exec_loop (fuel - n) K u.
Proof.
  intros H; revert fuel. induction H as [v|n v v1 v2 Hp Hs Hr IH]; intros fuel Hk Hf.
  - rewrite Nat.sub_0_r. reflexivity.
  - destruct Hk as [|Hk]; [discriminate|]. destruct fuel as [|fuel]; [lia|].
    assert (Hl := run_to_trace _ _ _ Hr). assert (Hst := step_trace _ _ Hs).
    destruct Hst as [Ht _]. rewrite Ht, zlen_app in Hl. unfold zlen at 3 in Hl. cbn in Hl.
    cbn [exec_loop]. destruct (Z.eqb_spec (pc (v_st v)) (v_final v)); [contradiction|].
    destruct (Z.ltb_spec (zlen (v_trace v)) K); [|lia]. cbn [negb andb]. rewrite Hs.
    rewrite IH; [reflexivity|right; exact Hk|lia].
Qed.
Lemma exec_loop_stop fuel K v :
  pc (v_st v) = v_final v \/ K <= zlen (v_trace v) -> exec_loop fuel K v = (v, LOk tt).
Proof.
  intros H. destruct fuel; cbn [exec_loop];
  destruct (Z.eqb_spec (pc (v_st v)) (v_final v)); cbn [negb andb]; try reflexivity;
  destruct (Z.ltb_spec (zlen (v_trace v)) K); try reflexivity; lia.
Qed.
Lemma exec_loop_fails fuel K v v' e :
  pc (v_st v) <> v_final v -> zlen (v_trace v) < K -> step v = (v', Some e) -> (0 < fuel)%nat ->
  exec_loop fuel K v = (v', LErr e).
Proof.
  intros H1 H2 Hs Hf. destruct fuel; [lia|]. cbn [exec_loop].
  destruct (Z.eqb_spec (pc (v_st v)) (v_final v)); [contradiction|].
  destruct (Z.ltb_spec (zlen (v_trace v)) K); [|lia]. cbn [negb andb]. rewrite Hs. reflexivity.
Qed.

(** ** Runs of the VM are runs of the flat machine *)
Theorem run_to_fruns n v v' :
  vok v -> run_to n v v' ->
  exists tr lg, fruns (raw (v_mem v)) (v_st v) tr lg (raw (v_mem v')) (v_st v') /\
    vok v' /\ length tr = n /\
    v_trace v' = v_trace v ++ map fst tr /\
    mtrace (v_mem v') = mtrace (v_mem v) ++ acc_log lg /\
    zlen (locals (v_mem v)) <= zlen (locals (v_mem v')) /\
    v_final v' = v_final v /\ v_init_locals v' = v_init_locals v /\
    v_init_heap v' = v_init_heap v /\ v_segs v' = v_segs v.
Proof.
  intros Hv H. revert Hv. induction H as [v|n v v1 v2 Hp Hs Hr IH]; intros Hv.
  - exists [], []. split; [constructor; reflexivity|]. split; [exact Hv|]. cbn. rewrite !app_nil_r.
    repeat split; lia.
  - destruct (step_ok _ _ Hv Hs) as (i & lg1 & Hf & _ & Hv1 & _ & Ht & Htr & Hll & K1 & K2 & K3 & K4).
    destruct (IH Hv1) as (tr & lg & Hfr & Hv2 & Hn & Htr2 & Ht2 & Hll2 & J1 & J2 & J3 & J4).
    exists ((v_st v, i) :: tr), (lg1 ++ lg). split; [econstructor; eassumption|].
    split; [exact Hv2|]. split; [cbn; lia|]. split; [rewrite Htr2, Htr, <- app_assoc; reflexivity|].
    split; [rewrite Ht2, Ht, <- app_assoc; unfold acc_log; rewrite map_app; reflexivity|].
    split; [lia|]. repeat split; congruence.
Qed.

(** ** Segments *)
(** The trace of the whole run from the segments' traces: consecutive segments share
    the registers at the border. *)
Fixpoint join (l : list (list state)) : list state :=
  match l with
  | [] => []
  | [t] => t
  | t :: r => removelast t ++ join r
  end.

(** A segment starts with memory [f] and registers [s] and its logs are those of a run
    of the flat machine; the next segment starts where it ended. *)
Inductive chain : flat -> state -> list segment -> flat -> state -> Prop :=
| chain_nil f f' s : (forall a, f' a = f a) -> chain f s [] f' s
| chain_cons f s sg segs tr lg f1 s1 f2 s2 :
    (forall a, match seg_initial sg a with Some q => q = f a | None => f a = qzero end) ->
    fruns f s tr lg f1 s1 ->
    seg_trace sg = map fst tr ++ [s1] ->
    seg_mtrace sg = acc_log lg ->
    chain f1 s1 segs f2 s2 ->
    chain f s (sg :: segs) f2 s2.

Lemma seg_initial_raw lo he mt tr a :
  zlen lo + zlen he <= MAX_ADDRESS + 1 ->
  match seg_initial (Seg lo he mt tr) a with
  | Some q => q = raw (Mem lo he mt) a
  | None => raw (Mem lo he mt) a = qzero
  end.
Proof.
  intros H. unfold seg_initial, raw; cbn [seg_heap seg_locals locals heap].
  destruct (znth he (MAX_ADDRESS - a)) as [w|] eqn:Eh.
  - apply znth_some in Eh as Hh. assert (Hl := zlen_nonneg lo).
    rewrite (znth_out lo) by lia. reflexivity.
  - destruct (znth lo a); reflexivity.
Qed.

(** A machine at the start of a segment. *)
Definition fresh (v : vm) : Prop :=
  vok v /\ v_trace v = [] /\ mtrace (v_mem v) = [] /\
  v_init_locals v = locals (v_mem v) /\ v_init_heap v = heap (v_mem v) /\ v_final v <> 0.

Lemma fresh_next v : vok v -> v_final v <> 0 -> fresh (finalize_segment false v).
Proof.
  intros [[H1 H2] H3] Hf. repeat split; try assumption; try reflexivity; try apply H2; apply H3.
Qed.

(** Segmented execution decomposes a run. *)
Lemma execute_ok sfuel k v v' st :
  v_final v <> 0 -> execute sfuel k v = (v', LOk st) ->
  exists n u, (n <= sfuel)%nat /\ run_to n v u /\ v' = push_trace u (v_st u) /\
    (n = 0%nat \/ zlen (v_trace u) <= k) /\
    match st with
    | Complete => pc (v_st u) = v_final u
    | Ongoing => pc (v_st u) <> v_final u /\ k <= zlen (v_trace u)
    end.
Proof.
  intros Hf. unfold execute. destruct (Z.eqb_spec (v_final v) 0); [contradiction|].
  destruct (exec_loop sfuel k v) as [u [[]|e|]] eqn:E; try discriminate.
  intros H. injection H as <- <-. destruct (exec_loop_ok _ _ _ _ E) as (n0 & Hn & Hr & Hend & Hk).
  exists n0, u. split; [exact Hn|]. split; [exact Hr|]. split; [reflexivity|]. split; [exact Hk|].
  destruct (Z.eqb_spec (pc (v_st u)) (v_final u)) as [He|He]; [exact He|].
  split; [exact He|]. destruct Hend as [Hend|Hend]; [contradiction|exact Hend].
Qed.

Lemma fr_of_next u il ih G :
  fr il ih (v_trace u) (mtrace (v_mem u)) G (finalize_segment false (push_trace u (v_st u))) =
  VM (v_final u) il ih (v_mem u) (v_st u) (v_trace u) G.
Proof.
  unfold fr, finalize_segment, push_trace, pre; cbn. rewrite !app_nil_r. destruct (v_mem u). reflexivity.
Qed.

Lemma removelast_snoc {A} (l : list A) x : removelast (l ++ [x]) = l.
Proof. induction l as [|a l IH]; [reflexivity|]. cbn [app]. rewrite <- IH at 2. destruct (l ++ [x]) eqn:E; [destruct l; discriminate|reflexivity]. Qed.

Lemma vm_eta u : VM (v_final u) (v_init_locals u) (v_init_heap u) (v_mem u) (v_st u) (v_trace u) (v_segs u) = u.
Proof. destruct u; reflexivity. Qed.

Lemma fruns_ext f g s tr lg f' s' :
  (forall a, f a = g a) -> fruns f s tr lg f' s' -> fruns g s tr lg f' s'.
Proof.
  intros He H. destruct H as [f f' s H|f s i f1 s1 l1 tr l2 f2 s2 Hs Hr].
  - constructor. intros a. rewrite H. apply He.
  - econstructor; [|exact Hr].
    destruct Hs as (Hat & e & Hi & Hrd & Hw & Hn & Hf & Hl).
    split; [unfold instr_at in *; rewrite <- !He; exact Hat|].
    exists e. split; [rewrite <- Hi; apply felt_ext_isa; intros a; rewrite He; reflexivity|].
    split; [intros a Ha; rewrite <- He; apply Hrd, Ha|]. split; [exact Hw|]. split; [exact Hn|].
    split; [intros b; rewrite Hf; apply upds_ext; exact He|].
    rewrite Hl. unfold seen. f_equal; [apply map_ext; intros a; rewrite He; reflexivity|].
    f_equal. apply map_ext; intros a; rewrite He; reflexivity.
Qed.

Theorem seg_loop_ok fuel sfuel k v v' :
  1 <= k -> fresh v -> seg_loop fuel sfuel k v = (v', LOk tt) ->
  exists n u news, run_to n v u /\ pc (v_st u) = v_final u /\
    v_segs v' = v_segs v ++ news /\ news <> [] /\
    v_st v' = v_st u /\ locals (v_mem v') = locals (v_mem u) /\ heap (v_mem v') = heap (v_mem u) /\
    concat (map seg_mtrace news) = mtrace (v_mem u) /\
    join (map seg_trace news) = v_trace u ++ [v_st u] /\
    chain (raw (v_mem v)) (v_st v) news (raw (v_mem v')) (v_st v') /\
    (forall sg, In sg news -> zlen (seg_trace sg) <= k + 1).
Proof.
  intros Hk. revert v. induction fuel as [|fuel IH]; intros v Hv; cbn [seg_loop]; [discriminate|].
  destruct Hv as (Hok & Htr & Hmt & Hil & Hih & Hfin).
  destruct (execute sfuel k v) as [w [[]|e|]] eqn:Ee; try discriminate.
  - intros H. injection H as <-. destruct (execute_ok _ _ _ _ _ Hfin Ee) as (n & u & Hn & Hr & -> & Hkk & Hp).
    destruct (run_to_fruns _ _ _ Hok Hr) as (tr & lg & Hf & Hok' & _ & K1 & K2 & _ & K3 & K4 & K5 & K6).
    rewrite Htr in K1. rewrite Hmt in K2. cbn [app] in K1, K2.
    exists n, u, [Seg (v_init_locals u) (v_init_heap u) (mtrace (v_mem u)) (v_trace u ++ [v_st u])].
    split; [exact Hr|]. split; [exact Hp|]. cbn. rewrite K6, app_nil_r.
    do 7 (split; [try reflexivity; try discriminate|]). split.
    + econstructor; [|exact Hf| | |constructor; reflexivity].
      * intros a. rewrite K4, K5, Hil, Hih.
        pose proof (seg_initial_raw (locals (v_mem v)) (heap (v_mem v)) (mtrace (v_mem u)) (v_trace u ++ [v_st u]) a) as Hs.
        apply Hs. apply Hok.
      * cbn. rewrite K1. reflexivity.
      * exact K2.
    + intros sg [<-|[]]. cbn. rewrite zlen_app. unfold zlen at 2. cbn.
      destruct Hkk as [->|Hkk]; [|lia]. inversion Hr; subst. rewrite Htr. cbn. lia.
  - destruct (execute_ok _ _ _ _ _ Hfin Ee) as (n & u & Hn & Hr & -> & Hkk & Hp & Hlen).
    destruct (run_to_fruns _ _ _ Hok Hr) as (tr & lg & Hf & Hok' & _ & K1 & K2 & _ & K3 & K4 & K5 & K6).
    rewrite Htr in K1. rewrite Hmt in K2. cbn [app] in K1, K2.
    intros H. apply IH in H; [|apply fresh_next; [exact Hok'|cbn; congruence]].
    destruct H as (n2 & u2 & news & Hr2 & Hp2 & Hsegs & Hne & J1 & J2 & J3 & J4 & J5 & J6 & J7).
    pose proof (run_to_fr (v_init_locals u) (v_init_heap u) (v_trace u) (mtrace (v_mem u)) (v_segs u) _ _ _ Hr2) as Hr3.
    rewrite fr_of_next, vm_eta in Hr3.
    exists (n + n2)%nat, (fr (v_init_locals u) (v_init_heap u) (v_trace u) (mtrace (v_mem u)) (v_segs u) u2),
      (Seg (v_init_locals u) (v_init_heap u) (mtrace (v_mem u)) (v_trace u ++ [v_st u]) :: news).
    split; [eapply run_to_app; eassumption|]. split; [exact Hp2|].
    split; [rewrite Hsegs; cbn; rewrite K6, <- app_assoc; reflexivity|].
    split; [discriminate|]. split; [exact J1|]. split; [exact J2|]. split; [exact J3|].
    split; [cbn; rewrite J4; reflexivity|].
    split.
    { destruct news as [|sg news]; [contradiction|]. cbn [map]. cbn [map] in J5.
      change (removelast (v_trace u ++ [v_st u]) ++ join (seg_trace sg :: map seg_trace news) =
              (v_trace u ++ v_trace u2) ++ [v_st u2]).
      rewrite J5, removelast_snoc, app_assoc. reflexivity. }
    split.
    + econstructor; [|exact Hf| | |exact J6].
      * intros a. rewrite K4, K5, Hil, Hih.
        pose proof (seg_initial_raw (locals (v_mem v)) (heap (v_mem v)) (mtrace (v_mem u)) (v_trace u ++ [v_st u]) a) as Hs.
        apply Hs. apply Hok.
      * cbn. rewrite K1. reflexivity.
      * exact K2.
    + intros sg [<-|Hin]; [|apply J7, Hin]. cbn. rewrite zlen_app. unfold zlen at 2. cbn.
      destruct Hkk as [->|Hkk]; [|lia]. inversion Hr; subst. rewrite Htr. cbn. lia.
Qed.

(** ... and follows any run that reaches the end or an error. *)
Lemma run_to_fr_inv il ih T L G n v w :
  run_to n (fr il ih T L G v) w -> exists u, run_to n v u /\ w = fr il ih T L G u.
Proof.
  revert v; induction n as [|n IH]; intros v H; inversion H as [|? ? v1 ? Hp Hs Hr]; subst.
  - exists v. split; [constructor|reflexivity].
  - rewrite step_fr in Hs. injection Hs as <- Hs. destruct (IH _ Hr) as (u & Hu & ->).
    exists u. split; [|reflexivity]. econstructor; [exact Hp| |exact Hu].
    destruct (step v) as [v1 o]. cbn in *. subst o. reflexivity.
Qed.

Lemma run_to_pc n v u : run_to (S n) v u -> pc (v_st v) <> v_final v.
Proof. intros H. inversion H; assumption. Qed.

Theorem seg_loop_run n :
  forall v u, run_to n v u -> fresh v ->
  forall fuel sfuel k, 1 <= k -> (n < fuel)%nat -> (n < sfuel)%nat ->
  (pc (v_st u) = v_final u -> exists v', seg_loop fuel sfuel k v = (v', LOk tt)) /\
  (forall w e, pc (v_st u) <> v_final u -> step u = (w, Some e) ->
     exists v', seg_loop fuel sfuel k v = (v', LErr e) /\ v_st v' = v_st w /\
       locals (v_mem v') = locals (v_mem w) /\ heap (v_mem v') = heap (v_mem w)).
Proof.
  induction n as [n IHn] using lt_wf_ind. intros v u Hr Hv fuel sfuel k Hk Hf Hsf.
  destruct Hv as (Hok & Htr & Hmt & Hil & Hih & Hfin).
  destruct fuel as [|fuel]; [lia|]. cbn [seg_loop]. unfold execute.
  destruct (Z.eqb_spec (v_final v) 0); [contradiction|].
  assert (Htu := run_to_trace _ _ _ Hr). rewrite Htr in Htu. change (zlen (@nil state)) with 0 in Htu.
  destruct (Z_le_gt_dec (Z.of_nat n) k) as [Hle|Hgt].
  - rewrite (exec_loop_run _ _ _ _ _ Hr) by lia. split.
    + intros Hp. rewrite exec_loop_stop by (left; exact Hp).
      destruct (Z.eqb_spec (pc (v_st u)) (v_final u)); [eauto|contradiction].
    + intros w e Hp Hs. destruct (Z_le_gt_dec k (Z.of_nat n)) as [Hke|Hke].
      * rewrite exec_loop_stop by (right; lia).
        destruct (Z.eqb_spec (pc (v_st u)) (v_final u)); [contradiction|].
        assert (Hn0 : (0 < n)%nat) by lia.
        destruct (run_to_fruns _ _ _ Hok Hr) as (tr & lg & _ & Hok' & _).
        set (v2 := finalize_segment false (push_trace u (v_st u))).
        assert (Hfr2 : fresh v2) by (apply fresh_next; [exact Hok'|destruct Htu as [_ Hx]; cbn; congruence]).
        assert (Hs2 : step v2 = (fst (step v2), Some e) /\
                      w = fr (v_init_locals u) (v_init_heap u) (v_trace u) (mtrace (v_mem u)) (v_segs u) (fst (step v2))).
        { pose proof (step_fr (v_init_locals u) (v_init_heap u) (v_trace u) (mtrace (v_mem u)) (v_segs u) v2) as HH.
          unfold v2 in HH at 1. rewrite fr_of_next, vm_eta, Hs in HH. injection HH as H1 H2.
          split; [|exact H1]. destruct (step v2) as [x y]. cbn in *. congruence. }
        destruct Hs2 as [Hs2 Hw].
        destruct (IHn 0%nat ltac:(lia) v2 v2 (rt_0 v2) Hfr2 fuel sfuel k Hk ltac:(lia) ltac:(lia)) as [_ HE].
        destruct (HE _ _ ltac:(exact n1) Hs2) as (v' & -> & E1 & E2 & E3).
        exists v'. split; [reflexivity|]. rewrite E1, E2, E3, Hw. repeat split.
      * rewrite (exec_loop_fails (sfuel - n) k u w e Hp) by (try exact Hs; lia).
        exists w. repeat split.
  - assert (Hsplit : (n = Z.to_nat k + (n - Z.to_nat k))%nat) by lia.
    rewrite Hsplit in Hr. destruct (run_to_split _ _ _ _ Hr) as (u1 & Hr1 & Hr2).
    assert (Ht1 := run_to_trace _ _ _ Hr1). rewrite Htr in Ht1. change (zlen (@nil state)) with 0 in Ht1.
    destruct (run_to_fruns _ _ _ Hok Hr1) as (tr & lg & _ & Hok' & _).
    rewrite (exec_loop_run _ _ _ _ _ Hr1) by lia.
    rewrite exec_loop_stop by (right; lia).
    assert (Hp1 : pc (v_st u1) <> v_final u1).
    { destruct (n - Z.to_nat k)%nat eqn:E; [lia|]. eapply run_to_pc, Hr2. }
    destruct (Z.eqb_spec (pc (v_st u1)) (v_final u1)); [contradiction|].
    set (v2 := finalize_segment false (push_trace u1 (v_st u1))).
    assert (Hfr2 : fresh v2) by (apply fresh_next; [exact Hok'|destruct Ht1 as [_ Hx]; cbn; congruence]).
    rewrite <- (vm_eta u1), <- (fr_of_next u1) in Hr2. fold v2 in Hr2.
    destruct (run_to_fr_inv _ _ _ _ _ _ _ _ Hr2) as (u2 & Hu2 & Hu).
    destruct (IHn (n - Z.to_nat k)%nat ltac:(lia) v2 u2 Hu2 Hfr2 fuel sfuel k Hk ltac:(lia) ltac:(lia)) as [HC HE].
    rewrite Hu. split.
    + intros Hp. apply HC. exact Hp.
    + intros w e Hp Hs. rewrite step_fr in Hs. destruct (step u2) as [w2 o] eqn:E2. cbn in Hs.
      injection Hs as <- ->. destruct (HE _ _ Hp eq_refl) as (v' & -> & H1 & H2 & H3).
      exists v'. repeat split; assumption.
Qed.

(** With a zero step limit an unfinished run never ends. *)
Lemma execute_zero sfuel v : v_final v <> 0 -> pc (v_st v) <> v_final v ->
  execute sfuel 0 v = (push_trace v (v_st v), LOk Ongoing).
Proof.
  intros Hf Hp. unfold execute. destruct (Z.eqb_spec (v_final v) 0); [contradiction|].
  rewrite exec_loop_stop by (right; apply zlen_nonneg).
  destruct (Z.eqb_spec (pc (v_st v)) (v_final v)); [contradiction|reflexivity].
Qed.
Theorem seg_loop_zero fuel sfuel v :
  v_final v <> 0 -> pc (v_st v) <> v_final v -> snd (seg_loop fuel sfuel 0 v) = OutOfFuel.
Proof.
  revert v; induction fuel as [|fuel IH]; intros v Hf Hp; cbn [seg_loop]; [reflexivity|].
  rewrite execute_zero by assumption. apply IH; assumption.
Qed.
