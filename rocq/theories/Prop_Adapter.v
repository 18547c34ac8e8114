(** Properties C21-C23: the prover's adapter. *)
From Coq Require Import ZArith Bool List Lia Permutation.
From Verif Require Import M31 M31Facts Instr InstrFacts VmMem Vm Abi Isa IsaFacts Machine VmFacts RunFacts VmPropFacts
  Prop_Vm AirChain AirMem Adapter AdapterSpec AdapterFacts AdapterRun AdapterProps AdapterWitness.
Import ListNotations.
Open Scope Z_scope.

Definition print_free (ev : list event) : Prop := Forall (fun e => is_print (ev_instr e) = false) ev.
(** The two files the adapter gets: the registers before every instruction and at the end,
    and the log of accesses. *)
Definition run_trace (ev : list event) (s' : state) : list state := map ev_state ev ++ [s'].
Definition run_log (ev : list event) : list entry := acc_log (concat (map ev_log ev)).

(** ** C21: the adapter reconstructs the execution *)
Theorem C21_adapter_reconstructs : forall i0 r f s ev f' s',
  eruns f s ev f' s' -> print_free ev -> blank i0 -> Z.of_nat (length ev) < P ->
  exists m, import (run_trace ev s') (run_log ev) i0 r = AdOk (Adapted (expected (ini_of i0) [] 1 ev) s s' m).
Proof.
  intros i0 r f s ev f' s' He Hp Hb Hl. destruct (import_run i0 r f s ev f' s' He Hp Hb Hl) as (m & E & _).
  exists (update_multiplicities r m). exact E.
Qed.
Print Assumptions C21_adapter_reconstructs.

(** What [expected] says, per instruction: registers, instruction, number, and operands. *)
Theorem C21_bundles : forall ini ev k e,
  nth_error ev k = Some e ->
  exists b h, nth_error (expected ini [] 1 ev) k = Some b /\
    b_st b = ev_state e /\ b_instr b = ev_instr e /\ b_clock b = 1 + Z.of_nat k /\
    map d_addr (b_acc b) = skipn (length (code_addrs (pc (ev_state e)) (ev_instr e))) (map fst (ev_log e)) /\
    map d_val (b_acc b) = skipn (length (code_addrs (pc (ev_state e)) (ev_instr e))) (map (fun x => q0 (snd x)) (ev_log e)) /\
    h = rev (timeline 1 (firstn k ev)) /\
    b_acc b = map access_of (skipn (length (code_addrs (pc (ev_state e)) (ev_instr e)))
                                   (moves ini h (at_clock (1 + Z.of_nat k) (ev_log e)))).
Proof. exact expected_nth. Qed.
Print Assumptions C21_bundles.
Theorem C21_one_bundle_each : forall ini ev, length (expected ini [] 1 ev) = length ev.
Proof. intros. apply expected_length. Qed.
Print Assumptions C21_one_bundle_each.

(** The memories: the final one holds what the run left, with the number of the last
    instruction that touched the cell; the initial one the starting contents. *)
Theorem C21_memories : forall i0 r f s ev f' s',
  eruns f s ev f' s' -> print_free ev -> blank i0 -> Z.of_nat (length ev) < P -> agrees (ini_of i0) f ->
  exists bs m, import (run_trace ev s') (run_log ev) i0 r = AdOk (Adapted bs s s' m) /\
  (forall a, view (a_fin m) a = match last_at (rev (timeline 1 ev)) a with
     | Some (_, c) => Some (f' a, c)
     | None => option_map (fun v => (v, 0)) (ini_of i0 a) end) /\
  (forall a, view (a_ini m) a = option_map (fun v => (v, 0))
     (match ini_of i0 a with Some v => Some v | None => first_at (rev (timeline 1 ev)) a end)) /\
  (forall a v, ini_of i0 a = Some v -> last_at (rev (timeline 1 ev)) a = None -> f' a = v).
Proof.
  intros i0 r f s ev f' s' He Hp Hb Hl Ha. destruct (import_run i0 r f s ev f' s' He Hp Hb Hl) as (m & E & _ & Ht & _).
  exists (expected (ini_of i0) [] 1 ev), (update_multiplicities r m). split; [exact E|].
  exact (tracks_views i0 f f' s s' ev m r He Ht Hb Ha).
Qed.
Print Assumptions C21_memories.

(** The code and the operands an instruction reads enter its bundle with their contents,
    unchanged by the access. *)
Theorem C21_reads : forall ini f s ev1 st i lg ev2 f' s',
  eruns f s (ev1 ++ (st, i, lg) :: ev2) f' s' -> agrees ini f ->
  exists g e, isa i (fun a => q0 (g a)) st = Some e /\ instr_at g (pc st) i /\
    lg = seen g (code_addrs (pc st) i) ++ seen g (reads e) ++ stored (writes e) /\
    Forall (fun x => mv_old x = g (mv_addr x) /\ mv_new x = g (mv_addr x))
      (moves ini (rev (timeline 1 ev1)) (at_clock (1 + Z.of_nat (length ev1)) (seen g (code_addrs (pc st) i ++ reads e)))).
Proof.
  intros ini f s ev1 st i lg ev2 f' s' H Ha. destruct (eruns_split ev1 f s st i lg ev2 f' s' H) as (g & g' & t' & A & B & _).
  destruct B as (Hi & e & He & _ & _ & _ & _ & Hlg). exists g, e. repeat (split; [assumption|]).
  pose proof (tells_run ini f s ev1 g st A 1 []) as Ht. rewrite app_nil_r in Ht.
  apply reads_keep. apply Ht. intros a. cbn [last_at]. apply Ha.
Qed.
Print Assumptions C21_reads.

(** For every segment of every run of the virtual machine. *)
Theorem C21_vm_segments : forall fuel sfuel k v v' sg r,
  1 <= k < P - 1 -> fresh v -> v_segs v = [] -> seg_loop fuel sfuel k v = (v', LOk tt) -> In sg (v_segs v') ->
  exists f s ev f' s',
    eruns f s ev f' s' /\ (forall a, match seg_initial sg a with Some q => q = f a | None => f a = qzero end) /\
    seg_trace sg = run_trace ev s' /\ seg_mtrace sg = run_log ev /\
    (print_free ev -> exists m,
       import (seg_trace sg) (seg_mtrace sg) (seg_map sg) r = AdOk (Adapted (expected (seg_initial sg) [] 1 ev) s s' m) /\
       forall a, view (a_fin m) a = match last_at (rev (timeline 1 ev)) a with
         | Some (_, c) => Some (f' a, c)
         | None => option_map (fun q => (q, 0)) (seg_initial sg a) end).
Proof.
  intros fuel sfuel k v v' sg r Hk Hf Hs Hl Hin.
  destruct (C13_segmented_is_unsegmented fuel sfuel k v v' ltac:(lia) Hf Hs Hl) as (_ & _ & _ & _ & _ & _ & _ & Hc & Hlen).
  assert (Hfit : Forall seg_fits (v_segs v')).
  { apply (seg_loop_fits fuel sfuel k v v'); [lia|exact Hf|rewrite Hs; constructor|exact Hl]. }
  rewrite Forall_forall in Hfit. specialize (Hfit _ Hin). specialize (Hlen _ Hin).
  destruct (chain_in _ _ _ _ _ Hc sg Hin) as (f & s & tr & lg & f' & s' & H1 & H2 & H3 & H4).
  destruct (fruns_eruns _ _ _ _ _ _ H2) as (ev & He & <- & <-).
  exists f, s, ev, f', s'. split; [exact He|]. split; [exact H1|].
  assert (Et : seg_trace sg = run_trace ev s') by (rewrite H3, map_map; reflexivity).
  split; [exact Et|]. split; [exact H4|]. intros Hp.
  assert (Hle : Z.of_nat (length ev) < P).
  { rewrite Et in Hlen. unfold run_trace, zlen in Hlen. rewrite app_length, map_length in Hlen. cbn [length] in Hlen. lia. }
  pose proof (seg_map_blank sg Hfit) as Hb.
  assert (Ha : agrees (ini_of (seg_map sg)) f).
  { intros a w. rewrite seg_map_ini by exact Hfit. intros E. specialize (H1 a). rewrite E in H1. exact H1. }
  destruct (import_run (seg_map sg) r f s ev f' s' He Hp Hb Hle) as (m & E & _ & Ht & _).
  destruct (tracks_views (seg_map sg) f f' s s' ev m r He Ht Hb Ha) as (V & _ & _).
  exists (update_multiplicities r m). rewrite Et, H4. split.
  - rewrite (expected_ext (seg_initial sg) (ini_of (seg_map sg))); [exact E|]. intros a. symmetry. apply seg_map_ini. exact Hfit.
  - intros a. rewrite <- (seg_map_ini sg a Hfit). apply V.
Qed.
Print Assumptions C21_vm_segments.
(** The demonstration program, cut after every three instructions: three segments, and the
    adapter accepts each, with 3, 3 and 1 bundles. *)
Example C21_example : exists v', seg_loop 10 100 3 demo_vm = (v', LOk tt) /\
  map (fun sg => match import (seg_trace sg) (seg_mtrace sg) (seg_map sg) (public_ranges 8 1 2) with
                 | AdOk a => (length (ad_bundles a), pc (ad_first a), pc (ad_last a)) | _ => (0%nat, 0, 0) end) (v_segs v')
  = [(3%nat, 0, 4); (3%nat, 4, 3); (1%nat, 3, 8)].
Proof. exists (fst (seg_loop 10 100 3 demo_vm)). split; vm_compute; reflexivity. Qed.

(** A program that prints cannot be imported: the adapter expects the printed cell in the
    log, where the machine does not write it. *)
Definition print_flat : flat := fun a => if a =? 0 then Q (opcode (PrintM31 0)) 0 0 0 else qzero.
Theorem C21_print_refuted :
  exists f s ev f' s' i0, eruns f s ev f' s' /\ blank i0 /\ agrees (ini_of i0) f /\ Z.of_nat (length ev) < P /\
    forall r, import (run_trace ev s') (run_log ev) i0 r = AdUnexpectedEnd.
Proof.
  exists print_flat, (St 0 10), [(St 0 10, PrintM31 0, [(0, print_flat 0)])], print_flat, (St 1 10), [(0, (print_flat 0, 0, 0))].
  split; [|split; [|split; [|split]]].
  - econstructor; [|constructor; reflexivity].
    split; [eexists; vm_compute; reflexivity|].
    eexists. split; [reflexivity|]. cbn [reads peeks writes next fp pc app].
    split; [|split; [intros w []|split; [reflexivity|split; [intros b; reflexivity|reflexivity]]]].
    intros a [<-|[]]. split; [reflexivity|]. vm_compute. auto.
  - split; [constructor; [intros []|constructor]|]. intros a v c k. cbn [hget]. destruct (0 =? a); [|discriminate].
    intros E. injection E as _ <- <-. auto.
  - intros a v. unfold ini_of. cbn [hget]. destruct (Z.eqb_spec 0 a) as [<-|]; [|discriminate]. intros E. injection E as <-. reflexivity.
  - reflexivity.
  - intros r. vm_compute. reflexivity.
Qed.
Print Assumptions C21_print_refuted.

(** ** C22: the memory argument balances *)
Lemma C22_public_ranges n a b : 0 <= n -> 0 <= a -> 0 <= b -> n + a + b <= P -> ranges_ok (public_ranges n a b).
Proof. exact (public_ranges_ok n a b). Qed.
(** Provided no cell that has been written is left alone for more than 2^20 - 1
    instructions ([calm]); every other run is unbalanced, see [C22_unbalanced]. *)
Theorem C22_balanced_partial : forall i0 r f s ev f' s',
  eruns f s ev f' s' -> print_free ev -> blank i0 -> Z.of_nat (length ev) < P -> ranges_ok r ->
  let xs := moves (ini_of i0) [] (timeline 1 ev) in
  Forall calm xs ->
  exists m, import (run_trace ev s') (run_log ev) i0 r = AdOk (Adapted (expected (ini_of i0) [] 1 ev) s s' m) /\
    Permutation (emitted r m xs) (taken r m xs).
Proof.
  intros i0 r f s ev f' s' He Hp Hb Hl Hr xs Hc. destruct (import_run i0 r f s ev f' s' He Hp Hb Hl) as (m & E & Hi & _ & _ & Hf).
  exists (update_multiplicities r m). split; [exact E|]. apply import_balanced; assumption.
Qed.
Print Assumptions C22_balanced_partial.
(** In particular for runs of at most 2^20 - 1 instructions. *)
Theorem C22_short_runs : forall i0 r f s ev f' s',
  eruns f s ev f' s' -> print_free ev -> blank i0 -> Z.of_nat (length ev) <= GAP -> ranges_ok r ->
  exists m, import (run_trace ev s') (run_log ev) i0 r = AdOk (Adapted (expected (ini_of i0) [] 1 ev) s s' m) /\
    Permutation (emitted r m (moves (ini_of i0) [] (timeline 1 ev))) (taken r m (moves (ini_of i0) [] (timeline 1 ev))).
Proof.
  intros i0 r f s ev f' s' He Hp Hb Hl Hr. apply (C22_balanced_partial i0 r f s ev f' s'); try assumption.
  - unfold GAP, P in *. lia.
  - apply Forall_forall. intros x Hx Hg. exfalso. destruct (timeline_bound _ _ _ _ _ Hx) as [H1 H2].
    assert (H3 : 0 <= mv_from x) by (eapply timeline_order; [|exact Hx]; unfold GAP, P in *; lia). lia.
Qed.
Print Assumptions C22_short_runs.
Example C22_example : exists v', seg_loop 10 100 3 demo_vm = (v', LOk tt) /\
  map (fun sg => match import (seg_trace sg) (seg_mtrace sg) (seg_map sg) (public_ranges 8 1 2) with
                 | AdOk a => (length (toks 1 (a_ini (ad_mem a))), length (toks (P - 1) (a_fin (ad_mem a)))) | _ => (0%nat, 0%nat) end) (v_segs v')
  = [(6%nat, 13%nat); (8%nat, 15%nat); (4%nat, 11%nat)].
Proof. exists (fst (seg_loop 10 100 3 demo_vm)). split; vm_compute; reflexivity. Qed.
(** Whenever a written cell is left alone for longer, some tuple is emitted once more than
    it is consumed. *)
Theorem C22_unbalanced : forall i0 r f s ev f' s',
  eruns f s ev f' s' -> print_free ev -> blank i0 -> Z.of_nat (length ev) < P -> ranges_ok r ->
  let xs := moves (ini_of i0) [] (timeline 1 ev) in
  ~ Forall calm xs ->
  exists m t, import (run_trace ev s') (run_log ev) i0 r = AdOk (Adapted (expected (ini_of i0) [] 1 ev) s s' m) /\
    count_occ cdec (emitted r m xs) t = S (count_occ cdec (taken r m xs) t).
Proof.
  intros i0 r f s ev f' s' He Hp Hb Hl Hr xs Hc. destruct (import_run i0 r f s ev f' s' He Hp Hb Hl) as (m & E & Hi & _ & _ & Hf).
  destruct (import_unbalanced r m (ini_of i0) (timeline 1 ev) Hr Hi) as (t & Ht); try assumption.
  { apply (ascending_weaken 1); [|apply ascending_timeline; lia]. lia. }
  exists (update_multiplicities r m), t. split; [exact E|]. unfold zc in Ht. fold xs in Ht. lia.
Qed.
Print Assumptions C22_unbalanced.
(** There are such runs. *)
Theorem C22_balance_refuted :
  exists i0 f s ev f' s', eruns f s ev f' s' /\ print_free ev /\ blank i0 /\ agrees (ini_of i0) f /\ Z.of_nat (length ev) < P /\
    forall r, ranges_ok r ->
    exists m, import (run_trace ev s') (run_log ev) i0 r = AdOk (Adapted (expected (ini_of i0) [] 1 ev) s s' m) /\
      ~ Permutation (emitted r m (moves (ini_of i0) [] (timeline 1 ev))) (taken r m (moves (ini_of i0) [] (timeline 1 ev))).
Proof.
  set (m := Z.to_nat 300000). assert (Em : Z.of_nat m = 300000) by (apply Z2Nat.id; lia).
  destruct (long_run m 9 ltac:(lia) ltac:(lia) ltac:(split; [discriminate|reflexivity])) as (ev & f' & s' & He & Hl & Hp & _ & x & Hx & _ & H1 & H2 & H3 & _ & H4).
  exists (loop_map (Z.of_nat m) 9), (loop_flat (Z.of_nat m) 9), (St 0 10), ev, f', s'.
  split; [exact He|]. split; [exact Hp|]. split; [apply loop_blank|]. split; [apply loop_agrees|]. split; [exact Hl|].
  intros r Hr. destruct (C22_unbalanced (loop_map (Z.of_nat m) 9) r _ _ ev f' s' He Hp (loop_blank _ _) Hl Hr) as (mm & t & E & Ht).
  - intros Hc. rewrite Forall_forall in Hc. specialize (Hc _ Hx). unfold calm in Hc. rewrite H1, H2, H3, H4, Em in Hc.
    discriminate Hc. unfold GAP. lia.
  - exists mm. split; [exact E|]. intros Hper. rewrite (Permutation_count_occ cdec) in Hper. rewrite Hper in Ht. lia.
Qed.
Print Assumptions C22_balance_refuted.

(** ** C23: clock gaps *)
(** Holds when no instruction touches a cell twice, and no gap longer than 2^20 - 1 is a
    multiple of 2^20 - 1; and only then. *)
Theorem C23_gaps_in_range_partial : forall ini ev,
  Z.of_nat (length ev) < P ->
  Forall (fun e => NoDup (map fst (ev_log e))) ev ->
  let xs := moves ini [] (timeline 1 ev) in
  Forall (fun x => GAP < mv_clk x - mv_from x -> (mv_clk x - mv_from x) mod GAP <> 0) xs ->
  Forall (fun x => 0 <= clock_gap x < 2 ^ 20) xs.
Proof.
  intros ini ev Hl Hn xs Hg. rewrite Forall_forall in *. intros x Hx. specialize (Hg x Hx).
  destruct (timeline_order ini ev Hl x Hx) as [H1 H2].
  apply gap_range; try assumption. split; [|intros [A B]; exact (Hg A B)].
  eapply (timeline_strict ini ev 1 []); [intros a v c H; discriminate H|lia|apply Forall_forall; exact Hn|exact Hx].
Qed.
Print Assumptions C23_gaps_in_range_partial.
Definition demo_ev : list event :=
  [(St 0 13, StoreImm 7 0, [(0, Q 9 7 0 0); (13, Q 7 0 0 0)]);
   (St 1 13, StoreAddFpImm 0 3 1, [(1, Q 4 0 3 1); (13, Q 7 0 0 0); (14, Q 10 0 0 0)]);
   (St 2 13, CallAbsImm 2 4, [(2, Q 10 2 4 0); (15, Q 13 0 0 0); (16, Q 3 0 0 0)])].
Example C23_example : map seg_mtrace (firstn 1 (v_segs (fst (seg_loop 10 100 3 demo_vm)))) = [run_log demo_ev] /\
  Forall (fun e => NoDup (map fst (ev_log e))) demo_ev /\
  Forall (fun x => GAP < mv_clk x - mv_from x -> (mv_clk x - mv_from x) mod GAP <> 0)
    (moves (fun a => Some (raw (v_mem demo_vm) a)) [] (timeline 1 demo_ev)).
Proof.
  split; [|split].
  - vm_compute. reflexivity.
  - repeat (apply Forall_cons; [cbn [map fst ev_log snd]; repeat (constructor; [cbn; lia|]); constructor|]). constructor.
  - apply Forall_forall. intros x Hx Hg. exfalso. pose proof (timeline_bound _ _ _ _ _ Hx) as H1. cbn [length demo_ev] in H1.
    destruct (timeline_order _ demo_ev eq_refl x Hx) as [H2 _]. clear Hx. unfold GAP in *. lia.
Qed.
(** An instruction that touches a cell twice, for instance one with the same source and
    destination, gets the gap -1, which no 20-bit table holds. *)
Theorem C23_same_cell_twice_refuted : forall ini ev e,
  In e ev -> ~ NoDup (map fst (ev_log e)) -> Z.of_nat (length ev) < P ->
  exists x, In x (moves ini [] (timeline 1 ev)) /\ clock_gap x = -1.
Proof.
  intros ini ev e He Hn Hl. destruct (timeline_twice ini ev 1 [] e He Hn) as (x & Hx & E). exists x. split; [exact Hx|].
  unfold clock_gap, mv_start, bridges. rewrite E, Z.sub_diag. change (GAP <? 0) with false. cbv iota. lia.
Qed.
Print Assumptions C23_same_cell_twice_refuted.
(** [[fp] = [fp] + 1] is such an instruction. *)
Example C23_twice_example : forall f p x imm, instr_at f p (StoreAddFpImm 0 imm 0) -> 0 <= p < 100 -> 0 <= x < 100 -> is_felt (f (x + 0)) ->
  exists f' s' lg, fstep f (St p x) (StoreAddFpImm 0 imm 0) f' s' lg /\ ~ NoDup (map fst lg).
Proof.
  intros f p x imm Hi Hp Hx Hf. do 3 eexists. split; [apply (fstep_add f p x 0 imm 0); try assumption; lia|].
  cbn [map fst]. intros H. inversion H as [|? ? _ H2]; subst. inversion H2 as [|? ? H3 _]; subst. apply H3. left. reflexivity.
Qed.
(** A gap of exactly twice 2^20 - 1 is bridged completely, and the access then also gets
    the gap -1: a run in which no instruction touches a cell twice. *)
Theorem C23_exact_gap_refuted :
  exists i0 f s ev f' s', eruns f s ev f' s' /\ print_free ev /\ blank i0 /\ agrees (ini_of i0) f /\ Z.of_nat (length ev) < P /\
    Forall (fun e => NoDup (map fst (ev_log e))) ev /\
    exists x, In x (moves (ini_of i0) [] (timeline 1 ev)) /\ calm x /\ clock_gap x = -1.
Proof.
  set (m := Z.to_nat 524287). assert (Em : Z.of_nat m = 524287) by (apply Z2Nat.id; lia).
  destruct (long_run m 5 ltac:(lia) ltac:(lia) ltac:(split; [discriminate|reflexivity])) as (ev & f' & s' & He & Hl & Hp & Hn & x & Hx & _ & H1 & H2 & H3 & _ & H4).
  exists (loop_map (Z.of_nat m) 5), (loop_flat (Z.of_nat m) 5), (St 0 10), ev, f', s'.
  split; [exact He|]. split; [exact Hp|]. split; [apply loop_blank|]. split; [apply loop_agrees|]. split; [exact Hl|]. split; [exact Hn|].
  exists x. split; [exact Hx|]. split; [intros _; congruence|].
  unfold clock_gap, mv_start, bridges. rewrite H1, H2, Em. reflexivity.
Qed.
Print Assumptions C23_exact_gap_refuted.
