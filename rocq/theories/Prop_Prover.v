(** Property C46: the prover's output for an honest run is accepted by the verifier. *)
From Coq Require Import ZArith Bool List Lia Permutation.
From Verif Require Import M31 M31Facts Instr InstrFacts VmMem Vm Abi Isa IsaFacts Machine VmFacts RunFacts SpaceFacts VmPropFacts Prop_Vm
  Air AirOpcodes AirSpec AirFacts AirChain AirMem AirGlobal Adapter AdapterSpec AdapterFacts AdapterRun AdapterProps Prop_Adapter
  Merkle MerkleSpec MerkleFacts MerkleProps MerkleSegs Trace TraceSpec TraceAll ProverSpec TraceRun Prop_Trace Prover ProverFacts ProverMem ProverTree ProverRun.
Import ListNotations.
Open Scope Z_scope.

(** ** C46: completeness *)
(** [ev] is a run of the machine from memory [f]; [i0] the memory the segment starts with;
    [r] the public ranges; [h] any hash function into the field.  [prove] is the adapter's
    output turned into the rows of all components with the public data, and [accepted] what
    the verifier establishes.  The run must be [plain] (what that takes is listed in
    [ProverSpec]), and leave one of the 2^28 words alone ([spare]).  Then import and proving
    succeed, the public data are those of the run, and the proof is accepted exactly if no
    cell that has been written is left alone for more than 2^20 - 1 instructions ([calm]). *)
Theorem C46_accepted_iff_calm_partial : forall h r i0 f s ev f' s',
  (forall l, wf (h l)) -> eruns f s ev f' s' -> blank i0 -> agrees (ini_of i0) f -> swf s -> (forall a, qwf (f a)) ->
  ev <> [] -> Z.of_nat (length ev) < P - 1 -> plain (ini_of i0) f ev -> ranges_ok r ->
  Forall (fun e => Forall (fun a => 0 <= a < 2 ^ 28) (ev_code e)) ev -> Forall (fun a => 0 <= a < 2 ^ 28) (keys i0) -> spare i0 ev ->
  exists A p, import (run_trace ev s') (run_log ev) i0 r = AdOk A /\ prove h r A = Some p /\
    (accepted h p <-> Forall calm (moves (ini_of i0) [] (timeline 1 ev))) /\
    p_start p = s /\ p_end p = s' /\ p_clock p = Z.of_nat (length ev) /\
    p_program p = extract (a_ini (ad_mem A)) (r_program r) /\ p_input p = extract (a_ini (ad_mem A)) (r_input r) /\
    p_output p = extract (a_fin (ad_mem A)) (r_output r) /\
    p_root0 p = root (hash_of h) (present (a_ini (ad_mem A))) /\ p_root1 p = root (hash_of h) (present (a_fin (ad_mem A))).
Proof. exact honest_proof. Qed.
Print Assumptions C46_accepted_iff_calm_partial.

(** Runs of at most 2^20 - 1 instructions: every gap is short. *)
Lemma short_gaps ini ev : Z.of_nat (length ev) <= GAP -> Forall (fun x => mv_clk x - mv_from x <= GAP) (moves ini [] (timeline 1 ev)).
Proof.
  intros Hl. apply Forall_forall. intros x Hx. destruct (timeline_bound _ _ _ _ _ Hx) as [H1 H2].
  assert (H3 : 0 <= mv_from x) by (eapply timeline_order; [|exact Hx]; unfold GAP, P in *; lia). lia.
Qed.
Lemma short_calm ini ev : Z.of_nat (length ev) <= GAP -> Forall calm (moves ini [] (timeline 1 ev)).
Proof. intros Hl. eapply Forall_impl; [|apply short_gaps, Hl]. intros x H K. cbv beta in H. exfalso. clear - H K. lia. Qed.
Theorem C46_short_runs_accepted_partial : forall h r i0 f s ev f' s',
  (forall l, wf (h l)) -> eruns f s ev f' s' -> blank i0 -> agrees (ini_of i0) f -> swf s -> (forall a, qwf (f a)) ->
  ev <> [] -> Z.of_nat (length ev) < 2 ^ 20 -> ranges_ok r ->
  Forall (fun e => provable (ev_instr e) = true) ev ->
  Forall (fun e => NoDup (map fst (ev_log e))) ev ->
  Forall (fun e => exists k, flat_map (fun x => qlist (snd x)) (ev_words e) = Instr.encode (ev_instr e) ++ repeat 0 k) ev ->
  (forall e1 e2 a, In e1 ev -> In e2 ev -> In a (ev_code e1) -> In a (map fst (ev_log e2)) -> ev_code e2 = ev_code e1) ->
  Forall (fun e => Forall (fun a => is_felt (f a)) (ev_data e)) ev ->
  Forall (fun e => Forall (fun a => 0 <= a < 2 ^ 28) (ev_code e)) ev -> Forall (fun a => 0 <= a < 2 ^ 28) (keys i0) -> spare i0 ev ->
  exists A p, import (run_trace ev s') (run_log ev) i0 r = AdOk A /\ prove h r A = Some p /\ accepted h p /\
    p_start p = s /\ p_end p = s' /\ p_clock p = Z.of_nat (length ev).
Proof.
  intros h r i0 f s ev f' s' Hh He Hb Ha Hs Hq Hne Hl Hr H1 H2 H3 H4 H5 Hc Hk Hsp.
  assert (HG : Z.of_nat (length ev) <= GAP) by (unfold GAP; change (2 ^ 20) with 1048576 in Hl; lia).
  assert (Hpl : plain (ini_of i0) f ev).
  { split; try assumption. eapply Forall_impl; [|apply short_gaps, HG]. intros x K L. cbv beta in K. exfalso. clear - K L. lia. }
  destruct (honest_proof h r i0 f s ev f' s' Hh He Hb Ha Hs Hq Hne) as (A & p & E1 & E2 & Hi & E3 & E4 & E5 & _); try assumption.
  { clear - HG. unfold GAP, P in *. lia. }
  exists A, p. split; [exact E1|]. split; [exact E2|]. split; [|auto]. apply Hi, short_calm, HG.
Qed.
Print Assumptions C46_short_runs_accepted_partial.

(** A run of three instructions (see [show_run]): the cells of the program and of the frame. *)
Definition show_map : amap := map (fun k => (Z.of_nat k, (show_flat (Z.of_nat k), 0, 0))) (seq 0 17).
Definition sum_hash (l : list Z) : Z := (7 * fold_right Z.add 0 l + 1) mod P.
Lemma show_ini a : ini_of show_map a = if (0 <=? a) && (a <? 17) then Some (show_flat a) else None.
Proof.
  unfold ini_of. destruct (hget show_map a) as [[[v c] k]|] eqn:E.
  - apply hget_in in E. unfold show_map in E. apply in_map_iff in E. destruct E as (j & E & Hj). apply in_seq in Hj. injection E as <- <- <- <-.
    rewrite (proj2 (Z.leb_le _ _)), (proj2 (Z.ltb_lt _ _)) by lia. reflexivity.
  - apply hget_none in E. destruct ((0 <=? a) && (a <? 17)) eqn:K; [|reflexivity]. exfalso. apply E. apply andb_prop in K. destruct K as [K1 K2].
    apply Z.leb_le in K1. apply Z.ltb_lt in K2. unfold show_map, keys. rewrite map_map. cbn [fst]. apply in_map_iff. exists (Z.to_nat a). split; [lia|]. apply in_seq. lia.
Qed.
Example C46_example : exists f',
  (forall l, wf (sum_hash l)) /\ eruns show_flat (St 0 13) show_ev f' (St 4 17) /\ blank show_map /\ agrees (ini_of show_map) show_flat /\
  swf (St 0 13) /\ (forall a, qwf (show_flat a)) /\ show_ev <> [] /\ Z.of_nat (length show_ev) < 2 ^ 20 /\ ranges_ok (public_ranges 3 1 2) /\
  plain (ini_of show_map) show_flat show_ev /\
  Forall (fun e => Forall (fun a => 0 <= a < 2 ^ 28) (ev_code e)) show_ev /\ Forall (fun a => 0 <= a < 2 ^ 28) (keys show_map) /\ spare show_map show_ev.
Proof.
  destruct C27_run_example as (f' & R & _ & Hs & Hq & _ & Hp). exists f'. cbv zeta in *.
  split; [intros l; apply Z.mod_pos_bound; reflexivity|]. split; [exact R|]. split; [|split; [|split; [exact Hs|split; [exact Hq|]]]].
  - split; [unfold show_map, keys; rewrite map_map; cbn [fst]; apply FinFun.Injective_map_NoDup; [intros x y K; lia|apply seq_NoDup]|].
    intros a v c k E. apply hget_in in E. unfold show_map in E. apply in_map_iff in E. destruct E as (j & E & _). injection E as _ _ <- <-. auto.
  - intros a v E. rewrite show_ini in E. destruct ((0 <=? a) && (a <? 17)); [congruence|discriminate].
  - split; [discriminate|]. split; [reflexivity|]. split; [apply C22_public_ranges; unfold P; lia|]. split; [|split; [|split]].
    + destruct Hp as [P1 P2 P3 P4 P5 P6]. split; try assumption.
    + unfold show_ev. repeat (apply Forall_cons; [apply Forall_forall; intros a Hi; cbn in Hi; change (2 ^ 28) with 268435456; lia|]). constructor.
    + unfold show_map, keys. rewrite map_map. cbn [fst]. apply Forall_forall. intros a Hi. apply in_map_iff in Hi. destruct Hi as (j & <- & Hj). apply in_seq in Hj. split; [lia|]. change (2 ^ 28) with 268435456. lia.
    + exists 20. split; [split; [discriminate|reflexivity]|]. split.
      * unfold show_map, keys. rewrite map_map. cbn [fst]. intros Hi. apply in_map_iff in Hi. destruct Hi as (j & E & Hj). apply in_seq in Hj. lia.
      * intros e He. cbn [show_ev In] in He. repeat (destruct He as [<-|He]; [cbn; lia|]). destruct He.
Qed.

(** ** Segments of the virtual machine *)
Lemma plain_ext ini ini' f ev : (forall a, ini a = ini' a) -> plain ini f ev -> plain ini' f ev.
Proof. intros E [P1 P2 P3 P4 P5 P6]. split; try assumption. rewrite <- (moves_ext ini ini' _ E []). exact P3. Qed.
(** Every segment that the virtual machine cuts off is such a run: what is left to require
    is that it executes something, leaves a word alone, is [plain] and [calm]. *)
Theorem C46_vm_segments_accepted_partial : forall fuel sfuel k v v' sg h r,
  1 <= k < P - 1 -> fresh v -> v_segs v = [] -> seg_loop fuel sfuel k v = (v', LOk tt) -> In sg (v_segs v') ->
  (forall l, wf (h l)) -> ranges_ok r ->
  exists f s ev f' s', seg_run sg f s ev f' s' /\
    (ev <> [] -> Z.of_nat (length ev) < P - 1 -> plain (seg_initial sg) f ev -> spare (seg_map sg) ev ->
     exists A p, import (seg_trace sg) (seg_mtrace sg) (seg_map sg) r = AdOk A /\ prove h r A = Some p /\
       (accepted h p <-> Forall calm (moves (seg_initial sg) [] (timeline 1 ev))) /\
       p_start p = s /\ p_end p = s' /\ p_clock p = Z.of_nat (length ev) /\ p_root1 p = root (hash_of h) f').
Proof.
  intros fuel sfuel k v v' sg h r Hk Hf Hs Hl Hin Hh Hr.
  destruct (C13_segmented_is_unsegmented fuel sfuel k v v' ltac:(lia) Hf Hs Hl) as (_ & _ & _ & _ & _ & _ & _ & Hc & Hlen).
  assert (Hfit : Forall seg_fits (v_segs v')) by (apply (seg_loop_fits fuel sfuel k v v'); [lia|exact Hf|rewrite Hs; constructor|exact Hl]).
  assert (Hok : Forall seg_ok (v_segs v')) by (apply (seg_loop_space fuel sfuel k v v'); [exact Hf|rewrite Hs; constructor|exact Hl]).
  rewrite Forall_forall in Hfit, Hok. specialize (Hfit _ Hin). specialize (Hok _ Hin). specialize (Hlen _ Hin).
  destruct (chain_in _ _ _ _ _ Hc sg Hin) as (f & s & tr & lg & f' & s' & H1 & H2 & H3 & H4).
  destruct (fruns_eruns _ _ _ _ _ _ H2) as (ev & He & <- & <-). rewrite map_map in H3.
  assert (Hrun : seg_run sg f s ev f' s') by (split; [exact He|split; [exact H1|split; [exact H3|exact H4]]]).
  exists f, s, ev, f', s'. split; [exact Hrun|]. intros Hne Hle Hpl Hsp.
  destruct Hok as (Hlog & Htr & Hini).
  pose proof (seg_map_blank sg Hfit) as Hb.
  assert (Ei : forall a, seg_initial sg a = ini_of (seg_map sg) a) by (intros a; symmetry; apply seg_map_ini, Hfit).
  assert (Ha : agrees (ini_of (seg_map sg)) f) by (intros a w; rewrite <- Ei; intros E; specialize (H1 a); rewrite E in H1; exact H1).
  assert (Hs0 : swf s).
  { rewrite H3 in Htr. pose proof (eruns_start _ _ _ _ _ He) as Es. destruct ev as [|e ev]; [congruence|]. cbn [map app] in Htr. inversion Htr; subst. assumption. }
  assert (Hq : forall a, qwf (f a)).
  { intros a. specialize (H1 a). destruct (seg_initial sg a) as [w|] eqn:E; [rewrite <- H1; apply (Hini _ _ E)|rewrite H1; repeat split; discriminate || reflexivity]. }
  assert (Hcode : Forall (fun e => Forall (fun a => 0 <= a < 2 ^ 28) (ev_code e)) ev).
  { apply Forall_forall. intros e Hie. pose proof (eruns_code _ _ _ _ _ He) as K. rewrite Forall_forall in K. specialize (K e Hie).
    apply Forall_forall. intros a Hia. specialize (K a Hia). apply in_map_iff in K. destruct K as ([b w] & Eb & Hib). cbn [fst] in Eb. subst b.
    unfold log_ok in Hlog. rewrite H4, Forall_forall in Hlog. destruct (Hlog (En a w)) as [Q1 _]; [|exact Q1].
    unfold acc_log. apply in_map_iff. exists (a, w). split; [reflexivity|]. apply in_concat. exists (ev_log e). split; [apply in_map, Hie|exact Hib]. }
  assert (Hkeys : Forall (fun a => 0 <= a < 2 ^ 28) (keys (seg_map sg))).
  { apply Forall_forall. intros a Hia. apply in_keys_view in Hia. unfold view in Hia. specialize (Ei a). unfold ini_of in Ei.
    destruct (hget (seg_map sg) a) as [[[w c] j]|]; [|congruence]. apply (Hini a w Ei). }
  destruct (honest_proof h r (seg_map sg) f s ev f' s' Hh He Hb Ha Hs0 Hq Hne Hle (plain_ext _ _ _ _ Ei Hpl) Hr Hcode Hkeys Hsp)
    as (A & p & E1 & E2 & E3 & E4 & E5 & E6 & _ & _ & _ & _ & E7).
  exists A, p. rewrite H3, H4. split; [exact E1|]. split; [exact E2|]. rewrite (moves_ext _ _ (timeline 1 ev) Ei []). split; [exact E3|].
  split; [exact E4|]. split; [exact E5|]. split; [exact E6|]. rewrite E7. apply equal_memories. intros a _.
  assert (Hprint : Forall (fun e => is_print (ev_instr e) = false) ev).
  { eapply Forall_impl; [|exact (pl_instr _ _ _ Hpl)]. intros e. cbv beta. destruct (ev_instr e); intros K; try reflexivity; discriminate K. }
  destruct (seg_memories sg r f s ev f' s' (conj Hlog (conj Htr Hini)) Hfit Hrun Hprint ltac:(lia)) as (m & Em & _ & _ & _ & _ & F & _).
  rewrite H3, H4 in Em. assert (EA : AdOk A = AdOk (Adapted (expected (seg_initial sg) [] 1 ev) s s' m)) by (rewrite <- Em; symmetry; exact E1). injection EA as ->. cbn [ad_mem]. apply F.
Qed.
Print Assumptions C46_vm_segments_accepted_partial.
