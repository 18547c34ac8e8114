(** Properties C24, C25 and C45: the roots of the memory before and after a segment. *)
From Coq Require Import ZArith Bool List Lia Permutation.
From Verif Require Import M31 M31Facts Instr InstrFacts VmMem Vm Abi Isa IsaFacts Machine VmFacts RunFacts SpaceFacts VmPropFacts
  Prop_Vm AirChain AirMem Adapter AdapterSpec AdapterFacts AdapterRun AdapterProps Prop_Adapter
  Merkle MerkleSpec MerkleFacts MerkleProps MerkleSegs.
Import ListNotations.
Open Scope Z_scope.

(** The cells of an adapted memory: [present m a] is the content of cell [a], zero if [m]
    does not have it; [root] is the root of the full tree over all 2^28 words. *)

(** ** C24: the partial tree has the root of the full tree *)
Theorem C24_partial_tree_root : forall hash t r m,
  m <> [] -> NoDup (keys m) -> Forall (fun a => 0 <= a < 2 ^ 28) (keys m) -> Z.of_nat (length m) < 2 ^ 28 ->
  exists ns, build_tree hash t r m = Some (ns, Some (root hash (present m))).
Proof. intros hash t r m A B C D. destruct (build_tree_root hash t r m A B C D) as (ns & E & _). exists ns. exact E. Qed.
Print Assumptions C24_partial_tree_root.

(** Two lists of the same cells, in any order, public or not, initial or final. *)
Theorem C24_same_cells_same_root : forall hash t r m t' r' m' ns x ns' x',
  NoDup (keys m) -> Forall (fun a => 0 <= a < 2 ^ 28) (keys m) -> Permutation m m' ->
  build_tree hash t r m = Some (ns, Some x) -> build_tree hash t' r' m' = Some (ns', Some x') -> x = x'.
Proof.
  intros hash t r m t' r' m' ns x ns' x' Hn Ha Hp E E'.
  assert (Hk : Permutation (keys m) (keys m')) by (apply Permutation_map; exact Hp).
  assert (Hn' : NoDup (keys m')) by (eapply Permutation_NoDup; eassumption).
  assert (Ha' : Forall addr_ok (keys m')) by (eapply Permutation_Forall; eassumption).
  rewrite (build_tree_inv _ _ _ _ _ _ Hn Ha E), (build_tree_inv _ _ _ _ _ _ Hn' Ha' E').
  apply equal_memories. intros a _. unfold present.
  assert (Hg : hget m a = hget m' a); [|rewrite Hg; reflexivity].
  destruct (hget m a) as [v|] eqn:E1.
  - apply hget_in in E1. symmetry. apply hget_nodup; [exact Hn'|]. eapply Permutation_in; eassumption.
  - destruct (hget m' a) as [v|] eqn:E2; [|reflexivity]. apply hget_in in E2.
    assert (K : hget m a = Some v) by (apply hget_nodup; [exact Hn|]; eapply Permutation_in; [apply Permutation_sym; exact Hp|exact E2]).
    congruence.
Qed.
Print Assumptions C24_same_cells_same_root.

(** No cells, no root; and a memory with all 2^28 cells is refused. *)
Theorem C24_empty : forall hash t r, build_tree hash t r [] = Some ([], None).
Proof. reflexivity. Qed.
Print Assumptions C24_empty.
Theorem C24_full_memory_refused : forall hash t r m, 2 ^ 28 <= Z.of_nat (length m) -> build_tree hash t r m = None.
Proof.
  intros hash t r m H. unfold build_tree. destruct m as [|x m]; [cbn in H; lia|].
  destruct (Z.ltb_spec (Z.of_nat (length (x :: m))) 268435456) as [K|]; [lia|reflexivity].
Qed.
Print Assumptions C24_full_memory_refused.

(** The nodes handed to the prover link the cells to the root: for every tuple (index,
    depth, value, root), what the nodes use and the root itself are matched by the leaves
    of the cells and by what the nodes produce. *)
Theorem C24_nodes_link_cells_to_root : forall hash t r m ns rv,
  m <> [] -> NoDup (keys m) -> Forall (fun a => 0 <= a < 2 ^ 28) (keys m) -> Z.of_nat (length m) < 2 ^ 28 ->
  build_tree hash t r m = Some (ns, Some rv) -> forall rt x,
  total x (flat_map (node_uses rt) ns) + total x [(1, [0; 0; rv; rt])] =
  total x (lvl_tuples rt 0 (flat_map (cell_leaves t r) m)) + total x (flat_map (node_emits rt) ns).
Proof. intros hash t r m ns rv A B C D. exact (tree_flow hash t r m ns rv A B C D). Qed.
Print Assumptions C24_nodes_link_cells_to_root.

(** Two cells far apart; a hash that is cheap to compute. *)
Definition toy_hash (x y : Z) : Z := (3 * x + 5 * y + 1) mod P.
Definition two_cells : amap := [(5, (Q 1 2 3 4, 0, 0)); (268435455, (Q 9 0 0 0, 7, 1))].
Example C24_example :
  two_cells <> [] /\ NoDup (keys two_cells) /\ Forall (fun a => 0 <= a < 2 ^ 28) (keys two_cells) /\ Z.of_nat (length two_cells) < 2 ^ 28 /\
  option_map (fun x => (length (fst x), snd x)) (build_tree toy_hash TFinal (public_ranges 8 1 2) two_cells) = Some (61%nat, Some 1218641803) /\
  option_map snd (build_tree toy_hash TInitial (public_ranges 3 1 1) (rev two_cells)) = Some (Some 1218641803).
Proof.
  split; [discriminate|]. split; [repeat constructor; cbn; intuition discriminate|].
  split; [apply Forall_cons; [split; reflexivity || discriminate|apply Forall_cons; [split; reflexivity || discriminate|apply Forall_nil]]|].
  split; [reflexivity|]. split; vm_compute; reflexivity.
Qed.

(** ** C25: the root determines the memory *)
(** Equal roots belong to equal memories, or the two trees contain different pairs of
    children with the same hash. *)
Theorem C25_equal_roots_or_collision : forall hash f g, root hash f = root hash g ->
  (forall a, 0 <= a < 2 ^ 28 -> f a = g a) \/
  exists x y x' y', (x, y) <> (x', y') /\ hash x y = hash x' y'.
Proof.
  intros hash f g E. destruct (equal_roots hash f g E) as [H|(k & p & H1 & H2)]; [left; exact H|].
  right. do 4 eexists. split; [exact H1|exact H2].
Qed.
Print Assumptions C25_equal_roots_or_collision.
(** The collision is found in the two trees themselves. *)
Theorem C25_collision_is_found : forall hash f g, root hash f = root hash g ->
  (forall a, 0 <= a < 2 ^ 28 -> f a = g a) \/ collision hash f g.
Proof. exact equal_roots. Qed.
Print Assumptions C25_collision_is_found.
Theorem C25_equal_memories_equal_roots : forall hash f g,
  (forall a, 0 <= a < 2 ^ 28 -> f a = g a) -> root hash f = root hash g.
Proof. exact equal_memories. Qed.
Print Assumptions C25_equal_memories_equal_roots.
(** With one field element per digest, whatever the hash function, there are two
    one-cell memories with the same root. *)
Theorem C25_roots_determine_memory_refuted : forall hash,
  (forall x y, wf x -> wf y -> wf (hash x y)) ->
  exists q q', qwf q /\ qwf q' /\ q <> q' /\ forall t r t' r', exists ns ns' x,
    build_tree hash t r [(0, (q, 0, 0))] = Some (ns, Some x) /\ build_tree hash t' r' [(0, (q', 0, 0))] = Some (ns', Some x).
Proof.
  intros hash Hw. destruct (roots_collide hash Hw) as (x & y & x' & y' & A & B & C & D & N & E).
  exists (Q x y 0 0), (Q x' y' 0 0). split; [repeat split; cbn; try apply A; try apply B; apply wf0|].
  split; [repeat split; cbn; try apply C; try apply D; apply wf0|]. split; [congruence|]. intros t r t' r'.
  assert (K : forall t r x y, exists ns, build_tree hash t r (cell0 x y) = Some (ns, Some (root hash (present (cell0 x y))))).
  { clear. intros t r x y. destruct (build_tree_root hash t r (cell0 x y)) as (ns & E & _).
    - discriminate.
    - repeat constructor. intros [].
    - apply Forall_cons; [split; reflexivity || discriminate|apply Forall_nil].
    - reflexivity.
    - exists ns. exact E. }
  destruct (K t r x y) as [ns E1]. destruct (K t' r' x' y') as [ns' E2]. exists ns, ns', (root hash (present (cell0 x y))).
  split; [exact E1|]. rewrite E. exact E2.
Qed.
Print Assumptions C25_roots_determine_memory_refuted.
Example C25_example : (forall x y, wf x -> wf y -> wf (toy_hash x y)) /\
  build_tree toy_hash TInitial (public_ranges 8 1 2) [(0, (Q 5 0 0 0, 0, 0))] <>
  build_tree toy_hash TInitial (public_ranges 8 1 2) [(0, (Q 4 0 0 0, 0, 0))].
Proof. split; [intros; apply Z.mod_pos_bound; reflexivity|]. intros H. vm_compute in H. discriminate. Qed.

(** ** C45: consecutive segments commit to the same memory *)
(** The memory committed at the end of a segment is the memory the machine leaves; the
    memory committed at the start is the memory the segment starts with, provided every
    cell new to the segment ([opens_zero]) is first seen as zero. *)
Theorem C45_committed_memories_partial : forall fuel sfuel k v v' sg r,
  1 <= k < P - 1 -> fresh v -> v_segs v = [] -> seg_loop fuel sfuel k v = (v', LOk tt) -> In sg (v_segs v') ->
  exists f s ev f' s', seg_run sg f s ev f' s' /\
    (print_free ev -> exists A, import (seg_trace sg) (seg_mtrace sg) (seg_map sg) r = AdOk A /\
       (forall hash t q ns x, build_tree hash t q (a_fin (ad_mem A)) = Some (ns, Some x) -> x = root hash f') /\
       (opens_zero sg -> forall hash t q ns x, build_tree hash t q (a_ini (ad_mem A)) = Some (ns, Some x) -> x = root hash f)).
Proof.
  intros fuel sfuel k v v' sg r Hk Hf Hs Hl Hin.
  destruct (C13_segmented_is_unsegmented fuel sfuel k v v' ltac:(lia) Hf Hs Hl) as (_ & _ & _ & _ & _ & _ & _ & Hc & Hlen).
  assert (Hfit : Forall seg_fits (v_segs v')) by (apply (seg_loop_fits fuel sfuel k v v'); [lia|exact Hf|rewrite Hs; constructor|exact Hl]).
  assert (Hok : Forall seg_ok (v_segs v')) by (apply (seg_loop_space fuel sfuel k v v'); [exact Hf|rewrite Hs; constructor|exact Hl]).
  rewrite Forall_forall in Hfit, Hok. specialize (Hfit _ Hin). specialize (Hok _ Hin). specialize (Hlen _ Hin).
  destruct (chain_in _ _ _ _ _ Hc sg Hin) as (f & s & tr & lg & f' & s' & H1 & H2 & H3 & H4).
  destruct (fruns_eruns _ _ _ _ _ _ H2) as (ev & He & <- & <-). rewrite map_map in H3.
  exists f, s, ev, f', s'. assert (Hrun : seg_run sg f s ev f' s') by (split; [exact He|split; [exact H1|split; [exact H3|exact H4]]]).
  split; [exact Hrun|]. intros Hp.
  assert (Hle : Z.of_nat (length ev) < P).
  { rewrite H3 in Hlen. unfold zlen in Hlen. rewrite app_length, map_length in Hlen. cbn [length] in Hlen. lia. }
  destruct (seg_memories sg r f s ev f' s' Hok Hfit Hrun Hp Hle) as (m & E & N1 & N2 & A1 & A2 & F & I).
  eexists. split; [exact E|]. cbn [ad_mem]. split.
  - intros hash t q ns x B. rewrite (build_tree_inv _ _ _ _ _ _ N2 A2 B). apply equal_memories. intros a _. apply F.
  - intros Hz hash t q ns x B. rewrite (build_tree_inv _ _ _ _ _ _ N1 A1 B). apply equal_memories. intros a _. apply I, Hz.
Qed.
Print Assumptions C45_committed_memories_partial.

(** Hence the final root of a segment is the initial root of the next one. *)
Theorem C45_roots_chain_partial : forall fuel sfuel k v v' l1 a b l2 ra rb,
  1 <= k < P - 1 -> fresh v -> v_segs v = [] -> seg_loop fuel sfuel k v = (v', LOk tt) ->
  v_segs v' = l1 ++ a :: b :: l2 -> opens_zero b ->
  exists f1 s1 e1 f2 s2 e2 f3 s3, seg_run a f1 s1 e1 f2 s2 /\ seg_run b f2 s2 e2 f3 s3 /\
    (print_free e1 -> print_free e2 -> exists A B,
       import (seg_trace a) (seg_mtrace a) (seg_map a) ra = AdOk A /\
       import (seg_trace b) (seg_mtrace b) (seg_map b) rb = AdOk B /\
       forall hash t q t' q' ns ns' x y,
         build_tree hash t q (a_fin (ad_mem A)) = Some (ns, Some x) ->
         build_tree hash t' q' (a_ini (ad_mem B)) = Some (ns', Some y) -> x = y).
Proof.
  intros fuel sfuel k v v' l1 a b l2 ra rb Hk Hf Hs Hl Es Hz.
  destruct (C13_segmented_is_unsegmented fuel sfuel k v v' ltac:(lia) Hf Hs Hl) as (_ & _ & _ & _ & _ & _ & _ & Hc & Hlen).
  assert (Hfit : Forall seg_fits (v_segs v')) by (apply (seg_loop_fits fuel sfuel k v v'); [lia|exact Hf|rewrite Hs; constructor|exact Hl]).
  assert (Hok : Forall seg_ok (v_segs v')) by (apply (seg_loop_space fuel sfuel k v v'); [exact Hf|rewrite Hs; constructor|exact Hl]).
  assert (Ia : In a (v_segs v')) by (rewrite Es; apply in_or_app; right; left; reflexivity).
  assert (Ib : In b (v_segs v')) by (rewrite Es; apply in_or_app; right; right; left; reflexivity).
  rewrite Forall_forall in Hfit, Hok. rewrite Es in Hc.
  destruct (chain_pair _ _ _ _ _ _ _ _ Hc) as (f1 & s1 & e1 & f2 & s2 & e2 & f3 & s3 & Ra & Rb).
  exists f1, s1, e1, f2, s2, e2, f3, s3. split; [exact Ra|]. split; [exact Rb|]. intros P1 P2.
  assert (L1 : Z.of_nat (length e1) < P).
  { specialize (Hlen _ Ia). destruct Ra as (_ & _ & K & _). rewrite K in Hlen. unfold zlen in Hlen. rewrite app_length, map_length in Hlen. cbn [length] in Hlen. lia. }
  assert (L2 : Z.of_nat (length e2) < P).
  { specialize (Hlen _ Ib). destruct Rb as (_ & _ & K & _). rewrite K in Hlen. unfold zlen in Hlen. rewrite app_length, map_length in Hlen. cbn [length] in Hlen. lia. }
  destruct (seg_memories a ra _ _ _ _ _ (Hok _ Ia) (Hfit _ Ia) Ra P1 L1) as (m1 & E1 & _ & N1 & _ & A1 & F & _).
  destruct (seg_memories b rb _ _ _ _ _ (Hok _ Ib) (Hfit _ Ib) Rb P2 L2) as (m2 & E2 & N2 & _ & A2 & _ & _ & I).
  eexists. eexists. split; [exact E1|]. split; [exact E2|]. cbn [ad_mem].
  intros hash t q t' q' ns ns' x y B1 B2.
  rewrite (build_tree_inv _ _ _ _ _ _ N1 A1 B1), (build_tree_inv _ _ _ _ _ _ N2 A2 B2).
  apply equal_memories. intros c _. rewrite F. symmetry. apply I, Hz.
Qed.
Print Assumptions C45_roots_chain_partial.

(** The demonstration program cut after every three instructions: the second segment grows
    the stack, so the memory it claims to start with is not the one the first ended with.
    The two roots differ unless the hash function has a collision. *)
Theorem C45_roots_chain_refuted :
  exists v' a b c, seg_loop 10 100 3 demo_vm = (v', LOk tt) /\ v_segs v' = [a; b; c] /\
  exists A B, import (seg_trace a) (seg_mtrace a) (seg_map a) (public_ranges 8 1 2) = AdOk A /\
    import (seg_trace b) (seg_mtrace b) (seg_map b) (public_ranges 8 1 2) = AdOk B /\
    forall hash t q t' q', exists ns ns' x y,
      build_tree hash t q (a_fin (ad_mem A)) = Some (ns, Some x) /\
      build_tree hash t' q' (a_ini (ad_mem B)) = Some (ns', Some y) /\
      (x = y -> collision hash (present (a_fin (ad_mem A))) (present (a_ini (ad_mem B)))).
Proof.
  remember (seg_loop 10 100 3 demo_vm) as w eqn:Ew. vm_compute in Ew.
  destruct w as [v' st]. injection Ew as -> ->.
  eexists. eexists. eexists. eexists. split; [reflexivity|]. split; [reflexivity|].
  eexists. eexists. split; [vm_compute; reflexivity|]. split; [vm_compute; reflexivity|]. cbn [ad_mem a_fin a_ini].
  intros hash t q t' q'.
  assert (T : forall t q (m : amap), forallb (fun a => (0 <=? a) && (a <? 268435456)) (keys m) = true ->
     m <> [] -> NoDup (keys m) -> Z.of_nat (length m) < 268435456 -> exists ns, build_tree hash t q m = Some (ns, Some (root hash (present m)))).
  { clear. intros t q m H1 H2 H3 H4. destruct (build_tree_root hash t q m H2 H3) as (ns & E & _); [|exact H4|exists ns; exact E].
    apply Forall_forall. intros a Ha. rewrite forallb_forall in H1. specialize (H1 a Ha). apply andb_prop in H1. destruct H1 as [X Y].
    apply Z.leb_le in X. apply Z.ltb_lt in Y. split; assumption. }
  match goal with |- exists _ _ _ _, build_tree _ _ _ ?m1 = _ /\ build_tree _ _ _ ?m2 = _ /\ _ =>
    destruct (T t q m1) as [ns E1]; [reflexivity|discriminate|unfold keys; cbn [map fst]; repeat constructor; cbn [In]; intuition discriminate|reflexivity|];
    destruct (T t' q' m2) as [ns' E2]; [reflexivity|discriminate|unfold keys; cbn [map fst]; repeat constructor; cbn [In]; intuition discriminate|reflexivity|];
    exists ns, ns', (root hash (present m1)), (root hash (present m2)) end.
  split; [exact E1|]. split; [exact E2|]. intros E. destruct (equal_roots _ _ _ E) as [H|H]; [|exact H].
  specialize (H 17 ltac:(lia)). vm_compute in H. discriminate.
Qed.
Print Assumptions C45_roots_chain_refuted.
(** The third segment touches no new cell. *)
Example C45_example : exists v' a b c, seg_loop 10 100 3 demo_vm = (v', LOk tt) /\ v_segs v' = [a] ++ b :: c :: [] /\ opens_zero c /\ ~ opens_zero b.
Proof.
  remember (seg_loop 10 100 3 demo_vm) as w eqn:Ew. vm_compute in Ew.
  destruct w as [v' st]. injection Ew as -> ->.
  eexists. eexists. eexists. eexists. split; [reflexivity|]. split; [reflexivity|]. split.
  - apply opens_old; [vm_compute; discriminate|vm_compute; reflexivity].
  - apply (opens_new _ 1 (En 17 (Q 65535 0 0 0))); [vm_compute; reflexivity|vm_compute; discriminate|vm_compute; reflexivity|vm_compute; reflexivity|discriminate].
Qed.
