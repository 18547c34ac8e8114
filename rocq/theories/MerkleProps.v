(** Consequences: equal roots, collisions, and the flow of node tuples. *)
From Coq Require Import ZArith Bool List Lia Permutation.
From Verif Require Import M31 M31Facts VmMem Abi AirChain Adapter AdapterSpec AdapterFacts AdapterProps Merkle MerkleSpec MerkleFacts.
Import ListNotations.
Open Scope Z_scope.

(** Two trees have, at the same place, different pairs of children with the same hash. *)
Definition collision (hash : Z -> Z -> Z) (f g : Z -> qm31) : Prop :=
  exists k p, 
    (tree hash f k (2 * p), tree hash f k (2 * p + 1)) <> (tree hash g k (2 * p), tree hash g k (2 * p + 1)) /\
    hash (tree hash f k (2 * p)) (tree hash f k (2 * p + 1)) = hash (tree hash g k (2 * p)) (tree hash g k (2 * p + 1)).
Lemma tree_split hash f g n : forall i, tree hash f n i = tree hash g n i ->
  (forall j, i * 2 ^ Z.of_nat n <= j < (i + 1) * 2 ^ Z.of_nat n -> leaf f j = leaf g j) \/ collision hash f g.
Proof.
  induction n as [|n IH]; intros i E; cbn [tree] in E.
  - left. intros j Hj. change (2 ^ Z.of_nat 0) with 1 in Hj. replace j with i by lia. exact E.
  - destruct (Z.eq_dec (tree hash f n (2 * i)) (tree hash g n (2 * i))) as [E1|N1];
      [|right; exists n, i; split; [congruence|exact E]].
    destruct (Z.eq_dec (tree hash f n (2 * i + 1)) (tree hash g n (2 * i + 1))) as [E2|N2];
      [|right; exists n, i; split; [congruence|exact E]].
    destruct (IH _ E1) as [L1|C]; [|right; exact C]. destruct (IH _ E2) as [L2|C]; [|right; exact C].
    left. intros j Hj. rewrite Nat2Z.inj_succ, Z.pow_succ_r in Hj by lia.
    destruct (Z_lt_le_dec j ((2 * i + 1) * 2 ^ Z.of_nat n)); [apply L1|apply L2]; lia.
Qed.
Lemma leaf_word f a k : 0 <= k < 4 -> leaf f (4 * a + k) = limb (f a) k.
Proof. intros H. unfold leaf. destruct (quarter a k H) as [-> ->]. reflexivity. Qed.
Lemma limb_ext q r : (forall k, 0 <= k < 4 -> limb q k = limb r k) -> q = r.
Proof.
  intros H. pose proof (H 0 ltac:(lia)) as H0. pose proof (H 1 ltac:(lia)) as H1. pose proof (H 2 ltac:(lia)) as H2. pose proof (H 3 ltac:(lia)) as H3.
  cbv [limb Z.eqb Pos.eqb] in *. destruct q as [a b c d], r as [a' b' c' d']; cbn [q0 q1 q2 q3] in *. congruence.
Qed.
Theorem equal_roots hash f g : root hash f = root hash g ->
  (forall a, 0 <= a < 2 ^ 28 -> f a = g a) \/ collision hash f g.
Proof.
  unfold root. intros E. destruct (tree_split hash f g 30 0 E) as [L|C]; [left|right; exact C].
  intros a Ha. apply limb_ext. intros k Hk. rewrite <- !leaf_word by exact Hk. apply L.
  change (2 ^ Z.of_nat 30) with 1073741824. change (2 ^ 28) with 268435456 in Ha. lia.
Qed.
Lemma tree_ext hash f g n : forall i, (forall j, i * 2 ^ Z.of_nat n <= j < (i + 1) * 2 ^ Z.of_nat n -> leaf f j = leaf g j) ->
  tree hash f n i = tree hash g n i.
Proof.
  induction n as [|n IH]; intros i H; cbn [tree].
  - apply H. change (2 ^ Z.of_nat 0) with 1. lia.
  - rewrite Nat2Z.inj_succ, Z.pow_succ_r in H by lia. rewrite !IH; [reflexivity| |]; intros j Hj; apply H; lia.
Qed.
Theorem equal_memories hash f g : (forall a, 0 <= a < 2 ^ 28 -> f a = g a) -> root hash f = root hash g.
Proof.
  intros H. unfold root. apply tree_ext. change (2 ^ Z.of_nat 30) with 1073741824. intros j Hj. unfold leaf. rewrite H; [reflexivity|].
  change (2 ^ 28) with 268435456. split; [apply Z.div_pos; lia|apply Z.div_lt_upper_bound; lia].
Qed.

Lemma not_nodup (l : list Z) : ~ NoDup l -> exists a l1 l2 l3, l = l1 ++ a :: l2 ++ a :: l3.
Proof.
  induction l as [|x l IH]; intros H; [elim H; constructor|].
  destruct (in_dec Z.eq_dec x l) as [Hi|Hi].
  - apply in_split in Hi. destruct Hi as (l2 & l3 & ->). exists x, [], l2, l3. reflexivity.
  - destruct IH as (a & l1 & l2 & l3 & ->); [intros Hn; apply H; constructor; assumption|].
    exists a, (x :: l1), l2, l3. reflexivity.
Qed.
(** Any function into fewer values than arguments repeats a value. *)
Lemma pigeonhole (F : Z -> Z) N : 0 <= N -> (forall x, 0 <= x <= N -> 0 <= F x < N) ->
  exists x y, 0 <= x <= N /\ 0 <= y <= N /\ x <> y /\ F x = F y.
Proof.
  intros HN HF. set (L := map Z.of_nat (seq 0 (S (Z.to_nat N)))).
  assert (HL : NoDup L) by (apply FinFun.Injective_map_NoDup; [intros x y; apply Nat2Z.inj|apply seq_NoDup]).
  assert (Hin : forall x, In x L -> 0 <= x <= N).
  { intros x Hx. apply in_map_iff in Hx. destruct Hx as (k & <- & Hk). apply in_seq in Hk. lia. }
  assert (Hnd : ~ NoDup (map F L)).
  { intros Hd. pose proof (NoDup_incl_length Hd (l' := map Z.of_nat (seq 0 (Z.to_nat N)))) as H.
    assert (Hi : incl (map F L) (map Z.of_nat (seq 0 (Z.to_nat N)))).
    { intros y Hy. apply in_map_iff in Hy. destruct Hy as (x & <- & Hx). specialize (HF x (Hin x Hx)).
      apply in_map_iff. exists (Z.to_nat (F x)). split; [lia|]. apply in_seq. lia. }
    specialize (H Hi). rewrite !map_length in H. unfold L in H. rewrite map_length, !seq_length in H. lia. }
  apply not_nodup in Hnd.
  destruct Hnd as (a & l1 & l2 & l3 & E).
  apply map_eq_app in E. destruct E as (L1 & R1 & E1 & _ & E).
  destruct R1 as [|x R1]; [discriminate E|]. cbn [map] in E. injection E as Ex E.
  apply map_eq_app in E. destruct E as (L2 & R2 & E2 & _ & E).
  destruct R2 as [|y R2]; [discriminate E|]. cbn [map] in E. injection E as Ey _.
  exists x, y. subst R1. rewrite E1 in HL, Hin. split; [|split; [|split]].
  - apply Hin. apply in_or_app. right. left. reflexivity.
  - apply Hin. apply in_or_app. right. right. apply in_or_app. right. left. reflexivity.
  - intros ->. apply NoDup_remove_2 in HL. apply HL. apply in_or_app. right. apply in_or_app. right. left. reflexivity.
  - congruence.
Qed.
Definition cell0 (x y : Z) : amap := [(0, (Q x y 0 0, 0, 0))].
Lemma cell0_root hash x y x' y' : hash x y = hash x' y' -> root hash (present (cell0 x y)) = root hash (present (cell0 x' y')).
Proof.
  intros H. set (f := present (cell0 x y)). set (g := present (cell0 x' y')).
  assert (Hf : forall j, 2 <= j -> leaf f j = leaf g j).
  { intros j Hj. unfold leaf, f, g, present, cell0. cbn [hget].
    destruct (Z.eqb_spec 0 (j / 4)) as [E|]; [|reflexivity].
    pose proof (Z.div_mod j 4 ltac:(lia)). unfold limb. cbn [q0 q1 q2 q3].
    destruct (Z.eqb_spec (j mod 4) 0); [lia|]. destruct (Z.eqb_spec (j mod 4) 1); [lia|]. reflexivity. }
  assert (G : forall n, tree hash f (S n) 0 = tree hash g (S n) 0).
  { induction n as [|n IH].
    - cbn [tree]. unfold f, g, leaf, present, cell0. exact H.
    - change (hash (tree hash f (S n) 0) (tree hash f (S n) 1) = hash (tree hash g (S n) 0) (tree hash g (S n) 1)).
      rewrite IH. f_equal. apply tree_ext. intros j Hj. apply Hf. rewrite Nat2Z.inj_succ, Z.pow_succ_r in Hj by lia.
      pose proof (Z.pow_pos_nonneg 2 (Z.of_nat n) ltac:(lia) ltac:(lia)). lia. }
  unfold root. apply G.
Qed.
Theorem roots_collide hash : (forall x y, wf x -> wf y -> wf (hash x y)) ->
  exists x y x' y', wf x /\ wf y /\ wf x' /\ wf y' /\ (x, y) <> (x', y') /\
    root hash (present (cell0 x y)) = root hash (present (cell0 x' y')).
Proof.
  intros Hw. set (F := fun z => if z <? P then hash z 0 else hash 0 1).
  assert (W0 : wf 0) by (split; [lia|reflexivity]). assert (W1 : wf 1) by (split; [lia|reflexivity]).
  destruct (pigeonhole F P) as (a & b & Ha & Hb & Hne & E); [unfold P; lia| |].
  - intros z Hz. unfold F. destruct (Z.ltb_spec z P); [apply Hw; [split; lia|exact W0]|apply Hw; assumption].
  - unfold F in E. destruct (Z.ltb_spec a P), (Z.ltb_spec b P).
    + exists a, 0, b, 0. repeat (split; [first [exact W0|split; lia]|]). split; [congruence|]. apply cell0_root. exact E.
    + exists a, 0, 0, 1. repeat (split; [first [exact W0|exact W1|split; lia]|]). split; [congruence|]. apply cell0_root. exact E.
    + exists 0, 1, b, 0. repeat (split; [first [exact W0|exact W1|split; lia]|]). split; [congruence|]. apply cell0_root. exact E.
    + lia.
Qed.

(** ** The flow of node tuples *)
Section Hash.
Variable hash : Z -> Z -> Z.
Variable rt : Z.
(** A level as weighted tuples: index, depth, value, root. *)
Definition lvl_tuples (h : nat) (cur : level) : list (Z * list Z) :=
  map (fun x => (mv_mult (snd x), [fst x; Z.of_nat TREE_HEIGHT - Z.of_nat h; mv_value (snd x); rt])) cur.
(** What a node uses and emits. *)
Definition node_uses (n : node_data) : list (Z * list Z) :=
  [(mv_mult (nd_left n), [nd_index n; nd_depth n; mv_value (nd_left n); rt]);
   (mv_mult (nd_right n), [nd_index n + 1; nd_depth n; mv_value (nd_right n); rt])].
Definition node_emits (n : node_data) : list (Z * list Z) :=
  [(mv_mult (nd_parent n), [nd_index n / 2; nd_depth n - 1; mv_value (nd_parent n); rt])].

Lemma total_perm t l l' : Permutation l l' -> total t l = total t l'.
Proof. induction 1 as [|[m v] l l' _ IH|[m v] [m' v'] l|l1 l2 l3 _ IH1 _ IH2]; cbn [total]; lia. Qed.
Lemma total_zero t l : Forall (fun e => fst e = 0) l -> total t l = 0.
Proof. induction 1 as [|[m v] l Hm _ IH]; [reflexivity|]. cbn [total fst] in *. rewrite IH, Hm. destruct (dec v t); reflexivity. Qed.
Definition lvl_get_tuple (h : nat) (cur : level) (i : Z) : Z * list Z :=
  (mv_mult (get hash h cur i), [i; Z.of_nat TREE_HEIGHT - Z.of_nat h; mv_value (get hash h cur i); rt]).
Lemma lvl_tuples_keys h cur : NoDup (lkeys cur) -> lvl_tuples h cur = map (lvl_get_tuple h cur) (lkeys cur).
Proof.
  intros Hn. unfold lvl_tuples, lkeys. rewrite map_map. apply map_ext_in. intros [i v] Hx. cbn [fst snd].
  unfold lvl_get_tuple, get. rewrite (in_lget cur i v Hn Hx). reflexivity.
Qed.
Lemma level_uses h cur t : NoDup (lkeys cur) -> Forall (fun i => 0 <= i < 1073741824) (lkeys cur) ->
  total t (flat_map node_uses (map (up_node hash h cur) (halves cur))) = total t (lvl_tuples h cur).
Proof.
  intros Hn Hb.
  assert (Hh : Forall (fun p => 0 <= p < 536870912) (halves cur)).
  { apply Forall_forall. intros p Hp. apply halves_in in Hp. destruct Hp as (i & Hi & <-). rewrite Forall_forall in Hb. specialize (Hb i Hi).
    split; [apply Z.div_pos; lia|apply Z.div_lt_upper_bound; lia]. }
  assert (E1 : flat_map node_uses (map (up_node hash h cur) (halves cur)) =
               map (lvl_get_tuple h cur) (flat_map (fun p => [2 * p; 2 * p + 1]) (halves cur))).
  { clear Hb Hn. induction Hh as [|p ps Hp _ IH]; [reflexivity|]. cbn [map flat_map app]. rewrite IH.
    unfold node_uses, up_node. cbn [nd_index nd_depth nd_left nd_right app].
    unfold mfrom; rewrite Z.mod_small by (split; unfold P; lia). reflexivity. }
  rewrite E1, (lvl_tuples_keys h cur Hn).
  set (L := flat_map (fun p => [2 * p; 2 * p + 1]) (halves cur)).
  assert (HL : NoDup L /\ forall i, In i L <-> In (i / 2) (halves cur)).
  { assert (Hu : NoDup (halves cur)) by apply uniq_nodup. unfold L. clear - Hu.
    induction Hu as [|p ps Hp Hu [IH1 IH2]]; [split; [constructor|cbn; tauto]|]. cbn [flat_map app].
    assert (Hin : forall i, (2 * p = i \/ 2 * p + 1 = i) <-> p = i / 2).
    { intros i. pose proof (Z.div_mod i 2 ltac:(lia)). pose proof (Z.mod_pos_bound i 2 ltac:(lia)).
      split; [intros [<-|<-]; rewrite ?half_even, ?half_odd; reflexivity|lia]. }
    split.
    - constructor; [|constructor].
      + intros [H|H]; [lia|]. apply IH2 in H. rewrite half_even in H. contradiction.
      + intros H. apply IH2 in H. rewrite half_odd in H. contradiction.
      + exact IH1.
    - intros i. cbn [In]. rewrite IH2. specialize (Hin i). tauto. }
  destruct HL as [HL1 HL2].
  set (pr := fun i => match lget cur i with Some _ => true | None => false end).
  assert (E2 : forall l, total t (map (lvl_get_tuple h cur) l) = total t (map (lvl_get_tuple h cur) (filter pr l))).
  { induction l as [|i l IH]; [reflexivity|]. cbn [map filter]. unfold pr at 1.
    destruct (lget cur i) as [v|] eqn:E; cbn [map].
    - unfold lvl_get_tuple at 1 3. cbn [total]. rewrite IH. reflexivity.
    - unfold lvl_get_tuple at 1, get at 1. rewrite E. cbn [total new_intermediate mv_mult]. rewrite IH. destruct (dec _ t); reflexivity. }
  rewrite E2. apply total_perm. apply Permutation_map. apply NoDup_Permutation; [apply NoDup_filter; exact HL1|exact Hn|].
  intros i. rewrite filter_In, HL2. unfold pr. split.
  - intros [_ Hp]. destruct (lget cur i) as [v|] eqn:E; [|discriminate Hp].
    apply lget_in in E. change i with (fst (i, v)). apply in_map. exact E.
  - intros Hi. split; [apply halves_in; exists i; auto|].
    destruct (lget cur i) eqn:E; [reflexivity|]. apply lget_none in E. contradiction.
Qed.
Lemma level_emits h cur : Forall (fun i => 0 <= i < 1073741824) (lkeys cur) -> 
  flat_map node_emits (map (up_node hash h cur) (halves cur)) = lvl_tuples (S h) (snd (build_level hash h cur)).
Proof.
  intros Hb. rewrite build_level_eq. cbn [snd]. unfold lvl_tuples. rewrite map_map. cbn [fst snd].
  assert (Hh : Forall (fun p => 0 <= p < 536870912) (halves cur)).
  { apply Forall_forall. intros p Hp. apply halves_in in Hp. destruct Hp as (i & Hi & <-). rewrite Forall_forall in Hb. specialize (Hb i Hi).
    split; [apply Z.div_pos; lia|apply Z.div_lt_upper_bound; lia]. }
  induction Hh as [|p ps Hp _ IH]; [reflexivity|]. cbn [map flat_map app]. rewrite IH.
  change (node_emits (up_node hash h cur p)) with
    [(mv_mult (up_val hash h cur p), [mfrom (2 * p) / 2; Z.of_nat TREE_HEIGHT - Z.of_nat h - 1; mv_value (up_val hash h cur p); rt])].
  unfold mfrom; rewrite Z.mod_small by (split; unfold P; lia). rewrite half_even. cbn [app].
  replace (Z.of_nat TREE_HEIGHT - Z.of_nat h - 1) with (Z.of_nat TREE_HEIGHT - Z.of_nat (S h)) by lia. reflexivity.
Qed.
(** Every tuple is used as often as it is emitted, except for the leaves and the root. *)
Lemma levels_flow f n t : forall h cur, lvl_ok hash f h (2 ^ Z.of_nat n) cur -> (n <= 30)%nat ->
  let (ns, top) := build_levels hash n h cur in
  total t (flat_map node_uses ns) + total t (lvl_tuples (n + h) top) = total t (lvl_tuples h cur) + total t (flat_map node_emits ns).
Proof.
  induction n as [|n IH]; intros h cur H Hn; cbn [build_levels Nat.add]; [cbn [flat_map total]; lia|].
  assert (Hb : Forall (fun i => 0 <= i < 1073741824) (lkeys cur)).
  { destruct H as (_ & H2 & _). eapply Forall_impl; [|exact H2]. cbv beta. intros i Hi.
    pose proof (Z.pow_le_mono_r 2 (Z.of_nat (S n)) 30 ltac:(lia) ltac:(lia)) as Hp. change (2 ^ 30) with 1073741824 in Hp. lia. }
  assert (Hn1 : NoDup (lkeys cur)) by apply H.
  pose proof (level_uses h cur t Hn1 Hb) as F1. pose proof (level_emits h cur Hb) as F2.
  assert (H' : lvl_ok hash f h (2 * 2 ^ Z.of_nat n) cur) by (rewrite <- Z.pow_succ_r, <- Nat2Z.inj_succ by lia; exact H).
  pose proof (level_up hash f h _ cur H') as Hup. specialize (IH (S h) _ Hup ltac:(lia)).
  rewrite build_level_eq in *. cbn [snd] in *. destruct (build_levels hash n (S h) _) as [ms top].
  rewrite !flat_map_app, !total_app, F1, F2. rewrite <- Nat.add_succ_comm in IH. cbn [Nat.add] in IH. lia.
Qed.
End Hash.
(** The leaves of a memory. *)
Definition cell_leaves (t : tree_type) (r : ranges) (x : Z * cellv) : level :=
  let '(a, (v, _, _)) := x in
  [(4 * a, mk_leaf t r a (q0 v)); (4 * a + 1, mk_leaf t r a (q1 v)); (4 * a + 2, mk_leaf t r a (q2 v)); (4 * a + 3, mk_leaf t r a (q3 v))].
Lemma leaves_app t r m : forall l, NoDup (keys m) -> Forall addr_ok (keys m) ->
  (forall i, In i (lkeys l) -> ~ In (i / 4) (keys m)) ->
  fold_left (insert_cell t r) m l = l ++ flat_map (cell_leaves t r) m.
Proof.
  induction m as [|[a [[v c] k]] m IH]; intros l Hn Ha Hl; [cbn [fold_left flat_map]; rewrite app_nil_r; reflexivity|].
  cbn [keys map fst] in Hn, Ha. inversion Hn as [|? ? N1 N2]; subst. inversion Ha as [|? ? A1 A2]; subst.
  cbn [fold_left flat_map]. 
  assert (E : insert_cell t r l (a, (v, c, k)) = l ++ cell_leaves t r (a, (v, c, k))).
  { cbn [insert_cell]. rewrite leaf_base_ok by exact A1.
    assert (Hf : forall d, 0 <= d < 4 -> ~ In (4 * a + d) (lkeys l)).
    { intros d Hd Hin. apply (Hl _ Hin). destruct (quarter a d Hd) as [-> _]. left. reflexivity. }
    assert (Hk : forall l1 x, lkeys (l1 ++ [x]) = lkeys l1 ++ [fst x]) by (intros; unfold lkeys; rewrite map_app; reflexivity).
    assert (Hnew : forall l1 d w, ~ In (4 * a + d) (lkeys l1) -> lset l1 (4 * a + d) w = l1 ++ [(4 * a + d, w)]) by (intros; apply lset_new; assumption).
    unfold cell_leaves, mk_leaf. 
    rewrite (lset_new l) by (rewrite <- (Z.add_0_r (4 * a)); apply Hf; lia).
    rewrite (lset_new (l ++ _)) by (rewrite Hk, in_app_iff; cbn [fst In]; intros [Hi|[Hi|[]]]; [apply (Hf 1) in Hi; [exact Hi|lia]|lia]).
    rewrite (lset_new ((l ++ _) ++ _)) by (rewrite !Hk, !in_app_iff; cbn [fst In]; intros [[Hi|[Hi|[]]]|[Hi|[]]]; [apply (Hf 2) in Hi; [exact Hi|lia]|lia|lia]).
    rewrite (lset_new (((l ++ _) ++ _) ++ _)) by (rewrite !Hk, !in_app_iff; cbn [fst In]; intros [[[Hi|[Hi|[]]]|[Hi|[]]]|[Hi|[]]]; [apply (Hf 3) in Hi; [exact Hi|lia]|lia|lia|lia]).
    rewrite <- !app_assoc. destruct (is_public t r a); reflexivity. }
  etransitivity; [exact (f_equal (fold_left (insert_cell t r) m) E)|].
  rewrite IH, <- app_assoc; [reflexivity|exact N2|exact A2|].
  intros i Hi. unfold lkeys in Hi. rewrite map_app, in_app_iff in Hi. destruct Hi as [Hi|Hi].
  - intros Hin. apply (Hl i Hi). right. exact Hin.
  - cbn [cell_leaves map fst In] in Hi.
    assert (Hq : i / 4 = a).
    { destruct Hi as [<-|[<-|[<-|[<-|[]]]]]; [rewrite <- (Z.add_0_r (4 * a))| | |]; apply quarter; lia. }
    rewrite Hq. exact N1.
Qed.
Lemma leaves_eq t r m : NoDup (keys m) -> Forall addr_ok (keys m) -> leaves t r m = flat_map (cell_leaves t r) m.
Proof. intros H1 H2. apply (leaves_app t r m [] H1 H2). intros i []. Qed.

Theorem tree_flow hash t r m ns rv : m <> [] -> NoDup (keys m) -> Forall addr_ok (keys m) -> Z.of_nat (length m) < 268435456 ->
  build_tree hash t r m = Some (ns, Some rv) -> forall rt x,
  total x (flat_map (node_uses rt) ns) + total x [(1, [0; 0; rv; rt])] =
  total x (lvl_tuples rt 0 (flat_map (cell_leaves t r) m)) + total x (flat_map (node_emits rt) ns).
Proof.
  intros Hne Hn Ha Hl Hb rt x.
  pose proof (leaves_ok hash t r m Hne Hn Ha) as Hok.
  pose proof (levels_up hash (present m) TREE_HEIGHT 0 _ Hok) as Htop. rewrite Nat.add_0_r in Htop.
  pose proof (levels_flow hash rt (present m) TREE_HEIGHT x 0 _ Hok ltac:(unfold TREE_HEIGHT; lia)) as HF. rewrite Nat.add_0_r in HF.
  unfold build_tree in Hb. destruct m as [|y m']; [congruence|]. set (m := y :: m') in *.
  rewrite (proj2 (Z.ltb_lt _ _)) in Hb by exact Hl.
  rewrite <- (leaves_eq t r m Hn Ha).
  assert (Hall : Forall (fun x => mv_mult (snd x) = 1) (snd (build_levels hash TREE_HEIGHT 0 (leaves t r m)))) by (apply levels_mult1).
  destruct (build_levels hash TREE_HEIGHT 0 (leaves t r m)) as [ns' top]. cbn [snd] in Htop, Hall.
  destruct top as [|[i v] [|? ?]]; try discriminate Hb. cbn [lget] in Hb.
  destruct (Z.eqb_spec i 0) as [->|]; [|discriminate Hb]. injection Hb as <- <-.
  assert (Hm : mv_mult v = 1 -> total x (lvl_tuples rt TREE_HEIGHT [(0, v)]) = total x [(1, [0; 0; mv_value v; rt])]).
  { intros Em. unfold lvl_tuples. cbn [map fst snd]. rewrite Em, Z.sub_diag. reflexivity. }
  rewrite <- Hm; [exact HF|]. inversion Hall as [|? ? Hv _]; subst. exact Hv.
Qed.
