(** The partial tree agrees with the full tree, level by level. *)
From Coq Require Import ZArith Bool List Lia Permutation.
From Verif Require Import M31 M31Facts VmMem Abi AirChain Adapter AdapterSpec AdapterFacts AdapterProps Merkle MerkleSpec.
Import ListNotations.
Open Scope Z_scope.

Definition lkeys (l : level) : list Z := map fst l.
Lemma lget_in l i v : lget l i = Some v -> In (i, v) l.
Proof.
  induction l as [|[k w] l IH]; cbn [lget]; [discriminate|].
  destruct (Z.eqb_spec k i) as [->|]; intros E; [injection E as ->; left; reflexivity|right; auto].
Qed.
Lemma lget_none l i : lget l i = None <-> ~ In i (lkeys l).
Proof.
  induction l as [|[k w] l IH]; cbn [lget lkeys map fst In]; [tauto|].
  destruct (Z.eqb_spec k i) as [->|Hn]; [split; [discriminate|]; intros H; elim H; left; reflexivity|].
  rewrite IH. unfold lkeys. tauto.
Qed.
Lemma in_lget l i v : NoDup (lkeys l) -> In (i, v) l -> lget l i = Some v.
Proof.
  induction l as [|[k w] l IH]; intros Hn H; [destruct H|]. cbn [lget]. inversion Hn as [|? ? H1 H2]; subst.
  destruct H as [E|H]; [injection E as -> ->; rewrite Z.eqb_refl; reflexivity|].
  destruct (Z.eqb_spec k i) as [->|]; [|auto]. elim H1. change i with (fst (i, v)). apply in_map. exact H.
Qed.
Lemma lget_lset l i v j : lget (lset l i v) j = if i =? j then Some v else lget l j.
Proof.
  induction l as [|[k w] l IH]; cbn [lset lget].
  - destruct (i =? j); reflexivity.
  - destruct (Z.eqb_spec k i) as [->|Hn]; cbn [lget].
    + destruct (i =? j); reflexivity.
    + rewrite IH. destruct (Z.eqb_spec k j) as [->|]; [|reflexivity]. destruct (Z.eqb_spec i j) as [->|]; [congruence|reflexivity].
Qed.
Lemma lset_keys l i v j : In j (lkeys (lset l i v)) <-> j = i \/ In j (lkeys l).
Proof.
  induction l as [|[k w] l IH]; cbn [lset lkeys map fst In]; [intuition congruence|].
  destruct (Z.eqb_spec k i) as [->|Hn]; cbn [map fst In].
  - unfold lkeys. intuition congruence.
  - unfold lkeys in *. rewrite IH. tauto.
Qed.
Lemma lset_nodup l i v : NoDup (lkeys l) -> NoDup (lkeys (lset l i v)).
Proof.
  induction l as [|[k w] l IH]; intros H; cbn [lset lkeys map fst].
  - constructor; [intros []|constructor].
  - inversion H as [|? ? H1 H2]; subst. destruct (Z.eqb_spec k i) as [->|Hn]; cbn [map fst]; [exact H|].
    constructor; [|apply IH; exact H2]. intros Hk. apply (lset_keys l i v k) in Hk. destruct Hk as [->|Hk]; [congruence|contradiction].
Qed.
Lemma lset_new l i v : ~ In i (lkeys l) -> lset l i v = l ++ [(i, v)].
Proof.
  induction l as [|[k w] l IH]; intros H; [reflexivity|]. cbn [lset app]. cbn [lkeys map fst In] in H.
  destruct (Z.eqb_spec k i) as [->|]; [elim H; left; reflexivity|]. rewrite IH by tauto. reflexivity.
Qed.

(** Sorting keeps the elements. *)
Lemma sort_in_perm x l : Permutation (sort_in x l) (x :: l).
Proof.
  induction l as [|y l IH]; [reflexivity|]. cbn [sort_in]. destruct (x <=? y); [reflexivity|].
  rewrite IH. apply perm_swap.
Qed.
Lemma sort_perm l : Permutation (sort l) l.
Proof. induction l as [|x l IH]; [reflexivity|]. cbn [sort fold_right]. fold (sort l). rewrite sort_in_perm, IH. reflexivity. Qed.

Lemma lxor1_even k : Z.lxor (2 * k) 1 = 2 * k + 1.
Proof.
  symmetry. apply Z.add_nocarry_lxor. rewrite Z.land_comm. apply Z.bits_inj'. intros n Hn. rewrite Z.land_spec, Z.bits_0.
  destruct (Z.eq_dec n 0) as [->|Hz]; [rewrite Z.testbit_even_0; apply andb_false_r|].
  replace (Z.testbit 1 n) with false; [reflexivity|]. symmetry. apply Z.bits_above_log2; [lia|]. cbn. lia.
Qed.
Lemma lxor1_odd k : Z.lxor (2 * k + 1) 1 = 2 * k.
Proof. rewrite <- lxor1_even, Z.lxor_assoc, Z.lxor_nilpotent, Z.lxor_0_r. reflexivity. Qed.
Lemma siblings i : (if i mod 2 =? 0 then (i, Z.lxor i 1) else (Z.lxor i 1, i)) = (2 * (i / 2), 2 * (i / 2) + 1).
Proof.
  pose proof (Z.div_mod i 2 ltac:(lia)) as E. pose proof (Z.mod_pos_bound i 2 ltac:(lia)) as B.
  destruct (Z.eqb_spec (i mod 2) 0) as [H|H].
  - rewrite H in E. rewrite Z.add_0_r in E. rewrite E at 1 2. rewrite lxor1_even. reflexivity.
  - assert (H1 : i mod 2 = 1) by lia. rewrite H1 in E. rewrite E at 1 2. rewrite lxor1_odd. rewrite <- E at 2. f_equal; lia.
Qed.
Lemma half_even p : 2 * p / 2 = p.
Proof. rewrite Z.mul_comm. apply Z.div_mul. lia. Qed.
Lemma half_odd p : (2 * p + 1) / 2 = p.
Proof. rewrite Z.mul_comm, Z.div_add_l by lia. change (1 / 2) with 0. lia. Qed.

(** First occurrences. *)
Fixpoint uniq (seen l : list Z) : list Z :=
  match l with
  | [] => []
  | x :: r => if existsb (Z.eqb x) seen then uniq seen r else x :: uniq (seen ++ [x]) r
  end.
Lemma existsb_eqb x l : existsb (Z.eqb x) l = true <-> In x l.
Proof.
  rewrite existsb_exists. split.
  - intros (y & Hy & E). apply Z.eqb_eq in E. congruence.
  - intros H. exists x. split; [exact H|apply Z.eqb_refl].
Qed.
Lemma uniq_in seen l : forall x, In x (uniq seen l) <-> In x l /\ ~ In x seen.
Proof.
  revert seen. induction l as [|y l IH]; intros seen x; cbn [uniq]; [cbn; tauto|].
  destruct (existsb (Z.eqb y) seen) eqn:E.
  - apply existsb_eqb in E. rewrite IH. cbn [In]. intuition congruence.
  - assert (Hn : ~ In y seen) by (rewrite <- existsb_eqb; congruence). cbn [In]. rewrite IH, in_app_iff. cbn [In].
    destruct (Z.eq_dec y x) as [->|Hxy]; intuition congruence.
Qed.
Lemma uniq_nodup seen l : NoDup (uniq seen l).
Proof.
  revert seen. induction l as [|y l IH]; intros seen; cbn [uniq]; [constructor|].
  destruct (existsb (Z.eqb y) seen); [apply IH|]. constructor; [|apply IH].
  rewrite uniq_in, in_app_iff. cbn [In]. tauto.
Qed.

(** The leaves. *)
Definition present (m : amap) : Z -> qm31 := fun a => match hget m a with Some (v, _, _) => v | None => qzero end.
Definition addr_ok (a : Z) : Prop := 0 <= a < 268435456.
Lemma leaf_base_ok a : addr_ok a -> leaf_base a = 4 * a.
Proof. unfold addr_ok, leaf_base. intros H. rewrite Z.mod_small by lia. lia. Qed.
Lemma quarter a k : 0 <= k < 4 -> (4 * a + k) / 4 = a /\ (4 * a + k) mod 4 = k.
Proof.
  intros H. split.
  - rewrite Z.mul_comm, Z.div_add_l by lia. rewrite Z.div_small by lia. lia.
  - rewrite Z.add_comm, Z.mul_comm, Z_mod_plus_full. apply Z.mod_small. lia.
Qed.
Definition mk_leaf (t : tree_type) (r : ranges) (a : Z) (v : Z) : mval :=
  if is_public t r a then new_public_node v else new_node v.
Lemma insert_cell_get t r l a v c k i : addr_ok a ->
  lget (insert_cell t r l (a, (v, c, k))) i = if i / 4 =? a then Some (mk_leaf t r a (limb v (i mod 4))) else lget l i.
Proof.
  intros Ha. cbn [insert_cell]. rewrite leaf_base_ok by exact Ha. rewrite !lget_lset.
  pose proof (Z.div_mod i 4 ltac:(lia)) as E. pose proof (Z.mod_pos_bound i 4 ltac:(lia)) as B.
  unfold mk_leaf, limb.
  destruct (Z.eqb_spec (i / 4) a) as [<-|Hn].
  - assert (Hc : i mod 4 = 0 \/ i mod 4 = 1 \/ i mod 4 = 2 \/ i mod 4 = 3) by lia.
    destruct Hc as [Hc|[Hc|[Hc|Hc]]]; rewrite Hc in E |- *; cbn [Z.eqb Pos.eqb];
      repeat match goal with |- context [?x =? i] => destruct (Z.eqb_spec x i); [|lia] || (exfalso; lia) end;
      repeat match goal with |- context [?x =? i] => destruct (Z.eqb_spec x i); [exfalso; lia|] end;
      try (destruct (is_public t r (i / 4)); reflexivity).
  - assert (forall k, 0 <= k < 4 -> 4 * a + k <> i).
    { intros k' Hk <-. destruct (quarter a k' Hk) as [Q _]. congruence. }
    rewrite (proj2 (Z.eqb_neq (4 * a + 3) i)) by (apply H; lia).
    rewrite (proj2 (Z.eqb_neq (4 * a + 2) i)) by (apply H; lia).
    rewrite (proj2 (Z.eqb_neq (4 * a + 1) i)) by (apply H; lia).
    rewrite (proj2 (Z.eqb_neq (4 * a) i)) by (rewrite <- (Z.add_0_r (4 * a)); apply H; lia). reflexivity.
Qed.
Lemma leaves_get t r m : forall l i, NoDup (keys m) -> Forall addr_ok (keys m) ->
  lget (fold_left (insert_cell t r) m l) i =
  match hget m (i / 4) with Some (v, _, _) => Some (mk_leaf t r (i / 4) (limb v (i mod 4))) | None => lget l i end.
Proof.
  induction m as [|[a [[v c] k]] m IH]; intros l i Hn Ha; [reflexivity|].
  cbn [keys map fst] in Hn, Ha. inversion Hn as [|? ? N1 N2]; subst. inversion Ha as [|? ? A1 A2]; subst.
  cbn [fold_left hget]. rewrite IH by assumption. rewrite insert_cell_get by exact A1. rewrite (Z.eqb_sym a).
  destruct (Z.eqb_spec (i / 4) a) as [E|Hne]; [|reflexivity].
  rewrite E. destruct (hget m a) as [[[v' c'] k']|] eqn:Eh; [|reflexivity].
  apply hget_in in Eh. elim N1. change a with (fst (a, (v', c', k'))). apply in_map. exact Eh.
Qed.
Lemma insert_cell_nodup t r l x : NoDup (lkeys l) -> NoDup (lkeys (insert_cell t r l x)).
Proof. destruct x as [a [[v c] k]]. intros H. cbn [insert_cell]. repeat apply lset_nodup. exact H. Qed.
Lemma leaves_nodup t r m : forall l, NoDup (lkeys l) -> NoDup (lkeys (fold_left (insert_cell t r) m l)).
Proof. induction m as [|x m IH]; intros l H; [exact H|]. cbn [fold_left]. apply IH, insert_cell_nodup, H. Qed.

Definition halves (cur : level) : list Z := uniq [] (map (fun i => i / 2) (sort (map fst cur))).
Lemma halves_in cur p : In p (halves cur) <-> exists i, In i (lkeys cur) /\ i / 2 = p.
Proof.
  unfold halves. rewrite uniq_in, in_map_iff. split.
  - intros [(i & E & Hi) _]. exists i. split; [|exact E]. eapply Permutation_in; [apply sort_perm|exact Hi].
  - intros (i & Hi & E). split; [|intros []]. exists i. split; [exact E|]. eapply Permutation_in; [symmetry; apply sort_perm|exact Hi].
Qed.

Section Hash.
Variable hash : Z -> Z -> Z.
Definition get (h : nat) (cur : level) (k : Z) : mval :=
  match lget cur k with Some v => v | None => new_intermediate (default_hash hash h) end.
Definition up_val (h : nat) (cur : level) (p : Z) : mval :=
  new_node (hash (mv_value (get h cur (2 * p))) (mv_value (get h cur (2 * p + 1)))).
Definition up_node (h : nat) (cur : level) (p : Z) : node_data :=
  Node (mfrom (2 * p)) (Z.of_nat TREE_HEIGHT - Z.of_nat h) (get h cur (2 * p)) (get h cur (2 * p + 1)) (up_val h cur p).

Lemma visits h cur ks : forall ps done,
  NoDup ps -> (forall j, In j done <-> In (j / 2) ps) ->
  exists done', fold_left (visit hash h cur) ks
    (map (up_node h cur) ps, map (fun p => (p, up_val h cur p)) ps, done) =
  (map (up_node h cur) (ps ++ uniq ps (map (fun i => i / 2) ks)),
   map (fun p => (p, up_val h cur p)) (ps ++ uniq ps (map (fun i => i / 2) ks)), done').
Proof.
  induction ks as [|i ks IH]; intros ps done Hn Hd; cbn [fold_left map uniq].
  - exists done. rewrite app_nil_r. reflexivity.
  - unfold visit at 2. destruct (existsb (Z.eqb i) done) eqn:E.
    + apply existsb_eqb in E. apply Hd in E. rewrite (proj2 (existsb_eqb _ _) E). apply IH; assumption.
    + assert (Hi : ~ In (i / 2) ps) by (rewrite <- Hd, <- existsb_eqb; congruence).
      destruct (existsb (Z.eqb (i / 2)) ps) eqn:E2; [apply existsb_eqb in E2; contradiction|].
      cbv zeta. rewrite siblings. cbv iota beta.
      change (match lget cur (2 * (i / 2)) with Some v => v | None => new_intermediate (default_hash hash h) end) with (get h cur (2 * (i / 2))).
      change (match lget cur (2 * (i / 2) + 1) with Some v => v | None => new_intermediate (default_hash hash h) end) with (get h cur (2 * (i / 2) + 1)).
      rewrite lset_new by (unfold lkeys; rewrite map_map; cbn [fst]; rewrite map_id; exact Hi).
      destruct (IH (ps ++ [i / 2]) (2 * (i / 2) + 1 :: 2 * (i / 2) :: done)) as (done' & E').
      * apply nodup_app; [exact Hn|constructor; [intros []|constructor]|]. intros x Hx [<-|[]]. contradiction.
      * intros j. cbn [In]. rewrite in_app_iff, Hd. cbn [In].
        pose proof (Z.div_mod i 2 ltac:(lia)). pose proof (Z.div_mod j 2 ltac:(lia)). pose proof (Z.mod_pos_bound j 2 ltac:(lia)).
        split; [intros [<-|[<-|Hx]]|intros [Hx|[Hx|[]]]].
        -- right. left. rewrite half_odd. reflexivity.
        -- right. left. rewrite half_even. reflexivity.
        -- left. exact Hx.
        -- right. right. exact Hx.
        -- lia.
      * exists done'. rewrite !map_app in E' |- *. cbn [map] in E' |- *. rewrite <- app_assoc in E'.
        change (new_node (hash (mv_value (get h cur (2 * (i / 2)))) (mv_value (get h cur (2 * (i / 2) + 1))))) with (up_val h cur (i / 2)).
        change (Node (mfrom (2 * (i / 2))) (Z.of_nat TREE_HEIGHT - Z.of_nat h) (get h cur (2 * (i / 2))) (get h cur (2 * (i / 2) + 1)) (up_val h cur (i / 2)))
          with (up_node h cur (i / 2)).
        etransitivity; [exact E'|]. rewrite !map_app. reflexivity.
Qed.
Lemma build_level_eq h cur : build_level hash h cur =
  (map (up_node h cur) (halves cur), map (fun p => (p, up_val h cur p)) (halves cur)).
Proof.
  unfold build_level, halves. destruct (visits h cur (sort (map fst cur)) [] [] (NoDup_nil _)) as (d & E); [intros j; cbn; tauto|].
  cbn [map app] in E. rewrite E. reflexivity.
Qed.
(** A level of height [h] that represents the memory [f]. *)
Definition lvl_ok (f : Z -> qm31) (h : nat) (bound : Z) (cur : level) : Prop :=
  NoDup (lkeys cur) /\ Forall (fun i => 0 <= i < bound) (lkeys cur) /\ cur <> [] /\
  forall i, mv_value (get h cur i) = tree hash f h i.
Lemma level_up f h b cur : lvl_ok f h (2 * b) cur -> lvl_ok f (S h) b (snd (build_level hash h cur)).
Proof.
  intros (H1 & H2 & H3 & H4). rewrite build_level_eq. cbn [snd].
  assert (Hk : lkeys (map (fun p => (p, up_val h cur p)) (halves cur)) = halves cur).
  { unfold lkeys. rewrite map_map. cbn [fst]. apply map_id. }
  split; [|split; [|split]].
  - rewrite Hk. unfold halves. apply uniq_nodup.
  - rewrite Hk. apply Forall_forall. intros p Hp. apply halves_in in Hp. destruct Hp as (i & Hi & <-).
    rewrite Forall_forall in H2. specialize (H2 i Hi). split; [apply Z.div_pos; lia|apply Z.div_lt_upper_bound; lia].
  - intros E. destruct cur as [|[i v] cur]; [congruence|]. apply map_eq_nil in E.
    assert (Hi : In (i / 2) (halves ((i, v) :: cur))) by (apply halves_in; exists i; split; [left; reflexivity|reflexivity]).
    rewrite E in Hi. destruct Hi.
  - intros p. unfold get. destruct (lget (map (fun p => (p, up_val h cur p)) (halves cur)) p) as [v|] eqn:E.
    + apply lget_in in E. apply in_map_iff in E. destruct E as (p' & E & _). injection E as <- <-.
      unfold up_val, new_node. cbn [mv_value tree]. rewrite !H4. reflexivity.
    + apply lget_none in E. rewrite Hk in E. cbn [new_intermediate mv_value default_hash tree].
      rewrite <- !H4. unfold get.
      assert (forall k, k / 2 = p -> lget cur k = None).
      { intros k Hkp. apply lget_none. intros Hin. apply E. apply halves_in. exists k. auto. }
      rewrite !H by (rewrite ?half_even, ?half_odd; reflexivity). reflexivity.
Qed.
Lemma levels_up f n : forall h cur, lvl_ok f h (2 ^ Z.of_nat n) cur -> lvl_ok f (n + h) 1 (snd (build_levels hash n h cur)).
Proof.
  induction n as [|n IH]; intros h cur H; [exact H|].
  rewrite Nat2Z.inj_succ, Z.pow_succ_r in H by lia. apply level_up in H. apply IH in H. cbn [build_levels].
  destruct (build_level hash h cur) as [ns up]. cbn [snd] in H. destruct (build_levels hash n (S h) up) as [ms top]. cbn [snd] in *.
  rewrite Nat.add_succ_comm. exact H.
Qed.

Lemma leaves_ok t r m : m <> [] -> NoDup (keys m) -> Forall addr_ok (keys m) ->
  lvl_ok (present m) 0 (2 ^ Z.of_nat TREE_HEIGHT) (leaves t r m).
Proof.
  intros Hne Hn Ha. unfold leaves.
  assert (G : forall i, lget (fold_left (insert_cell t r) m []) i =
    match hget m (i / 4) with Some (v, _, _) => Some (mk_leaf t r (i / 4) (limb v (i mod 4))) | None => None end).
  { intros i. apply (leaves_get t r m [] i Hn Ha). }
  split; [|split; [|split]].
  - apply leaves_nodup. constructor.
  - apply Forall_forall. intros i Hi. change (2 ^ Z.of_nat TREE_HEIGHT) with 1073741824.
    destruct (lget (fold_left (insert_cell t r) m []) i) as [v|] eqn:E; [|apply lget_none in E; contradiction].
    rewrite G in E. destruct (hget m (i / 4)) as [[[w c] k]|] eqn:Eh; [|discriminate]. apply hget_in in Eh.
    rewrite Forall_forall in Ha. specialize (Ha (i / 4) (in_map fst _ _ Eh)). unfold addr_ok in Ha.
    pose proof (Z.div_mod i 4 ltac:(lia)). pose proof (Z.mod_pos_bound i 4 ltac:(lia)). lia.
  - destruct m as [|[a [[v c] k]] m]; [congruence|]. intros E. specialize (G (4 * a)). rewrite E in G.
    replace (4 * a / 4) with a in G by (rewrite Z.mul_comm, Z.div_mul by lia; reflexivity).
    cbn [hget lget] in G. rewrite Z.eqb_refl in G. discriminate G.
  - intros i. unfold get. rewrite G. cbn [tree]. unfold leaf, present.
    destruct (hget m (i / 4)) as [[[v c] k]|]; [unfold mk_leaf; destruct (is_public t r (i / 4)); reflexivity|].
    cbn [new_intermediate mv_value default_hash]. unfold limb, qzero. cbn [q0 q1 q2 q3].
    destruct (i mod 4 =? 0), (i mod 4 =? 1), (i mod 4 =? 2); reflexivity.
Qed.
Lemma levels_mult n : forall h cur, Forall (fun x : Z * mval => mv_mult (snd x) = 1) cur ->
  Forall (fun x => mv_mult (snd x) = 1) (snd (build_levels hash n h cur)).
Proof.
  induction n as [|n IH]; intros h cur H; [exact H|]. cbn [build_levels].
  assert (Hu : Forall (fun x => mv_mult (snd x) = 1) (snd (build_level hash h cur))).
  { rewrite build_level_eq. cbn [snd]. apply Forall_forall. intros x Hx. apply in_map_iff in Hx. destruct Hx as (p & <- & _). reflexivity. }
  destruct (build_level hash h cur) as [ns up]. cbn [snd] in Hu. specialize (IH (S h) up Hu).
  destruct (build_levels hash n (S h) up). exact IH.
Qed.
Lemma levels_mult1 n h cur : Forall (fun x => mv_mult (snd x) = 1) (snd (build_levels hash (S n) h cur)).
Proof.
  cbn [build_levels].
  assert (Hu : Forall (fun x => mv_mult (snd x) = 1) (snd (build_level hash h cur))).
  { rewrite build_level_eq. cbn [snd]. apply Forall_forall. intros x Hx. apply in_map_iff in Hx. destruct Hx as (p & <- & _). reflexivity. }
  destruct (build_level hash h cur) as [ns up]. cbn [snd] in Hu. pose proof (levels_mult n (S h) up Hu) as H.
  destruct (build_levels hash n (S h) up). exact H.
Qed.
Theorem build_tree_root t r m : m <> [] -> NoDup (keys m) -> Forall addr_ok (keys m) -> Z.of_nat (length m) < 268435456 ->
  exists ns, build_tree hash t r m = Some (ns, Some (root hash (present m))) /\
    ns = fst (build_levels hash TREE_HEIGHT 0 (leaves t r m)).
Proof.
  intros Hne Hn Ha Hl. pose proof (levels_up (present m) TREE_HEIGHT 0 _ (leaves_ok t r m Hne Hn Ha)) as H.
  rewrite Nat.add_0_r in H. unfold build_tree. destruct m as [|x m']; [congruence|]. set (m := x :: m') in *.
  rewrite (proj2 (Z.ltb_lt _ _)) by exact Hl. destruct (build_levels hash TREE_HEIGHT 0 (leaves t r m)) as [ns top]. cbn [snd fst] in *.
  destruct H as (H1 & H2 & H3 & H4).
  destruct top as [|[i v] top]; [congruence|]. destruct top as [|[j w] top].
  - cbn [lkeys map fst] in H2. inversion H2 as [|? ? Hi _]; subst. assert (i = 0) by lia. subst i.
    cbn [lget]. change (0 =? 0) with true. cbv iota. specialize (H4 0). unfold get in H4. cbn [lget] in H4. change (0 =? 0) with true in H4. cbv iota in H4.
    exists ns. split; [|reflexivity]. rewrite H4. unfold root, TREE_HEIGHT. reflexivity.
  - exfalso. cbn [lkeys map fst] in H1, H2. inversion H2 as [|? ? Hi H2']; subst. inversion H2' as [|? ? Hj _]; subst.
    inversion H1 as [|? ? Hx _]; subst. apply Hx. left. lia.
Qed.
End Hash.
