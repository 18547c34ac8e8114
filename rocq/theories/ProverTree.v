(** The Merkle trees of the prover's output. *)
From Coq Require Import ZArith Bool List Lia Permutation.
From Verif Require Import M31 M31Facts Instr Isa Machine Abi Air AirOpcodes AirSpec AirFacts AirChain AirMem AirGlobal Adapter AdapterSpec AdapterFacts AdapterProps
  Merkle MerkleSpec MerkleFacts MerkleProps Trace TraceSpec TraceAll Prover ProverFacts ProverMem.
Import ListNotations.
Open Scope Z_scope.

Definition mv_sane (v : mval) : Prop := wf (mv_value v) /\ (mv_mult v = 0 \/ mv_mult v = 1 \/ mv_mult v = 2).
Definition node_sane (hash : Z -> Z -> Z) (n : node_data) : Prop :=
  (exists p, nd_index n = 2 * p /\ 0 <= p < 536870912) /\ 1 <= nd_depth n <= 30 /\ mv_sane (nd_left n) /\ mv_sane (nd_right n) /\
  nd_parent n = MV (hash (mv_value (nd_left n)) (mv_value (nd_right n))) 1 /\ wf (mv_value (nd_parent n)).

Section Hash.
Variable hash : Z -> Z -> Z.
Hypothesis hash_wf : forall x y, wf (hash x y).
Lemma default_wf n : wf (default_hash hash n).
Proof. destruct n; [apply wf0|cbn [default_hash]; apply hash_wf]. Qed.
Lemma get_sane h cur i : Forall (fun x : Z * mval => mv_sane (snd x)) cur -> mv_sane (get hash h cur i).
Proof.
  intros H. unfold get. destruct (lget cur i) as [v|] eqn:E.
  - apply lget_in in E. rewrite Forall_forall in H. exact (H _ E).
  - split; [apply default_wf|left; reflexivity].
Qed.
Lemma levels_nodes n : forall h cur, (n + h = 30)%nat -> Forall (fun i => 0 <= i < 2 ^ Z.of_nat n) (lkeys cur) ->
  Forall (fun x : Z * mval => mv_sane (snd x)) cur -> Forall (node_sane hash) (fst (build_levels hash n h cur)).
Proof.
  induction n as [|n IH]; intros h cur Hh Hk Hv; [constructor|]. cbn [build_levels]. rewrite build_level_eq.
  assert (Hp : Forall (fun p => 0 <= p < 2 ^ Z.of_nat n) (halves cur)).
  { apply Forall_forall. intros p Hp. apply halves_in in Hp. destruct Hp as (i & Hi & <-). rewrite Forall_forall in Hk. specialize (Hk i Hi).
    rewrite Nat2Z.inj_succ, Z.pow_succ_r in Hk by lia. split; [apply Z.div_pos; lia|apply Z.div_lt_upper_bound; lia]. }
  specialize (IH (S h) (map (fun p => (p, up_val hash h cur p)) (halves cur)) ltac:(lia)).
  destruct (build_levels hash n (S h) _) as [ms top]. cbn [fst] in *. apply Forall_app. split.
  - apply Forall_forall. intros x Hx. apply in_map_iff in Hx. destruct Hx as (p & <- & Hpi). rewrite Forall_forall in Hp. specialize (Hp p Hpi).
    pose proof (Z.pow_le_mono_r 2 (Z.of_nat n) 29 ltac:(lia) ltac:(lia)) as Hb. change (2 ^ 29) with 536870912 in Hb.
    unfold up_node. split; [|split; [|split; [|split; [|split]]]]; cbn [nd_index nd_depth nd_left nd_right nd_parent].
    + exists p. split; [|lia]. unfold mfrom. apply Z.mod_small. unfold P. lia.
    + unfold TREE_HEIGHT. lia.
    + apply get_sane, Hv.
    + apply get_sane, Hv.
    + reflexivity.
    + apply hash_wf.
  - apply IH.
    + unfold lkeys. rewrite map_map. cbn [fst]. rewrite map_id. exact Hp.
    + apply Forall_forall. intros x Hx. apply in_map_iff in Hx. destruct Hx as (p & <- & _). split; [apply hash_wf|right; left; reflexivity].
Qed.
Lemma tree_nodes t r m ns rv : m <> [] -> NoDup (keys m) -> Forall addr_ok (keys m) -> Forall (fun x : Z * cellv => qwf (fst (fst (snd x)))) m ->
  Z.of_nat (length m) < 268435456 -> build_tree hash t r m = Some (ns, Some rv) -> Forall (node_sane hash) ns.
Proof.
  intros Hne Hn Ha Hq Hl E. destruct (build_tree_root hash t r m Hne Hn Ha Hl) as (ns' & E' & Hns).
  assert (Hx : ns = ns') by congruence. rewrite Hx, Hns. clear Hx Hns E E'. apply levels_nodes; [reflexivity|apply (leaves_ok hash t r m Hne Hn Ha)|].
  rewrite leaves_eq by assumption. apply Forall_forall. intros x Hx. apply in_flat_map in Hx. destruct Hx as ([a [[v c] k]] & Hi & Hx).
  rewrite Forall_forall in Hq. destruct (Hq _ Hi) as (V0 & V1 & V2 & V3). cbn [fst snd] in *.
  assert (K : forall w, wf w -> mv_sane (mk_leaf t r a w)) by (intros w Hw; unfold mk_leaf; destruct (is_public t r a); split; auto).
  cbn [cell_leaves In] in Hx. destruct Hx as [<-|[<-|[<-|[<-|[]]]]]; apply K; assumption.
Qed.
End Hash.

(** ** Rows of nodes *)
Lemma half_index p : 0 <= p < 536870912 -> (2 * p * minv 2) mod P = p.
Proof.
  intros H. replace (2 * p * minv 2) with (p * (2 * minv 2)) by ring. rewrite <- Z.mul_mod_idemp_r by (unfold P; lia).
  rewrite minv_spec by (intros E; discriminate E). rewrite Z.mul_1_r. apply Z.mod_small. unfold P. lia.
Qed.
Lemma mult_wf v : mv_sane v -> wf (mv_mult v).
Proof. intros (_ & [->|[->| ->]]); split; reflexivity || discriminate. Qed.
Lemma node_row_merkle hash root n t : node_sane hash n -> wf root ->
  total t (tuples Merkle (merkle_air (node_row root n))) = total t (node_uses root n) + (P - 1) * total t (node_emits root n).
Proof.
  intros ((p & Ei & Hp) & Hd & Hl & Hr & Ep & Hw) Hroot. pose proof (mult_wf _ Hl) as Ml. pose proof (mult_wf _ Hr) as Mr.
  destruct Hl as (Wl & _), Hr as (Wr & _).
  assert (I0 : wf (nd_index n)) by (rewrite Ei; split; unfold P; lia).
  assert (I1 : wf (nd_index n + 1)) by (rewrite Ei; split; unfold P; lia).
  assert (D0 : wf (nd_depth n)) by (split; unfold P; lia).
  assert (D1 : wf (nd_depth n - 1)) by (split; unfold P; lia).
  assert (Mp : mv_mult (nd_parent n) = 1) by (rewrite Ep; reflexivity).
  assert (E : tuples Merkle (merkle_air (node_row root n)) =
    node_uses root n ++ [(P - 1, [nd_index n / 2; nd_depth n - 1; mv_value (nd_parent n); root])]).
  { unfold tuples, merkle_air, node_row, node_uses. rewrite Mp. cbn -[Z.modulo Z.mul Z.add Z.sub Z.opp P minv Z.div mv_mult mv_value].
    unfold norm. cbn [re_rel re_mult re_vals width map]. unfold pad. cbn -[Z.modulo Z.mul Z.add Z.sub P minv Z.div mv_mult mv_value]. modp.
    change (-1 mod P) with (P - 1). rewrite Ei, half_index, half_even by exact Hp. reflexivity. }
  rewrite E, total_app. unfold node_emits. rewrite Mp. cbn [total]. destruct (dec _ t); ring.
Qed.
Lemma node_row_hash h root n t : node_sane (hash_of h) n ->
  total t (tuples Poseidon2 (merkle_air (node_row root n))) + total t (hash_tuples (hash_input n, h (hash_input n))) = 
  P * (total t [(1, hash_input n)] + total t [(1, pad 16 [h (hash_input n)])]).
Proof.
  intros ((p & Ei & Hp) & Hd & (Wl & _) & (Wr & _) & Ep & Hw).
  assert (Ev : mv_value (nd_parent n) = h (hash_input n)) by (rewrite Ep; reflexivity). rewrite Ev in Hw.
  assert (E : tuples Poseidon2 (merkle_air (node_row root n)) = [(1, hash_input n); (P - 1, pad 16 [h (hash_input n)])]).
  { unfold tuples, merkle_air, node_row. rewrite Ev. unfold hash_input in *. cbn -[Z.modulo Z.mul Z.add Z.sub Z.opp P minv Z.div mv_mult mv_value pad].
    unfold norm. cbn [re_rel re_mult re_vals width map]. modp. reflexivity. }
  rewrite E. unfold hash_tuples. cbn [total fst snd]. destruct (dec (hash_input n) t), (dec (pad 16 [h (hash_input n)]) t); ring.
Qed.
Lemma mid x : wf x -> x mod P = x. Proof. apply wf_mod. Qed.
Lemma node_row_ok hash root n : node_sane hash n -> wf root -> row_ok 10 (merkle_air (node_row root n)) (node_row root n).
Proof.
  intros ((p & Ei & Hp) & Hd & Hl & Hr & Ep & Hw) Hroot. split; [reflexivity|]. split.
  - assert (I0 : wf (nd_index n)) by (rewrite Ei; split; unfold P; lia).
    assert (D0 : wf (nd_depth n)) by (split; unfold P; lia).
    pose proof (mult_wf _ Hl) as Ml. pose proof (mult_wf _ Hr) as Mr. destruct Hl as (Wl & _), Hr as (Wr & _).
    assert (Mp : wf (mv_mult (nd_parent n))) by (rewrite Ep; apply wf1).
    unfold node_row. repeat (apply Forall_cons; [first [assumption|apply wf1]|]). apply Forall_nil.
  - assert (Mp : mv_mult (nd_parent n) = 1) by (rewrite Ep; reflexivity). unfold vanishes, merkle_air, node_row.
    cbn -[Z.modulo Z.mul Z.add Z.sub Z.opp P minv mv_mult mv_value]. rewrite Mp.
    destruct Hl as (_ & Hl), Hr as (_ & Hr).
    repeat apply Forall_cons; try apply Forall_nil; try reflexivity; [destruct Hl as [->|[->| ->]]|destruct Hr as [->|[->| ->]]]; reflexivity.
Qed.

(** ** Leaves *)
Fixpoint zsum {A} (f : A -> Z) (l : list A) : Z := match l with [] => 0 | x :: r => f x + zsum f r end.
Lemma zsum_ext {A} (f g : A -> Z) l : (forall x, In x l -> f x = g x) -> zsum f l = zsum g l.
Proof. induction l as [|x l IH]; intros H; [reflexivity|]. cbn [zsum]. rewrite IH by (intros; apply H; right; assumption). rewrite (H x (or_introl eq_refl)). reflexivity. Qed.
Lemma zsum_plus {A} (f g : A -> Z) l : zsum (fun x => f x + g x) l = zsum f l + zsum g l.
Proof. induction l as [|x l IH]; [reflexivity|]. cbn [zsum]. rewrite IH. ring. Qed.
Lemma zsum_scale {A} (f : A -> Z) k l : zsum (fun x => k * f x) l = k * zsum f l.
Proof. induction l as [|x l IH]; cbn [zsum]; [ring|]. rewrite IH. ring. Qed.
Lemma zsum_zero {A} (f : A -> Z) l : (forall x, In x l -> f x = 0) -> zsum f l = 0.
Proof. induction l as [|x l IH]; intros H; [reflexivity|]. cbn [zsum]. rewrite IH by (intros; apply H; right; assumption). rewrite (H x (or_introl eq_refl)). reflexivity. Qed.
Lemma zsum_app {A} (f : A -> Z) l m : zsum f (l ++ m) = zsum f l + zsum f m.
Proof. induction l as [|x l IH]; cbn [app zsum]; [ring|]. rewrite IH. ring. Qed.
Lemma total_flat {A} t (f : A -> list (Z * list Z)) l : total t (flat_map f l) = zsum (fun x => total t (f x)) l.
Proof. induction l as [|x l IH]; [reflexivity|]. cbn [flat_map zsum]. rewrite total_app, IH. reflexivity. Qed.

(** Summing over the cells whose address is listed, or over the listed addresses. *)
Lemma cells_by_address (g : Z -> qm31 -> Z) (m : amap) as_ : NoDup (keys m) -> NoDup as_ ->
  zsum (fun x : Z * cellv => if existsb (Z.eqb (fst x)) as_ then g (fst x) (fst (fst (snd x))) else 0) m =
  zsum (fun a => match hget m a with Some (v, _, _) => g a v | None => 0 end) as_.
Proof.
  intros Hn. induction 1 as [|a as_ Ha _ IH]; [apply zsum_zero; reflexivity|]. cbn [zsum]. rewrite <- IH. clear IH.
  assert (K : match hget m a with Some (v, _, _) => g a v | None => 0 end =
    zsum (fun x : Z * cellv => if fst x =? a then g (fst x) (fst (fst (snd x))) else 0) m).
  { clear Ha. induction m as [|[b [[v c] k]] m IH]; [reflexivity|]. cbn [keys map fst] in Hn. inversion Hn as [|? ? N1 N2]; subst. specialize (IH N2).
    cbn [hget zsum fst snd]. destruct (Z.eqb_spec b a) as [->|N]; [|rewrite IH; reflexivity].
    rewrite zsum_zero; [ring|]. intros [b' w] Hb. cbn [fst]. destruct (Z.eqb_spec b' a) as [->|]; [|reflexivity]. elim N1. exact (in_map fst _ _ Hb). }
  rewrite K, <- zsum_plus. apply zsum_ext. intros [b w] _. cbn [fst existsb snd].
  destruct (Z.eqb_spec b a) as [->|N]; cbn [orb]; [|ring].
  destruct (existsb (Z.eqb a) as_) eqn:E; [|ring]. apply existsb_eqb in E. contradiction.
Qed.

Definition leaf4 (root a : Z) (v : qm31) : list (Z * list Z) :=
  [(1, [4 * a; 30; q0 v; root]); (1, [4 * a + 1; 30; q1 v; root]); (1, [4 * a + 2; 30; q2 v; root]); (1, [4 * a + 3; 30; q3 v; root])].
Lemma cell_leaves_total t ty r root m :
  total t (lvl_tuples root 0 (flat_map (cell_leaves ty r) m)) =
  zsum (fun x : Z * cellv => total t (leaf4 root (fst x) (fst (fst (snd x)))) +
                             (if is_public ty r (fst x) then total t (leaf4 root (fst x) (fst (fst (snd x)))) else 0)) m.
Proof.
  induction m as [|[a [[v c] k]] m IH]; [reflexivity|]. cbn [flat_map]. unfold lvl_tuples in *. rewrite map_app, total_app, IH. cbn [zsum]. f_equal. clear IH.
  cbn [cell_leaves map fst snd]. unfold mk_leaf. change (Z.of_nat TREE_HEIGHT - Z.of_nat 0) with 30. unfold leaf4.
  destruct (is_public ty r a); cbn [new_public_node new_node mv_mult mv_value total];
    repeat match goal with |- context [dec ?x t] => destruct (dec x t) end; reflexivity.
Qed.
Lemma four a : addr_ok a -> wf (4 * a) /\ wf (4 * a + 1) /\ wf (4 * a + 2) /\ wf (4 * a + 3).
Proof. unfold addr_ok, wf, P. lia. Qed.
Lemma mem_row_merkle t a c v k root : addr_ok a -> qwf v -> wf root ->
  total t (tuples Merkle (mem_air ([1; a; c] ++ qlist v ++ [k; root]))) = (P - 1) * total t (leaf4 root a v).
Proof.
  intros A (V0 & V1 & V2 & V3) R. destruct (four a A) as (A0 & A1 & A2 & A3).
  assert (E : tuples Merkle (mem_air ([1; a; c] ++ qlist v ++ [k; root])) = map (fun e => (P - 1, snd e)) (leaf4 root a v)).
  { unfold tuples, mem_air, qlist. cbn -[Z.modulo Z.mul Z.add Z.sub Z.opp P].
    unfold norm. cbn [re_rel re_mult re_vals width map]. unfold pad. cbn -[Z.modulo Z.mul Z.add P].
    change (-1 mod P) with (P - 1). change (30 mod P) with 30. rewrite (Z.mul_comm a 4). modp. reflexivity. }
  rewrite E. unfold leaf4. cbn [map snd total]. repeat match goal with |- context [dec ?x t] => destruct (dec x t) end; ring.
Qed.
Lemma mem_cells_merkle t k root l : Forall (cell_sane k) l -> wf root ->
  total t (flat_map (fun row => tuples Merkle (mem_air row)) (mem_cells root l)) =
  (P - 1) * zsum (fun x : Z * cellv => total t (leaf4 root (fst x) (fst (fst (snd x))))) l.
Proof.
  intros H R. unfold mem_cells. rewrite flat_map_map, total_flat, <- zsum_scale. apply zsum_ext. intros [a [[v c] j]] Hx.
  rewrite Forall_forall in H. destruct (H _ Hx) as (A & _ & V & _). cbn [fst snd] in *. apply mem_row_merkle; assumption.
Qed.
Lemma pub_leaves_total t root a v c : addr_ok a -> qwf v -> total t (pub_leaves root (a, v, c)) = (P - 1) * total t (leaf4 root a v).
Proof.
  intros A (V0 & V1 & V2 & V3). destruct (four a A) as (A0 & A1 & A2 & A3). cbn [pub_leaves]. modp.
  unfold leaf4. cbn [total]. repeat match goal with |- context [dec ?x t] => destruct (dec x t) end; ring.
Qed.
Lemma extract_leaves t k root l r : Forall (cell_sane k) l -> Forall wf (ranged r) ->
  total t (flat_map (pub_leaves root) (extract l r)) =
  (P - 1) * zsum (fun a => match hget l a with Some (v, _, _) => total t (leaf4 root a v) | None => 0 end) (ranged r).
Proof.
  intros H Hw. unfold extract. rewrite total_flat_nest, total_flat, <- zsum_scale. apply zsum_ext. intros a Ha.
  rewrite Forall_forall in Hw. specialize (Hw a Ha). unfold mfrom. rewrite (wf_mod a Hw).
  destruct (hget l a) as [[[v c] j]|] eqn:E; [|cbn [flat_map total]; ring].
  destruct (hget_sane k l _ _ _ _ H E) as (A & _ & V & _). cbn [fst snd] in *.
  cbn [flat_map]. rewrite app_nil_r. apply pub_leaves_total; assumption.
Qed.
Lemma in_ranged r a : in_range r a = existsb (Z.eqb a) (ranged r).
Proof.
  apply eq_true_iff_eq. rewrite existsb_eqb, ranged_in. unfold in_range. rewrite andb_true_iff, Z.leb_le, Z.ltb_lt. tauto.
Qed.
Lemma existsb_or (f : Z -> bool) l m : existsb f l || existsb f m = existsb f (l ++ m).
Proof. symmetry. apply existsb_app. Qed.

(** One tree: its nodes, its root, its cells and its public cells. *)
Definition listed (ty : tree_type) (r : ranges) : list Z :=
  match ty with TInitial => ranged (r_program r) ++ ranged (r_input r) | TFinal => ranged (r_output r) end.
Lemma is_public_listed ty r a : is_public ty r a = existsb (Z.eqb a) (listed ty r).
Proof. destruct ty; cbn [is_public listed]; rewrite !in_ranged, ?existsb_or; reflexivity. Qed.

Lemma tree_balanced hash ty r k m ns root t :
  (forall x y, wf (hash x y)) -> m <> [] -> NoDup (keys m) -> Forall (cell_sane k) m -> Z.of_nat (length m) < 268435456 ->
  build_tree hash ty r m = Some (ns, Some root) -> wf root -> NoDup (listed ty r) ->
  (total t (flat_map (fun row => tuples Merkle (merkle_air row)) (map (node_row root) ns)) + total t [(1, [0; 0; root; root])] +
   total t (flat_map (fun row => tuples Merkle (mem_air row)) (mem_cells root m)) +
   (P - 1) * zsum (fun a => match hget m a with Some (v, _, _) => total t (leaf4 root a v) | None => 0 end) (listed ty r)) mod P = 0.
Proof.
  intros Hh Hne Hn Hs Hl E Hr Hd.
  assert (Ha : Forall addr_ok (keys m)). { apply Forall_forall. intros a Hi. apply in_map_iff in Hi. destruct Hi as (x & <- & Hx). rewrite Forall_forall in Hs. apply Hs, Hx. }
  assert (Hq : Forall (fun x : Z * cellv => qwf (fst (fst (snd x)))) m) by (eapply Forall_impl; [|exact Hs]; intros x Hx; apply Hx).
  pose proof (tree_nodes hash Hh ty r m ns root Hne Hn Ha Hq Hl E) as Hns.
  pose proof (tree_flow hash ty r m ns root Hne Hn Ha Hl E root t) as Hf.
  rewrite (mem_cells_merkle t k root m Hs Hr).
  rewrite <- (cells_by_address (fun a v => total t (leaf4 root a v)) m (listed ty r) Hn Hd).
  rewrite cell_leaves_total in Hf. rewrite zsum_plus in Hf.
  rewrite (zsum_ext (fun x : Z * cellv => if is_public ty r (fst x) then _ else _)
     (fun x => if existsb (Z.eqb (fst x)) (listed ty r) then total t (leaf4 root (fst x) (fst (fst (snd x)))) else 0) m) in Hf
     by (intros x _; rewrite is_public_listed; reflexivity).
  rewrite flat_map_map, total_flat.
  rewrite (zsum_ext _ (fun n => total t (node_uses root n) + (P - 1) * total t (node_emits root n)) ns)
    by (intros n Hi; rewrite Forall_forall in Hns; eapply node_row_merkle; [apply Hns, Hi|exact Hr]).
  rewrite zsum_plus, zsum_scale, <- (total_flat t (node_uses root)), <- (total_flat t (node_emits root)).
  cbv beta in *. set (U := total t (flat_map (node_uses root) ns)) in *. set (M := total t (flat_map (node_emits root) ns)) in *.
  set (R := total t [_]) in *. set (L := zsum _ m) in *. clearbody L. set (K := zsum _ m) in *.
  clearbody U M R K.
  match goal with |- ?a mod P = 0 => replace a with ((M + L + K) * P); [|replace U with (L + K + M - R) by lia; ring] end. apply Z_mod_mult.
Qed.
Lemma nodes_hash_balanced h root ns t : Forall (node_sane (hash_of h)) ns ->
  (total t (flat_map (fun row => tuples Poseidon2 (merkle_air row)) (map (node_row root) ns)) +
   total t (flat_map hash_tuples (map (fun n => (hash_input n, h (hash_input n))) ns))) mod P = 0.
Proof.
  intros H. rewrite !flat_map_map, !total_flat, <- zsum_plus.
  rewrite (zsum_ext _ (fun n => P * (total t [(1, hash_input n)] + total t [(1, pad 16 [h (hash_input n)])])) ns).
  - rewrite zsum_scale, Z.mul_comm. apply Z_mod_mult.
  - intros n Hn. rewrite Forall_forall in H. eapply node_row_hash, H, Hn.
Qed.
