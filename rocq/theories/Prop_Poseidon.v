(** Property C69: the hash chip computes the Poseidon2 permutation, and what its relation says about the trees. *)
From Coq Require Import ZArith Bool List Lia Permutation.
From Verif Require Import M31 M31Facts Air AirOpcodes AirSpec AirChain AirMem AirGlobal Adapter Merkle Prover Poseidon PoseidonSpec PoseidonFacts.
Import ListNotations.
Open Scope Z_scope.

(** [rc] and [diag] are the published tables, of which the build script makes the tables of the
    chip; [permutation] is the published permutation ([PoseidonSpec]).  A row is [row_ok] if it
    has the right number of columns, all of them field elements, and all constraints vanish. *)
Definition chip_row (rc : list (list Z)) (diag row : list Z) : Prop :=
  row_ok 443 (hash_air (generate rc diag) row) row.
Definition state_hash (rc : list (list Z)) (diag x : list Z) : Z := nth 0 (permutation rc diag x) 0.
Definition chip_tuples (rc : list (list Z)) (diag row : list Z) : list (Z * list Z) :=
  tuples Poseidon2 (hash_air (generate rc diag) row).

Lemma pad_id x : length x = 16%nat -> pad 16 x = x.
Proof. intros H. open16 x H. reflexivity. Qed.
Lemma map_mod_id x : Forall wf x -> map (fun v => v mod P) x = x.
Proof. induction 1 as [|a l Ha _ IH]; [reflexivity|]. cbn [map]. rewrite (wf_mod _ Ha), IH. reflexivity. Qed.
Lemma row_tuples cs e x d : is_state x -> wf e -> wf d ->
  tuples Poseidon2 (Air cs [RE Poseidon2 (- e) x; RE Poseidon2 e [d]]) = [(mneg e, x); (e, pad 16 [d])].
Proof.
  intros (X & W) We Wd. unfold tuples. cbn [a_ents filter re_rel rel_eqb map]. unfold norm. cbn [re_rel re_mult re_vals width map].
  rewrite (map_mod_id x W), (pad_id x X), (wf_mod _ We), (wf_mod _ Wd). reflexivity.
Qed.

(** ** C69: the rows of the prover *)
(** For every input state and every enabler, the row that is written satisfies the constraints,
    adds to the relation what the prover's log-up column says, and that is: the input state
    consumed and the first element of the permuted state emitted, [enabler] times. *)
Theorem C69_written_rows_accepted : forall rc diag e x, tables_ok rc diag -> is_state x -> wf e ->
  let k := generate rc diag in
  chip_row rc diag (write_row k e x) /\
  chip_tuples rc diag (write_row k e x) = fractions k e x /\
  fractions k e x = [(mneg e, x); (e, pad 16 [state_hash rc diag x])].
Proof.
  intros rc diag e x Hok Hx We k. destruct Hx as (X & W).
  destruct (write_row_eval k e x X) as (cs & E & Z).
  pose proof (digest_wf rc diag Hok x X) as Wd. fold k in Wd.
  unfold chip_row, chip_tuples. fold k. rewrite E. split.
  - split; [|split; [|exact Z]].
    + unfold write_row. cbn [length]. rewrite app_length, X. unfold k. rewrite (write_rounds_length rc diag x Hok X). reflexivity.
    + unfold write_row. apply Forall_cons; [exact We|]. apply Forall_app. split; [exact W|apply write_rounds_wf].
  - rewrite row_tuples by (assumption || (split; assumption)). unfold fractions, state_hash. rewrite <- (digest_spec rc diag Hok x X). fold k. auto.
Qed.
Print Assumptions C69_written_rows_accepted.

(** ** C69: what the constraints force *)
(** A row that satisfies the constraints and has an enabler other than 0 is the row the prover
    writes for its input, and so claims the true hash.  A row with the enabler 0 adds nothing. *)
Theorem C69_rows_are_hashes : forall rc diag row, tables_ok rc diag -> chip_row rc diag row ->
  let e := nth 0 row 0 in
  let x := firstn 16 (skipn 1 row) in
  is_state x /\
  (e <> 0 -> row = write_row (generate rc diag) e x /\ chip_tuples rc diag row = [(mneg e, x); (e, pad 16 [state_hash rc diag x])]) /\
  (e = 0 -> forall t, total t (chip_tuples rc diag row) = 0).
Proof.
  intros rc diag row Hok (L & W & Z). destruct (split_row row L) as (e & x & ms & -> & X & M & Ee & Ex).
  cbv zeta. rewrite <- Ee, <- Ex. clear Ee Ex.
  inversion W as [|? ? We W']; subst. apply Forall_app in W'. destruct W' as [Wx Wm].
  assert (Hx : is_state x) by (split; assumption).
  split; [exact Hx|]. split.
  - intros He. pose proof (row_forced rc diag e x ms Hok X M We Wm Z He) as E. split; [exact E|]. rewrite E.
    destruct (C69_written_rows_accepted rc diag e x Hok Hx We) as (_ & E1 & E2). rewrite E1. exact E2.
  - intros -> t. unfold chip_tuples. rewrite (hash_air_eq _ _ _ _ X). unfold tuples. cbn [a_ents filter re_rel rel_eqb map].
    unfold norm. cbn [re_rel re_mult re_vals width map total]. change (- (0) mod P) with 0. change (0 mod P) with 0.
    destruct (list_eq_dec _ _ t); destruct (list_eq_dec _ _ t); reflexivity.
Qed.
Print Assumptions C69_rows_are_hashes.

(** The hash of the trees is the chip's hash of the state made for it, and it is a field element,
    as the completeness of the prover (C46) asks of a hash. *)
Theorem C69_tree_hash : forall rc diag l r, tables_ok rc diag ->
  hash_of (state_hash rc diag) l r = hash2 rc diag l r /\ digest (generate rc diag) (pad 16 [l; r]) = hash2 rc diag l r /\
  wf (hash2 rc diag l r).
Proof.
  intros rc diag l r Hok. assert (E : pad 16 [l; r] = [l; r] ++ repeat 0 14) by reflexivity.
  assert (X : length ([l; r] ++ repeat 0 14) = 16%nat) by reflexivity.
  unfold hash_of, state_hash, hash2. rewrite E. split; [reflexivity|].
  rewrite <- (digest_spec rc diag Hok _ X). split; [reflexivity|apply (digest_wf rc diag Hok _ X)].
Qed.
Print Assumptions C69_tree_hash.

(** ** C69: whole traces *)
Definition hash_pairs (rc : list (list Z)) (diag : list Z) (hs : list (list Z * Z)) : Prop :=
  Forall (fun x => length (fst x) = 16%nat /\ Forall wf (fst x) /\ snd x = state_hash rc diag (fst x)) hs.
Lemma total_flat {A} (f : A -> list (Z * list Z)) g l t : (forall x, In x l -> total t (f x) mod P = total t (g x) mod P) ->
  total t (flat_map f l) mod P = total t (flat_map g l) mod P.
Proof.
  induction l as [|x l IH]; intros H; [reflexivity|]. cbn [flat_map]. rewrite !total_app.
  rewrite Zplus_mod, (H x (or_introl eq_refl)), (IH (fun y I => H y (or_intror I))), <- Zplus_mod. reflexivity.
Qed.
Lemma total_repeat t (x : list Z * Z) n : total t (flat_map hash_tuples (repeat x n)) = Z.of_nat n * total t (hash_tuples x).
Proof.
  induction n as [|n IH]; [reflexivity|]. cbn [repeat flat_map]. rewrite total_app, IH, Nat2Z.inj_succ. ring.
Qed.
(** The trace of a list of inputs adds to the relation what [AirGlobal.hash_tuples] says of each. *)
Theorem C69_trace_complete : forall rc diag inputs, tables_ok rc diag -> Forall is_state inputs ->
  let rows := write_trace (generate rc diag) inputs in
  Forall (chip_row rc diag) rows /\
  hash_pairs rc diag (map (fun x => (x, state_hash rc diag x)) inputs) /\
  (forall t, total t (flat_map (chip_tuples rc diag) rows) mod P =
             total t (flat_map hash_tuples (map (fun x => (x, state_hash rc diag x)) inputs)) mod P) /\
  (length inputs <= length rows)%nat.
Proof.
  intros rc diag inputs Hok Hin rows. unfold rows, write_trace.
  assert (Z16 : is_state (repeat 0 T)) by (split; [reflexivity|apply Forall_forall; intros y I; apply repeat_spec in I; subst y; apply wf0]).
  pose proof (C69_written_rows_accepted rc diag 0 _ Hok Z16 wf0) as (P0 & T0 & F0).
  split; [|split; [|split]].
  - apply Forall_app. split.
    + apply Forall_forall. intros row I. apply in_map_iff in I. destruct I as (x & <- & I).
      rewrite Forall_forall in Hin. exact (proj1 (C69_written_rows_accepted rc diag 1 x Hok (Hin _ I) wf1)).
    + apply Forall_forall. intros row I. apply repeat_spec in I. subst row. exact P0.
  - apply Forall_forall. intros p I. apply in_map_iff in I. destruct I as (x & <- & I).
    rewrite Forall_forall in Hin. destruct (Hin _ I) as (X & W). auto.
  - intros t. rewrite flat_map_app, total_app.
    assert (R0 : forall n, total t (flat_map (chip_tuples rc diag) (repeat (write_row (generate rc diag) 0 (repeat 0 T)) n)) = 0).
    { induction n as [|n IH]; [reflexivity|]. cbn [repeat flat_map]. rewrite total_app, IH, T0, F0. cbn [total].
      change (mneg 0) with 0. destruct (list_eq_dec _ _ t); destruct (list_eq_dec _ _ t); reflexivity. }
    rewrite R0, Z.add_0_r. clear - Hok Hin.
    induction Hin as [|x inputs Hx _ IH]; [reflexivity|]. cbn [map flat_map]. rewrite !total_app, Zplus_mod, IH, <- Zplus_mod.
    destruct (C69_written_rows_accepted rc diag 1 x Hok Hx wf1) as (_ & E1 & E2). rewrite E1, E2.
    change (mneg 1) with (P - 1). unfold hash_tuples. cbn [fst snd]. reflexivity.
  - rewrite app_length, map_length. lia.
Qed.
Print Assumptions C69_trace_complete.

(** Any rows that satisfy the constraints, whatever their enablers, add to the relation what
    some list of true hashes adds: this is what [accepted] (C29) takes for granted. *)
Theorem C69_trace_sound : forall rc diag rows, tables_ok rc diag -> Forall (chip_row rc diag) rows ->
  exists hs, hash_pairs rc diag hs /\
    forall t, total t (flat_map (chip_tuples rc diag) rows) mod P = total t (flat_map hash_tuples hs) mod P.
Proof.
  intros rc diag rows Hok. induction 1 as [|row rows Hr _ (hs & Hh & Ht)]; [exists []; split; [constructor|reflexivity]|].
  destruct (C69_rows_are_hashes rc diag row Hok Hr) as (Hx & H1 & H0). cbv zeta in *.
  set (e := nth 0 row 0) in *. set (x := firstn 16 (skipn 1 row)) in *.
  destruct (Z.eq_dec e 0) as [E|N].
  - exists hs. split; [exact Hh|]. intros t. cbn [flat_map]. rewrite total_app, (H0 E), Z.add_0_l. apply Ht.
  - destruct (H1 N) as [_ Et].
    assert (We : wf e) by (destruct Hr as (L & W & _); rewrite Forall_forall in W; apply W, nth_In; rewrite L; lia).
    exists (repeat (x, state_hash rc diag x) (Z.to_nat e) ++ hs). split.
    + apply Forall_app. split; [|exact Hh]. apply Forall_forall. intros p I. apply repeat_spec in I. subst p.
      destruct Hx as (X & W). auto.
    + intros t. cbn [flat_map]. rewrite flat_map_app, !total_app. rewrite Zplus_mod, Ht, <- Zplus_mod. apply cadd; [|reflexivity].
      rewrite total_repeat, Et, Z2Nat.id by (destruct We; lia). unfold hash_tuples. cbn [total fst snd].
      assert (En : mneg e mod P = (e * (P - 1)) mod P).
      { unfold mneg. rewrite Zmod_mod. replace (e * (P - 1)) with (- e + e * P) by ring. rewrite Z_mod_plus_full. reflexivity. }
      destruct (list_eq_dec Z.eq_dec x t), (list_eq_dec Z.eq_dec (pad 16 [state_hash rc diag x]) t);
        rewrite ?Z.add_0_r, ?Z.add_0_l, ?Z.mul_0_r; try reflexivity.
      * replace (e * (P - 1 + 1)) with (e * (P - 1) + e) by ring. apply cadd; [exact En|reflexivity].
      * exact En.
      * rewrite Z.mul_1_r. reflexivity.
Qed.
Print Assumptions C69_trace_sound.

(** ** C69: what the relation says about the trees *)
(** The state made of two children, and the tuple of a digest. *)
Definition children (row : list Z) : list Z := pad 16 [nth 3 row 0; nth 4 row 0].
Definition parent (row : list Z) : Z := nth 5 row 0.

Lemma merkle_row10 (row : list Z) : length row = 10%nat -> exists e i d l r p a b c o, row = [e; i; d; l; r; p; a; b; c; o].
Proof. intros H. do 10 (destruct row as [|? row]; [discriminate H|]). destruct row; [|discriminate H]. do 10 eexists. reflexivity. Qed.
Lemma merkle_tuples row : row_ok 10 (merkle_air row) row ->
  tuples Poseidon2 (merkle_air row) =
    (if enabled row then [(1, children row); (P - 1, pad 16 [parent row])] else [(0, children row); (0, pad 16 [parent row])]).
Proof.
  intros (L & W & Z). destruct (merkle_row10 row L) as (e & i & d & l & r & p & a & b & c & o & ->).
  unfold vanishes, merkle_air, on_row, merkle_row in Z. cbn [a_cons] in Z.
  assert (Z1 : (e * (1 - e)) mod P = 0) by exact (Forall_inv Z). inversion W as [|? ? We W1]; subst.
  do 5 (inversion W1 as [|? ? ? W2]; subst; clear W1; rename W2 into W1).
  assert (E : e = 0 \/ e = 1).
  { destruct (mul_zero _ _ Z1) as [K|K]; [left; rewrite (wf_mod _ We) in K; exact K|right].
    apply mod_sub_zero in K. rewrite (wf_mod _ We), (wf_mod _ wf1) in K. auto. }
  unfold tuples, merkle_air, on_row, merkle_row, enabled, children, parent. cbn [a_ents filter re_rel rel_eqb map nth].
  unfold norm. cbn [re_rel re_mult re_vals width map].
  rewrite (wf_mod l), (wf_mod r), (wf_mod p) by assumption.
  destruct E as [-> | ->]; reflexivity.
Qed.
Lemma consumed_app a b : consumed (a ++ b) = consumed a ++ consumed b.
Proof. unfold consumed. rewrite filter_app, map_app. reflexivity. Qed.
Lemma produced_app a b : produced (a ++ b) = produced a ++ produced b.
Proof. unfold produced. rewrite filter_app, map_app. reflexivity. Qed.
Lemma merkle_flow rows : Forall (fun row => row_ok 10 (merkle_air row) row) rows ->
  let es := flat_map (fun row => tuples Poseidon2 (merkle_air row)) rows in
  let on := filter enabled rows in
  unital es /\ consumed es = map (fun row => pad 16 [parent row]) on /\ produced es = map children on.
Proof.
  induction 1 as [|row rows Hr _ (U & C & R)]; [repeat split; constructor|]. cbn [flat_map filter]. cbv zeta in *.
  rewrite consumed_app, produced_app, C, R, (merkle_tuples row Hr).
  destruct (enabled row); (split; [apply Forall_app; split; [repeat (apply Forall_cons; [cbn [fst]; auto|]); constructor|exact U]|split; reflexivity]).
Qed.
Lemma hash_flow hs : let es := flat_map hash_tuples hs in
  unital es /\ consumed es = map fst hs /\ produced es = map (fun x => pad 16 [snd x]) hs.
Proof.
  induction hs as [|x hs (U & C & R)]; [repeat split; constructor|]. cbn [flat_map]. cbv zeta in *.
  rewrite consumed_app, produced_app, C, R.
  split; [apply Forall_app; split; [repeat (apply Forall_cons; [cbn [fst]; auto|]); constructor|exact U]|split; reflexivity].
Qed.

(** In an accepted proof the pairs of children together with all digests are, counted with
    repetitions, the parents together with all hashed states.  This is all the relation says:
    the full claim, that each parent is the hash of its own children, is refuted below. *)
Theorem C69_hash_bags_partial : forall h p, accepted h p -> Z.of_nat (length (hash_side p)) < P ->
  let on := filter enabled (p_merkle p) in
  Permutation (map (fun row => pad 16 [parent row]) on ++ map fst (p_hash p))
              (map children on ++ map (fun x => pad 16 [h (fst x)]) (p_hash p)).
Proof.
  intros h p Ha Hl on. pose proof (ac_hash_bal _ _ Ha) as B. unfold hash_side in *.
  destruct (merkle_flow (p_merkle p) (ac_merkles _ _ Ha)) as (U1 & C1 & R1).
  destruct (hash_flow (p_hash p)) as (U2 & C2 & R2). cbv zeta in *.
  assert (U : unital (flat_map (fun row => tuples Poseidon2 (merkle_air row)) (p_merkle p) ++ flat_map hash_tuples (p_hash p)))
    by (apply Forall_app; split; assumption).
  pose proof (balanced_perm _ U B Hl) as K. rewrite consumed_app, produced_app, C1, C2, R1, R2 in K.
  replace (map (fun x : list Z * Z => pad 16 [h (fst x)]) (p_hash p)) with (map (fun x : list Z * Z => pad 16 [snd x]) (p_hash p)); [exact K|].
  pose proof (ac_hash _ _ Ha) as F. clear - F. induction F as [|x hs (_ & _ & E) _ IH]; [reflexivity|]. cbn [map]. rewrite E, IH. reflexivity.
Qed.
Print Assumptions C69_hash_bags_partial.

(** The rows of the Merkle component that satisfy the constraints and whose uses of the hash
    relation balance with true hashes. *)
Definition hashed (h : list Z -> Z) (rows : list (list Z)) (hs : list (list Z * Z)) : Prop :=
  Forall (fun row => row_ok 10 (merkle_air row) row) rows /\
  Forall (fun x => length (fst x) = 16%nat /\ Forall wf (fst x) /\ snd x = h (fst x)) hs /\
  balanced (flat_map (fun row => tuples Poseidon2 (merkle_air row)) rows ++ flat_map hash_tuples hs).

(** A node whose left child is its own value and whose right child is 0 needs no hash at all: its
    children and its value are the same tuple of the relation. *)
Theorem C69_unhashed_parent_refuted : forall h x, wf x -> h (pad 16 [x; 0]) <> x ->
  exists row, hashed h [row] [] /\ enabled row = true /\ parent row <> h (children row).
Proof.
  intros h x W N. exists [1; 0; 1; x; 0; x; 1; 0; 1; 0]. split; [|split; [reflexivity|intros E; apply N; symmetry; exact E]].
  split; [|split; [constructor|]].
  - apply Forall_cons; [|constructor]. split; [reflexivity|]. split.
    + repeat (apply Forall_cons; [assumption || (split; [discriminate|reflexivity])|]). constructor.
    + repeat (apply Forall_cons; [reflexivity|]). constructor.
  - intros t. rewrite app_nil_r. cbn [flat_map]. rewrite app_nil_r.
    unfold tuples, merkle_air, on_row, merkle_row. cbn [a_ents filter re_rel rel_eqb map].
    unfold norm. cbn [re_rel re_mult re_vals width map total]. change (0 mod P) with 0.
    change (pad 16 [x mod P; 0]) with (pad 16 [x mod P]).
    destruct (list_eq_dec Z.eq_dec (pad 16 [x mod P]) t); reflexivity.
Qed.
Print Assumptions C69_unhashed_parent_refuted.

(** With both pairs of children hashed by the chip, two nodes can still exchange their values. *)
Theorem C69_swapped_parents_refuted : forall h l1 r1 l2 r2,
  (forall s, wf (h s)) -> wf l1 -> wf r1 -> wf l2 -> wf r2 -> h (pad 16 [l1; r1]) <> h (pad 16 [l2; r2]) ->
  exists row1 row2 hs, hashed h [row1; row2] hs /\ map fst hs = [children row1; children row2] /\
    enabled row1 = true /\ parent row1 <> h (children row1) /\ enabled row2 = true /\ parent row2 <> h (children row2).
Proof.
  intros h l1 r1 l2 r2 Wh W1 W2 W3 W4 N.
  set (s1 := pad 16 [l1; r1]) in *. set (s2 := pad 16 [l2; r2]) in *.
  exists [1; 0; 1; l1; r1; h s2; 1; 1; 1; 0], [1; 0; 1; l2; r2; h s1; 1; 1; 1; 0], [(s1, h s1); (s2, h s2)].
  assert (S1 : is_state s1). { split; [reflexivity|]. unfold s1. cbn [pad]. repeat (apply Forall_cons; [assumption || apply wf0|]). constructor. }
  assert (S2 : is_state s2). { split; [reflexivity|]. unfold s2. cbn [pad]. repeat (apply Forall_cons; [assumption || apply wf0|]). constructor. }
  assert (Ok : forall l r q, wf l -> wf r -> wf q -> row_ok 10 (merkle_air [1; 0; 1; l; r; q; 1; 1; 1; 0]) [1; 0; 1; l; r; q; 1; 1; 1; 0]).
  { intros l r q Hl Hr Hq. split; [reflexivity|]. split.
    + repeat (apply Forall_cons; [assumption || apply wf0 || apply wf1|]). constructor.
    + repeat (apply Forall_cons; [reflexivity|]). constructor. }
  pose proof (Ok l1 r1 (h s2) W1 W2 (Wh _)) as O1. pose proof (Ok l2 r2 (h s1) W3 W4 (Wh _)) as O2.
  split; [|repeat (split; [reflexivity|]); split; [intros E; apply N; symmetry; exact E|split; [reflexivity|intros E; apply N; exact E]]].
  split; [apply Forall_cons; [exact O1|apply Forall_cons; [exact O2|constructor]]|].
  split; [destruct S1, S2; repeat (apply Forall_cons; [cbn [fst snd]; auto|]); constructor|].
  intros t. cbn [flat_map]. rewrite (merkle_tuples _ O1), (merkle_tuples _ O2). cbn [enabled nth Z.eqb Pos.eqb children parent].
  change (children [1; 0; 1; l1; r1; h s2; 1; 1; 1; 0]) with s1. change (children [1; 0; 1; l2; r2; h s1; 1; 1; 1; 0]) with s2.
  unfold hash_tuples. cbn [app total fst snd]. cbv iota.
  destruct (list_eq_dec Z.eq_dec s1 t), (list_eq_dec Z.eq_dec s2 t), (list_eq_dec Z.eq_dec (pad 16 [h s1]) t), (list_eq_dec Z.eq_dec (pad 16 [h s2]) t);
    reflexivity.
Qed.
Print Assumptions C69_swapped_parents_refuted.

(** The component's documentation lists the constraint that the enabler is 0 or 1; it is not
    among the constraints.  (A row then counts several times, which [C69_trace_sound] covers.) *)
Theorem C69_boolean_enabler_refuted : forall rc diag, tables_ok rc diag ->
  exists row, chip_row rc diag row /\ nth 0 row 0 = 2.
Proof.
  intros rc diag Hok. exists (write_row (generate rc diag) 2 (repeat 0 16)). split; [|reflexivity].
  apply C69_written_rows_accepted; [exact Hok| |split; [discriminate|reflexivity]].
  split; [reflexivity|]. apply Forall_forall. intros y I. apply repeat_spec in I. subst y. apply wf0.
Qed.
Print Assumptions C69_boolean_enabler_refuted.

(** *** Examples *)
Definition demo_rc : list (list Z) := map (fun r => map (fun i => Z.of_nat (16 * r + i + 1)) (seq 0 16)) (seq 0 22).
Definition demo_diag : list Z := map (fun i => 2 ^ Z.of_nat i) (seq 0 16).
Lemma demo_tables : tables_ok demo_rc demo_diag.
Proof.
  assert (F : forall l, forallb wfb l = true -> Forall wf l).
  { intros l H. apply Forall_forall. intros y I. rewrite forallb_forall in H. apply wfb_wf, H, I. }
  split; [reflexivity|]. split; [|split; [reflexivity|apply F; vm_compute; reflexivity]].
  apply Forall_forall. intros row I. apply in_map_iff in I. destruct I as (r & <- & I).
  split; [rewrite map_length; apply seq_length|]. apply F. apply in_seq in I.
  do 22 (destruct r as [|r]; [vm_compute; reflexivity|]). lia.
Qed.
(** Three hashes with these tables. *)
Example demo_hashes : hash2 demo_rc demo_diag 1 2 = 365355100 /\ hash2 demo_rc demo_diag 2 1 = 1474059929 /\
  hash2 demo_rc demo_diag 1 0 = 1388434217.
Proof. vm_compute. auto. Qed.
(** The written row of the input 1, 2: 443 columns, and the trace of 17 inputs has 32 rows. *)
Example C69_example :
  chip_row demo_rc demo_diag (write_row (generate demo_rc demo_diag) 1 (pad 16 [1; 2])) /\
  chip_tuples demo_rc demo_diag (write_row (generate demo_rc demo_diag) 1 (pad 16 [1; 2])) =
    [(P - 1, pad 16 [1; 2]); (1, pad 16 [365355100])] /\
  length (write_trace (generate demo_rc demo_diag) (repeat (pad 16 [1; 2]) 17)) = 32%nat /\
  ~ chip_row demo_rc demo_diag (1 :: pad 16 [1; 2] ++ repeat 0 426).
Proof.
  assert (S : is_state (pad 16 [1; 2])).
  { split; [reflexivity|]. cbn [pad]. repeat (apply Forall_cons; [split; [discriminate|reflexivity]|]). constructor. }
  destruct (C69_written_rows_accepted demo_rc demo_diag 1 _ demo_tables S wf1) as (A & B & C).
  split; [exact A|]. split; [rewrite B, C; unfold state_hash; vm_compute; reflexivity|]. split; [vm_compute; reflexivity|].
  intros (_ & _ & Z). unfold vanishes in Z. rewrite Forall_forall in Z.
  set (row := 1 :: pad 16 [1; 2] ++ repeat 0 426) in *.
  assert (E : forallb (fun c => c mod P =? 0) (a_cons (hash_air (generate demo_rc demo_diag) row)) = false) by (vm_compute; reflexivity).
  enough (K : forallb (fun c => c mod P =? 0) (a_cons (hash_air (generate demo_rc demo_diag) row)) = true) by (rewrite E in K; discriminate K).
  apply forallb_forall. intros c I. apply Z.eqb_eq, (Z c I).
Qed.
(** Both refutations apply to the hash with these tables. *)
Lemma state_hash_pad l r : state_hash demo_rc demo_diag (pad 16 [l; r]) = hash2 demo_rc demo_diag l r.
Proof. unfold state_hash, hash2. change (pad 16 [l; r]) with ([l; r] ++ repeat 0 14). reflexivity. Qed.
Example C69_refutations_apply : exists row, hashed (state_hash demo_rc demo_diag) [row] [] /\ enabled row = true /\
  parent row <> state_hash demo_rc demo_diag (children row).
Proof.
  apply C69_unhashed_parent_refuted with (x := 1); [apply wf1|]. rewrite state_hash_pad.
  destruct demo_hashes as (_ & _ & ->). discriminate.
Qed.
