(** The opcode components and the lookup tables of the prover's output. *)
From Coq Require Import ZArith Bool List Lia Permutation.
From Verif Require Import M31 M31Facts Instr Abi Air AirOpcodes AirSpec AirFacts AirChain AirMem AirGlobal Adapter AdapterSpec Merkle MerkleProps
  Trace TraceSpec TraceAll Prover.
Import ListNotations.
Open Scope Z_scope.

(** ** Sums of multiplicities *)
Lemma total_flat_ext {A} t (f g : A -> list (Z * list Z)) l :
  (forall x, In x l -> total t (f x) = total t (g x)) -> total t (flat_map f l) = total t (flat_map g l).
Proof.
  induction l as [|x l IH]; intros H; [reflexivity|]. cbn [flat_map]. rewrite !total_app.
  rewrite IH by (intros; apply H; right; assumption). rewrite (H x (or_introl eq_refl)). reflexivity.
Qed.
Lemma total_flat_zero {A} t (f : A -> list (Z * list Z)) l :
  (forall x, In x l -> total t (f x) = 0) -> total t (flat_map f l) = 0.
Proof.
  induction l as [|x l IH]; intros H; [reflexivity|]. cbn [flat_map]. rewrite total_app.
  rewrite IH by (intros; apply H; right; assumption). rewrite (H x (or_introl eq_refl)). reflexivity.
Qed.
Lemma total_flat_plus {A} t (f g : A -> list (Z * list Z)) l :
  total t (flat_map (fun x => f x ++ g x) l) = total t (flat_map f l) + total t (flat_map g l).
Proof. induction l as [|x l IH]; [reflexivity|]. cbn [flat_map]. rewrite !total_app, IH. ring. Qed.
Lemma total_flat_nest {A B} t (g : A -> list B) (f : B -> list (Z * list Z)) l :
  total t (flat_map f (flat_map g l)) = total t (flat_map (fun x => flat_map f (g x)) l).
Proof. induction l as [|x l IH]; [reflexivity|]. cbn [flat_map]. rewrite flat_map_app, !total_app, IH. reflexivity. Qed.
Lemma flat_map_map {A B C} (g : A -> B) (f : B -> list C) l : flat_map f (map g l) = flat_map (fun x => f (g x)) l.
Proof. induction l as [|x l IH]; [reflexivity|]. cbn [map flat_map]. rewrite IH. reflexivity. Qed.
Definition zcount (t : list Z) (l : list (list Z)) : Z := Z.of_nat (count_occ dec l t).
Lemma zcount_app t l m : zcount t (l ++ m) = zcount t l + zcount t m.
Proof. unfold zcount. rewrite count_occ_app. lia. Qed.
Lemma total_const t k l : total t (map (fun v => (k, v)) l) = k * zcount t l.
Proof.
  unfold zcount. induction l as [|v l IH]; cbn [map total count_occ]; [ring|]. rewrite IH.
  destruct (dec v t); [rewrite Nat2Z.inj_succ|]; unfold Z.succ; ring.
Qed.
Lemma zcount_perm t l m : Permutation l m -> zcount t l = zcount t m.
Proof. intros H. unfold zcount. rewrite (Permutation_count_occ dec) in H. rewrite H. reflexivity. Qed.

(** ** Components *)
Lemma components_nodup : NoDup components.
Proof. unfold components. repeat (constructor; [cbn; intuition discriminate|]). constructor. Qed.
Lemma components_all c : In c components.
Proof. destruct c; cbn; tauto. Qed.
Lemma mine_own c b : mine c b = true <-> component_of (b_instr b) = Some c.
Proof.
  unfold mine. destruct (component_of (b_instr b)) as [d|]; [|split; discriminate].
  destruct (component_dec c d) as [->|N]; split; intros H; try reflexivity; try discriminate; congruence.
Qed.
(** Grouping by component does not change the sums. *)
Lemma one_component t b (G : component -> list (Z * list Z)) c : component_of (b_instr b) = Some c -> forall cs, NoDup cs ->
  total t (flat_map (fun d => if mine d b then G d else []) cs) = if in_dec component_dec c cs then total t (G c) else 0.
Proof.
  intros E. induction 1 as [|d cs Hd Hn IH]; [reflexivity|]. cbn [flat_map]. rewrite total_app, IH.
  destruct (mine d b) eqn:M.
  - apply mine_own in M. assert (d = c) by congruence. subst d.
    destruct (in_dec component_dec c cs) as [Hi|Hi]; [contradiction|].
    destruct (in_dec component_dec c (c :: cs)) as [_|N]; [lia|]. elim N. left. reflexivity.
  - assert (d <> c) by (intros ->; rewrite (proj2 (mine_own c b) E) in M; discriminate).
    cbn [total]. rewrite Z.add_0_l. destruct (in_dec component_dec c cs) as [Hi|Hi], (in_dec component_dec c (d :: cs)) as [Hj|Hj]; try reflexivity.
    + elim Hj. right. exact Hi.
    + destruct Hj as [Hj|Hj]; [contradiction|contradiction].
Qed.
Lemma total_group t (G : component -> bundle -> list (Z * list Z)) bs :
  (forall b, In b bs -> exists c, component_of (b_instr b) = Some c) ->
  total t (flat_map (fun c => flat_map (G c) (filter (mine c) bs)) components) =
  total t (flat_map (fun b => match component_of (b_instr b) with Some c => G c b | None => [] end) bs).
Proof.
  induction bs as [|b bs IH]; intros H.
  - cbn [filter flat_map]. apply total_flat_zero. reflexivity.
  - cbn [flat_map]. rewrite total_app, <- IH by (intros x Hx; apply H; right; exact Hx).
    destruct (H b (or_introl eq_refl)) as [c E]. rewrite E.
    assert (K : total t (G c b) = total t (flat_map (fun d => if mine d b then G d b else []) components)).
    { rewrite (one_component t b (fun d => G d b) c E components components_nodup).
      destruct (in_dec component_dec c components) as [_|N]; [reflexivity|]. elim N. apply components_all. }
    rewrite K, <- total_flat_plus. apply total_flat_ext. intros d _. cbn [filter].
    destruct (mine d b); cbn [flat_map app]; rewrite ?total_app; reflexivity.
Qed.
(** Sums over the rows of all components: the padding rows and the rows of the bundles. *)
Lemma total_ops t (F : component * list Z -> list (Z * list Z)) bs :
  (forall b, In b bs -> exists c, component_of (b_instr b) = Some c) ->
  (forall c, total t (F (c, fill c 0 pad_bundle)) = 0) ->
  total t (flat_map F (op_rows bs)) =
  total t (flat_map (fun b => match component_of (b_instr b) with Some c => F (c, fill c 1 b) | None => [] end) bs).
Proof.
  intros H1 H2. unfold op_rows. rewrite total_flat_nest. rewrite <- (total_group t (fun c b => F (c, fill c 1 b)) bs H1).
  apply total_flat_ext. intros c _. unfold trace_of. rewrite map_app, flat_map_app, total_app, !flat_map_map.
  rewrite (total_flat_zero t (fun row => F (c, row)) (repeat _ _)); [ring|].
  intros row Hr. apply repeat_spec in Hr. subst row. apply H2.
Qed.

(** ** Lookups *)
(** All lookups in tables have multiplicity -1. *)
Fixpoint all_ary (Q : air -> Prop) (n : nat) : ary n -> Prop :=
  match n with O => fun f => Q f | Datatypes.S n => fun f => forall x, all_ary Q n (f x) end.
Lemma on_row_all Q n : forall (f : ary n) row, all_ary Q n f -> Q (on_row n f row).
Proof. induction n as [|n IH]; intros f row H; [exact H|]. cbn [on_row]. destruct row; apply IH, H. Qed.
Definition lookups_once (a : air) : Prop := Forall (fun e => is_lookup (re_rel e) = true -> re_mult e = -1) (a_ents a).
Lemma evaluate_once c row : lookups_once (evaluate c row).
Proof.
  destruct c; unfold evaluate; apply on_row_all; cbn [all_ary]; intros;
  match goal with |- lookups_once ?a => let b := eval hnf in a in change (lookups_once b) end;
  unfold lookups_once; cbn [a_ents];
  repeat (apply Forall_cons; [cbn [re_rel re_mult is_lookup]; intros ?; first [reflexivity|discriminate]|]); apply Forall_nil.
Qed.
Lemma concat_pairs {A} (l : list A) : concat (pairs l) = l.
Proof.
  assert (K : forall n (l : list A), (length l <= n)%nat -> concat (pairs l) = l).
  { induction n as [|n IH]; intros [|x [|y r]] H; try reflexivity; cbn [length] in H; [lia|]. cbn [pairs concat app]. rewrite IH by lia. reflexivity. }
  apply (K (length l)). lia.
Qed.
Lemma concat_forall2 {A B} (R : A -> B -> Prop) l m : Forall2 (Forall2 R) l m -> Forall2 R (concat l) (concat m).
Proof. induction 1 as [|x y l m H _ IH]; [constructor|]. cbn [concat]. apply Forall2_app; assumption. Qed.
(** What the prover counts is what the constraints look up. *)
Lemma counted r c en b : is_lookup r = true -> same_logup c en b ->
  tuples r (evaluate c (fill c en b)) = map (fun v => (P - 1, v)) (looked_in r (fractions c en b)).
Proof.
  intros Hr H. unfold same_logup in H. apply concat_forall2 in H. rewrite concat_pairs in H.
  pose proof (evaluate_once c (fill c en b)) as Ho. unfold lookups_once in Ho.
  unfold tuples, looked_in. revert Ho. induction H as [|x y l m Hxy _ IH]; intros Ho; [reflexivity|].
  inversion Ho as [|? ? Ho1 Ho2]; subst. specialize (IH Ho2). cbn [filter]. destruct Hxy as [E N]. rewrite E.
  destruct (rel_eqb (re_rel y) r) eqn:Er; [|exact IH]. cbn [map]. rewrite IH. f_equal.
  apply rel_eqb_ok in Er. rewrite Er in Ho1. specialize (Ho1 Hr).
  assert (Ey : fst (norm y) = P - 1) by (unfold norm; cbn [fst]; rewrite Ho1; reflexivity).
  destruct N as [N|[_ N]]; [|rewrite Ey in N; discriminate N]. rewrite N. destruct (norm y) as [k v]. cbn [fst snd] in *. congruence.
Qed.
Lemma in_tables r c en b v : is_lookup r = true -> same_logup c en b -> satisfied (evaluate c (fill c en b)) ->
  In v (looked_in r (fractions c en b)) -> in_table r v.
Proof.
  intros Hr H [_ Hs] Hv. assert (Hin : In (P - 1, v) (tuples r (evaluate c (fill c en b)))).
  { rewrite (counted r c en b Hr H). apply in_map_iff. exists v. auto. }
  unfold tuples in Hin. apply in_map_iff in Hin. destruct Hin as (e & E & He). apply filter_In in He. destruct He as [He Er].
  apply rel_eqb_ok in Er. rewrite Forall_forall in Hs. specialize (Hs e He). unfold lookup_ok in Hs. rewrite E, Er in Hs.
  destruct Hs as [Hs|Hs]; [discriminate Hs|exact Hs].
Qed.
Definition logged (bs : list bundle) : Prop :=
  Forall (fun b => exists c, component_of (b_instr b) = Some c /\ satisfied (evaluate c (fill c 1 b)) /\ same_logup c 1 b) bs.
Lemma logged_mine bs c b : logged bs -> In b (filter (mine c) bs) -> satisfied (evaluate c (fill c 1 b)) /\ same_logup c 1 b.
Proof.
  intros H Hb. apply filter_In in Hb. destruct Hb as [Hb Hm]. unfold logged in H. rewrite Forall_forall in H.
  destruct (H b Hb) as (d & E & H1 & H2). apply mine_own in Hm. assert (d = c) by congruence. subst d. auto.
Qed.
Lemma flat_map_ext_in {A B} (f g : A -> list B) l : (forall x, In x l -> f x = g x) -> flat_map f l = flat_map g l.
Proof.
  induction l as [|x l IH]; intros H; [reflexivity|]. cbn [flat_map]. rewrite IH by (intros; apply H; right; assumption).
  rewrite (H x (or_introl eq_refl)). reflexivity.
Qed.
Lemma map_flat {A B C} (g : B -> C) (f : A -> list B) l : map g (flat_map f l) = flat_map (fun x => map g (f x)) l.
Proof. induction l as [|x l IH]; [reflexivity|]. cbn [flat_map]. rewrite map_app, IH. reflexivity. Qed.
Lemma flat_flat {A B C} (g : A -> list B) (f : B -> list C) l : flat_map f (flat_map g l) = flat_map (fun x => flat_map f (g x)) l.
Proof. induction l as [|x l IH]; [reflexivity|]. cbn [flat_map]. rewrite flat_map_app, IH. reflexivity. Qed.
Lemma flat_repeat {A B} (f : A -> list B) x n : flat_map f (repeat x n) = flat_map (fun _ => f x) (repeat tt n).
Proof. induction n as [|n IH]; [reflexivity|]. cbn [repeat flat_map]. rewrite IH. reflexivity. Qed.
Lemma ops_looked_up r bs : is_lookup r = true -> logged bs ->
  flat_map (fun cr => tuples r (evaluate (fst cr) (snd cr))) (op_rows bs) = map (fun v => (P - 1, v)) (looked_up r bs).
Proof.
  intros Hr H. unfold op_rows, looked_up. rewrite flat_flat, map_flat. apply flat_map_ext_in. intros c _.
  rewrite flat_map_map. cbn [fst snd]. unfold trace_of. rewrite flat_map_app, map_app. f_equal.
  - rewrite flat_map_map, map_flat. apply flat_map_ext_in. intros b Hb. apply counted; [exact Hr|]. apply (logged_mine bs c b H Hb).
  - rewrite flat_repeat, map_flat. apply flat_map_ext_in. intros _ _. apply counted; [exact Hr|]. apply pad_facts.
Qed.
Lemma looked_up_in r bs v : is_lookup r = true -> logged bs -> In v (looked_up r bs) -> in_table r v.
Proof.
  intros Hr H Hv. unfold looked_up in Hv. apply in_flat_map in Hv. destruct Hv as (c & _ & Hv). apply in_app_or in Hv. destruct Hv as [Hv|Hv].
  - apply in_flat_map in Hv. destruct Hv as (b & Hb & Hv). destruct (logged_mine bs c b H Hb) as [A B]. apply (in_tables r c 1 b v Hr B A Hv).
  - apply in_flat_map in Hv. destruct Hv as (u & _ & Hv). destruct (pad_facts c) as (_ & _ & A & _ & B). apply (in_tables r c 0 pad_bundle v Hr B A Hv).
Qed.
(** Slots of the tables. *)
Lemma rc_slot_in r v : r = RC8 \/ r = RC16 \/ r = RC20 -> in_table r v -> exists k, rc_slot r v = Some k /\ rc_row k = v.
Proof.
  intros Hr H. assert (exists x, v = [x]) as [x ->].
  { destruct v as [|x [|y v]]; destruct Hr as [->|[->| ->]]; cbn in H; try contradiction; exists x; reflexivity. }
  exists x. split; [|reflexivity]. unfold rc_slot. destruct Hr as [->|[->| ->]]; cbn in H; rewrite (proj2 (Z.ltb_lt _ _)) by lia; reflexivity.
Qed.
Lemma bitwise_slot_in v : in_table BitwiseR v -> exists k, bitwise_slot v = Some k /\ bitwise_row k = v /\ 0 <= k < 196608.
Proof.
  intros H. destruct v as [|o [|x [|y [|z [|w v]]]]]; cbn [in_table] in H; try contradiction.
  destruct H as (Hx & Hy & Ho).
  assert (Hob : 0 <= o <= 2) by (destruct Ho as [[-> _]|[[-> _]|[-> _]]]; lia).
  exists (o * 65536 + x * 256 + y). unfold bitwise_slot. cbn [nth]. rewrite (proj2 (Z.ltb_lt _ _)) by lia. split; [reflexivity|].
  split; [|lia]. unfold bitwise_row.
  assert (E1 : (o * 65536 + x * 256 + y) / 65536 = o) by (symmetry; apply (Z.div_unique _ _ _ (x * 256 + y)); lia).
  assert (E2 : (o * 65536 + x * 256 + y) mod 65536 = x * 256 + y) by (symmetry; apply (Z.mod_unique _ _ o); lia).
  assert (E3 : (x * 256 + y) / 256 = x) by (symmetry; apply (Z.div_unique _ _ _ y); lia).
  assert (E4 : (o * 65536 + x * 256 + y) mod 256 = y) by (symmetry; apply (Z.mod_unique _ _ (o * 256 + x)); lia).
  rewrite E1, E2, E3, E4. destruct Ho as [[-> ->]|[[-> ->]|[-> ->]]]; reflexivity.
Qed.
Lemma all_slots_ok (slot : list Z -> option Z) row vs :
  (forall v, In v vs -> exists k, slot v = Some k /\ row k = v) ->
  exists ks, all_slots (map slot vs) = Some ks /\ some_slots (map slot vs) = ks /\ map row ks = vs.
Proof.
  induction vs as [|v vs IH]; intros H; [exists []; auto|].
  destruct (H v (or_introl eq_refl)) as (k & E & R). destruct IH as (ks & E1 & E2 & E3); [intros w Hw; apply H; right; exact Hw|].
  exists (k :: ks). cbn [map all_slots]. rewrite E, E1. split; [reflexivity|]. split; [|cbn [map]; congruence].
  unfold some_slots in *. cbn [flat_map app]. rewrite E2. reflexivity.
Qed.
(** Counting distinct values with their numbers counts all values. *)
Fixpoint zsum (l : list Z) : Z := match l with [] => 0 | x :: r => x + zsum r end.
Lemma zsum_notin (g : Z -> Z) a l : ~ In a l -> zsum (map (fun k => g k * (if Z.eq_dec a k then 1 else 0)) l) = 0.
Proof.
  induction l as [|x l IH]; intros H; [reflexivity|]. cbn [map zsum]. rewrite IH by (intros K; apply H; right; exact K).
  destruct (Z.eq_dec a x) as [->|]; [elim H; left; reflexivity|]. ring.
Qed.
Lemma zsum_pick (g : Z -> Z) a l : NoDup l -> zsum (map (fun k => g k * (if Z.eq_dec a k then 1 else 0)) l) = if in_dec Z.eq_dec a l then g a else 0.
Proof.
  induction 1 as [|x l Hx Hn IH]; [reflexivity|]. cbn [map zsum]. rewrite IH. destruct (Z.eq_dec a x) as [->|N].
  - destruct (in_dec Z.eq_dec x l) as [Hi|_]; [contradiction|]. destruct (in_dec Z.eq_dec x (x :: l)) as [_|K]; [ring|elim K; left; reflexivity].
  - destruct (in_dec Z.eq_dec a l) as [Hi|Hi], (in_dec Z.eq_dec a (x :: l)) as [Hj|Hj]; try ring.
    + elim Hj. right. exact Hi.
    + destruct Hj as [Hj|Hj]; [congruence|contradiction].
Qed.
Lemma zsum_plus {A} (f g : A -> Z) l : zsum (map (fun k => f k + g k) l) = zsum (map f l) + zsum (map g l).
Proof. induction l as [|x l IH]; [reflexivity|]. cbn [map zsum]. rewrite IH. ring. Qed.
Lemma zsum_ext {A} (f g : A -> Z) l : (forall k, In k l -> f k = g k) -> zsum (map f l) = zsum (map g l).
Proof. intros H. f_equal. apply map_ext_in. exact H. Qed.
Lemma tally_sum (g : Z -> Z) ks :
  zsum (map (fun k => g k * Z.of_nat (count_occ Z.eq_dec ks k)) (nodup Z.eq_dec ks)) = zsum (map g ks).
Proof.
  induction ks as [|a ks IH]; [reflexivity|]. cbn [nodup map zsum]. 
  assert (Hc : forall k, Z.of_nat (count_occ Z.eq_dec (a :: ks) k) = (if Z.eq_dec a k then 1 else 0) + Z.of_nat (count_occ Z.eq_dec ks k)).
  { intros k. cbn [count_occ]. destruct (Z.eq_dec a k); lia. }
  assert (Hs : forall l, zsum (map (fun k => g k * Z.of_nat (count_occ Z.eq_dec (a :: ks) k)) l) =
    zsum (map (fun k => g k * (if Z.eq_dec a k then 1 else 0)) l) + zsum (map (fun k => g k * Z.of_nat (count_occ Z.eq_dec ks k)) l)).
  { intros l. rewrite <- zsum_plus. apply zsum_ext. intros k _. rewrite Hc. ring. }
  rewrite Hs. destruct (in_dec Z.eq_dec a ks) as [Hi|Hi].
  - rewrite IH, zsum_pick by apply NoDup_nodup. destruct (in_dec Z.eq_dec a (nodup Z.eq_dec ks)) as [_|K]; [ring|].
    elim K. apply nodup_In. exact Hi.
  - cbn [map zsum]. rewrite IH, zsum_notin by (rewrite nodup_In; exact Hi).
    destruct (Z.eq_dec a a) as [_|K]; [|elim K; reflexivity].
    rewrite (proj1 (count_occ_not_In Z.eq_dec ks a) Hi). cbn [Z.of_nat]. ring.
Qed.
Definition is_tuple (t v : list Z) : Z := if dec v t then 1 else 0.
Lemma zcount_sum t vs : zcount t vs = zsum (map (is_tuple t) vs).
Proof.
  unfold zcount, is_tuple. induction vs as [|v vs IH]; [reflexivity|]. cbn [count_occ map zsum]. destruct (dec v t); lia.
Qed.
Lemma tally_total r row ks t : total t (map snd (tally r row ks)) mod P = zcount t (map row ks) mod P.
Proof.
  rewrite zcount_sum, map_map, <- (tally_sum (fun k => is_tuple t (row k)) ks). unfold tally. rewrite map_map. cbn [snd].
  induction (nodup Z.eq_dec ks) as [|k l IH]; [reflexivity|]. cbn [map total zsum].
  rewrite Zplus_mod, IH, <- Zplus_mod. rewrite (Zplus_mod (is_tuple t (row k) * _)), Zplus_mod. f_equal. f_equal.
  unfold is_tuple. destruct (dec (row k) t); [rewrite Z.mul_1_l, Zmod_mod; reflexivity|reflexivity].
Qed.
Lemma tally_rel r s row ks : filter (fun x : relation * (Z * list Z) => rel_eqb (fst x) s) (tally r row ks) = if rel_eqb r s then tally r row ks else [].
Proof.
  unfold tally. induction (nodup Z.eq_dec ks) as [|k l IH]; [destruct (rel_eqb r s); reflexivity|]. cbn [map filter fst].
  rewrite IH. destruct (rel_eqb r s); reflexivity.
Qed.
Lemma tables_ok bs : logged bs -> exists tab, tables bs = Some tab /\
  Forall (fun x => is_lookup (fst x) = true /\ in_table (fst x) (snd (snd x))) tab /\
  forall r, is_lookup r = true -> balanced (map (fun v => (P - 1, v)) (looked_up r bs) ++ map snd (filter (fun x => rel_eqb (fst x) r) tab)).
Proof.
  intros H. unfold tables.
  assert (HR : forall r, r = RC8 \/ r = RC16 \/ r = RC20 -> is_lookup r = true) by (intros r [->|[->| ->]]; reflexivity).
  assert (HS : forall r, r = RC8 \/ r = RC16 \/ r = RC20 ->
    exists ks, all_slots (map (rc_slot r) (looked_up r bs)) = Some ks /\ some_slots (map (rc_slot r) (looked_up r bs)) = ks /\ map rc_row ks = looked_up r bs).
  { intros r Hr. apply all_slots_ok. intros v Hv. apply rc_slot_in; [exact Hr|]. apply (looked_up_in r bs v (HR r Hr) H Hv). }
  destruct (HS RC8 ltac:(auto)) as (k8 & E8 & _ & R8). destruct (HS RC16 ltac:(auto)) as (k16 & E16 & _ & R16).
  destruct (HS RC20 ltac:(auto)) as (k20 & E20 & _ & R20).
  destruct (all_slots_ok bitwise_slot bitwise_row (looked_up BitwiseR bs)) as (kb & _ & Eb & Rb).
  { intros v Hv. destruct (bitwise_slot_in v (looked_up_in BitwiseR bs v eq_refl H Hv)) as (k & A & B & _). eauto. }
  rewrite E8, E16, E20, Eb. eexists. split; [reflexivity|]. split.
  - assert (K : forall r row ks, is_lookup r = true -> map row ks = looked_up r bs ->
      Forall (fun x : relation * (Z * list Z) => is_lookup (fst x) = true /\ in_table (fst x) (snd (snd x))) (tally r row ks)).
    { intros r row ks Hr E. apply Forall_forall. intros x Hx. unfold tally in Hx. apply in_map_iff in Hx. destruct Hx as (k & <- & Hk).
      cbn [fst snd]. split; [exact Hr|]. apply (looked_up_in r bs _ Hr H). rewrite <- E. apply in_map. apply nodup_In in Hk. exact Hk. }
    repeat (apply Forall_app; split); apply K; first [reflexivity|assumption].
  - intros r Hr t. rewrite !filter_app, !map_app, !total_app, !tally_rel, total_const.
    assert (K : forall row ks, map row ks = looked_up r bs -> ((P - 1) * zcount t (looked_up r bs) + total t (map snd (tally r row ks))) mod P = 0).
    { intros row ks E. rewrite Zplus_mod, tally_total, E, <- Zplus_mod.
      replace ((P - 1) * zcount t (looked_up r bs) + zcount t (looked_up r bs)) with (zcount t (looked_up r bs) * P) by ring. apply Z_mod_mult. }
    destruct r; try discriminate Hr; cbn [rel_eqb]; cbn [map total]; rewrite ?Z.add_0_l, ?Z.add_0_r; apply K; assumption.
Qed.
