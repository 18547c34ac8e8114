(** Facts about the preprocessed tables. *)
From Coq Require Import ZArith Bool List Lia.
From Verif Require Import M31 M31Facts Air AirChain Tables.
Import ListNotations.
Open Scope Z_scope.

(** ** Ranges and blocks *)
Definition nrange (n : nat) : list Z := map Z.of_nat (seq 0 n).
Lemma zrange_n n : zrange n = nrange (Z.to_nat n). Proof. reflexivity. Qed.
Lemma nrange_length n : length (nrange n) = n. Proof. unfold nrange. rewrite map_length. apply seq_length. Qed.
Lemma nrange_in n v : In v (nrange n) <-> 0 <= v < Z.of_nat n.
Proof.
  unfold nrange. rewrite in_map_iff. split.
  - intros (k & <- & H). apply in_seq in H. lia.
  - intros H. exists (Z.to_nat v). split; [lia|]. apply in_seq. lia.
Qed.
Lemma nrange_nth n k d : (k < n)%nat -> nth k (nrange n) d = Z.of_nat k.
Proof.
  intros H. unfold nrange. rewrite (nth_indep _ d (Z.of_nat 0)) by (rewrite map_length, seq_length; exact H).
  rewrite map_nth, seq_nth by exact H. reflexivity.
Qed.
Lemma map_nrange_nth (f : Z -> Z) n k d : (k < n)%nat -> nth k (map f (nrange n)) d = f (Z.of_nat k).
Proof.
  intros H. rewrite (nth_indep _ d (f 0)) by (rewrite map_length, nrange_length; exact H).
  rewrite map_nth, nrange_nth by exact H. reflexivity.
Qed.
Definition blocks (f : Z -> Z -> Z) (n : nat) : list Z := flat_map (fun op => map (f op) (nrange n)) [0; 1; 2].
Lemma blocks_length f n : length (blocks f n) = (3 * n)%nat.
Proof. unfold blocks. cbn [flat_map]. rewrite !app_length, !map_length, !nrange_length. cbn [length]. lia. Qed.
Lemma blocks_nth f n rest op i : (op < 3)%nat -> (i < n)%nat ->
  nth (op * n + i) (blocks f n ++ rest) 0 = f (Z.of_nat op) (Z.of_nat i).
Proof.
  intros Ho Hi. rewrite app_nth1 by (rewrite blocks_length; nia). unfold blocks. cbn [flat_map]. rewrite app_nil_r.
  destruct op as [|[|[|op]]]; [| | |lia].
  - rewrite app_nth1 by (rewrite map_length, nrange_length; lia). apply map_nrange_nth. lia.
  - rewrite app_nth2; rewrite map_length, nrange_length; [|lia].
    rewrite app_nth1 by (rewrite map_length, nrange_length; lia). replace (1 * n + i - n)%nat with i by lia. apply map_nrange_nth. lia.
  - rewrite app_nth2; rewrite map_length, nrange_length; [|lia].
    rewrite app_nth2; rewrite map_length, nrange_length; [|lia]. replace (2 * n + i - n - n)%nat with i by lia. apply map_nrange_nth. lia.
Qed.
Lemma repeat_nth (x : Z) n k : nth k (repeat x n) x = x.
Proof. revert k. induction n as [|n IH]; intros [|k]; cbn [repeat nth]; auto. Qed.
Lemma blocks_pad f n k : (3 * n <= k)%nat -> nth k (blocks f n ++ repeat 0 n) 0 = 0.
Proof. intros H. rewrite app_nth2 by (rewrite blocks_length; lia). apply repeat_nth. Qed.

Definition cells (bits : Z) : nat := Z.to_nat (2 ^ (bits * 2)).
Lemma gen_bitwise_blocks col bits : 0 <= bits -> gen_bitwise col bits = blocks (bitwise_value col bits) (cells bits) ++ repeat 0 (cells bits).
Proof.
  intros Hb. unfold gen_bitwise, generate_column_values. rewrite !Z.shiftl_1_l, zrange_n.
  change (flat_map (fun op => map (bitwise_value col bits op) (nrange (Z.to_nat (2 ^ (bits * 2))))) [0; 1; 2]) with (blocks (bitwise_value col bits) (cells bits)).
  rewrite blocks_length.
  assert (E : Z.to_nat (2 ^ (bits * 2 + 2)) = (4 * cells bits)%nat).
  { unfold cells. rewrite Z.pow_add_r by lia. change (2 ^ 2) with 4. pose proof (Z.pow_nonneg 2 (bits * 2) ltac:(lia)). lia. }
  rewrite E. replace (4 * cells bits - 3 * cells bits)%nat with (cells bits) by lia.
  apply firstn_all2. rewrite app_length, blocks_length, repeat_length. lia.
Qed.
Lemma gen_bitwise_length col bits : 0 <= bits -> length (gen_bitwise col bits) = (4 * cells bits)%nat.
Proof. intros Hb. rewrite gen_bitwise_blocks by exact Hb. rewrite app_length, blocks_length, repeat_length. lia. Qed.
Lemma cells_z bits : 0 <= bits -> Z.of_nat (cells bits) = 2 ^ bits * 2 ^ bits.
Proof. intros Hb. unfold cells. rewrite <- Z.pow_add_r by lia. replace (bits + bits) with (bits * 2) by lia. apply Z2Nat.id, Z.pow_nonneg. lia. Qed.

(** What an operation computes. *)
Definition op_result (op x y : Z) : Z := if op =? 0 then Z.land x y else if op =? 1 then Z.lor x y else Z.lxor x y.
Lemma value_split bits x y op col : 0 <= bits -> 0 <= x -> 0 <= y < 2 ^ bits ->
  bitwise_value col bits op (x * 2 ^ bits + y) = nth col [op; x; y; op_result op x y] (op_result op x y).
Proof.
  intros Hb Hx Hy. unfold bitwise_value.
  assert (E1 : Z.shiftr (x * 2 ^ bits + y) bits = x).
  { rewrite Z.shiftr_div_pow2 by exact Hb. rewrite Z.div_add_l by lia. rewrite Z.div_small by exact Hy. lia. }
  assert (E2 : Z.land (x * 2 ^ bits + y) (Z.shiftl 1 bits - 1) = y).
  { rewrite Z.shiftl_1_l. replace (2 ^ bits - 1) with (Z.ones bits) by (rewrite Z.ones_equiv; lia).
    rewrite Z.land_ones by exact Hb. rewrite Z.add_comm, Z_mod_plus_full. apply Z.mod_small, Hy. }
  rewrite E1, E2. destruct col as [|[|[|[|col]]]]; reflexivity || (cbn [nth]; destruct col; reflexivity).
Qed.

(** ** Rows of the bitwise table *)
Definition place (bits o x y : Z) : nat := Z.to_nat (o * (2 ^ bits * 2 ^ bits) + x * 2 ^ bits + y).
Lemma bitwise_row_at bits o x y : 0 <= bits -> 0 <= o < 3 -> 0 <= x < 2 ^ bits -> 0 <= y < 2 ^ bits ->
  bitwise_row bits (place bits o x y) = [o; x; y; op_result o x y] /\ (place bits o x y < 4 * cells bits)%nat.
Proof.
  intros Hb Ho Hx Hy. pose proof (cells_z bits Hb) as C. assert (I : x * 2 ^ bits + y < 2 ^ bits * 2 ^ bits) by nia.
  assert (E : place bits o x y = (Z.to_nat o * cells bits + Z.to_nat (x * 2 ^ bits + y))%nat).
  { apply Nat2Z.inj. unfold place. rewrite Nat2Z.inj_add, Nat2Z.inj_mul, C, !Z2Nat.id by nia. ring. }
  split; [|rewrite E; apply Nat2Z.inj_lt; rewrite Nat2Z.inj_add, !Nat2Z.inj_mul, C, !Z2Nat.id by nia; nia].
  unfold bitwise_row. cbn [map]. rewrite !(gen_bitwise_blocks _ bits Hb), E.
  rewrite !blocks_nth by (try lia; apply Nat2Z.inj_lt; rewrite C, Z2Nat.id by nia; exact I).
  rewrite !Z2Nat.id by nia. rewrite !value_split by (try exact Hb; lia). reflexivity.
Qed.
Lemma bitwise_row_pad bits k : 0 <= bits -> (3 * cells bits <= k)%nat -> bitwise_row bits k = [0; 0; 0; 0].
Proof. intros Hb H. unfold bitwise_row. cbn [map]. rewrite !(gen_bitwise_blocks _ bits Hb), !blocks_pad by exact H. reflexivity. Qed.
Lemma place_onto bits k : 0 <= bits -> (k < 3 * cells bits)%nat ->
  exists o x y, 0 <= o < 3 /\ 0 <= x < 2 ^ bits /\ 0 <= y < 2 ^ bits /\ k = place bits o x y.
Proof.
  intros Hb H. pose proof (cells_z bits Hb) as C. pose proof (Z.pow_pos_nonneg 2 bits ltac:(lia) Hb) as Hp.
  set (w := 2 ^ bits) in *. assert (Hz : Z.of_nat k < 3 * (w * w)) by lia.
  exists (Z.of_nat k / (w * w)), (Z.of_nat k mod (w * w) / w), (Z.of_nat k mod w).
  assert (W : 0 < w * w) by nia.
  pose proof (Z.mod_pos_bound (Z.of_nat k) (w * w) W) as M. pose proof (Z.mod_pos_bound (Z.of_nat k) w Hp) as M'.
  pose proof (Z_div_mod_eq_full (Z.of_nat k) (w * w)) as D.
  split; [split; [apply Z.div_pos; lia|apply Z.div_lt_upper_bound; lia]|].
  split; [split; [apply Z.div_pos; lia|apply Z.div_lt_upper_bound; lia]|]. split; [exact M'|].
  unfold place. fold w.
  assert (E : Z.of_nat k mod w = (Z.of_nat k mod (w * w)) mod w).
  { rewrite D at 1. replace (w * w * (Z.of_nat k / (w * w)) + Z.of_nat k mod (w * w)) with (Z.of_nat k mod (w * w) + (w * (Z.of_nat k / (w * w))) * w) by ring.
    apply Z_mod_plus_full. }
  pose proof (Z_div_mod_eq_full (Z.of_nat k mod (w * w)) w) as D'. rewrite E. lia.
Qed.

(** ** Counting *)
Lemma emits_total t mults table : length mults = length table ->
  total t (emits mults table) mod P = fold_right Z.add 0 (map (fun p => if list_eq_dec Z.eq_dec (snd p) t then fst p else 0) (combine mults table)) mod P.
Proof.
  revert table. induction mults as [|m ms IH]; intros [|v table] H; try discriminate H; [reflexivity|].
  unfold emits in *. cbn [combine map total fold_right fst snd]. injection H as H. rewrite Zplus_mod, IH, <- Zplus_mod by exact H.
  destruct (list_eq_dec Z.eq_dec v t); [rewrite Zplus_mod_idemp_l; reflexivity|reflexivity].
Qed.
(** Counting through an index: every lookup is counted once, in the row of its index. *)
Lemma sum_zero {A} (f : A -> Z) l : (forall x, In x l -> f x = 0) -> fold_right Z.add 0 (map f l) = 0.
Proof. induction l as [|x l IH]; intros H; [reflexivity|]. cbn [map fold_right]. rewrite (H x (or_introl eq_refl)), IH by (intros; apply H; right; assumption). reflexivity. Qed.
Lemma sum_add {A} (f g : A -> Z) l : fold_right Z.add 0 (map (fun x => f x + g x) l) = fold_right Z.add 0 (map f l) + fold_right Z.add 0 (map g l).
Proof. induction l as [|x l IH]; [reflexivity|]. cbn [map fold_right]. rewrite IH. ring. Qed.
Lemma sum_ext {A} (f g : A -> Z) l : (forall x, In x l -> f x = g x) -> fold_right Z.add 0 (map f l) = fold_right Z.add 0 (map g l).
Proof. intros H. f_equal. apply map_ext_in, H. Qed.
Lemma sum_one (g : Z -> Z) n k : (k < n)%nat ->
  fold_right Z.add 0 (map (fun j => if Z.eq_dec (Z.of_nat k) j then g j else 0) (nrange n)) = g (Z.of_nat k).
Proof.
  intros H. unfold nrange. replace n with (k + S (n - S k))%nat by lia. rewrite seq_app, !map_app. cbn [seq map Nat.add].
  rewrite fold_right_app. cbn [fold_right]. destruct (Z.eq_dec (Z.of_nat k) (Z.of_nat k)) as [_|N]; [|contradiction].
  rewrite sum_zero.
  - rewrite Z.add_0_r.
    assert (Z0 : forall l c, (forall x, In x l -> (if Z.eq_dec (Z.of_nat k) x then g x else 0) = 0) ->
      fold_right Z.add c (map (fun j => if Z.eq_dec (Z.of_nat k) j then g j else 0) l) = c).
    { clear. induction l as [|x l IH]; intros c H; [reflexivity|]. cbn [map fold_right]. rewrite (H x (or_introl eq_refl)), IH by (intros; apply H; right; assumption). lia. }
    rewrite Z0; [reflexivity|]. intros x I. apply in_map_iff in I. destruct I as (j & <- & I). apply in_seq in I. destruct (Z.eq_dec _ _); lia.
  - intros x I. apply in_map_iff in I. destruct I as (j & <- & I). apply in_seq in I. destruct (Z.eq_dec _ _); lia.
Qed.
Lemma counts_sum (row : Z -> list Z) n ks t : (forall k, In k ks -> 0 <= k < Z.of_nat n) ->
  fold_right Z.add 0 (map (fun j => if list_eq_dec Z.eq_dec (row j) t then Z.of_nat (count_occ Z.eq_dec ks j) else 0) (nrange n)) =
  Z.of_nat (count_occ (list_eq_dec Z.eq_dec) (map row ks) t).
Proof.
  induction ks as [|k ks IH]; intros H.
  - cbn [map count_occ]. apply sum_zero. intros x _. destruct (list_eq_dec _ _ _); reflexivity.
  - cbn [map count_occ]. 
    transitivity (fold_right Z.add 0 (map (fun j => (if Z.eq_dec (Z.of_nat (Z.to_nat k)) j then (if list_eq_dec Z.eq_dec (row j) t then 1 else 0) else 0) +
       (if list_eq_dec Z.eq_dec (row j) t then Z.of_nat (count_occ Z.eq_dec ks j) else 0)) (nrange n))).
    { apply sum_ext. intros j _. pose proof (H k (or_introl eq_refl)). rewrite Z2Nat.id by lia.
      destruct (Z.eq_dec k j); destruct (list_eq_dec Z.eq_dec (row j) t); lia. }
    rewrite sum_add, IH by (intros; apply H; right; assumption). pose proof (H k (or_introl eq_refl)) as Hk.
    rewrite (sum_one (fun j => if list_eq_dec Z.eq_dec (row j) t then 1 else 0) n (Z.to_nat k)) by lia. rewrite Z2Nat.id by lia.
    destruct (list_eq_dec Z.eq_dec (row k) t); lia.
Qed.
Lemma combine_map {A B C} (f : A -> B) (g : A -> C) l : combine (map f l) (map g l) = map (fun x => (f x, g x)) l.
Proof. induction l as [|x l IH]; [reflexivity|]. cbn [map combine]. rewrite IH. reflexivity. Qed.
Lemma counter_small ks k : Z.of_nat (length ks) < 2 ^ 32 -> counter ks k = Z.of_nat (count_occ Z.eq_dec ks k).
Proof. intros H. unfold counter. apply Z.mod_small. pose proof (count_le Z.eq_dec ks k). lia. Qed.
(** The rows [row 0 .. row (n - 1)] with counters emit what was looked up. *)
Lemma emits_count (row : Z -> list Z) n ks t : Z.of_nat (length ks) < 2 ^ 32 -> (forall k, In k ks -> 0 <= k < Z.of_nat n) ->
  total t (emits (map (counter ks) (nrange n)) (map row (nrange n))) mod P = Z.of_nat (count_occ (list_eq_dec Z.eq_dec) (map row ks) t) mod P.
Proof.
  intros H1 H2. rewrite emits_total by (rewrite !map_length; reflexivity). rewrite combine_map, map_map. cbn [fst snd].
  rewrite <- (counts_sum row n ks t H2). f_equal. apply sum_ext. intros j _. rewrite counter_small by exact H1. reflexivity.
Qed.
