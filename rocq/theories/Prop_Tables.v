(** Property C70: the lookup tables hold what the lookups are meant to check, and count them. *)
From Coq Require Import ZArith Bool List Lia.
From Verif Require Import M31 M31Facts Air AirSpec AirChain AirGlobal Abi Adapter Trace Prover ProverFacts Tables TablesFacts.
Import ListNotations.
Open Scope Z_scope.
Notation bitwise_row := Tables.bitwise_row.

(** ** C70: the contents of the tables *)
(** For operands of any width the rows of the bitwise table are the triples of operation and
    operands with the result of the operation, and nothing else. *)
Theorem C70_bitwise_table : forall bits t, 0 <= bits ->
  (In t (bitwise_table bits) <->
   exists x y, 0 <= x < 2 ^ bits /\ 0 <= y < 2 ^ bits /\
     (t = [0; x; y; Z.land x y] \/ t = [1; x; y; Z.lor x y] \/ t = [2; x; y; Z.lxor x y])).
Proof.
  intros bits t Hb. pose proof (Z.pow_pos_nonneg 2 bits ltac:(lia) Hb) as Hp.
  unfold bitwise_table. rewrite (gen_bitwise_length 0 bits Hb), in_map_iff. split.
  - intros (k & <- & Hk). destruct (Nat.lt_ge_cases k (3 * cells bits)) as [L|G].
    + destruct (place_onto bits k Hb L) as (o & x & y & Ho & Hx & Hy & ->).
      exists x, y. split; [exact Hx|]. split; [exact Hy|]. rewrite (proj1 (bitwise_row_at bits o x y Hb Ho Hx Hy)).
      assert (E : o = 0 \/ o = 1 \/ o = 2) by lia. destruct E as [->|[->| ->]]; cbn [op_result Z.eqb Pos.eqb]; auto.
    + exists 0, 0. split; [lia|]. split; [lia|]. left. apply bitwise_row_pad; assumption.
  - intros (x & y & Hx & Hy & H).
    assert (K : exists o, 0 <= o < 3 /\ t = [o; x; y; op_result o x y]) by (destruct H as [->|[->| ->]]; [exists 0|exists 1|exists 2]; split; lia || reflexivity).
    destruct K as (o & Ho & ->). destruct (bitwise_row_at bits o x y Hb Ho Hx Hy) as [E L].
    exists (place bits o x y). split; [exact E|]. apply in_seq. lia.
Qed.
Print Assumptions C70_bitwise_table.
Lemma range_in range v : 0 <= range -> (In v (gen_range range) <-> 0 <= v < 2 ^ range).
Proof.
  intros Hr. unfold gen_range. rewrite zrange_n, nrange_in, Z.shiftl_1_l, Z2Nat.id by (apply Z.pow_nonneg; lia). reflexivity.
Qed.
(** The tables of the prover are those the constraints are read against ([in_table], C26). *)
Theorem C70_tables_are_what_rows_rely_on : forall t,
  (In t (bitwise_table 8) <-> in_table BitwiseR t) /\
  (In t (range_table 8) <-> in_table RC8 t) /\ (In t (range_table 16) <-> in_table RC16 t) /\ (In t (range_table 20) <-> in_table RC20 t).
Proof.
  intros t. split.
  - rewrite (C70_bitwise_table 8 t) by lia. change (2 ^ 8) with 256. split.
    + intros (x & y & Hx & Hy & [->|[->| ->]]); cbn [in_table]; auto 8.
    + destruct t as [|o [|x [|y [|z [|w t]]]]]; cbn [in_table]; try contradiction.
      intros (Hx & Hy & H). exists x, y. split; [exact Hx|]. split; [exact Hy|]. destruct H as [[-> ->]|[[-> ->]|[-> ->]]]; auto.
  - assert (K : forall range r, 0 <= range -> (forall v, in_table r v <-> match v with [x] => 0 <= x < 2 ^ range | _ => False end) ->
      (In t (range_table range) <-> in_table r t)).
    { intros range r Hr Hi. unfold range_table. rewrite in_map_iff, Hi. split.
      - intros (v & <- & H). apply range_in; assumption.
      - destruct t as [|v [|w t]]; try contradiction. intros H. exists v. split; [reflexivity|]. apply range_in; assumption. }
    split; [|split]; (apply K; [lia|intros [|v [|w l]]; cbn [in_table]; reflexivity]).
Qed.
Print Assumptions C70_tables_are_what_rows_rely_on.

(** Whatever multiplicities the column holds, what a table emits are rows of the table: this is
    what [accepted] (C29) takes for granted. *)
Theorem C70_emitted_rows_are_rows : forall mults table m t, In (m, t) (emits mults table) -> In t table /\ wf m.
Proof.
  intros mults table m t H. unfold emits in H. apply in_map_iff in H. destruct H as ([a b] & E & H). cbn [fst snd] in E. injection E as <- <-.
  split; [apply (in_combine_r mults _ a), H|apply mod_wf].
Qed.
Print Assumptions C70_emitted_rows_are_rows.

(** ** C70: the multiplicities *)
Definition looked (t : list Z) (lookups : list (list Z)) : Z := Z.of_nat (count_occ (list_eq_dec Z.eq_dec) lookups t).
Lemma n18 : Z.to_nat (Z.shiftl 1 18) = (4 * cells 8)%nat.
Proof. apply Nat2Z.inj. rewrite Nat2Z.inj_mul, cells_z by lia. rewrite Z2Nat.id; reflexivity || discriminate. Qed.
Lemma table8 : bitwise_table 8 = map (fun j => bitwise_row 8 (Z.to_nat j)) (nrange (4 * cells 8)).
Proof.
  unfold bitwise_table, nrange. rewrite gen_bitwise_length by lia. rewrite map_map. apply map_ext. intros k. rewrite Nat2Z.id. reflexivity.
Qed.
Lemma in_table_place v : in_table BitwiseR v -> 0 <= bitwise_index v < Z.shiftl 1 18 /\ bitwise_row 8 (Z.to_nat (bitwise_index v)) = v.
Proof.
  destruct v as [|o [|x [|y [|z [|w v]]]]]; cbn [in_table]; try contradiction. intros (Hx & Hy & H).
  assert (Ho : 0 <= o < 3 /\ z = op_result o x y) by (destruct H as [[-> ->]|[[-> ->]|[-> ->]]]; split; lia || reflexivity).
  destruct Ho as [Ho ->]. unfold bitwise_index. cbn [nth]. rewrite (Z.shiftl_mul_pow2 x) by lia.
  change (Z.shiftl 1 16) with (2 ^ 8 * 2 ^ 8). change (Z.shiftl 1 18) with 262144. split; [change (2 ^ 8) with 256; lia|].
  apply (proj1 (bitwise_row_at 8 o x y ltac:(lia) Ho Hx Hy)).
Qed.
(** As long as fewer than 2^32 lookups are made, all of them for rows of the table, each row is
    emitted as often as it was looked up. *)
Theorem C70_bitwise_counts : forall lookups, Forall (in_table BitwiseR) lookups -> Z.of_nat (length lookups) < 2 ^ 32 ->
  forall t, total t (emits (bitwise_mults lookups) (bitwise_table 8)) mod P = looked t lookups mod P.
Proof.
  intros lookups Hin Hl t. rewrite Forall_forall in Hin. unfold bitwise_mults. rewrite zrange_n, n18, table8.
  set (ks := filter _ _).
  assert (Ek : ks = map bitwise_index lookups).
  { unfold ks. clear ks Hl. induction lookups as [|v l IH]; [reflexivity|]. cbn [map filter].
    destruct (in_table_place v (Hin v (or_introl eq_refl))) as [[_ E] _]. rewrite (proj2 (Z.ltb_lt _ _) E). f_equal. apply IH. intros; apply Hin; right; assumption. }
  rewrite (emits_count (fun j => bitwise_row 8 (Z.to_nat j))).
  - unfold looked. do 3 f_equal. rewrite Ek, map_map. transitivity (map (fun v : list Z => v) lookups); [|apply map_id]. apply map_ext_in. intros v Hv. apply in_table_place, Hin, Hv.
  - rewrite Ek, map_length. exact Hl.
  - intros k Hk. rewrite Ek in Hk. apply in_map_iff in Hk. destruct Hk as (v & <- & Hv).
    rewrite <- n18, Z2Nat.id by (rewrite Z.shiftl_1_l; apply Z.pow_nonneg; lia). apply in_table_place, Hin, Hv.
Qed.
Print Assumptions C70_bitwise_counts.
(** The same for the range checks; here a lookup outside the table stops the prover. *)
Theorem C70_range_counts : forall range lookups, 0 <= range -> Forall (fun v => 0 <= v) lookups ->
  match range_mults range lookups with
  | Some mults => Forall (fun v => v < 2 ^ range) lookups /\
      (Z.of_nat (length lookups) < 2 ^ 32 ->
       forall t, total t (emits mults (range_table range)) mod P = looked t (map (fun v => [v]) lookups) mod P)
  | None => Exists (fun v => 2 ^ range <= v) lookups
  end.
Proof.
  intros range lookups Hr Hn. unfold range_mults. rewrite Z.shiftl_1_l. destruct (forallb _ lookups) eqn:E.
  - rewrite forallb_forall in E.
    assert (F : Forall (fun v => v < 2 ^ range) lookups) by (apply Forall_forall; intros v Hv; apply Z.ltb_lt, E, Hv).
    split; [exact F|]. intros Hl t. unfold range_table, gen_range. rewrite Z.shiftl_1_l, zrange_n. apply (emits_count (fun v => [v])); [exact Hl|].
    intros k Hk. rewrite Forall_forall in F, Hn. rewrite Z2Nat.id by (apply Z.pow_nonneg; lia). split; [apply Hn|apply F]; exact Hk.
  - apply Exists_exists. apply Bool.not_true_iff_false in E.
    destruct (existsb (fun v => 2 ^ range <=? v) lookups) eqn:X.
    + apply existsb_exists in X. destruct X as (v & Hv & H). exists v. split; [exact Hv|]. apply Z.leb_le, H.
    + exfalso. apply E. apply forallb_forall. intros v Hv. apply Z.ltb_lt, Z.nle_gt. intros C.
      assert (T : existsb (fun v => 2 ^ range <=? v) lookups = true) by (apply existsb_exists; exists v; split; [exact Hv|apply Z.leb_le, C]). congruence.
Qed.
Print Assumptions C70_range_counts.
(** The rows [prove] (C46) keeps of the bitwise table are as good as the whole table. *)
Theorem C70_kept_rows_suffice : forall lookups, Forall (in_table BitwiseR) lookups -> Z.of_nat (length lookups) < 2 ^ 32 ->
  forall t, total t (emits (bitwise_mults lookups) (bitwise_table 8)) mod P =
            total t (map snd (tally BitwiseR Prover.bitwise_row (some_slots (map bitwise_slot lookups)))) mod P.
Proof.
  intros lookups Hin Hl t. rewrite (C70_bitwise_counts lookups Hin Hl t), tally_total. rewrite Forall_forall in Hin.
  destruct (all_slots_ok bitwise_slot Prover.bitwise_row lookups) as (ks & _ & E & R).
  { intros v Hv. destruct (bitwise_slot_in v (Hin v Hv)) as (k & A & B & _). eauto. }
  rewrite E, R. reflexivity.
Qed.
Print Assumptions C70_kept_rows_suffice.

(** A bitwise lookup that is not in the table is not rejected: it is counted for another row. *)
Theorem C70_outside_lookups_refuted : exists v t, ~ in_table BitwiseR v /\ in_table BitwiseR t /\
  total t (emits (bitwise_mults [v]) (bitwise_table 8)) mod P = 1.
Proof.
  exists [0; 0; 256; 0], [0; 1; 0; 0]. split; [cbn; lia|]. split; [cbn; split; [lia|]; split; [lia|]; left; auto|].
  assert (E : bitwise_mults [[0; 0; 256; 0]] = bitwise_mults [[0; 1; 0; 0]]).
  { unfold bitwise_mults. generalize (zrange (Z.shiftl 1 18)). intros l. cbn [map].
    replace (bitwise_index [0; 0; 256; 0]) with (bitwise_index [0; 1; 0; 0]) by reflexivity. reflexivity. }
  rewrite E.
  rewrite C70_bitwise_counts; [reflexivity| |reflexivity].
  apply Forall_cons; [|constructor]. cbn. split; [lia|]. split; [lia|]. left. auto.
Qed.
Print Assumptions C70_outside_lookups_refuted.

(** *** Examples *)
(** The table for operands of one bit, with its four rows of padding. *)
Example C70_small_table : bitwise_table 1 =
  [[0; 0; 0; 0]; [0; 0; 1; 0]; [0; 1; 0; 0]; [0; 1; 1; 1]; [1; 0; 0; 0]; [1; 0; 1; 1]; [1; 1; 0; 1]; [1; 1; 1; 1];
   [2; 0; 0; 0]; [2; 0; 1; 1]; [2; 1; 0; 1]; [2; 1; 1; 0]; [0; 0; 0; 0]; [0; 0; 0; 0]; [0; 0; 0; 0]; [0; 0; 0; 0]].
Proof. vm_compute. reflexivity. Qed.
Example C70_counts_apply : Forall (in_table BitwiseR) [[2; 5; 6; 3]; [0; 255; 15; 15]; [2; 5; 6; 3]] /\
  looked [2; 5; 6; 3] [[2; 5; 6; 3]; [0; 255; 15; 15]; [2; 5; 6; 3]] = 2.
Proof. split; [repeat (apply Forall_cons; [cbn; split; [lia|]; split; [lia|]; auto 8|]); constructor|vm_compute; reflexivity]. Qed.
Example C70_range_example : range_mults 2 [3; 0; 3] = Some [1; 0; 0; 2] /\ range_mults 2 [3; 4] = None.
Proof. vm_compute. auto. Qed.
