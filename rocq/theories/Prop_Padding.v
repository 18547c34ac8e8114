(** Property C44, continued: which rows are enabled. *)
From Coq Require Import List Arith Lia.
From Verif Require Import Padding.
Import ListNotations.
Open Scope nat_scope.

Lemma packed_length n q : length (packed_at n q) = lanes.
Proof.
  unfold packed_at. cbv zeta. destruct (Nat.leb_spec n (q * lanes)); [apply repeat_length|].
  destruct (Nat.leb_spec (q * lanes + lanes) n); [apply repeat_length|]. rewrite app_length, !repeat_length. lia.
Qed.
Lemma nth_repeat' (x d : nat) : forall k i, i < k -> nth i (repeat x k) d = x.
Proof. induction k as [|k IH]; intros [|i] H; try lia; [reflexivity|]. apply IH. lia. Qed.
Lemma packed_nth n q r : r < lanes -> nth r (packed_at n q) 0 = if q * lanes + r <? n then 1 else 0.
Proof.
  intros R. unfold packed_at. cbv zeta. destruct (Nat.leb_spec n (q * lanes)).
  - rewrite nth_repeat' by exact R. destruct (Nat.ltb_spec (q * lanes + r) n); [lia|reflexivity].
  - destruct (Nat.leb_spec (q * lanes + lanes) n).
    + rewrite nth_repeat' by exact R. destruct (Nat.ltb_spec (q * lanes + r) n); [reflexivity|lia].
    + destruct (Nat.ltb_spec (q * lanes + r) n).
      * rewrite app_nth1 by (rewrite repeat_length; lia). apply nth_repeat'. lia.
      * rewrite app_nth2; rewrite repeat_length; [|lia]. apply nth_repeat'. lia.
Qed.
Lemma column_length n : forall k s, length (flat_map (packed_at n) (seq s k)) = k * lanes.
Proof. induction k as [|k IH]; intros s; [reflexivity|]. cbn [seq flat_map]. rewrite app_length, packed_length, IH. lia. Qed.
Lemma column_nth n : forall k s i, i < k * lanes -> nth i (flat_map (packed_at n) (seq s k)) 0 = if s * lanes + i <? n then 1 else 0.
Proof.
  induction k as [|k IH]; intros s i H; [lia|]. cbn [seq flat_map]. destruct (Nat.ltb_spec i lanes) as [L|L].
  - rewrite app_nth1 by (rewrite packed_length; exact L). apply packed_nth. exact L.
  - rewrite app_nth2; rewrite packed_length; [|exact L]. rewrite IH by lia. replace (S s * lanes + (i - lanes)) with (s * lanes + i) by lia. reflexivity.
Qed.
Lemma size_enough n : n <= 2 ^ log_size n.
Proof.
  apply Nat.le_trans with (2 ^ Nat.log2_up n).
  - destruct n as [|[|n]]; [lia|cbn; lia|]. apply Nat.log2_log2_up_spec. lia.
  - apply Nat.pow_le_mono_r; [lia|]. unfold log_size. lia.
Qed.
Lemma size_lanes n : 2 ^ log_size n = 2 ^ (log_size n - log_lanes) * lanes.
Proof. change lanes with (2 ^ log_lanes). rewrite <- Nat.pow_add_r. f_equal. unfold log_size. lia. Qed.

(** A trace is padded to a power of two of rows, with all inputs in front; the enabler is 1 on exactly the rows of the inputs
    and 0 on the others, and there is one for each row. *)
Theorem C44_enabled_rows : forall (A : Type) (default : A) (inputs : list A),
  let rows := padded default inputs in
  (exists k, length rows = 2 ^ k) /\ length (enabler_column default inputs) = length rows /\
  (forall i, i < length inputs -> nth_error rows i = nth_error inputs i /\ nth_error (enabler_column default inputs) i = Some 1) /\
  (forall i, length inputs <= i < length rows -> nth_error rows i = Some default /\ nth_error (enabler_column default inputs) i = Some 0).
Proof.
  intros A default inputs rows. pose proof (size_enough (length inputs)) as E.
  assert (L : length rows = 2 ^ log_size (length inputs)) by (unfold rows, padded; rewrite app_length, repeat_length; lia).
  assert (Q : packed_rows default inputs * lanes = length rows).
  { unfold packed_rows. fold rows. rewrite L, size_lanes, Nat.div_mul by discriminate. reflexivity. }
  assert (C : length (enabler_column default inputs) = length rows) by (unfold enabler_column; rewrite column_length; exact Q).
  assert (N : forall i, i < length rows -> nth_error (enabler_column default inputs) i = Some (if i <? length inputs then 1 else 0)).
  { intros i H. rewrite (nth_error_nth' _ 0) by (rewrite C; exact H). f_equal. unfold enabler_column. rewrite column_nth by (rewrite Q; exact H). reflexivity. }
  split; [exists (log_size (length inputs)); exact L|]. split; [exact C|]. split; intros i H.
  - split; [unfold rows, padded; apply nth_error_app1; exact H|]. rewrite N by (rewrite L; lia). destruct (Nat.ltb_spec i (length inputs)); [reflexivity|lia].
  - split.
    + assert (Hr : i - length inputs < 2 ^ log_size (length inputs) - length inputs) by lia.
      unfold rows, padded. rewrite nth_error_app2 by lia. apply nth_error_repeat. exact Hr.
    + rewrite N by lia. destruct (Nat.ltb_spec i (length inputs)); [lia|reflexivity].
Qed.
Print Assumptions C44_enabled_rows.
(** 18 inputs: 32 rows, the last 14 of which are padding. *)
Example C44_enabled_sample : enabler_column 7 (repeat 1 18) = repeat 1 18 ++ repeat 0 14 /\ length (padded 7 (repeat 1 18)) = 32.
Proof. split; reflexivity. Qed.
