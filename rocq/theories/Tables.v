(** The preprocessed tables: bitwise operations and range checks.
    Models crates/prover/src/preprocessed/bitwise.rs and preprocessed/range_check (mod.rs and
    range_check_macro.rs): the columns both sides generate, the column of multiplicities the
    prover writes, and the relation entries of the rows.
    Simplifications: a column is a list in the order in which it is generated (the same order for
    all columns of a table); lookups are counted one at a time instead of in parallel, which is
    the same sum. *)
From Coq Require Import ZArith Bool List.
From Verif Require Import M31 Air.
Import ListNotations.
Open Scope Z_scope.

Definition zrange (n : Z) : list Z := map Z.of_nat (seq 0 (Z.to_nat n)).

(** bitwise.rs 283-319 [generate_column_values]: the entry of column [col] for operation [op] and
    index [i]. *)
Definition bitwise_value (col : nat) (bits op i : Z) : Z :=
  let input1 := Z.shiftr i bits in
  let input2 := Z.land i (Z.shiftl 1 bits - 1) in
  match col with
  | 0%nat => op
  | 1%nat => input1
  | 2%nat => input2
  | _ => if op =? 0 then Z.land input1 input2 else if op =? 1 then Z.lor input1 input2 else Z.lxor input1 input2
  end.
Definition generate_column_values (col : nat) (bits total_size : Z) : list Z :=
  let op_size := Z.shiftl 1 (bits * 2) in
  let values := flat_map (fun op => map (bitwise_value col bits op) (zrange op_size)) [0; 1; 2] in
  firstn (Z.to_nat total_size) (values ++ repeat 0 (Z.to_nat total_size - length values)).
(** bitwise.rs 323-336 [log_size], [gen_column_simd]. *)
Definition gen_bitwise (col : nat) (bits : Z) : list Z := generate_column_values col bits (Z.shiftl 1 (bits * 2 + 2)).
(** range_check/mod.rs 58-67. *)
Definition gen_range (range : Z) : list Z := zrange (Z.shiftl 1 range).

(** bitwise.rs 89-109: the row a lookup [op_id, input1, input2, result] is counted in. *)
Definition bitwise_index (v : list Z) : Z := nth 0 v 0 * Z.shiftl 1 16 + Z.shiftl (nth 1 v 0) 8 + nth 2 v 0.
(** An atomic counter of 32 bits. *)
Definition counter (ks : list Z) (k : Z) : Z := Z.of_nat (count_occ Z.eq_dec ks k) mod 2 ^ 32.
(** bitwise.rs 82-115: an index beyond the table is reported and dropped. *)
Definition bitwise_mults (lookups : list (list Z)) : list Z :=
  map (counter (filter (fun k => k <? Z.shiftl 1 18) (map bitwise_index lookups))) (zrange (Z.shiftl 1 18)).
(** range_check_macro.rs 72-84: an index beyond the table panics ([None]). *)
Definition range_mults (range : Z) (lookups : list Z) : option (list Z) :=
  if forallb (fun v => v <? Z.shiftl 1 range) lookups then Some (map (counter lookups) (zrange (Z.shiftl 1 range))) else None.

(** bitwise.rs 211-228 and range_check_macro.rs 171-184 [evaluate], with bitwise.rs 170-192 and
    range_check_macro.rs 125-149 [write_interaction_trace]: each row emits the values of the
    preprocessed columns as often as its multiplicity says. *)
Definition bitwise_row (bits : Z) (k : nat) : list Z := map (fun col => nth k (gen_bitwise col bits) 0) [0; 1; 2; 3]%nat.
Definition bitwise_table (bits : Z) : list (list Z) := map (bitwise_row bits) (seq 0 (length (gen_bitwise 0 bits))).
Definition range_table (range : Z) : list (list Z) := map (fun v => [v]) (gen_range range).
Definition emits (mults : list Z) (table : list (list Z)) : list (Z * list Z) :=
  map (fun p => (fst p mod P, snd p)) (combine mults table).
