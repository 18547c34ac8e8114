(** Padding of the trace of a component: crates/prover/src/utils/enabler.rs and the beginning of [write_trace] in
    crates/prover/src/components/opcodes/*.rs (store_imm.rs 121-146).  Field elements are 0 and 1. *)
From Coq Require Import List Arith.
Import ListNotations.
Open Scope nat_scope.

(** stwo: [N_LANES], [LOG_N_LANES]. *)
Definition log_lanes : nat := 4.
Definition lanes : nat := 16.
(** store_imm.rs 122: [max(LOG_N_LANES, inputs.len().next_power_of_two().ilog2())]; memory.rs 102 computes the same. *)
Definition log_size (n : nat) : nat := Nat.max log_lanes (Nat.log2_up n).
(** enabler.rs 57-75: [packed_at]. *)
Definition packed_at (padding_offset vec_row : nat) : list nat :=
  let row_offset := vec_row * lanes in
  if padding_offset <=? row_offset then repeat 0 lanes
  else if row_offset + lanes <=? padding_offset then repeat 1 lanes
  else repeat 1 (padding_offset - row_offset) ++ repeat 0 (lanes - (padding_offset - row_offset)).
(** [inputs.resize(1 << log_size, default)] *)
Definition padded {A} (default : A) (inputs : list A) : list A :=
  inputs ++ repeat default (2 ^ log_size (length inputs) - length inputs).
(** [par_chunks_exact(N_LANES)]: the number of packed rows; the column written by the loop over them. *)
Definition packed_rows {A} (default : A) (inputs : list A) : nat := length (padded default inputs) / lanes.
Definition enabler_column {A} (default : A) (inputs : list A) : list nat :=
  flat_map (packed_at (length inputs)) (seq 0 (packed_rows default inputs)).
