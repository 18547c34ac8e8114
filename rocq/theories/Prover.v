(** From the adapter's output to everything the prover commits to.
    Models crates/prover/src/components/mod.rs 95-170 ([Claim::write_trace]) with the row
    generation of memory.rs, clock_update.rs, merkle.rs and poseidon2.rs, the multiplicities
    of the lookup tables (preprocessed/range_check/range_check_macro.rs, preprocessed/bitwise.rs),
    crates/prover/src/public_data.rs 221-241 ([PublicData::new]) and the trees and hash inputs of
    crates/prover/src/adapter/mod.rs 146-175.
    Simplifications: the rows of tables that nothing looks up are left out (their multiplicity
    is zero), as are the disabled rows of poseidon2; the round columns of poseidon2 are
    replaced by the digest. *)
From Coq Require Import ZArith Bool List.
From Verif Require Import M31 Instr Abi Adapter Merkle Air AirOpcodes AirGlobal Trace.
Import ListNotations.
Open Scope Z_scope.

(** components/opcodes/mod.rs 223-268. *)
Definition components : list component :=
  [C_store_fp_fp; C_store_fp_imm; C_store_imm; C_store_frame_pointer; C_store_le_fp_imm; C_assert_eq_fp_imm;
   C_double_deref_fp_imm; C_double_deref_fp_fp; C_call_abs_imm; C_ret; C_jmp_imm; C_jnz_fp_imm; C_u32_store_imm;
   C_u32_store_add_fp_fp; C_u32_store_add_fp_imm; C_u32_store_sub_fp_fp; C_u32_store_mul_fp_fp; C_u32_store_mul_fp_imm;
   C_u32_store_div_fp_fp; C_u32_store_div_fp_imm; C_u32_store_eq_fp_fp; C_u32_store_eq_fp_imm; C_u32_store_lt_fp_fp;
   C_u32_store_lt_fp_imm; C_u32_store_bitwise_fp_fp; C_u32_store_bitwise_fp_imm].
Definition op_rows (bs : list bundle) : list (component * list Z) :=
  flat_map (fun c => map (fun row => (c, row)) (trace_of c bs)) components.

(** Zero rows up to a power of two, at least 16. *)
Definition padded (width : nat) (rows : list (list Z)) : list (list Z) :=
  rows ++ repeat (repeat 0 width) (n_rows (length rows) - length rows).
(** memory.rs 93-170. *)
Definition mem_cells (root : Z) (l : amap) : list (list Z) :=
  map (fun x : Z * cellv => let '(a, (v, c, k)) := x in [1; a; c] ++ qlist v ++ [k; root]) l.
Definition mem_rows (m : amem) (root0 root1 : Z) : list (list Z) :=
  padded 9 (mem_cells root0 (a_ini m) ++ mem_cells root1 (a_fin m)).
(** clock_update.rs 75-160. *)
Definition cu_rows (m : amem) : list (list Z) :=
  padded 7 (map (fun x : Z * Z * qm31 => let '(a, c, v) := x in [1; a; c] ++ qlist v) (a_cu m)).
(** merkle.rs 92-180, adapter/merkle.rs 105-120 [to_m31_array]. *)
Definition node_row (root : Z) (n : node_data) : list Z :=
  [1; nd_index n; nd_depth n; mv_value (nd_left n); mv_value (nd_right n); mv_value (nd_parent n);
   mv_mult (nd_left n); mv_mult (nd_right n); mv_mult (nd_parent n); root].
Definition merkle_rows (ns0 ns1 : list node_data) (root0 root1 : Z) : list (list Z) :=
  padded 10 (map (node_row root0) ns0 ++ map (node_row root1) ns1).
(** adapter/merkle.rs 127-132 [to_hash_input]. *)
Definition hash_input (n : node_data) : list Z := pad 16 [mv_value (nd_left n); mv_value (nd_right n)].

(** The values looked up, in enabled and in padding rows: the [lookup_data] of the log-up
    columns. *)
Definition looked_in (r : relation) (fs : list (list Air.entry)) : list (list Z) :=
  map (fun e => snd (norm e)) (filter (fun e => rel_eqb (re_rel e) r) (concat fs)).
Definition looked_up (r : relation) (bs : list bundle) : list (list Z) :=
  flat_map (fun c =>
    let xs := filter (mine c) bs in
    flat_map (fun b => looked_in r (fractions c 1 b)) xs ++
    flat_map (fun _ => looked_in r (fractions c 0 pad_bundle)) (repeat tt (n_rows (length xs) - length xs))) components.
(** range_check_macro.rs 62-90: the row of value [x], if the table has it; an index out of
    range panics.  bitwise.rs 70-105: the index is made of the operation and the operands,
    the result is not looked at; an index out of range is ignored. *)
Definition rc_slot (r : relation) (v : list Z) : option Z :=
  match v with
  | x :: _ => if x <? match r with RC8 => 256 | RC16 => 65536 | _ => 1048576 end then Some x else None
  | [] => None
  end.
Definition bitwise_slot (v : list Z) : option Z :=
  let k := nth 0 v 0 * 65536 + nth 1 v 0 * 256 + nth 2 v 0 in
  if k <? 262144 then Some k else None.
(** The rows of the tables: range_check/mod.rs 40-46 and bitwise.rs 246-290. *)
Definition rc_row (k : Z) : list Z := [k].
Definition bitwise_row (k : Z) : list Z :=
  let op := k / 65536 in
  let x := k mod 65536 / 256 in
  let y := k mod 256 in
  if op =? 0 then [0; x; y; Z.land x y] else if op =? 1 then [1; x; y; Z.lor x y] else
  if op =? 2 then [2; x; y; Z.lxor x y] else [0; 0; 0; 0].
(** Every row that is looked up, with the number of times. *)
Definition tally (r : relation) (row : Z -> list Z) (ks : list Z) : list (relation * (Z * list Z)) :=
  map (fun k => (r, (Z.of_nat (count_occ Z.eq_dec ks k) mod P, row k))) (nodup Z.eq_dec ks).
Fixpoint all_slots (l : list (option Z)) : option (list Z) :=
  match l with
  | [] => Some []
  | o :: r => match o, all_slots r with Some k, Some ks => Some (k :: ks) | _, _ => None end
  end.
Definition some_slots (l : list (option Z)) : list Z := flat_map (fun o => match o with Some k => [k] | None => [] end) l.
Definition tables (bs : list bundle) : option (list (relation * (Z * list Z))) :=
  match all_slots (map (rc_slot RC8) (looked_up RC8 bs)), all_slots (map (rc_slot RC16) (looked_up RC16 bs)),
        all_slots (map (rc_slot RC20) (looked_up RC20 bs)) with
  | Some k8, Some k16, Some k20 =>
    Some (tally RC8 rc_row k8 ++ tally RC16 rc_row k16 ++ tally RC20 rc_row k20 ++
          tally BitwiseR bitwise_row (some_slots (map bitwise_slot (looked_up BitwiseR bs))))
  | _, _, _ => None
  end.

(** The whole proof; [h] is the hash of a state of 16 elements, and [MerkleHasher::hash] the
    hash of two elements followed by zeros.  [None] stands for a panic. *)
Definition hash_of (h : list Z -> Z) (l r : Z) : Z := h (pad 16 [l; r]).
Definition prove (h : list Z -> Z) (r : ranges) (a : adapted) : option proof :=
  let m := ad_mem a in
  match build_tree (hash_of h) TInitial r (a_ini m), build_tree (hash_of h) TFinal r (a_fin m), tables (ad_bundles a) with
  | Some (ns0, Some root0), Some (ns1, Some root1), Some tab =>
    Some (Proof (op_rows (ad_bundles a)) (cu_rows m) (mem_rows m root0 root1) tab (ad_first a) (ad_last a)
            (mfrom (Z.of_nat (length (ad_bundles a))))
            (extract (a_ini m) (r_program r)) (extract (a_ini m) (r_input r)) (extract (a_fin m) (r_output r))
            root0 root1 (merkle_rows ns0 ns1 root0 root1)
            (map (fun n => (hash_input n, h (hash_input n))) (ns0 ++ ns1)))
  | _, _, _ => None
  end.
