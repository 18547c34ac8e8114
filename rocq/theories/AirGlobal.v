(** A whole proof: the rows of all components, the public data, and what the verifier
    establishes about them.
    Models crates/prover/src/verifier.rs 20-95, crates/prover/src/components/mod.rs
    ([claimed_sum]) and crates/prover/src/public_data.rs 287-393 ([initial_logup_sum]).
    Trusted (see DESIGN.md): the STARK verifier accepts only if every constraint vanishes
    on every row, and a vanishing log-up sum means that for each relation the
    multiplicities of every tuple sum to zero in the field. *)
From Coq Require Import ZArith Bool List Permutation.
From Verif Require Import M31 Air AirOpcodes AirSpec AirChain AirMem.
Import ListNotations.
Open Scope Z_scope.

(** One public memory entry: address, value, clock (public_data.rs 56-62, the present
    entries of the vectors of options). *)
Definition pub : Set := (Z * qm31 * Z)%type.

Record proof : Set := Proof {
  p_ops : list (component * list Z);       (* rows of the opcode components *)
  p_cus : list (list Z);                   (* rows of clock_update *)
  p_mem : list (list Z);                   (* rows of memory *)
  p_tab : list (relation * (Z * list Z));  (* rows of the range-check and bitwise tables, with multiplicities *)
  p_start : state; p_end : state;          (* public registers *)
  p_clock : Z;                             (* public clock *)
  p_program : list pub; p_input : list pub; p_output : list pub;
  p_root0 : Z; p_root1 : Z;                (* public initial and final memory roots *)
  p_merkle : list (list Z);                (* rows of merkle *)
  p_hash : list (list Z * Z) }.            (* enabled rows of poseidon2: input state and digest *)

Definition cu_air (row : list Z) : air := on_row 7 clock_update_row row.
Definition merkle_air (row : list Z) : air := on_row 10 merkle_row row.
Definition mem_air (row : list Z) : air := on_row 9 memory_row row.

(** public_data.rs 322-348: [multiplicity * combine([addr, clock, value])]. *)
Definition pub_tuple (m : Z) (x : pub) : Z * list Z :=
  let '(a, v, c) := x in (m, map (fun z => z mod P) (tok a c v)).

Definition op_tuples (r : relation) (p : proof) : list (Z * list Z) :=
  flat_map (fun cr => tuples r (evaluate (fst cr) (snd cr))) (p_ops p).
(** All contributions to each relation. *)
Definition reg_side (p : proof) : list (Z * list Z) :=
  (1, [pc (p_start p); fp (p_start p); 1]) ::
  (P - 1, [pc (p_end p); fp (p_end p); (p_clock p + 1) mod P]) :: op_tuples Registers p.
(** What comes from outside the opcode and clock-update rows: the first and last contents. *)
Definition boundary (p : proof) : list (Z * list Z) :=
  flat_map (fun row => tuples Memory (mem_air row)) (p_mem p) ++
  map (pub_tuple 1) (p_program p) ++ map (pub_tuple 1) (p_input p) ++
  map (pub_tuple (P - 1)) (p_output p).
Definition mem_side (p : proof) : list (Z * list Z) :=
  boundary p ++ op_tuples Memory p ++ flat_map (fun row => tuples Memory (cu_air row)) (p_cus p).
(** public_data.rs 307-381: the two roots (+1) and four leaves (-1) per public entry. *)
Definition pub_leaves (root : Z) (x : pub) : list (Z * list Z) :=
  let '(a, v, _) := x in
  [(P - 1, [4 * a mod P; 30; q0 v mod P; root]); (P - 1, [(4 * a + 1) mod P; 30; q1 v mod P; root]);
   (P - 1, [(4 * a + 2) mod P; 30; q2 v mod P; root]); (P - 1, [(4 * a + 3) mod P; 30; q3 v mod P; root])].
Definition merkle_side (p : proof) : list (Z * list Z) :=
  [(1, [0; 0; p_root0 p; p_root0 p]); (1, [0; 0; p_root1 p; p_root1 p])] ++
  flat_map (pub_leaves (p_root0 p)) (p_program p) ++ flat_map (pub_leaves (p_root0 p)) (p_input p) ++
  flat_map (pub_leaves (p_root1 p)) (p_output p) ++
  flat_map (fun row => tuples Merkle (mem_air row)) (p_mem p) ++
  flat_map (fun row => tuples Merkle (merkle_air row)) (p_merkle p).
(** components/poseidon2.rs 490-502: an enabled row consumes its input state and emits its
    digest, as two separate tuples.  The permutation itself is a parameter (its constants
    are generated at build time and not in the repository). *)
Definition hash_tuples (x : list Z * Z) : list (Z * list Z) := [(P - 1, fst x); (1, pad 16 [snd x])].
Definition hash_side (p : proof) : list (Z * list Z) :=
  flat_map (fun row => tuples Poseidon2 (merkle_air row)) (p_merkle p) ++ flat_map hash_tuples (p_hash p).
Definition lookup_side (r : relation) (p : proof) : list (Z * list Z) :=
  op_tuples r p ++ map snd (filter (fun t => rel_eqb (fst t) r) (p_tab p)).

Definition vanishes (a : air) : Prop := Forall (fun c => c mod P = 0) (a_cons a).
Definition row_ok (n : nat) (a : air) (row : list Z) : Prop :=
  length row = n /\ Forall wf row /\ vanishes a.
Definition is_lookup (r : relation) : bool :=
  match r with RC8 | RC16 | RC20 | BitwiseR => true | _ => false end.

(** What the verifier establishes, for the hash function [h] on states of 16 elements. *)
Record accepted (h : list Z -> Z) (p : proof) : Prop := Accepted {
  ac_ops : Forall (fun cr => row_ok (n_columns (fst cr)) (evaluate (fst cr) (snd cr)) (snd cr)) (p_ops p);
  ac_cus : Forall (fun row => row_ok 7 (cu_air row) row) (p_cus p);
  ac_mems : Forall (fun row => row_ok 9 (mem_air row) row) (p_mem p);
  ac_merkles : Forall (fun row => row_ok 10 (merkle_air row) row) (p_merkle p);
  ac_hash : Forall (fun x => length (fst x) = 16%nat /\ Forall wf (fst x) /\ snd x = h (fst x)) (p_hash p);
  ac_pub : Forall (fun x : pub => let '(a, v, c) := x in wf a /\ qwf v /\ wf c) (p_program p ++ p_input p ++ p_output p);
  ac_tab : Forall (fun t => is_lookup (fst t) = true /\ in_table (fst t) (snd (snd t))) (p_tab p);
  ac_regs_bal : balanced (reg_side p);
  ac_mem_bal : balanced (mem_side p);
  ac_merkle_bal : balanced (merkle_side p);
  ac_hash_bal : balanced (hash_side p);
  ac_lookup_bal : forall r, is_lookup r = true -> balanced (lookup_side r p) }.

Definition enabled (row : list Z) : bool := nth 0 row 0 =? 1.
Definition on_rows (p : proof) : list (component * list Z) := filter (fun cr => enabled (snd cr)) (p_ops p).
Definition on_cus (p : proof) : list (list Z) := filter enabled (p_cus p).

(** Fewer uses of each relation than the order of the field, and too few clock updates for
    the clocks to wrap around. *)
Definition sized (p : proof) : Prop :=
  Z.of_nat (length (reg_side p)) < P /\ Z.of_nat (length (mem_side p)) < P /\
  (forall r, is_lookup r = true -> Z.of_nat (length (op_tuples r p)) < P) /\
  Z.of_nat (length (on_rows p)) + 1048575 * (Z.of_nat (length (on_cus p)) + 2) < P.

(** The initial contents [ini] are emitted once each at clock 0, the final contents [fin]
    are consumed once each, and there is nothing else. *)
Definition honest_boundary (p : proof) (ini : list (Z * qm31)) (fin : list (Z * (Z * qm31))) : Prop :=
  NoDup (map fst ini) /\ NoDup (map fst fin) /\
  Permutation (filter (fun e => negb (fst e =? 0)) (boundary p))
    (map (fun x => (1, ini_tok x)) ini ++ map (fun x => (P - 1, fin_tok x)) fin).
