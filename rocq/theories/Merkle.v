(** The partial Merkle tree over the cells of a memory.
    Models crates/prover/src/adapter/merkle.rs 24-295 and the table of default hashes,
    crates/prover/src/poseidon2.rs 35-56.  The hash of two children ([MerkleHasher::hash])
    is a parameter. *)
From Coq Require Import ZArith Bool List.
From Verif Require Import M31 VmMem Abi Adapter.
Import ListNotations.
Open Scope Z_scope.

Definition TREE_HEIGHT : nat := 30.
(** merkle.rs 28-54 [MerkleValue]: value and multiplicity. *)
Record mval : Set := MV { mv_value : Z; mv_mult : Z }.
Definition new_node (v : Z) : mval := MV v 1.
Definition new_public_node (v : Z) : mval := MV v 2.
Definition new_intermediate (v : Z) : mval := MV v 0.
(** merkle.rs 85-102 [NodeData]. *)
Record node_data : Set := Node { nd_index : Z; nd_depth : Z; nd_left : mval; nd_right : mval; nd_parent : mval }.

(** A [HashMap<u32, MerkleValue>], one entry per key. *)
Definition level : Set := list (Z * mval).
Fixpoint lget (l : level) (i : Z) : option mval :=
  match l with
  | [] => None
  | (k, v) :: r => if k =? i then Some v else lget r i
  end.
Fixpoint lset (l : level) (i : Z) (v : mval) : level :=
  match l with
  | [] => [(i, v)]
  | (k, w) :: r => if k =? i then (k, v) :: r else (k, w) :: lset r i v
  end.

(** merkle.rs 66-70 [TreeType]. *)
Inductive tree_type : Set := TInitial | TFinal.
(** merkle.rs 210-217. *)
Definition is_public (t : tree_type) (r : ranges) (a : Z) : bool :=
  match t with
  | TInitial => in_range (r_program r) a || in_range (r_input r) a
  | TFinal => in_range (r_output r) a
  end.
(** merkle.rs 204-229: four leaves per cell; the shift of the [u32] address drops the bits
    above the 32nd. *)
Definition leaf_base (a : Z) : Z := (a * 4) mod 4294967296.
Definition insert_cell (t : tree_type) (r : ranges) (l : level) (x : Z * cellv) : level :=
  let '(a, (v, _, _)) := x in
  let mk := if is_public t r a then new_public_node else new_node in
  let b := leaf_base a in
  lset (lset (lset (lset l b (mk (q0 v))) (b + 1) (mk (q1 v))) (b + 2) (mk (q2 v))) (b + 3) (mk (q3 v)).
Definition leaves (t : tree_type) (r : ranges) (m : amap) : level := fold_left (insert_cell t r) m [].

(** [sort_unstable] on distinct keys. *)
Fixpoint sort_in (x : Z) (l : list Z) : list Z :=
  match l with
  | [] => [x]
  | y :: r => if x <=? y then x :: y :: r else y :: sort_in x r
  end.
Definition sort (l : list Z) : list Z := fold_right sort_in [] l.

Section Hash.
Variable hash : Z -> Z -> Z.

(** poseidon2.rs 43-53: indexed by the height above the leaves. *)
Fixpoint default_hash (n : nat) : Z :=
  match n with O => 0 | S k => let d := default_hash k in hash d d end.

(** merkle.rs 239-285: one iteration of the inner loop; [h] is the height of the level
    ([TREE_HEIGHT - depth]). *)
Definition visit (h : nat) (cur : level) (acc : list node_data * level * list Z) (i : Z) : list node_data * level * list Z :=
  let '(nodes, parents, done) := acc in
  if existsb (Z.eqb i) done then acc
  else
    let sib := Z.lxor i 1 in
    let '(li, ri) := if i mod 2 =? 0 then (i, sib) else (sib, i) in
    let get k := match lget cur k with Some v => v | None => new_intermediate (default_hash h) end in
    let p := new_node (hash (mv_value (get li)) (mv_value (get ri))) in
    (nodes ++ [Node (mfrom li) (Z.of_nat TREE_HEIGHT - Z.of_nat h) (get li) (get ri) p],
     lset parents (i / 2) p, ri :: li :: done).
Definition build_level (h : nat) (cur : level) : list node_data * level :=
  fst (fold_left (visit h cur) (sort (map fst cur)) ([], [], [])).
(** merkle.rs 232-288: from the leaves to below the root. *)
Fixpoint build_levels (n : nat) (h : nat) (cur : level) : list node_data * level :=
  match n with
  | O => ([], cur)
  | S k => let (ns, up) := build_level h cur in
           let (ms, top) := build_levels k (S h) up in (ns ++ ms, top)
  end.
(** merkle.rs 183-295 [build_partial_merkle_tree]; [None] stands for a failed assertion. *)
Definition build_tree (t : tree_type) (r : ranges) (m : amap) : option (list node_data * option Z) :=
  match m with
  | [] => Some ([], None)
  | _ =>
    if Z.of_nat (length m) <? 268435456 then
      let (ns, top) := build_levels TREE_HEIGHT 0 (leaves t r m) in
      match top with
      | [_] => match lget top 0 with Some v => Some (ns, Some (mv_value v)) | None => None end
      | _ => None
      end
    else None
  end.
End Hash.
