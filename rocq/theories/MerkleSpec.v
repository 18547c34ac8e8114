(** Specification: the full binary tree of height 30 over all 2^30 field elements of a
    memory of 2^28 words, cells that are not present counting as zero. *)
From Coq Require Import ZArith Bool List.
From Verif Require Import M31 Abi.
Import ListNotations.
Open Scope Z_scope.

(** The [k]-th element of a word. *)
Definition limb (q : qm31) (k : Z) : Z := if k =? 0 then q0 q else if k =? 1 then q1 q else if k =? 2 then q2 q else q3 q.
(** Element [i] of the memory [f]. *)
Definition leaf (f : Z -> qm31) (i : Z) : Z := limb (f (i / 4)) (i mod 4).
(** The node of height [n] and index [i]. *)
Fixpoint tree (hash : Z -> Z -> Z) (f : Z -> qm31) (n : nat) (i : Z) : Z :=
  match n with
  | O => leaf f i
  | S k => hash (tree hash f k (2 * i)) (tree hash f k (2 * i + 1))
  end.
Definition root (hash : Z -> Z -> Z) (f : Z -> qm31) : Z := tree hash f 30 0.
