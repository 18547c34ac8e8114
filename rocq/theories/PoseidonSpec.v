(** The Poseidon2 permutation over M31 on 16 elements, as published
    (https://eprint.iacr.org/2023/323): powers, matrices and rounds.
    Models nothing: the specification of the hash. *)
From Coq Require Import ZArith List.
From Verif Require Import M31.
Import ListNotations.
Open Scope Z_scope.

(** A matrix applied to a state. *)
Definition dot (f : nat -> Z) (x : list Z) : Z :=
  fold_right Z.add 0 (map (fun j => f j * nth j x 0) (seq 0 16)).
Definition apply (m : nat -> nat -> Z) (x : list Z) : list Z :=
  map (fun i => dot (m i) x mod P) (seq 0 16).

(** The matrix M4 and the block matrix circ(2 M4, M4, M4, M4). *)
Definition M4 (i j : nat) : Z :=
  nth j (nth i [[5; 7; 1; 3]; [4; 6; 1; 1]; [1; 3; 5; 7]; [1; 1; 4; 6]] []) 0.
Definition ME (i j : nat) : Z :=
  (if (i / 4 =? j / 4)%nat then 2 else 1) * M4 (i mod 4) (j mod 4).
(** Ones everywhere, plus a diagonal. *)
Definition MI (diag : list Z) (i j : nat) : Z := 1 + (if (i =? j)%nat then nth i diag 0 else 0).

(** A round: add the constants, raise to the fifth power, apply the matrix.  In a partial
    round only the first element gets a constant and a power. *)
Definition sbox (x : Z) : Z := x ^ 5 mod P.
Definition full (rc x : list Z) : list Z :=
  apply ME (map (fun i => sbox (nth i x 0 + nth i rc 0)) (seq 0 16)).
Definition partial (diag rc x : list Z) : list Z :=
  apply (MI diag) (sbox (nth 0 x 0 + nth 0 rc 0) :: tl x).

(** 4 full rounds, 14 partial rounds and 4 full rounds with the 22 rows of constants in order. *)
Definition round (rc : list (list Z)) (diag : list Z) (r : nat) : list Z -> list Z :=
  if ((r <? 4) || (18 <=? r))%nat%bool then full (nth r rc []) else partial diag (nth r rc []).
Definition permutation (rc : list (list Z)) (diag x : list Z) : list Z :=
  fold_left (fun s r => round rc diag r s) (seq 0 22) (apply ME x).

(** The hash of two elements: the first element of the permuted state that starts with them. *)
Definition hash2 (rc : list (list Z)) (diag : list Z) (l r : Z) : Z :=
  nth 0 (permutation rc diag ([l; r] ++ repeat 0 14)) 0.
(** Tables of the right sizes, of field elements. *)
Definition tables_ok (rc : list (list Z)) (diag : list Z) : Prop :=
  length rc = 22%nat /\ Forall (fun row => length row = 16%nat /\ Forall wf row) rc /\
  length diag = 16%nat /\ Forall wf diag.
Definition is_state (x : list Z) : Prop := length x = 16%nat /\ Forall wf x.
