(** The hash chip: the columns, constraints and relation entries of the Poseidon2 component,
    the constants generated for it and the hash of the Merkle trees.
    Models crates/prover/src/components/poseidon2.rs, crates/prover/src/poseidon2.rs 8-33 and
    crates/prover/build.rs.
    The tables RC16 and MAT_DIAG16_M_1 belong to the crate zkhash, which is not in the
    repository: they are arguments here.
    Simplification: the rows are written one at a time instead of sixteen at a time. *)
From Coq Require Import ZArith List.
From Verif Require Import M31 Air.
Import ListNotations.
Open Scope Z_scope.

(** crates/prover/src/poseidon2.rs 10-13. *)
Definition T : nat := 16.
Definition FULL_ROUNDS : nat := 8.
Definition PARTIAL_ROUNDS : nat := 14.

(** crates/prover/build.rs 34-107: the three tables made from the rows of RC16 and from the
    diagonal. *)
Record consts : Set := Consts {
  external_round_consts : list (list Z);
  internal_round_consts : list Z;
  internal_matrix : list Z }.
Definition generate (rc : list (list Z)) (diag : list Z) : consts :=
  Consts
    (map (fun round => map (fun i => nth i (nth round rc []) 0) (seq 0 T)) (seq 0 (FULL_ROUNDS / 2)) ++
     map (fun round => map (fun i => nth i (nth (PARTIAL_ROUNDS + FULL_ROUNDS / 2 + round) rc []) 0) (seq 0 T)) (seq 0 (FULL_ROUNDS / 2)))
    (map (fun round => nth 0 (nth (FULL_ROUNDS / 2 + round) rc []) 0) (seq 0 PARTIAL_ROUNDS))
    (map (fun i => nth i diag 0) (seq 0 T)).

(** components/poseidon2.rs 92-109 [apply_m4]. *)
Definition apply_m4 (x0 x1 x2 x3 : Z) : list Z :=
  let t0 := madd x0 x1 in
  let t02 := madd t0 t0 in
  let t1 := madd x2 x3 in
  let t12 := madd t1 t1 in
  let t2 := madd (madd x1 x1) t1 in
  let t3 := madd (madd x3 x3) t0 in
  let t4 := madd (madd t12 t12) t3 in
  let t5 := madd (madd t02 t02) t2 in
  let t6 := madd t3 t5 in
  let t7 := madd t2 t4 in
  [t6; t5; t7; t4].

(** components/poseidon2.rs 111-138 [apply_external_round_matrix]. *)
Definition apply_external (state : list Z) : list Z :=
  let st := flat_map (fun i => apply_m4 (nth (4 * i) state 0) (nth (4 * i + 1) state 0)
                                        (nth (4 * i + 2) state 0) (nth (4 * i + 3) state 0)) (seq 0 4) in
  let s j := madd (madd (madd (nth j st 0) (nth (j + 4) st 0)) (nth (j + 8) st 0)) (nth (j + 12) st 0) in
  flat_map (fun i => map (fun j => madd (nth (4 * i + j) st 0) (s j)) (seq 0 4)) (seq 0 4).

(** components/poseidon2.rs 140-153 [apply_internal_round_matrix]. *)
Definition map2 (f : Z -> Z -> Z) (a b : list Z) : list Z := map (fun p => f (fst p) (snd p)) (combine a b).
Definition apply_internal (diag state : list Z) : list Z :=
  let sum := fold_left madd (tl state) (hd 0 state) in
  map2 (fun s d => madd (mmul s d) sum) state diag.

(** components/poseidon2.rs 155-158 [square]. *)
Definition square (x : Z) : Z := mmul x x.

(** components/poseidon2.rs 228-255 and 281-309: one full round of [write_trace], with the
    columns it writes. *)
Definition full_round (rc state : list Z) : list Z * list Z :=
  let initial := map2 madd state rc in
  let sq1 := map square initial in
  let sq2 := map square sq1 in
  let final := apply_external (map2 mmul sq2 initial) in
  (final, sq1 ++ sq2 ++ final).
(** components/poseidon2.rs 257-278: one partial round. *)
Definition partial_round (diag : list Z) (c : Z) (state : list Z) : list Z * list Z :=
  let initial := madd (hd 0 state) c in
  let a := square initial in
  let b := square a in
  let d := mmul initial b in
  (apply_internal diag (d :: tl state), [a; b; d]).
Fixpoint rounds {A} (round : A -> list Z -> list Z * list Z) (cs : list A) (state : list Z) : list Z * list Z :=
  match cs with
  | [] => (state, [])
  | c :: cs =>
    let '(st, cols) := round c state in
    let '(st', cols') := rounds round cs st in
    (st', cols ++ cols')
  end.
(** components/poseidon2.rs 207-315: the row of one input, and its digest (the first element
    of the last state). *)
Definition half : nat := FULL_ROUNDS / 2.
Definition write_rounds (k : consts) (input : list Z) : list Z * list Z :=
  let '(s1, c1) := rounds full_round (firstn half (external_round_consts k)) (apply_external input) in
  let '(s2, c2) := rounds (partial_round (internal_matrix k)) (internal_round_consts k) s1 in
  let '(s3, c3) := rounds full_round (skipn half (external_round_consts k)) s2 in
  (s3, c1 ++ c2 ++ c3).
Definition write_row (k : consts) (enabler : Z) (input : list Z) : list Z :=
  enabler :: input ++ snd (write_rounds k input).
Definition digest (k : consts) (input : list Z) : Z := hd 0 (fst (write_rounds k input)).
(** components/poseidon2.rs 217-222, 311-314 and 328-366: the fractions of the log-up column of
    that row, [numerator, value]. *)
Definition fractions (k : consts) (enabler : Z) (input : list Z) : list (Z * list Z) :=
  [(mneg enabler, input); (enabler, pad T [digest k input])].
(** components/poseidon2.rs 176-194: one row per input, and zero states up to a power of two, at least 16. *)
Definition n_padded (n : nat) : nat := Nat.max 16 (Nat.pow 2 (Nat.log2_up n)).
Definition write_trace (k : consts) (inputs : list (list Z)) : list (list Z) :=
  map (write_row k 1) inputs ++
  repeat (write_row k 0 (repeat 0 T)) (n_padded (length inputs) - length inputs).
(** components/poseidon2.rs 68. *)
Definition N_TRACE_COLUMNS : nat := 1 + T * (1 + FULL_ROUNDS * 3) + 3 * PARTIAL_ROUNDS.

(** ** [evaluate], components/poseidon2.rs 391-506 *)
(** A reader of the trace masks of a row, which collects constraints. *)
Definition reader (A : Type) : Type := list Z -> A * list Z * list Z.
Definition ret {A} (a : A) : reader A := fun ms => (a, ms, []).
Definition bind {A B} (m : reader A) (f : A -> reader B) : reader B := fun ms =>
  let '(a, ms1, c1) := m ms in
  let '(b, ms2, c2) := f a ms1 in
  (b, ms2, c1 ++ c2).
Definition mask : reader Z := fun ms => (hd 0 ms, tl ms, []).
(** [let m = eval.next_trace_mask(); eval.add_constraint(enabler * (s - m)); m]. *)
Definition expect (e s : Z) : reader Z := bind mask (fun m ms => (m, ms, [e * (s - m)])).
Fixpoint expect_all (e : Z) (ss : list Z) : reader (list Z) :=
  match ss with
  | [] => ret []
  | s :: ss => bind (expect e s) (fun m => bind (expect_all e ss) (fun ms => ret (m :: ms)))
  end.
(** components/poseidon2.rs 400-431 and 457-488. *)
Definition eval_full (e : Z) (rc state : list Z) : reader (list Z) :=
  let initial := map2 madd state rc in
  bind (expect_all e (map square initial)) (fun sq1 =>
  bind (expect_all e (map square sq1)) (fun sq2 =>
  expect_all e (apply_external (map2 mmul sq2 initial)))).
(** components/poseidon2.rs 433-455. *)
Definition eval_partial (e : Z) (diag : list Z) (c : Z) (state : list Z) : reader (list Z) :=
  let initial := madd (hd 0 state) c in
  bind (expect e (square initial)) (fun a =>
  bind (expect e (square a)) (fun b =>
  bind (expect e (mmul initial b)) (fun d =>
  ret (apply_internal diag (d :: tl state))))).
Fixpoint eval_rounds {A} (round : A -> list Z -> reader (list Z)) (cs : list A) (state : list Z) : reader (list Z) :=
  match cs with
  | [] => ret state
  | c :: cs => bind (round c state) (eval_rounds round cs)
  end.
Fixpoint masks (n : nat) : reader (list Z) :=
  match n with
  | O => ret []
  | S n => bind mask (fun m => bind (masks n) (fun ms => ret (m :: ms)))
  end.
Definition eval_perm (k : consts) (e : Z) (input : list Z) : reader (list Z) :=
  bind (eval_rounds (eval_full e) (firstn half (external_round_consts k)) (apply_external input)) (fun s1 =>
  bind (eval_rounds (eval_partial e (internal_matrix k)) (internal_round_consts k) s1) (fun s2 =>
  eval_rounds (eval_full e) (skipn half (external_round_consts k)) s2)).
Definition eval_row (k : consts) : reader (list entry) :=
  bind mask (fun e =>
  bind (masks T) (fun input =>
  bind (eval_perm k e input) (fun state =>
  ret [ RE Poseidon2 (- e) input; RE Poseidon2 e [hd 0 state] ]))).
Definition hash_air (k : consts) (row : list Z) : air :=
  let '(es, _, cs) := eval_row k row in Air cs es.
