(** What a row of the AIR is: constraints and relation entries.
    Models the use of stwo_constraint_framework's [EvalAtRow] by the [evaluate]
    functions (crates/prover/src/components) and the relations of
    crates/prover/src/relations.rs.  Field expressions are written over the integers and
    taken modulo P at the end, which is the same value as computing in the field. *)
From Coq Require Import ZArith Bool List.
From Verif Require Import M31.
Import ListNotations.
Open Scope Z_scope.

(** crates/prover/src/relations.rs 1-56 *)
Inductive relation : Set :=
| Registers | Memory | Merkle | Poseidon2 | BitwiseR | RC8 | RC16 | RC20.
Definition rel_eqb (a b : relation) : bool :=
  match a, b with
  | Registers, Registers | Memory, Memory | Merkle, Merkle | Poseidon2, Poseidon2
  | BitwiseR, BitwiseR | RC8, RC8 | RC16, RC16 | RC20, RC20 => true
  | _, _ => false
  end.
(** The number of values of a tuple; [combine] on fewer values treats the missing ones as 0. *)
Definition width (r : relation) : nat :=
  match r with
  | Registers => 3 | Memory => 6 | Merkle => 4 | Poseidon2 => 16 | BitwiseR => 4
  | RC8 | RC16 | RC20 => 1
  end.

(** [RelationEntry::new(relation, multiplicity, values)] *)
Record entry : Set := RE { re_rel : relation; re_mult : Z; re_vals : list Z }.
(** The result of one [evaluate]: [add_constraint] and [add_to_relation] calls in order. *)
Record air : Set := Air { a_cons : list Z; a_ents : list entry }.

Fixpoint pad (n : nat) (l : list Z) : list Z :=
  match n with O => [] | S n => match l with [] => 0 :: pad n [] | x :: r => x :: pad n r end end.
(** The field content of an entry: multiplicity and full-width tuple. *)
Definition norm (e : entry) : Z * list Z :=
  (re_mult e mod P, pad (width (re_rel e)) (map (fun v => v mod P) (re_vals e))).
(** All tuples a row adds to one relation. *)
Definition tuples (r : relation) (a : air) : list (Z * list Z) :=
  map norm (filter (fun e => rel_eqb (re_rel e) r) (a_ents a)).

(** The preprocessed tables: crates/prover/src/preprocessed/range_check (all values below
    2^n) and bitwise.rs 250-310 (operation 0 = and, 1 = or, 2 = xor on bytes; the padding
    row (0,0,0,0) is the valid row 0 and 0 = 0). *)
Definition in_table (r : relation) (v : list Z) : Prop :=
  match r, v with
  | RC8, [x] => 0 <= x < 256
  | RC16, [x] => 0 <= x < 65536
  | RC20, [x] => 0 <= x < 1048576
  | BitwiseR, [o; x; y; z] =>
    0 <= x < 256 /\ 0 <= y < 256 /\
    (o = 0 /\ z = Z.land x y \/ o = 1 /\ z = Z.lor x y \/ o = 2 /\ z = Z.lxor x y)
  | (RC8 | RC16 | RC20 | BitwiseR), _ => False
  | _, _ => True
  end.
(** An entry with non-zero multiplicity must find its tuple in the table. *)
Definition lookup_ok (e : entry) : Prop :=
  fst (norm e) = 0 \/ in_table (re_rel e) (snd (norm e)).
(** A row is satisfied when every constraint vanishes in the field and every lookup hits. *)
Definition satisfied (a : air) : Prop :=
  Forall (fun c => c mod P = 0) (a_cons a) /\ Forall lookup_ok (a_ents a).
