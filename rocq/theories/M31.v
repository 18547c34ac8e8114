(** The base field M31 and the secure-field words QM31, as used by cairo-m.

    External crate stwo (absent from the sandbox; see DESIGN.md, trusted base):
    an [M31] is a [u32] in [0, P); [+ - *] work modulo P; [M31::from(u32)]
    reduces modulo P; [Eq]/[Ord] are derived on the inner integer; [a / b] is
    [a * b^(P-2)] and [inverse] asserts [b <> 0]. *)
From Coq Require Import ZArith Bool List.
Import ListNotations.
Open Scope Z_scope.

(** stwo m31.rs: [P = 2^31 - 1]. *)
Definition P : Z := 2147483647.

Definition wf (x : Z) : Prop := 0 <= x < P.
Definition wfb (x : Z) : bool := (0 <=? x) && (x <? P).

(** [M31::from(u32)] / [M31::reduce]. *)
Definition mfrom (x : Z) : Z := x mod P.
Definition madd (a b : Z) : Z := (a + b) mod P.
Definition msub (a b : Z) : Z := (a - b) mod P.
Definition mmul (a b : Z) : Z := (a * b) mod P.
Definition mneg (a : Z) : Z := (- a) mod P.

(** Exponentiation by repeated squaring, modulo P. *)
Fixpoint mpow (a : Z) (e : positive) : Z :=
  match e with
  | xH => a mod P
  | xO e' => let h := mpow a e' in mmul h h
  | xI e' => let h := mpow a e' in mmul (mmul h h) a
  end.

(** stwo [M31::inverse] (for a non-zero argument): [x^(P-2)]. *)
Definition minv (a : Z) : Z := mpow a 2147483645.

(** [a / b] on M31; [None] is the panic of [inverse] on zero. *)
Definition mdiv (a b : Z) : option Z :=
  if b =? 0 then None else Some (mmul a (minv b)).

(** A QM31 word seen as its four M31 coordinates
    ([QM31(CM31(q0, q1), CM31(q2, q3))], [from_m31_array], [to_m31_array]). *)
Record qm31 : Set := Q { q0 : Z; q1 : Z; q2 : Z; q3 : Z }.

Definition qzero : qm31 := Q 0 0 0 0.
(** [QM31::from(M31)]. *)
Definition qofm (x : Z) : qm31 := Q x 0 0 0.
Definition qlist (q : qm31) : list Z := [q0 q; q1 q; q2 q; q3 q].
Definition qwf (q : qm31) : Prop := wf (q0 q) /\ wf (q1 q) /\ wf (q2 q) /\ wf (q3 q).
Definition qeqb (a b : qm31) : bool :=
  (q0 a =? q0 b) && (q1 a =? q1 b) && (q2 a =? q2 b) && (q3 a =? q3 b).
(** memory/mod.rs 181: projection to the base field succeeds when the three
    upper coordinates are zero. *)
Definition qprojb (q : qm31) : bool := (q1 q =? 0) && (q2 q =? 0) && (q3 q =? 0).

(** The two machine registers (common/src/state.rs). *)
Record state : Set := St { pc : Z; fp : Z }.
Definition swf (s : state) : Prop := wf (pc s) /\ wf (fp s).
