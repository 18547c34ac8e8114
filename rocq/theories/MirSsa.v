(** Static single assignment, stated over the paths of the control-flow graph.

    A specification, independent of the passes: crates/compiler/mir/src/ssa/builder.rs
    constructs functions meant to be in this form, and the passes rely on it. *)
From Coq Require Import ZArith Bool String List.
From Verif Require Import M31 Isa Mir MirSem.
Import ListNotations.
Open Scope nat_scope.

(** [d] is a destination of instruction [k] of block [b]. *)
Definition def_at (f : func) (b k d : nat) : Prop :=
  exists blk i, nth_error (f_blocks f) b = Some blk /\ nth_error (b_instrs blk) k = Some i /\
    In d (dests i).

(** The blocks visited so far, latest first. *)
Inductive walk (f : func) : list nat -> Prop :=
| w_entry : walk f [f_entry f]
| w_step b b' l blk : walk f (b :: l) -> nth_error (f_blocks f) b = Some blk ->
    In b' (targets (b_term blk)) -> walk f (b' :: b :: l).

(** Along the walk [b :: l], [d] is defined before instruction [k] of [b]. *)
Definition defined_before (f : func) (l : list nat) (b k d : nat) : Prop :=
  In d (f_params f) \/ (exists j, j < k /\ def_at f b j d) \/ (exists c j, In c l /\ def_at f c j d).

(** [d] is defined on every way to instruction [k] of [b]. *)
Definition dom (f : func) (d b k : nat) : Prop :=
  forall l, walk f (b :: l) -> defined_before f l b k d.

Definition all_dests (f : func) : list nat :=
  flat_map (fun b => flat_map dests (b_instrs b)) (f_blocks f).

(** One definition per value, and no use before its definition.  A phi uses the value it
    takes from a predecessor at the end of that predecessor. *)
Definition single_def (f : func) : Prop := NoDup (f_params f ++ all_dests f).
Definition strict (f : func) : Prop :=
  forall b blk, nth_error (f_blocks f) b = Some blk ->
    (forall k i v, nth_error (b_instrs blk) k = Some i -> is_phi i = false -> In v (uses i) -> dom f v b k) /\
    (forall k d t ss p pblk v, nth_error (b_instrs blk) k = Some (IPhi d t ss) ->
       nth_error (f_blocks f) p = Some pblk -> In b (targets (b_term pblk)) ->
       src_from p ss = Some (Op v) -> dom f v p (length (b_instrs pblk))) /\
    (forall v, In v (term_uses (b_term blk)) -> dom f v b (length (b_instrs blk))).
Definition ssa (f : func) : Prop := single_def f /\ strict f.
