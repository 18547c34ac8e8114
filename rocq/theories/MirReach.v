(** The states a function passes through.

    A specification: the points of an execution of a MIR function in the sense of
    [MirSem.run], as a relation.  [reached W f args s0 b k e s] says that called on [args]
    in world state [s0], the function gets to instruction [k] of block [b] with values [e]
    and world state [s]. *)
From Coq Require Import ZArith Bool String List.
From Verif Require Import M31 Isa Mir MirSem.
Import ListNotations.
Open Scope nat_scope.

Inductive reached {S : Type} (W : world S) (f : func) (args : list val) (s0 : S)
  : nat -> nat -> env -> S -> Prop :=
| r_entry blk e e1 :
    nth_error (f_blocks f) (f_entry f) = Some blk ->
    bind_all (fun _ => None) (f_params f) args = Some e ->
    enter e None (fst (span_phi (b_instrs blk))) = Some e1 ->
    reached W f args s0 (f_entry f) (length (fst (span_phi (b_instrs blk)))) e1 s0
| r_step b k blk i e s e1 s1 :
    reached W f args s0 b k e s ->
    nth_error (f_blocks f) b = Some blk -> nth_error (b_instrs blk) k = Some i ->
    exec W (f_types f) e s i = ROk (e1, s1) ->
    reached W f args s0 b (Datatypes.S k) e1 s1
| r_edge b b' blk blk' e s e1 :
    reached W f args s0 b (length (b_instrs blk)) e s ->
    nth_error (f_blocks f) b = Some blk -> nth_error (f_blocks f) b' = Some blk' ->
    exec_term e (map (f_types f) (f_rets f)) (b_term blk) = ROk (NGo b') ->
    enter e (Some b) (fst (span_phi (b_instrs blk'))) = Some e1 ->
    reached W f args s0 b' (length (fst (span_phi (b_instrs blk')))) e1 s.
