(** The optimization pipelines.

    Models crates/compiler/mir/src/passes.rs 66-105 and crates/compiler/mir/src/pipeline.rs
    57-77 ([optimize_module]).  The validation around the passes is dropped: its verdict is
    ignored by the code.  [None] stands for a panic. *)
From Coq Require Import ZArith Bool String List.
From Verif Require Import M31 Mir MirPasses MirConst MirCopy MirCse MirDce MirPhi MirSroa.
Import ListNotations.

(** The iteration orders of hash maps the passes depend on: of the table of copies in copy
    propagation, and those of phi elimination. *)
Record hashes : Type := Hashes { h_copies : func -> list nat; h_phis : func -> orders }.
Definition valid_hashes (h : hashes) : Prop :=
  forall f, (forall d, In d (h_copies h f) <-> copy_src f d <> None) /\ valid_orders (h_phis h f) f.

(** passes.rs 79-81: [no_opt_pipeline]. *)
Definition no_opt (h : hashes) (f : func) : option func := phi_elim (h_phis h f) f.

(** passes.rs 83-105: [standard_pipeline].  [const_prop] can panic or, in the model only, run
    out of fuel (which C37 excludes). *)
Definition then_ {A B} (o : option A) (k : A -> option B) : option B := match o with Some a => k a | None => None end.
Definition standard (h : hashes) (f : func) : option func :=
  then_ (sroa_pass f) (fun f =>
  then_ (arithmetic_simplify f) (fun f =>
  then_ (match const_prop f with CDone g => Some g | _ => None end) (fun f =>
  then_ (constant_folding f) (fun f =>
  then_ (copy_prop (h_copies h f) f) (fun f =>
  let f := local_cse f in
  then_ (simplify_branches f) (fun f =>
  let f := fuse_cmp f in
  then_ (dce f) (fun f =>
  phi_elim (h_phis h f) f))))))).

(** pipeline.rs 57-77: every function of the module goes through the pipeline. *)
Fixpoint optimize (pl : func -> option func) (ms : list (string * func)) : option (list (string * func)) :=
  match ms with
  | [] => Some []
  | (n, f) :: r => then_ (pl f) (fun g => then_ (optimize pl r) (fun r' => Some ((n, g) :: r')))
  end.
