(** Reading a project of several files: the program that is lowered.

    Models the joint effect of crates/compiler/mir/src/lowering/function.rs 48-178 (all the
    modules of a crate are lowered into one program), builder.rs 190-240 and 415-462 (which
    function a call means, Imports.v), lowering/expr.rs and stmt.rs (Elab.v) on each module.
    Simplification: the outcome is [None] where a module is outside of the scope of Elab.v or a
    call is not resolved. *)
From Coq Require Import Bool String List Arith.
From Verif Require Import Mir Src SrcCheck Syn Sema Imports Elab.
Import ListNotations.
Open Scope list_scope.
Open Scope nat_scope.

(** builder.rs 415-462: the function that definition [d] of module [a] means, if a call is
    lowered: the functions, structs and imports of a file are its first definitions. *)
Definition module_fn (c order : crate) (a : string) (m : module) (d : nat) : option nat :=
  match nth_error (flat_map Imports.declared m) d with
  | Some (x, def) => resolve_callee c order a x d def
  | None => None
  end.
(** function.rs 114-178: the functions of one module.  semantic_errors.rs 38-70: a name declared
    twice at the top level is an error. *)
Definition elab_module (c order : crate) (sg : sigs) (p : string * module) : option (list sfun) :=
  if distinct (flat_map top_names (snd p)) then
    elab_items closedb (length (flat_map Imports.declared (snd p))) (module_fn c order (fst p) (snd p)) [] sg (snd p) (ix_uses (build (snd p)))
  else None.
(** function.rs 64-178: both passes go through the modules in the same [order]; the signature of
    a call is the one of the function lowered under that identifier. *)
Definition lowered_signature (e : option (string * fdef)) : option (list Mir.ty * option Mir.ty) :=
  match e with Some (_, f) => signature f | None => None end.
Definition elab_crate (c order : crate) : option (list sfun) :=
  match omap lowered_signature (lowered order) with
  | Some sg => match omap (elab_module c order sg) order with Some l => Some (concat l) | None => None end
  | None => None
  end.
(** function.rs 114-178, mir/src/function.rs: a function is lowered under its own name, without
    its module. *)
Definition lowered_names (order : crate) : list string :=
  map (fun e => match e with (_, _, x) => x end) (function_mapping order).
