(** The hypotheses of the theorems about the passes, as checks that can be run: at every stage
    of the pipeline, on the function the stage gets. *)
From Coq Require Import ZArith Bool String List.
From Verif Require Import M31 Isa Mir MirSem MirPasses MirLocalFacts MirFuseFacts MirConst MirCopy MirCse MirCseFacts MirDce MirPhi MirType MirSroa SroaSpec SroaCheck Pipe.
Import ListNotations.
Open Scope nat_scope.

(** Literals fit where they stand. *)
Definition lit_below (m : Z) (v : value) : bool :=
  match v with Lit (LInt n) => (0 <=? n)%Z && (n <? m)%Z | _ => true end.
Definition lits_fit_ok (op : binop) (l r : value) : bool :=
  let m := if felt_cmp op then P else B32 in lit_below m l && lit_below m r.
Definition typed_lit_ok (t : ty) (v : value) : bool :=
  match t with TFelt => lit_below P v | TU32 => lit_below B32 v | _ => true end.
Definition all_instrs (f : func) (c : minstr -> bool) : bool :=
  forallb (fun b => forallb c (b_instrs b)) (f_blocks f).
Definition binary_lits_ok (i : minstr) : bool :=
  match i with IBinary op _ l r => lits_fit_ok op l r | _ => true end.
Definition simplify_ready (f : func) : bool :=
  all_instrs f (fun i => binary_lits_ok i && match i with IBinary op _ l _ => negb (left_identity_bad op l) | _ => true end).
Definition const_ready (f : func) : bool :=
  phis_first_ok f &&
  all_instrs f (fun i => binary_lits_ok i && Nat.leb (length (dests i)) 1 &&
    match i with
    | IAssign _ v t => typed_lit_ok t v
    | IPhi _ t ss => forallb (fun s => typed_lit_ok t (snd s)) ss
    | _ => true
    end).
Definition fold_ready (f : func) : bool := all_instrs f binary_lits_ok.

(** Result ids are no destinations. *)
Definition rets_apart (f : func) : bool :=
  forallb (fun r => forallb (fun b => forallb (fun i => negb (mem_nat r (dests i))) (b_instrs b)) (f_blocks f)) (f_rets f).
Definition copy_ready (f : func) : bool := ssa_ok f && phis_first_ok f && rets_apart f.
(** No call is dropped. *)
Definition cse_ok (sg : list msig) (f : func) : bool :=
  copy_ready f && types_ok sg f && Nat.eqb (effects (local_cse f)) (effects f).

Definition branch_ready (f : func) : bool :=
  forallb (fun b => match b_term b with TCmp op l r _ _ => lits_fit_ok op l r | _ => true end) (f_blocks f).
(** No comparison with a literal zero, felt equality apart, is about to be fused. *)
Definition fuse_safe_ok (op : binop) (l r : value) : bool :=
  negb (xorb (is_zero l) (is_zero r)) ||
  (match op with Eq | Neq => true | _ => false end && negb (int_lit l && int_lit r)).
Definition fuse_ready (f : func) : bool :=
  phis_first_ok f &&
  forallb (fun b => match b_term b, rev (b_instrs b) with
                    | TIf (Op c) _ _, IBinary op d l r :: _ => negb (Nat.eqb c d && fusible op) || fuse_safe_ok op l r
                    | _, _ => true
                    end) (f_blocks f).

(** The phis of kept blocks name the same values under the new block numbers. *)
Definition oval_eqb (a b : option value) : bool :=
  match a, b with Some x, Some y => value_eqb x y | None, None => true | _, _ => false end.
Definition phis_stable_ok (f : func) : bool :=
  forallb (fun p => match index_of p (kept f) with
    | Some p' => forallb (fun b => match nth_error (f_blocks f) b with
        | Some blk => forallb (fun i => match i with IPhi _ _ ss => oval_eqb (src_from p' ss) (src_from p ss) | _ => true end) (b_instrs blk)
        | None => true end) (targets_of f p)
    | None => true
    end) (seq 0 (length (f_blocks f))).
Definition dce_ready (f : func) : bool :=
  phis_first_ok f && phis_stable_ok f && all_instrs f (fun i => match i with IMakeArray _ _ _ _ => false | _ => true end).

(** Parameter and result types are there, and the same. *)
Definition same_sig (f g : func) : bool :=
  match sig f, sig g with
  | (Some ps, Some rs), (Some qs, Some ts) => tysb ps qs && tysb rs ts
  | _, _ => false
  end.

(** Phi elimination, and the calls in what it returns. *)
Definition phi_stage (h : hashes) (sg : list msig) (f0 f : func) : bool :=
  phi_ready sg f && same_sig f0 f &&
  match phi_elim (h_phis h f) f with Some g => calls_fit sg g && ids_ok g && same_sig f0 g | None => false end.
Definition no_opt_ready (h : hashes) (sg : list msig) (f : func) : bool := phi_stage h sg f f.

(** Scalar replacement: nothing is built, or what is built has the recorded types and what is
    used is still there. *)
Definition sroa_ready (f g : func) : bool :=
  negb (existsb (fun b => existsb builds (b_instrs b)) (f_blocks f)) ||
  wf_ok f && arrays_ok f g && closed_ok g.

(** All stages of the standard pipeline. *)
Definition on {A} (o : option A) (k : A -> bool) : bool := match o with Some a => k a | None => false end.
Definition standard_ready (h : hashes) (sg : list msig) (f0 : func) : bool :=
  on (sroa_pass f0) (fun f => sroa_ready f0 f && simplify_ready f &&
  on (arithmetic_simplify f) (fun f => const_ready f &&
  on (match const_prop f with CDone g => Some g | _ => None end) (fun f => fold_ready f &&
  on (constant_folding f) (fun f => copy_ready f &&
  on (copy_prop (h_copies h f) f) (fun f => cse_ok sg f &&
  let f := local_cse f in branch_ready f &&
  on (simplify_branches f) (fun f => fuse_ready f &&
  let f := fuse_cmp f in dce_ready f &&
  on (dce f) (fun f => phi_stage h sg f0 f))))))).
