(** Constant propagation.

    Models crates/compiler/mir/src/passes/constant_propagation.rs. *)
From Coq Require Import ZArith Bool String List.
From Verif Require Import M31 Mir MirPasses.
Import ListNotations.
Open Scope nat_scope.

(** constant_propagation.rs 8-28: [Lattice] and [join]. *)
Inductive lat : Set := Unknown | Const (l : lit) | NonConst.
Definition lat_eqb (a b : lat) : bool :=
  match a, b with
  | Unknown, Unknown | NonConst, NonConst => true
  | Const x, Const y => lit_eqb x y
  | _, _ => false
  end.
Definition join (a b : lat) : lat :=
  match a, b with
  | NonConst, _ | _, NonConst => NonConst
  | Unknown, x | x, Unknown => x
  | Const x, Const y => if lit_eqb x y then Const x else NonConst
  end.

(** The analysis state: a hash map, of which a missing entry counts as [Unknown]
    ([unwrap_or(&Unknown)]). *)
Definition astate : Set := nat -> lat.
Definition aset (st : astate) (d : nat) (x : lat) : astate :=
  fun v => if Nat.eqb v d then x else st v.

Definition val_lat (st : astate) (v : value) : lat :=
  match v with Lit l => Const l | Op i => st i | VErr => NonConst end.
(** The literal known for an operand (lines 83-103). *)
Definition known (st : astate) (v : value) : option lit :=
  match val_lat st v with Const l => Some l | _ => None end.
Definition op_nonconst (st : astate) (v : value) : bool :=
  match v with Op i => lat_eqb (st i) NonConst | _ => false end.

(** constant_propagation.rs 125-139: the phi loop, which stops at [NonConst]. *)
Fixpoint phi_lat (st : astate) (acc : lat) (ss : list (nat * value)) : lat :=
  match ss with
  | [] => acc
  | (_, v) :: r =>
    let a := join acc (val_lat st v) in
    if lat_eqb a NonConst then a else phi_lat st a r
  end.

(** constant_propagation.rs 48-167: [evaluate_instruction], for an instruction with one
    destination.  [None] when evaluating the operation panics. *)
Definition eval_lat (st : astate) (i : minstr) : option lat :=
  match i with
  | IAssign _ v _ => Some (val_lat st v)
  | IUnary op _ v =>
    match v, val_lat st v with
    | Op _, Unknown => Some Unknown
    | _, Const l => Some (match eval_unary_op op l with Some c => Const c | None => NonConst end)
    | _, _ => Some NonConst
    end
  | IBinary op _ l r =>
    match known st l, known st r with
    | Some a, Some b =>
      match eval_binary_op op a b with
      | EvLit c => Some (Const c)
      | EvNo => Some NonConst
      | EvPanic => None
      end
    | _, _ => Some (if op_nonconst st l || op_nonconst st r then NonConst else Unknown)
    end
  | IPhi _ _ ss => Some (phi_lat st Unknown ss)
  | _ => Some NonConst
  end.

(** constant_propagation.rs 306-313: how a new finding is merged into the old. *)
Definition merge (old new : lat) : lat :=
  match old, new with
  | Unknown, x => x
  | Const a, Const b => if lit_eqb a b then Const a else NonConst
  | Const a, Unknown => Const a
  | NonConst, _ => NonConst
  | _, NonConst => NonConst
  end.

(** constant_propagation.rs 301-319: one round over the instructions. *)
Fixpoint round (is : list minstr) (st : astate) (changed : bool) : option (astate * bool) :=
  match is with
  | [] => Some (st, changed)
  | i :: r =>
    match dest i with
    | None => round r st changed
    | Some d =>
      match eval_lat st i with
      | None => None
      | Some new =>
        let n := merge (st d) new in
        if lat_eqb n (st d) then round r st changed else round r (aset st d n) true
      end
    end
  end.

(** constant_propagation.rs 287-321: rounds until nothing changes. *)
Inductive cres (A : Type) : Type := CDone (a : A) | CPanic | CFuel.
Arguments CDone {A} a. Arguments CPanic {A}. Arguments CFuel {A}.
Definition instrs (f : func) : list minstr := flat_map b_instrs (f_blocks f).
Fixpoint rounds (fuel : nat) (is : list minstr) (st : astate) : cres astate :=
  match fuel with
  | O => CFuel
  | S k => match round is st false with
           | None => CPanic
           | Some (st', false) => CDone st'
           | Some (st', true) => rounds k is st'
           end
  end.
Definition init (f : func) : astate := fun v => if mem_nat v (f_params f) then NonConst else Unknown.
Definition analyse (fuel : nat) (f : func) : cres astate := rounds fuel (instrs f) (init f).

(** constant_propagation.rs 170-281: [rewrite_uses]: operands of instructions, but neither
    the bases of places nor the operands of terminators. *)
Definition rewrite_val (st : astate) (v : value) : value :=
  match v with
  | Op i => match st i with Const l => Lit l | _ => v end
  | _ => v
  end.
Definition rewrite_uses (st : astate) (f : func) : func :=
  with_blocks f (map (bmap (imap (rewrite_val st) (fun b => b)) (fun t => t)) (f_blocks f)).

(** constant_propagation.rs 284-326: [run].  The fuel is enough (see the facts). *)
Definition const_prop (f : func) : cres func :=
  match analyse (S (2 * length (instrs f))) f with
  | CDone st => CDone (rewrite_uses st f)
  | CPanic => CPanic
  | CFuel => CFuel
  end.
