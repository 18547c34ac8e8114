(** Conditions on functions with aggregates, independent of the pass that scalarizes them. *)
From Coq Require Import ZArith Bool String List.
From Verif Require Import M31 Mir MirSem MirSsa.
Import ListNotations.
Open Scope nat_scope.

Definition has (f : func) (d : nat) (t : ty) : bool :=
  match f_types f d with Some t' => ty_eqb t' t | None => false end.
Definition op_has (f : func) (v : value) (t : ty) : bool := match v with Op u => has f u t | _ => true end.
Fixpoint all_have (f : func) (vs : list value) (ts : list ty) : bool :=
  match vs, ts with
  | v :: vs', t :: ts' => op_has f v t && all_have f vs' ts'
  | [], [] => true
  | _, _ => false
  end.
Fixpoint distinct (l : list string) : bool :=
  match l with [] => true | a :: r => negb (existsb (String.eqb a) r) && distinct r end.
Definition is_agg (t : ty) : bool := match t with TTuple _ | TStruct _ _ | TArr _ _ => true | _ => false end.
(** Tuples and structs are values; arrays and pointers are addresses. *)
Definition by_value (t : option ty) : bool := match t with Some (TTuple _) | Some (TStruct _ _) => true | _ => false end.

(** The types an instruction gives its aggregates are the types recorded for the values, and
    memory is accessed through addresses. *)
Definition agg_instr (f : func) (i : minstr) : bool :=
  match i with
  | IAssign d v t => negb (is_agg t) || has f d t && op_has f v t
  | IMakeTuple d es => match f_types f d with Some (TTuple ts) => all_have f es ts | _ => false end
  | IMakeStruct d fs t =>
    match t with
    | TStruct _ fts => has f d t && distinct (map fst fts) &&
        forallb (fun ft => match find_field (fst ft) fs with Some v => op_has f v (snd ft) | None => false end) fts
    | _ => false
    end
  | IInsertTuple d s k w t =>
    has f d t && op_has f s t &&
    match t with
    | TTuple ts => match nth_error ts k with Some et => op_has f w et | None => false end
    | _ => false
    end
  | IInsertField d s n w t =>
    has f d t && op_has f s t &&
    match t with
    | TStruct _ fts => match find_field n fts with Some et => op_has f w et | None => false end
    | _ => false
    end
  | IExtractTuple d s k t =>
    has f d t &&
    match s with
    | Op u => match f_types f u with
              | Some (TTuple ts) => match nth_error ts k with Some et => ty_eqb et t | None => false end
              | _ => false
              end
    | _ => false
    end
  | IExtractField d s n t =>
    has f d t &&
    match s with
    | Op u => match f_types f u with
              | Some (TStruct _ fts) => match find_field n fts with Some et => ty_eqb et t | None => false end
              | _ => false
              end
    | _ => false
    end
  | ICall _ _ args ps =>
    forallb (fun ap => negb (is_agg (snd ap)) || op_has f (fst ap) (snd ap)) (combine args ps)
  | ILoad _ p _ => negb (by_value (f_types f (pl_base p)))
  | IStore p v t => negb (by_value (f_types f (pl_base p))) && (negb (is_agg t) || op_has f v t)
  | _ => true
  end.
Definition agg_typed (f : func) : bool :=
  forallb (fun b => forallb (agg_instr f) (b_instrs b)) (f_blocks f).

(** Every value that is used is a parameter or defined somewhere. *)
Definition closed (f : func) : Prop :=
  forall b v, In b (f_blocks f) ->
    (exists i, In i (b_instrs b) /\ In v (uses i)) \/ In v (term_uses (b_term b)) ->
    In v (f_params f) \/ In v (all_dests f).

(** The arrays [f] builds are built in [g]. *)
Definition arrays_kept (f g : func) : Prop :=
  forall b d es t c, In b (f_blocks f) -> In (IMakeArray d es t c) (b_instrs b) -> In d (all_dests g).

(** Tuples and structs are not put into other aggregates: they are only copied, taken apart,
    updated, passed, stored, returned and merged. *)
Definition plain (f : func) (v : value) : bool := match v with Op u => negb (by_value (f_types f u)) | _ => true end.
Definition flat_instr (f : func) (i : minstr) : bool :=
  match i with
  | IAssign _ v t => plain f v || is_agg t
  | ICall _ _ args ps =>
    Nat.eqb (length args) (length ps) &&
    forallb (fun ap => plain f (fst ap) || is_agg (snd ap)) (combine args ps)
  | IStore p v t => (plain f v || is_agg t) && forallb (fun q => match q with PIdx w => plain f w | _ => true end) (pl_projs p)
  | ILoad _ p _ => forallb (fun q => match q with PIdx w => plain f w | _ => true end) (pl_projs p)
  | IExtractTuple _ _ _ _ | IExtractField _ _ _ _ => true
  | IInsertTuple _ _ _ w _ | IInsertField _ _ _ w _ => plain f w
  | IPhi d _ ss => forallb (fun s => plain f (snd s)) ss || by_value (f_types f d)
  | IMakeTuple _ es | IMakeArray _ es _ _ => forallb (plain f) es
  | IMakeStruct _ fs _ => forallb (fun fv => plain f (snd fv)) fs
  | IUnary _ _ v | ICast _ v _ _ | IAlloc _ v => plain f v
  | IBinary _ _ l r | IAssertEq l r => plain f l && plain f r
  | IDebug _ vs => forallb (plain f) vs
  | INop => true
  end.
Definition flat_term (f : func) (t : term) : bool :=
  match t with
  | TIf c _ _ => plain f c
  | TCmp _ l r _ _ => plain f l && plain f r
  | _ => true
  end.
Definition flat (f : func) : bool :=
  forallb (fun b => forallb (flat_instr f) (b_instrs b) && flat_term f (b_term b)) (f_blocks f).
