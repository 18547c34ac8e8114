(** Specification of memory as one flat map (used by C06). *)
From Coq Require Import ZArith Bool List.
From Verif Require Import M31 VmMem.
Import ListNotations.
Open Scope Z_scope.

(** Client operations on the memory. *)
Inductive mop : Set := MRead (a : Z) | MWrite (a : Z) (q : qm31).
Inductive mout : Set := OVal (x : Z) | ODone | OOutOfBounds (a : Z) | ONotFelt (a : Z) (q : qm31).

(** The map: cells below 2^28; reading returns the cell if it is a base-field element. *)
Fixpoint map_ops (f : Z -> qm31) (ops : list mop) : list mout * (Z -> qm31) :=
  match ops with
  | [] => ([], f)
  | MRead a :: r =>
    let o := if 268435456 <=? a then OOutOfBounds a
             else let q := f a in
                  if (q1 q =? 0) && (q2 q =? 0) && (q3 q =? 0) then OVal (q0 q) else ONotFelt a q in
    let (os, f') := map_ops f r in (o :: os, f')
  | MWrite a q :: r =>
    if 268435456 <=? a then let (os, f') := map_ops f r in (OOutOfBounds a :: os, f')
    else let (os, f') := map_ops (fun b => if b =? a then q else f b) r in (ODone :: os, f')
  end.

(** The VM memory running the same operations ([get_data], [insert]); a failed
    operation leaves the memory as the operation left it. *)
Definition out_of {A} (r : res A) (k : A -> mout) : option mout :=
  match r with
  | Ok x => Some (k x)
  | Err (EMem (AddressOutOfBounds a)) => Some (OOutOfBounds a)
  | Err (EMem (BaseFieldProjectionFailed a q)) => Some (ONotFelt a q)
  | Err _ => None
  end.
Fixpoint mem_ops (m : mem) (ops : list mop) : list (option mout) * mem :=
  match ops with
  | [] => ([], m)
  | MRead a :: r =>
    let (m1, x) := get_data a m in
    let (os, m') := mem_ops m1 r in (out_of x OVal :: os, m')
  | MWrite a q :: r =>
    let (m1, x) := insert a q m in
    let (os, m') := mem_ops m1 r in (out_of x (fun _ => ODone) :: os, m')
  end.
