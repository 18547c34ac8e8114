(** Copy propagation.

    Models crates/compiler/mir/src/passes/copy_propagation.rs.  The pass iterates over a
    hash map; the order of iteration is a parameter. *)
From Coq Require Import ZArith Bool String List.
From Verif Require Import Mir.
Import ListNotations.
Open Scope nat_scope.

(** copy_propagation.rs 33-51: an assignment from an operand, both types known and equal. *)
Definition copy_of (f : func) (i : minstr) : option (nat * nat) :=
  match i with
  | IAssign d (Op s) _ =>
    match f_types f d, f_types f s with
    | Some a, Some b => if ty_eqb a b then Some (d, s) else None
    | _, _ => None
    end
  | _ => None
  end.
Definition opt_list {A} (o : option A) : list A := match o with Some a => [a] | None => [] end.
Definition direct_copies (f : func) : list (nat * nat) :=
  flat_map (fun b => flat_map (fun i => opt_list (copy_of f i)) (b_instrs b)) (f_blocks f).

(** The hash map [direct_copies]: a later insertion replaces an earlier one. *)
Fixpoint assoc (l : list (nat * nat)) (d : nat) : option nat :=
  match l with
  | [] => None
  | (k, s) :: r => match assoc r d with Some t => Some t | None => if Nat.eqb k d then Some s else None end
  end.
Definition copy_src (f : func) (d : nat) : option nat := assoc (direct_copies f) d.

(** copy_propagation.rs 67-87: [resolve_copy_chain].  [None]: out of fuel. *)
Fixpoint resolve (cs : nat -> option nat) (fuel : nat) (visited : list nat) (cur : nat) : option nat :=
  match cs cur with
  | None => Some cur
  | Some n => if mem_nat cur visited then Some cur else
              match fuel with
              | O => None
              | S k => resolve cs k (cur :: visited) n
              end
  end.

(** copy_propagation.rs 56-63: the ultimate source of each copy, in iteration order. *)
Fixpoint resolved (f : func) (ord : list nat) : option (list (nat * nat)) :=
  match ord with
  | [] => Some []
  | d :: r =>
    match copy_src f d with
    | None => None
    | Some s =>
      match resolve (copy_src f) (length (direct_copies f)) [] s, resolved f r with
      | Some t, Some l => Some ((d, t) :: l)
      | _, _ => None
      end
    end
  end.

(** copy_propagation.rs 132-141: the replacements, one after the other. *)
Definition replace_list (l : list (nat * nat)) (f : func) : func :=
  fold_left (fun g p => replace_all_uses (fst p) (snd p) g) l f.

(** copy_propagation.rs 91-124: [remove_copy_instructions]. *)
Definition is_copy (keys : list nat) (i : minstr) : bool :=
  match i with IAssign d (Op _) _ => mem_nat d keys | _ => false end.
Definition remove_copies (keys : list nat) (f : func) : func :=
  with_blocks f (map (fun b => Block (filter (fun i => negb (is_copy keys i)) (b_instrs b))
                                     (b_term b) (b_preds b)) (f_blocks f)).

(** copy_propagation.rs 127-151: [run], with the map's keys enumerated as [ord]. *)
Definition copy_prop (ord : list nat) (f : func) : option func :=
  match resolved f ord with
  | Some l => Some (remove_copies ord (replace_list l f))
  | None => None
  end.
