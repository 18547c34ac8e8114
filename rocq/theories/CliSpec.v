(** The grammar of command-line arguments (abi_codec.rs 98-104), as a relation between
    values and the strings that spell them.  Independent of the parser. *)
From Coq Require Import ZArith Bool List.
From Verif Require Import M31 Cli.
Import ListNotations.
Open Scope Z_scope.

Definition spaces (w : list Z) : Prop := Forall (fun b => is_ws b = true) w.
(** Decimal digits, most significant first. *)
Definition decimal (ds : list Z) : list Z := map (fun d => 48 + d) ds.
Definition value_of (ds : list Z) : Z := fold_left (fun acc d => 10 * acc + d) ds 0.
Definition is_digits (ds : list Z) : Prop := ds <> [] /\ Forall (fun d => 0 <= d <= 9) ds.

Inductive prints : input -> list Z -> Prop :=
| pr_pos ds : is_digits ds -> value_of ds <= 9223372036854775807 -> prints (INumber (value_of ds)) (decimal ds)
| pr_neg ds : is_digits ds -> value_of ds <= 9223372036854775808 -> prints (INumber (- value_of ds)) (45 :: decimal ds)
| pr_true : prints (IBool true) [116; 114; 117; 101]
| pr_false : prints (IBool false) [102; 97; 108; 115; 101]
| pr_array l s : items l s -> prints (IList l) (91 :: s ++ [93])
| pr_tuple l s : items l s -> prints (IList l) (40 :: s ++ [41])
| pr_struct l s : items l s -> prints (IStruct l) (123 :: s ++ [125])
(* what stands between the delimiters *)
with items : list input -> list Z -> Prop :=
| it_none w : spaces w -> items [] w
| it_some l s : items1 l s -> items l s
with items1 : list input -> list Z -> Prop :=
| it_one w v s w' : spaces w -> prints v s -> spaces w' -> items1 [v] (w ++ s ++ w')
| it_more w v s w' l t : spaces w -> prints v s -> spaces w' -> items1 l t -> items1 (v :: l) (w ++ s ++ w' ++ 44 :: t).
Scheme prints_mut := Minimality for prints Sort Prop
  with items_mut := Minimality for items Sort Prop
  with items1_mut := Minimality for items1 Sort Prop.
Combined Scheme prints_items_mut from prints_mut, items_mut, items1_mut.

(** A value with white space around it. *)
Definition spells (v : input) (s : list Z) : Prop :=
  exists w t w', s = w ++ t ++ w' /\ spaces w /\ prints v t /\ spaces w'.
