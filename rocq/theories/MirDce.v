(** Model of dead code elimination (crates/compiler/mir/src/passes/dead_code_elimination.rs). *)
From Coq Require Import ZArith Bool List.
From Verif Require Import Mir MirSem MirPasses.
Import ListNotations.
Open Scope nat_scope.

(** function.rs 324-343: [is_block_reachable], a depth-first search with an explicit
    stack (its top is the head of the list; successors are pushed in order).  [None]:
    out of fuel, which [MirDceFacts.dfs_total] excludes. *)
Fixpoint dfs (bs : list block) (fuel target : nat) (visited stack : list nat) : option bool :=
  match fuel with
  | O => None
  | S k =>
    match stack with
    | [] => Some false
    | c :: st =>
      if Nat.eqb c target then Some true
      else if mem_nat c visited then dfs bs k target visited st
      else match nth_error bs c with
           | Some b => dfs bs k target (c :: visited) (rev (targets (b_term b)) ++ st)
           | None => dfs bs k target (c :: visited) st
           end
    end
  end.
Definition reachable (f : func) (b : nat) : bool :=
  match dfs (f_blocks f) (2 * length (f_blocks f) + 2) b [] [f_entry f] with
  | Some r => r
  | None => true
  end.
(** function.rs 348-353: the ids of the blocks that are kept (the complement of
    [unreachable_blocks]), in order. *)
Definition kept (f : func) : list nat := filter (reachable f) (seq 0 (length (f_blocks f))).

(** dead_code_elimination.rs 138-150: position of a kept block in the new list. *)
Fixpoint index_of (x : nat) (l : list nat) : option nat :=
  match l with
  | [] => None
  | y :: r => if Nat.eqb x y then Some 0 else match index_of x r with Some n => Some (S n) | None => None end
  end.
(** dead_code_elimination.rs 26-76: [remap_terminator] ([None]: the [expect] panics). *)
Definition remap_term (nu : nat -> option nat) (t : term) : option term :=
  match t with
  | TJump a => match nu a with Some a' => Some (TJump a') | None => None end
  | TIf c a b => match nu a, nu b with Some a', Some b' => Some (TIf c a' b') | _, _ => None end
  | TCmp op l r a b =>
    match nu a, nu b with Some a', Some b' => Some (TCmp op l r a' b') | _, _ => None end
  | TReturn _ | TUnreachable => Some t
  end.
Definition remap_block (nu : nat -> option nat) (b : block) : option block :=
  match remap_term nu (b_term b) with
  | Some t => Some (Block (b_instrs b) t (b_preds b))
  | None => None
  end.
(** dead_code_elimination.rs 124-177: drop the unreachable blocks, renumber the others.
    Phi sources keep their old block numbers. *)
Definition reapply (bs : list block) (id : nat) : list block :=
  match nth_error bs id with
  | Some b => set_terminator_with_edges id (b_term b) bs
  | None => bs
  end.
Definition compact (f : func) : option func :=
  if Nat.eqb (length (kept f)) (length (f_blocks f)) then Some f else
  let nu b := index_of b (kept f) in
  match omap (fun b => match nth_error (f_blocks f) b with
                       | Some blk => remap_block nu blk
                       | None => None
                       end) (kept f), nu (f_entry f) with
  | Some bs, Some en =>
    Some (Func (fold_left reapply (seq 0 (length bs)) bs) en (f_params f) (f_rets f) (f_next f) (f_types f))
  | _, _ => None
  end.

(** dead_code_elimination.rs 91-110: what the sweep keeps ([used v]: some instruction or
    terminator mentions [v]). *)
Definition keep_instr (used : nat -> bool) (i : minstr) : bool :=
  if has_side_effects i then true
  else match i with
       | INop => false
       | _ => match dest i with Some d => used d | None => true end
       end.
Definition sweep (f : func) : func :=
  let used v := Nat.ltb 0 (use_count f v) in
  with_blocks f (map (fun b => Block (filter (keep_instr used) (b_instrs b)) (b_term b) (b_preds b)) (f_blocks f)).
Definition instr_count (f : func) : nat := list_sum (map (fun b => length (b_instrs b)) (f_blocks f)).
(** dead_code_elimination.rs 80-120: sweep until nothing is removed.  Every round but the
    last removes an instruction, so the instruction count is enough fuel. *)
Fixpoint sweeps (fuel : nat) (f : func) : func :=
  match fuel with
  | O => f
  | S k => if Nat.eqb (instr_count (sweep f)) (instr_count f) then f else sweeps k (sweep f)
  end.
Definition remove_dead (f : func) : func := sweeps (instr_count f) f.

(** dead_code_elimination.rs 123-188: [run]. *)
Definition dce (f : func) : option func :=
  match compact f with Some g => Some (remove_dead g) | None => None end.
