(** Phi elimination.

    Models crates/compiler/mir/src/passes/phi_elimination.rs and the edge splitting of
    crates/compiler/mir/src/cfg.rs.  The iteration order of the hash maps is a parameter
    ([orders]): theorems quantify over it.  Statistics and debug output are dropped. *)
From Coq Require Import ZArith Bool String List.
From Verif Require Import M31 Mir.
Import ListNotations.
Open Scope nat_scope.

(** ** Critical edges. *)

(** basic_block.rs 144-153: [add_pred], [remove_pred]. *)
Definition add_pred (p : nat) (b : block) : block :=
  if mem_nat p (b_preds b) then b else Block (b_instrs b) (b_term b) (b_preds b ++ [p]).
Definition remove_pred (p : nat) (b : block) : block :=
  Block (b_instrs b) (b_term b) (filter (fun q => negb (Nat.eqb q p)) (b_preds b)).
(** terminator.rs 246-284: [replace_target]. *)
Definition replace_target (old new : nat) (t : term) : term :=
  let s x := if Nat.eqb x old then new else x in
  match t with
  | TJump a => TJump (s a)
  | TIf c a b => TIf c (s a) (s b)
  | TCmp op l r a b => TCmp op l r (s a) (s b)
  | TReturn _ | TUnreachable => t
  end.

(** Apply [k] to block [n]. *)
Fixpoint on_block (n : nat) (k : block -> block) (bs : list block) : list block :=
  match bs, n with
  | [], _ => []
  | b :: r, O => k b :: r
  | b :: r, S m => b :: on_block m k r
  end.

(** cfg.rs 35-50: [is_critical_edge] (the lookups never fail here: out-of-range targets
    count as having no predecessor, where the code panics). *)
Definition pred_count (f : func) (b : nat) : nat :=
  match nth_error (f_blocks f) b with Some blk => length (b_preds blk) | None => 0 end.
Definition critical (f : func) (blk : block) (s : nat) : bool :=
  (1 <? length (targets (b_term blk))) && (1 <? pred_count f s).

(** cfg.rs 78-103: [split_critical_edge].  The phis of the successor are not touched. *)
Definition split_edge (f : func) (e : nat * nat) : func :=
  let (p, s) := e in
  let n := length (f_blocks f) in
  let bs := f_blocks f ++ [Block [] (TJump s) []] in
  let bs := on_block s (remove_pred p) bs in
  let bs := on_block n (add_pred p) bs in
  let bs := on_block s (add_pred n) bs in
  with_blocks f (on_block p (fun b => Block (b_instrs b) (replace_target s n (b_term b)) (b_preds b)) bs).

(** cfg.rs 108-131: [split_all_critical_edges]. *)
Fixpoint number {A} (n : nat) (l : list A) : list (nat * A) :=
  match l with [] => [] | a :: r => (n, a) :: number (S n) r end.
Definition critical_edges (f : func) : list (nat * nat) :=
  flat_map (fun nb => map (fun s => (fst nb, s)) (filter (critical f (snd nb)) (targets (b_term (snd nb)))))
           (number 0 (f_blocks f)).
Definition split_all (f : func) : func := fold_left split_edge (critical_edges f) f.

(** ** Copies. *)

(** A copy [dest = source] at a type; always an [Assign] instruction in the code. *)
Definition copy : Set := nat * value * ty.
Definition c_dest (c : copy) : nat := fst (fst c).
Definition c_src (c : copy) : value := snd (fst c).
Definition c_ty (c : copy) : ty := snd c.
Definition c_instr (c : copy) : minstr := IAssign (c_dest c) (c_src c) (c_ty c).

(** phi_elimination.rs 79-118: [collect_phi_copies], the copies for block [p]. *)
Definition phi_copies (f : func) (p : nat) : list copy :=
  flat_map (fun b => flat_map (fun i =>
    match i with
    | IPhi d t ss => map (fun s => (d, snd s, t)) (filter (fun s => Nat.eqb (fst s) p) ss)
    | _ => []
    end) (b_instrs b)) (f_blocks f).

(** phi_elimination.rs 121-160: [build_dependency_graph].  The graph maps the destination
    of a copy to its source, if that is the destination of a copy of an operand. *)
Definition op_dests (cs : list copy) : list nat :=
  flat_map (fun c => match c_src c with Op _ => [c_dest c] | _ => [] end) cs.
Definition deps (cs : list copy) (d : nat) : list nat :=
  flat_map (fun c => match c_src c with
                     | Op s => if Nat.eqb (c_dest c) d && mem_nat s (op_dests cs) then [s] else []
                     | _ => []
                     end) cs.

(** phi_elimination.rs 163-216: [find_cycles].  [path] is both the path and the recursion
    stack; [None] is out of fuel. *)
Fixpoint suffix_from (n : nat) (l : list nat) : list nat :=
  match l with [] => [] | a :: r => if Nat.eqb a n then l else suffix_from n r end.
Definition dstate : Set := list nat * list (list nat).
Fixpoint dfs (fuel : nat) (g : nat -> list nat) (path : list nat) (node : nat) (st : dstate) : option dstate :=
  match fuel with
  | O => None
  | S k =>
    let path' := path ++ [node] in
    (fix neighbours (ns : list nat) (st : dstate) : option dstate :=
       match ns with
       | [] => Some st
       | n :: r =>
         if negb (mem_nat n (fst st))
         then match dfs k g path' n st with Some st' => neighbours r st' | None => None end
         else if mem_nat n path'
              then neighbours r (fst st, snd st ++ [suffix_from n path'])
              else neighbours r st
       end) (g node) (node :: fst st, snd st)
  end.
Fixpoint find_cycles (fuel : nat) (g : nat -> list nat) (keys : list nat) (st : dstate) : option (list (list nat)) :=
  match keys with
  | [] => Some (snd st)
  | n :: r => if mem_nat n (fst st) then find_cycles fuel g r st
              else match dfs fuel g [] n st with Some st' => find_cycles fuel g r st' | None => None end
  end.

(** phi_elimination.rs 246-306: the copies for one cycle, saved in [temp]. *)
Fixpoint rotate (cs : list copy) (temp : nat) : list minstr :=
  match cs with
  | [] => []
  | [c] => [IAssign (c_dest c) (Op temp) (c_ty c)]
  | c :: ((c2 :: _) as r) => IAssign (c_dest c) (c_src c2) (c_ty c) :: rotate r temp
  end.
Definition break_cycle (cs : list copy) (temp : nat) : list minstr :=
  match cs with
  | [] => []
  | c :: _ => IAssign temp (c_src c) (c_ty c) :: rotate cs temp
  end.
Fixpoint break_cycles (cycles : list (list nat)) (cs : list copy) (next : nat)
  : list minstr * list nat * nat :=
  match cycles with
  | [] => ([], [], next)
  | cy :: r =>
    if length cy <=? 1 then break_cycles r cs next else
    let mine := filter (fun c => mem_nat (c_dest c) cy) cs in
    match mine with
    | [] => break_cycles r cs next
    | _ => let '(is, done, n) := break_cycles r cs (S next) in
           (break_cycle mine next ++ is, map c_dest mine ++ done, n)
    end
  end.

(** phi_elimination.rs 324-398: [topological_sort_copies].  [cnt] is [in_degree], whose
    keys are the destinations [ds]; the copy map keeps the last copy of a destination. *)
Definition degree (g : nat -> list nat) (cs : list copy) (d : nat) : nat :=
  length (filter (Nat.eqb d) (flat_map (fun c => g (c_dest c)) cs)).
Fixpoint lower (ds : list nat) (ns : list nat) (cnt : nat -> nat) (queue : list nat)
  : (nat -> nat) * list nat :=
  match ns with
  | [] => (cnt, queue)
  | n :: r =>
    if mem_nat n ds
    then let c := cnt n - 1 in
         lower ds r (fun x => if Nat.eqb x n then c else cnt x) (if Nat.eqb c 0 then queue ++ [n] else queue)
    else lower ds r cnt queue
  end.
Fixpoint kahn (fuel : nat) (g : nat -> list nat) (ds : list nat) (cnt : nat -> nat)
  (queue : list nat) : option (list nat) :=
  match fuel with
  | O => None
  | S k =>
    match queue with
    | [] => Some []
    | n :: q => let (cnt', q') := lower ds (g n) cnt q in
                match kahn k g ds cnt' q' with Some l => Some (n :: l) | None => None end
    end
  end.
Fixpoint last_copy (d : nat) (cs : list copy) : option copy :=
  match cs with
  | [] => None
  | c :: r => match last_copy d r with
              | Some x => Some x
              | None => if Nat.eqb (c_dest c) d then Some c else None
              end
  end.
Definition topo_sort (keys : list nat) (g : nat -> list nat) (cs : list copy) : option (list copy) :=
  let ds := map c_dest cs in
  match kahn (S (length cs)) g ds (degree g cs) (filter (fun d => mem_nat d ds && Nat.eqb (degree g cs d) 0) keys) with
  | None => None
  | Some l => let sorted := flat_map (fun d => match last_copy d cs with Some c => [c] | None => [] end) l in
              Some (if Nat.eqb (length sorted) (length cs) then sorted else cs)
  end.

(** phi_elimination.rs 218-322: [sequence_parallel_copies].  [ks] is the order in which the
    keys of the graph are visited, [ts] the order of the destinations in the in-degree map
    (of which only those not handled by the cycles are there).  [None]: out of fuel. *)
Definition sequence (ks ts : list nat) (cs : list copy) (next : nat) : option (list minstr * nat) :=
  match cs with
  | [] => Some ([], next)
  | [c] => Some ([c_instr c], next)
  | _ =>
    let g := deps cs in
    match find_cycles (S (length cs)) g ks ([], []) with
    | None => None
    | Some cycles =>
      let '(is, done, n) := break_cycles cycles cs next in
      let rest := filter (fun c => negb (mem_nat (c_dest c) done)) cs in
      match topo_sort ts g rest with
      | None => None
      | Some sorted => Some (is ++ map c_instr sorted, n)
      end
    end
  end.

(** ** The pass. *)

(** Iteration orders: of the blocks that get copies, and, per block, of the two maps used
    while sequencing its copies. *)
Record orders : Type := Orders { o_blocks : list nat; o_graph : nat -> list nat; o_degrees : nat -> list nat }.

(** phi_elimination.rs 400-439: [insert_copies]. *)
Fixpoint insert_copies (o : orders) (f0 : func) (bs : list nat) (f : func) : option func :=
  match bs with
  | [] => Some f
  | p :: r =>
    match sequence (o_graph o p) (o_degrees o p) (phi_copies f0 p) (f_next f) with
    | None => None
    | Some (is, next) =>
      insert_copies o f0 r
        (Func (on_block p (fun b => Block (b_instrs b ++ is) (b_term b) (b_preds b)) (f_blocks f))
              (f_entry f) (f_params f) (f_rets f) next (f_types f))
    end
  end.
(** phi_elimination.rs 441-455: [remove_phi_nodes]. *)
Definition remove_phis (f : func) : func :=
  with_blocks f (map (fun b => Block (filter (fun i => negb (is_phi i)) (b_instrs b)) (b_term b) (b_preds b)) (f_blocks f)).
(** phi_elimination.rs 464-511: [run].  Without copies the phis stay. *)
Definition phi_elim (o : orders) (f : func) : option func :=
  let f1 := split_all f in
  match o_blocks o with
  | [] => Some f1
  | _ => match insert_copies o f1 (o_blocks o) f1 with
         | Some f2 => Some (remove_phis f2)
         | None => None
         end
  end.

(** Orders that the maps can have: each lists exactly the keys of its map, once. *)
Definition seq_orders (ks ts : list nat) (cs : list copy) : Prop :=
  (NoDup ks /\ forall d, In d ks <-> deps cs d <> []) /\
  (NoDup ts /\ forall d, In d ts <-> In d (map c_dest cs)).
Definition valid_orders (o : orders) (f : func) : Prop :=
  let f1 := split_all f in
  (NoDup (o_blocks o) /\ forall p, In p (o_blocks o) <-> phi_copies f1 p <> []) /\
  forall p, seq_orders (o_graph o p) (o_degrees o p) (phi_copies f1 p).
