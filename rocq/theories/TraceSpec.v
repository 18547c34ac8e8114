(** What the prover's rows have to be: independent specification of an executed
    instruction as the row generation sees it. *)
From Coq Require Import ZArith Bool List Permutation.
From Verif Require Import M31 Instr Isa Machine Air AirOpcodes AirSpec Adapter Trace.
Import ListNotations.
Open Scope Z_scope.

(** Give the accesses of an instruction, in order, the clocks of the previous accesses to
    the same cells; their previous contents are those of the memory [f]. *)
Fixpoint with_clocks (f : flat) (l : list Machine.access) (ps : list Z) : list acc :=
  match l, ps with
  | (a, v) :: r, p :: ps => Acc a p (f a) v :: with_clocks f r ps
  | _, _ => []
  end.
Definition code_accs (f : flat) (a : Z) (i : instr) (p : Z) : list acc :=
  map (fun x => Acc x p (f x) (f x)) (code_addrs a i).
Definition data_accs (f : flat) (e : effect) (ps : list Z) : list acc :=
  with_clocks f (seen f (reads e) ++ stored (writes e)) ps.
(** The bundle of the instruction: only the first coordinates of contents are kept. *)
Definition bundle_of (f : flat) (s : state) (i : instr) (e : effect) (clk p : Z) (ps : list Z) : bundle :=
  Bundle s clk i p (map (fun x => DA (ac_addr x) (ac_prev x) (q0 (ac_old x)) (q0 (ac_new x))) (data_accs f e ps)).

(** The code words hold the encoding of the instruction and zeros after it. *)
Definition canonical (f : flat) (a : Z) (i : instr) : Prop :=
  exists k, flat_map (fun x => qlist (f x)) (code_addrs a i) = encode i ++ repeat 0 k.
Definition fresh_clock (clk p : Z) : Prop := 0 <= p < clk /\ clk - p <= 1048576.

(** Instruction [i], executed at clock [clk] in memory [f] and registers [s] with effect
    [e]; [p] is the clock of the previous access to its code, [ps] those of its operands. *)
Record executed (f : flat) (s : state) (i : instr) (e : effect) (clk p : Z) (ps : list Z) : Prop := Executed {
  ex_clk : 0 < clk < P;
  ex_swf : wf (pc s) /\ wf (fp s);
  ex_iwf : iwf i;
  ex_eff : isa i (fun a => q0 (f a)) s = Some e;
  ex_felt : forall a, In a (reads e ++ map fst (writes e)) -> is_felt (f a) /\ wf (q0 (f a));
  ex_code : canonical f (pc s) i;
  ex_prev : Forall (fresh_clock clk) (p :: ps);
  ex_len : length ps = length (reads e ++ map fst (writes e)) }.

(** A row that is a faithful account of a step: it has the columns of its component, is
    enabled, satisfies all constraints and lookups, consumes and emits the registers of the
    step, and makes exactly the given accesses. *)
Record faithful (c : component) (row : list Z) (s : state) (clk : Z) (s' : state) (accs : list acc) : Prop := Faithful {
  fa_len : length row = n_columns c;
  fa_wf : Forall wf row;
  fa_on : nth 0 row 0 = 1;
  fa_regs : row_regs row = s;
  fa_clock : row_clock row = clk;
  fa_sat : satisfied (evaluate c row);
  fa_reg : tuples Registers (evaluate c row) = reg_tuples clk s s';
  fa_mem : Permutation (tuples Memory (evaluate c row)) (mem_tuples clk accs) }.

(** The logup columns the prover writes are the ones the constraints describe: entries in
    pairs, in the order in which [evaluate] adds them. *)
Fixpoint pairs {A} (l : list A) : list (list A) :=
  match l with
  | [] => []
  | [x] => [[x]]
  | x :: y :: r => [x; y] :: pairs r
  end.
Definition same_entry (x y : Air.entry) : Prop :=
  re_rel x = re_rel y /\ (norm x = norm y \/ fst (norm x) = 0 /\ fst (norm y) = 0).
Definition same_logup (c : component) (enabler : Z) (b : bundle) : Prop :=
  Forall2 (Forall2 same_entry) (fractions c enabler b) (pairs (a_ents (evaluate c (fill c enabler b)))).

(** The instructions whose rows come out right: all those with a component, except for the
    comparison with an immediate and the comparison of two operands whose destination is
    not the cell at the frame pointer itself. *)
Definition provable (i : instr) : bool :=
  match i with
  | PrintM31 _ | PrintU32 _ | U32StoreEqFpImm _ _ _ _ => false
  | U32StoreEqFpFp _ _ d => d =? 0
  | _ => true
  end.
