(** What it means that a row of the AIR is an instruction of the machine. *)
From Coq Require Import ZArith Bool List Permutation.
From Verif Require Import M31 Instr Isa Machine Air AirOpcodes.
Import ListNotations.
Open Scope Z_scope.

(** One memory access claimed by a row: the cell, the clock and content left by the
    previous access, and the content left by this one. *)
Record acc : Set := Acc { ac_addr : Z; ac_prev : Z; ac_old : qm31; ac_new : qm31 }.

(** The tuples of such accesses at clock [clk]: consume the previous one, emit the new one. *)
Definition mem_tuples (clk : Z) (accs : list acc) : list (Z * list Z) :=
  flat_map (fun x => [(P - 1, ac_addr x :: ac_prev x :: qlist (ac_old x));
                      (1, ac_addr x :: clk :: qlist (ac_new x))]) accs.
Definition reg_tuples (clk : Z) (s s' : state) : list (Z * list Z) :=
  [(P - 1, [pc s; fp s; clk]); (1, [pc s'; fp s'; (clk + 1) mod P])].

(** In every memory that agrees with the claimed previous contents, instruction [i] is the
    instruction at [pc], it may execute, leads to [s'], and the claimed new contents are
    exactly those of the accesses the instruction makes. *)
Definition performs (i : instr) (s s' : state) (accs : list acc) : Prop :=
  forall f : flat, (forall x, In x accs -> f (ac_addr x) = ac_old x) ->
    instr_at f (pc s) i /\
    exists e, isa i (fun a => q0 (f a)) s = Some e /\ s' = next e /\ peeks e = [] /\
      (forall a, In a (reads e) -> is_felt (f a)) /\
      Permutation (map (fun x => (ac_addr x, ac_new x)) accs)
        (seen f (code_addrs (pc s) i) ++ seen f (reads e) ++ stored (writes e)).

(** The row consumes the registers [s] at clock [clk], emits [s'] at the next clock, makes
    the accesses [accs], and this is what instruction [i] does. *)
Definition row_step (a : air) (s : state) (clk : Z) (i : instr) (s' : state) (accs : list acc) : Prop :=
  iwf i /\ swf s' /\
  tuples Registers a = reg_tuples clk s s' /\
  tuples Memory a = mem_tuples clk accs /\
  performs i s s' accs.

(** The clock differences are small: the previous access is strictly earlier. *)
Definition clocks_ok (clk : Z) (accs : list acc) : Prop :=
  Forall (fun x => (clk - ac_prev x - 1) mod P < 1048576) accs.

(** The row is a step of the machine, with every previous access strictly earlier. *)
Definition sound_row (a : air) (s : state) (clk : Z) : Prop :=
  exists i s' accs, row_step a s clk i s' accs /\ clocks_ok clk accs.

(** The registers and the clock in the columns of an opcode row: every opcode component
    starts with the columns enabler, pc, fp, clock. *)
Definition row_regs (row : list Z) : state := St (nth 1 row 0) (nth 2 row 0).
Definition row_clock (row : list Z) : Z := nth 3 row 0.

(** The opcode rows for which a satisfied row is not enough (each case has a
    counterexample in Prop_Air.v): [no_gap c row] rules them out.
    - store_fp_fp computes x / 0 = 0, the machine refuses it;
    - store_fp_imm accepts the opcodes 5 and 7, which no instruction has;
    - store_le_fp_imm lets the prover answer 0 for equal operands;
    - u32_store_mul_fp_fp and u32_store_div_fp_fp do not range-check the clocks of the
      second operand;
    - u32_store_eq_fp_imm looks its second word up at the address of the first. *)
Definition no_gap (c : component) (row : list Z) : Prop :=
  let col k := nth k row 0 in
  match c with
  | C_store_fp_fp => ~ (col 16%nat = 1 /\ col 17%nat = 1 /\ col 11%nat = 0)
  | C_store_fp_imm => col 15%nat = 0
  | C_store_le_fp_imm => ~ (col 21%nat = 0 /\ col 8%nat = col 6%nat)
  | C_u32_store_mul_fp_fp | C_u32_store_div_fp_fp =>
    let lo := match c with C_u32_store_mul_fp_fp => 18%nat | _ => 17%nat end in
    (col 3%nat - col lo - 1) mod P < 1048576 /\ (col 3%nat - col (S lo) - 1) mod P < 1048576
  | C_u32_store_eq_fp_imm => False
  | _ => True
  end.
