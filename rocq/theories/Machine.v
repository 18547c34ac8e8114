(** Independent specification of program execution: a machine with one flat memory.
    Nothing here refers to the VM model, only to the instruction set [isa]. *)
From Coq Require Import ZArith Bool List.
From Verif Require Import M31 Instr Isa.
Import ListNotations.
Open Scope Z_scope.

Definition flat : Type := Z -> qm31.
(** Addresses are below 2^28. *)
Definition ADDRS : Z := 268435456.
Definition is_felt (q : qm31) : Prop := q = Q (q0 q) 0 0 0.

(** The words starting at address [a] begin with the encoding of [i]. *)
Definition instr_at (f : flat) (a : Z) (i : instr) : Prop :=
  exists rest, qlist (f a) ++ qlist (f ((a + 1) mod P)) = encode i ++ rest.

(** The words an instruction occupies: four field elements per word. *)
Definition code_addrs (a : Z) (i : instr) : list Z :=
  if size_m31 i <=? 4 then [a] else [a; (a + 1) mod P].

(** One logged access: address and the content it saw (or left, for a write). *)
Notation access := (Z * qm31)%type.
Definition seen (f : flat) (l : list Z) : list access := map (fun a => (a, f a)) l.
Definition stored (ws : list (Z * Z)) : list access := map (fun w => (fst w, Q (snd w) 0 0 0)) ws.

(** One instruction of the flat machine: from memory [f] and registers [s], the
    instruction [i] found at [pc] leads to [f'] and [s'], logging [lg]: the code words,
    the operands read and the cells written, in this order. *)
Definition fstep (f : flat) (s : state) (i : instr) (f' : flat) (s' : state) (lg : list access) : Prop :=
  instr_at f (pc s) i /\
  exists e, isa i (fun a => q0 (f a)) s = Some e /\
    (forall a, In a (reads e ++ peeks e) -> a < ADDRS /\ is_felt (f a)) /\
    (forall w, In w (writes e) -> fst w < ADDRS) /\
    s' = next e /\
    (forall b, f' b = upds f (stored (writes e)) b) /\
    lg = seen f (code_addrs (pc s) i) ++ seen f (reads e) ++ stored (writes e).

(** Any number of instructions: [tr] lists the registers before each and the instruction. *)
Inductive fruns : flat -> state -> list (state * instr) -> list access -> flat -> state -> Prop :=
| fruns_nil f f' s : (forall a, f' a = f a) -> fruns f s [] [] f' s
| fruns_cons f s i f1 s1 l1 tr l2 f2 s2 :
    fstep f s i f1 s1 l1 -> fruns f1 s1 tr l2 f2 s2 ->
    fruns f s ((s, i) :: tr) (l1 ++ l2) f2 s2.
