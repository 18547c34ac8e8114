(** What generated code is required to do, in terms of the instruction set [isa] only. *)
From Coq Require Import ZArith Bool String List.
From Verif Require Import M31 Instr Isa MirSem MirIsa Cg.
Import ListNotations.
Open Scope Z_scope.

(** ** Straight-line sequences *)

(** The words of a sequence, the registers after [n] words, and the effect of executing
    a sequence from first to last. *)
Definition total (is : list instr) : Z := fold_right (fun i n => size_qm31 i + n) 0 is.
Definition goes_on (s : state) (n : Z) : state := St ((pc s + n) mod P) (fp s).
Fixpoint seq (is : list instr) (m : Z -> Z) (s : state) : option ((Z -> Z) * state) :=
  match is with
  | [] => Some (m, s)
  | i :: r => match isa i m s with
              | Some e => seq r (upds m (writes e)) (next e)
              | None => None
              end
  end.
(** Memory [m'] agrees with [m] except on the frame slots [lo .. hi-1]. *)
Definition agree_but (s : state) (lo hi : Z) (m m' : Z -> Z) : Prop :=
  forall a, (forall k, lo <= k < hi -> a <> slot s k) -> m' a = m a.
(** The sequence [is] can stand for the instruction [i]: it writes what [i] writes, apart
    from the slots [lo .. hi-1], and continues where [i] continues (behind itself, if [i]
    continues behind itself). *)
Definition stands_for (s : state) (lo hi : Z) (is : list instr) (m : Z -> Z) (e : Isa.effect) : Prop :=
  exists m' s', seq is m s = Some (m', s') /\
    agree_but s lo hi (upds m (writes e)) m' /\
    (s' = next e \/ exists n, next e = goes_on s n /\ s' = goes_on s (total is)).

(** ** Code with labels *)

(** A machine: the instruction starting at each address, and bounds for the frame pointer;
    the lower one depends on the address, because functions reach below their frames to
    different depths. *)
Record machine : Type := Mach { code : Z -> option instr; fp_min : Z -> Z; fp_max : Z }.
(** The frame pointer [f] is in bounds at the addresses [a .. z-1]. *)
Definition fits (M : machine) (a z f : Z) : Prop := forall x, a <= x < z -> fp_min M x <= f <= fp_max M.
Definition mstep (M : machine) (m : Z -> Z) (s : state) (m' : Z -> Z) (s' : state) : Prop :=
  fp_min M (pc s) <= fp s <= fp_max M /\
  exists i e, code M (pc s) = Some i /\ isa i m s = Some e /\ m' = upds m (writes e) /\ s' = next e.
Inductive msteps (M : machine) : (Z -> Z) -> state -> (Z -> Z) -> state -> Prop :=
| msteps_nil m s : msteps M m s m s
| msteps_cons m s m1 s1 m2 s2 : mstep M m s m1 s1 -> msteps M m1 s1 m2 s2 -> msteps M m s m2 s2.
(** Execution stops at an instruction that is not allowed to succeed. *)
Definition mtraps (M : machine) (m : Z -> Z) (s : state) : Prop :=
  exists m' s', msteps M m s m' s' /\
    fp_min M (pc s') <= fp s' <= fp_max M /\ exists i, code M (pc s') = Some i /\ isa i m' s' = None.

(** The instruction at address [a] standing for [i], which refers to a label that is at
    address [b]: jumps and branches are relative, calls and constants absolute. *)
Definition aimed (a b : Z) (i : instr) : option instr :=
  match i with
  | JmpRelImm _ => Some (JmpRelImm ((b - a) mod P))
  | JnzFpImm c _ => Some (JnzFpImm c ((b - a) mod P))
  | CallAbsImm o _ => Some (CallAbsImm o (b mod P))
  | StoreImm _ d => Some (StoreImm (b mod P) d)
  | _ => None
  end.
(** Instructions and labels sit at addresses [a] to [z]; [lab] gives label addresses. *)
Fixpoint placed (C : Z -> option instr) (lab : string -> option Z) (a : Z) (is : list item) (z : Z) : Prop :=
  match is with
  | [] => a = z
  | CL l :: r => lab l = Some a /\ placed C lab a r z
  | CI i t :: r =>
    match t with
    | None => C a = Some i
    | Some l => exists b j, lab l = Some b /\ aimed a b i = Some j /\ C a = Some j
    end /\ placed C lab (a + size_qm31 i) r z
  end.

(** The instruction starting at word [a] of a program. *)
Fixpoint fetch (is : list instr) (a : Z) : option instr :=
  match is with
  | [] => None
  | i :: r => if a =? 0 then Some i else if a <? 0 then None else fetch r (a - size_qm31 i)
  end.
(** The word at which instruction number [k] starts. *)
Definition start (is : list instr) (k : nat) : Z := total (firstn k is).
