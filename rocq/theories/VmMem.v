(** The runner's memory. Models crates/runner/src/memory/mod.rs. *)
From Coq Require Import ZArith Bool List.
From Verif Require Import M31 Instr.
Import ListNotations.
Open Scope Z_scope.

(** memory/mod.rs 18-28: [MAX_ADDRESS = 2^28 - 1], [U32_LIMB_MASK = 2^16 - 1]. *)
Definition MAX_ADDRESS : Z := 268435455.
Definition U32_LIMB_MASK : Z := 65535.

(** memory/mod.rs 31-47 [MemoryError] (the constant [max_addr] is dropped). *)
Inductive merr : Set :=
| AddressOutOfBounds (addr : Z)
| BaseFieldProjectionFailed (addr : Z) (value : qm31)
| UninitializedMemoryCell (addr : Z)
| U32LimbOutOfRange (limb_lo limb_hi : Z).

(** runner/src/vm/mod.rs 30-40 [VmError] and vm/instructions/mod.rs 37-47
    [InstructionExecutionError], flattened.  [EPanic] is a Rust panic. *)
Inductive verr : Set :=
| EMem (e : merr)
| EInstr (e : ierr)
| EDivByZero                    (* InvalidOperand("Division by zero") *)
| EPanic.

Inductive res (A : Type) : Type := Ok (a : A) | Err (e : verr).
Arguments Ok {A} a. Arguments Err {A} e.

(** common/src/state.rs [MemoryEntry]. *)
Record entry : Set := En { e_addr : Z; e_val : qm31 }.

(** memory/mod.rs 50-64 [Memory]: two growing vectors and the access log
    (in chronological order). *)
Record mem : Set := Mem { locals : list qm31; heap : list qm31; mtrace : list entry }.

Definition zlen {A} (l : list A) : Z := Z.of_nat (length l).
(** [Vec::get]. *)
Definition znth {A} (l : list A) (i : Z) : option A :=
  if i <? 0 then None else nth_error l (Z.to_nat i).
Fixpoint nset {A} (l : list A) (i : nat) (v : A) : list A :=
  match l, i with
  | [], _ => []
  | _ :: t, O => v :: t
  | h :: t, S k => h :: nset t k v
  end.
(** [vec[i] = v] (only used with [i] in range). *)
Definition zset {A} (l : list A) (i : Z) (v : A) : list A := nset l (Z.to_nat i) v.
(** [Vec::resize(n, zero)] (only used to grow). *)
Definition zgrow (l : list qm31) (n : Z) : list qm31 :=
  l ++ repeat qzero (Z.to_nat (n - zlen l)).

Definition log (m : mem) (a : Z) (v : qm31) : mem :=
  Mem (locals m) (heap m) (mtrace m ++ [En a v]).

(** memory/mod.rs 74-80 [validate_address]. *)
Definition valid_addr (a : Z) : bool := negb (MAX_ADDRESS <? a).

(** memory/mod.rs 173-188 [get_qm31_no_trace]. *)
Definition raw (m : mem) (a : Z) : qm31 :=
  match znth (locals m) a with
  | Some v => v
  | None => match znth (heap m) (MAX_ADDRESS - a) with Some v => v | None => qzero end
  end.
Definition get_qm31 (m : mem) (a : Z) : res qm31 :=
  if negb (valid_addr a) then Err (EMem (AddressOutOfBounds a))
  else let v := raw m a in
       if qprojb v then Ok v else Err (EMem (BaseFieldProjectionFailed a v)).

(** A computation on the memory: the memory is returned also on failure. *)
Definition M (A : Type) : Type := mem -> mem * res A.
Definition ret {A} (a : A) : M A := fun m => (m, Ok a).
Definition fail {A} (e : verr) : M A := fun m => (m, Err e).
Definition bind {A B} (x : M A) (f : A -> M B) : M B :=
  fun m => match x m with (m', Ok a) => f a m' | (m', Err e) => (m', Err e) end.
Declare Scope vm_scope.
Delimit Scope vm_scope with vm.
Notation "x <- e ;; f" := (bind e (fun x => f))
  (at level 80, e at level 79, right associativity) : vm_scope.
Notation "e ;;; f" := (bind e (fun _ => f)) (at level 80, right associativity) : vm_scope.
Open Scope vm_scope.

(** memory/mod.rs 205-209 [get_data]. *)
Definition get_data (a : Z) : M Z := fun m =>
  match get_qm31 m a with Ok v => (log m a v, Ok (q0 v)) | Err e => (m, Err e) end.
(** memory/mod.rs 224-227 [get_data_no_trace]. *)
Definition get_data_no_trace (a : Z) : M Z := fun m =>
  match get_qm31 m a with Ok v => (m, Ok (q0 v)) | Err e => (m, Err e) end.

(** memory/mod.rs 256-281 [insert_no_trace]. *)
Definition insert_no_trace (a : Z) (v : qm31) : M unit := fun m =>
  if negb (valid_addr a) then (m, Err (EMem (AddressOutOfBounds a)))
  else
    let ha := MAX_ADDRESS - a in
    if a <? zlen (locals m) then (Mem (zset (locals m) a v) (heap m) (mtrace m), Ok tt)
    else if ha <? zlen (heap m) then (Mem (locals m) (zset (heap m) ha v) (mtrace m), Ok tt)
    else if a - zlen (locals m) <? ha - zlen (heap m)
    then (Mem (zset (zgrow (locals m) (a + 1)) a v) (heap m) (mtrace m), Ok tt)
    else (Mem (locals m) (zset (zgrow (heap m) (ha + 1)) ha v) (mtrace m), Ok tt).

(** memory/mod.rs 240-244 [insert]. *)
Definition insert (a : Z) (v : qm31) : M unit := fun m =>
  match insert_no_trace a v m with
  | (m', Ok _) => (log m' a v, Ok tt)
  | (m', Err e) => (m', Err e)
  end.

(** memory/mod.rs 304-324 [insert_entrypoint_call]. *)
Definition insert_entrypoint_call (final_pc f : Z) : M unit := fun m =>
  let a2 := msub f 2 in
  let a1 := msub f 1 in
  if negb (valid_addr a2) then (m, Err (EMem (AddressOutOfBounds a2)))
  else if negb (valid_addr a1) then (m, Err (EMem (AddressOutOfBounds a1)))
  else
    let l := if zlen (locals m) <=? a1 then zgrow (locals m) (a1 + 1) else locals m in
    (Mem (zset (zset l a2 (qofm f)) a1 (qofm final_pc)) (heap m) (mtrace m), Ok tt).

(** [(limb_hi << 16) | limb_lo] on u32. *)
Definition u32_of_limbs (lo hi : Z) : Z := Z.lor (Z.shiftl hi 16) lo.
Definition limbs_ok (lo hi : Z) : bool :=
  negb ((U32_LIMB_MASK <? lo) || (U32_LIMB_MASK <? hi)).

(** memory/mod.rs 370-382 [get_u32]. *)
Definition get_u32 (a : Z) : M Z :=
  lo <- get_data a ;;
  hi <- get_data (madd a 1) ;;
  if limbs_ok lo hi then ret (u32_of_limbs lo hi) else fail (EMem (U32LimbOutOfRange lo hi)).
(** memory/mod.rs 387-399 [get_u32_no_trace]. *)
Definition get_u32_no_trace (a : Z) : M Z :=
  lo <- get_data_no_trace a ;;
  hi <- get_data_no_trace (madd a 1) ;;
  if limbs_ok lo hi then ret (u32_of_limbs lo hi) else fail (EMem (U32LimbOutOfRange lo hi)).
(** memory/mod.rs 402-409 [insert_u32]. *)
Definition insert_u32 (a v : Z) : M unit :=
  insert a (qofm (mfrom (Z.land v U32_LIMB_MASK))) ;;;
  insert (madd a 1) (qofm (mfrom (Z.land (Z.shiftr v 16) U32_LIMB_MASK))).

(** memory/mod.rs 94-158 [get_instruction]: reads only [locals]; the extra words
    are at [addr + 1 .. ].  Sizes are at most 6, i.e. at most two words; the loop is
    kept general. *)
Fixpoint fetch_more (n : nat) (i a : Z) (acc : list Z) : M (list Z) :=
  match n with
  | O => ret acc
  | S k => fun m =>
    let a' := madd a (mfrom i) in
    match znth (locals m) a' with
    | None => (m, Err (EMem (UninitializedMemoryCell a')))
    | Some w => fetch_more k (i + 1) a (acc ++ qlist w) (log m a' w)
    end
  end.
Definition get_instruction (a : Z) : M (list Z) := fun m =>
  match znth (locals m) a with
  | None => (m, Err (EMem (UninitializedMemoryCell a)))
  | Some w =>
    let m1 := log m a w in
    match opcode_size (q0 w) with
    | None => (m1, Ok (qlist w))
    | Some sz =>
      match fetch_more (Z.to_nat (div_ceil4 sz - 1)) 1 a (qlist w) m1 with
      | (m2, Ok l) => (m2, Ok (firstn (Z.to_nat sz) l))
      | (m2, Err e) => (m2, Err e)
      end
    end
  end.
