(** Independent specification of the instruction set ("what each instruction is
    documented to do"), written over a flat memory of field elements.  Sources: the
    comments of crates/common/src/instruction.rs 315-577 and of
    crates/runner/src/vm/instructions/*.rs.  Nothing here refers to the VM model. *)
From Coq Require Import ZArith Bool List.
From Verif Require Import M31 Instr.
Import ListNotations.
Open Scope Z_scope.

(** What one instruction does: cells read (in order), cells read silently (print
    only), cells written (in order, with values) and the next registers. *)
Record effect : Set := Eff {
  reads : list Z; peeks : list Z; writes : list (Z * Z); next : state }.

Definition B16 : Z := 65536.
Definition B32 : Z := 4294967296.

(** [isa i m s]: the effect of instruction [i] in registers [s] when cell [a] holds
    the field element [m a]; [None] when the instruction is not allowed to succeed
    (limb out of range, division by zero, failed assertion). *)
Definition isa (i : instr) (m : Z -> Z) (s : state) : option effect :=
  let at_ o := (fp s + o) mod P in
  let hi a := (a + 1) mod P in
  let words n := St ((pc s + n) mod P) (fp s) in
  let pair a := [a; hi a] in
  let u32 a := m a + B16 * m (hi a) in
  let u32ok a := (m a <? B16) && (m (hi a) <? B16) in
  let imm32 lo hi := lo + B16 * hi in
  let imm32ok lo hi := (lo <? B16) && (hi <? B16) in
  let put a v := [(a, v mod B16); (hi a, v / B16)] in
  let felt2 a b d (f : Z -> Z -> Z) :=
    Some (Eff [at_ a; at_ b] [] [(at_ d, f (m (at_ a)) (m (at_ b)))] (words 1)) in
  let felt1 a d (f : Z -> Z) :=
    Some (Eff [at_ a] [] [(at_ d, f (m (at_ a)))] (words 1)) in
  let u2 a b d (f : Z -> Z -> Z) :=
    if u32ok (at_ a) && u32ok (at_ b) then
      Some (Eff (pair (at_ a) ++ pair (at_ b)) [] (put (at_ d) (f (u32 (at_ a)) (u32 (at_ b)))) (words 1))
    else None in
  let u1 a lo hi d (f : Z -> Z -> Z) :=
    if imm32ok lo hi && u32ok (at_ a) then
      Some (Eff (pair (at_ a)) [] (put (at_ d) (f (u32 (at_ a)) (imm32 lo hi))) (words 2))
    else None in
  let cmp2 a b d (f : Z -> Z -> bool) :=
    if u32ok (at_ a) && u32ok (at_ b) then
      Some (Eff (pair (at_ a) ++ pair (at_ b)) []
                [(at_ d, if f (u32 (at_ a)) (u32 (at_ b)) then 1 else 0)] (words 1))
    else None in
  let cmp1 a lo hi d (f : Z -> Z -> bool) :=
    if imm32ok lo hi && u32ok (at_ a) then
      Some (Eff (pair (at_ a)) [] [(at_ d, if f (u32 (at_ a)) (imm32 lo hi) then 1 else 0)] (words 2))
    else None in
  match i with
  | StoreAddFpFp a b d => felt2 a b d (fun x y => (x + y) mod P)
  | StoreSubFpFp a b d => felt2 a b d (fun x y => (x - y) mod P)
  | StoreMulFpFp a b d => felt2 a b d (fun x y => (x * y) mod P)
  | StoreDivFpFp a b d =>
    if m (at_ b) =? 0 then None else felt2 a b d (fun x y => (x * minv y) mod P)
  | StoreAddFpImm a imm d => felt1 a d (fun x => (x + imm) mod P)
  | StoreMulFpImm a imm d => felt1 a d (fun x => (x * imm) mod P)
  | StoreLeFpImm a imm d => felt1 a d (fun x => if x <=? imm then 1 else 0)
  | AssertEqFpImm a imm =>
    if m (at_ a) =? imm then Some (Eff [at_ a] [] [] (words 1)) else None
  | StoreDoubleDerefFp b imm d =>
    let p := (m (at_ b) + imm) mod P in
    Some (Eff [at_ b; p] [] [(at_ d, m p)] (words 1))
  | StoreDoubleDerefFpFp b o d =>
    let p := (m (at_ b) + m (at_ o)) mod P in
    Some (Eff [at_ b; at_ o; p] [] [(at_ d, m p)] (words 1))
  | StoreImm imm d => Some (Eff [] [] [(at_ d, imm)] (words 1))
  | StoreFramePointer imm d => Some (Eff [] [] [(at_ d, (fp s + imm) mod P)] (words 1))
  | CallAbsImm off t =>
    Some (Eff [] [] [(at_ off, fp s); (hi (at_ off), (pc s + 1) mod P)]
              (St t ((fp s + off + 2) mod P)))
  | Ret =>
    let p := (fp s - 1) mod P in
    let f := (fp s - 2) mod P in
    Some (Eff [p; f] [] [] (St (m p) (m f)))
  | JmpAbsImm t => Some (Eff [] [] [] (St t (fp s)))
  | JmpRelImm o => Some (Eff [] [] [] (words o))
  | JnzFpImm c o =>
    Some (Eff [at_ c] [] [] (if m (at_ c) =? 0 then words 1 else words o))
  | U32StoreAddFpFp a b d => u2 a b d (fun x y => (x + y) mod B32)
  | U32StoreSubFpFp a b d => u2 a b d (fun x y => (x - y) mod B32)
  | U32StoreMulFpFp a b d => u2 a b d (fun x y => (x * y) mod B32)
  | U32StoreDivRemFpFp a b d r =>
    if u32ok (at_ a) && u32ok (at_ b) && negb (u32 (at_ b) =? 0) then
      Some (Eff (pair (at_ a) ++ pair (at_ b)) []
                (put (at_ d) (u32 (at_ a) / u32 (at_ b)) ++ put (at_ r) (u32 (at_ a) mod u32 (at_ b)))
                (words 2))
    else None
  | U32StoreAddFpImm a lo hi d => u1 a lo hi d (fun x y => (x + y) mod B32)
  | U32StoreMulFpImm a lo hi d => u1 a lo hi d (fun x y => (x * y) mod B32)
  | U32StoreDivRemFpImm a lo hi d r =>
    if imm32ok lo hi && negb (imm32 lo hi =? 0) && u32ok (at_ a) then
      Some (Eff (pair (at_ a)) []
                (put (at_ d) (u32 (at_ a) / imm32 lo hi) ++ put (at_ r) (u32 (at_ a) mod imm32 lo hi))
                (words 2))
    else None
  | U32StoreImm lo hi d =>
    if imm32ok lo hi then Some (Eff [] [] (put (at_ d) (imm32 lo hi)) (words 1)) else None
  | U32StoreEqFpFp a b d => cmp2 a b d Z.eqb
  | U32StoreLtFpFp a b d => cmp2 a b d Z.ltb
  | U32StoreEqFpImm a lo hi d => cmp1 a lo hi d Z.eqb
  | U32StoreLtFpImm a lo hi d => cmp1 a lo hi d Z.ltb
  | U32StoreAndFpFp a b d => u2 a b d Z.land
  | U32StoreOrFpFp a b d => u2 a b d Z.lor
  | U32StoreXorFpFp a b d => u2 a b d Z.lxor
  | U32StoreAndFpImm a lo hi d => u1 a lo hi d Z.land
  | U32StoreOrFpImm a lo hi d => u1 a lo hi d Z.lor
  | U32StoreXorFpImm a lo hi d => u1 a lo hi d Z.lxor
  | StoreToDoubleDerefFpImm b imm src =>
    Some (Eff [at_ b; at_ src] [] [((m (at_ b) + imm) mod P, m (at_ src))] (words 1))
  | StoreToDoubleDerefFpFp b o src =>
    Some (Eff [at_ b; at_ o; at_ src] [] [((m (at_ b) + m (at_ o)) mod P, m (at_ src))] (words 1))
  | PrintM31 o => Some (Eff [] [at_ o] [] (words 1))
  | PrintU32 o => if u32ok (at_ o) then Some (Eff [] (pair (at_ o)) [] (words 1)) else None
  end.

(** Applying writes in order: the last write to a cell wins. *)
Fixpoint upds {A} (m : Z -> A) (ws : list (Z * A)) : Z -> A :=
  match ws with
  | [] => m
  | (a, v) :: r => upds (fun b => if b =? a then v else m b) r
  end.
