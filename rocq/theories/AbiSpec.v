(** How a value of an ABI type is laid out for a call (the comment at lib.rs 483-493 as a
    relation): the slots it occupies, and what the memory holds behind its pointers.
    Independent of the encoder and the decoder. *)
From Coq Require Import ZArith Bool List.
From Verif Require Import M31 VmMem Cli Abi.
Import ListNotations.
Open Scope Z_scope.

(** Consecutive cells from [p] on hold [cells]; [f] is the memory. *)
Definition cells_at (f : Z -> qm31) (p : Z) (cells : list Z) : Prop :=
  0 <= p /\ p + zlen cells <= 268435456 /\
  forall i x, znth cells i = Some x -> f (p + i) = Q x 0 0 0.

(** [layout f t v slots c]: with memory [f], the slots represent the argument [v] of type
    [t]; [c] is the value as the runner reports it. *)
Inductive layout (f : Z -> qm31) : abi -> input -> list Z -> cval -> Prop :=
| l_felt n : layout f AFelt (INumber n) [n mod P] (VFelt (n mod P))
| l_bool n : n = 0 \/ n = 1 -> layout f ABool (INumber n) [n] (VBool (n =? 1))
| l_bool' b : layout f ABool (IBool b) [if b then 1 else 0] (VBool b)
| l_u32 n : 0 <= n < 4294967296 -> layout f AU32 (INumber n) [n mod 65536; n / 65536] (VU32 n)
| l_array e n vs p cells cs : n = zlen vs -> elems f e vs cells cs -> cells_at f p cells ->
    layout f (AArray e n) (IList vs) [p] (VArray cs)
| l_sized e n vs p cells cs : n = zlen vs -> elems f e vs cells cs -> cells_at f p cells ->
    layout f (APointer e (Some n)) (IList vs) [p] (VArray cs)
| l_pointer e vs p cells cs : elems f e vs cells cs -> cells_at f p cells ->
    layout f (APointer e None) (IList vs) [p] (VPointer p)
| l_tuple ts vs slots cs : parts f ts vs slots cs -> layout f (ATuple ts) (IList vs) slots (VTuple cs)
| l_struct fs vs slots cs : parts f (map snd fs) vs slots cs ->
    layout f (AStruct fs) (IStruct vs) slots (VStruct (combine (map fst fs) cs))
| l_unit : layout f AUnit IUnit [] VUnit
(* values of one type, one after the other *)
with elems (f : Z -> qm31) : abi -> list input -> list Z -> list cval -> Prop :=
| e_nil e : elems f e [] [] []
| e_cons e v vs s ss c cs : layout f e v s c -> elems f e vs ss cs -> elems f e (v :: vs) (s ++ ss) (c :: cs)
(* values of several types, one after the other *)
with parts (f : Z -> qm31) : list abi -> list input -> list Z -> list cval -> Prop :=
| p_nil : parts f [] [] [] []
| p_cons t ts v vs s ss c cs : layout f t v s c -> parts f ts vs ss cs -> parts f (t :: ts) (v :: vs) (s ++ ss) (c :: cs).

(** The value an argument stands for, for types whose pointers have a length. *)
Fixpoint omap {A B} (g : A -> option B) (l : list A) : option (list B) :=
  match l with
  | [] => Some []
  | x :: r => match g x, omap g r with Some y, Some ys => Some (y :: ys) | _, _ => None end
  end.
Fixpoint denote (t : abi) (v : input) : option cval :=
  match t, v with
  | AFelt, INumber n => Some (VFelt (n mod P))
  | ABool, INumber n => if n =? 0 then Some (VBool false) else if n =? 1 then Some (VBool true) else None
  | ABool, IBool b => Some (VBool b)
  | AU32, INumber n => if (0 <=? n) && (n <? 4294967296) then Some (VU32 n) else None
  | (AArray e n | APointer e (Some n)), IList vs =>
    if n =? zlen vs then option_map VArray (omap (denote e) vs) else None
  | ATuple ts, IList vs =>
    option_map VTuple ((fix go ts vs := match ts, vs with
      | [], [] => Some []
      | t :: ts', v :: vs' => match denote t v, go ts' vs' with Some y, Some ys => Some (y :: ys) | _, _ => None end
      | _, _ => None
      end) ts vs)
  | AStruct fs, IStruct vs =>
    option_map VStruct ((fix go fs vs := match fs, vs with
      | [], [] => Some []
      | (n, t) :: fs', v :: vs' => match denote t v, go fs' vs' with Some y, Some ys => Some ((n, y) :: ys) | _, _ => None end
      | _, _ => None
      end) fs vs)
  | AUnit, IUnit => Some VUnit
  | _, _ => None
  end.

Fixpoint denote_all (ts : list abi) (vs : list input) : option (list cval) :=
  match ts, vs with
  | [], [] => Some []
  | t :: ts', v :: vs' => match denote t v, denote_all ts' vs' with Some y, Some ys => Some (y :: ys) | _, _ => None end
  | _, _ => None
  end.

(** No pointer at all; pointers only outside arrays and other pointers. *)
Fixpoint no_pointer (t : abi) : bool :=
  match t with
  | APointer _ _ => false
  | AArray e _ => no_pointer e
  | ATuple l => forallb no_pointer l
  | AStruct fs => forallb (fun f => no_pointer (snd f)) fs
  | _ => true
  end.
Fixpoint shallow (t : abi) : bool :=
  match t with
  | APointer e _ => no_pointer e
  | AArray e _ => no_pointer e
  | ATuple l => forallb shallow l
  | AStruct fs => forallb (fun f => shallow (snd f)) fs
  | _ => true
  end.
(** Every pointer has a length. *)
Fixpoint lengths_known (t : abi) : bool :=
  match t with
  | APointer e l => match l with Some _ => lengths_known e | None => false end
  | AArray e _ => lengths_known e
  | ATuple l => forallb lengths_known l
  | AStruct fs => forallb (fun f => lengths_known (snd f)) fs
  | _ => true
  end.
