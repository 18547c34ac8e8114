(** Assignment to a part of a variable: crates/compiler/semantic/src/validation/type_validator.rs
    and crates/compiler/mir/src/lowering/stmt.rs. *)
From Coq Require Import NArith String List Bool.
From Verif Require Import Syn Mir.
Import ListNotations.
Open Scope list_scope.

(** A field of a struct or an element of a tuple (stmt.rs 22-36, [LhsStep]). *)
Inductive part : Set := Field (f : string) | Elem (i : nat).

(** stmt.rs 83-122 [decompose_lhs_path]: the base and the parts from the base to the target. *)
Fixpoint decompose (e : expr) (acc : list part) : expr * list part :=
  match e with
  | EMem o f => decompose o (Field f :: acc)
  | ETupIdx t i => decompose t (Elem (N.to_nat i) :: acc)
  | EPar e => decompose e acc
  | _ => (e, acc)
  end.

(** stmt.rs 209-224, 340-356: the variable that is bound again and the part of it; nothing for
    a base without a name (array elements, which are stored to memory, are not part of this model). *)
Definition rebound (e : expr) : option (string * list part) :=
  match decompose e [] with
  | (EId x, ps) => Some (x, ps)
  | _ => None
  end.

Section check.
(** Does a name stand for a constant here (possibly an imported one)?  How names are looked
    up is the subject of C58 and C63. *)
Variable konst : string -> bool.
(** type_validator.rs 1717-1800 [lvalue_resolves_to_const]. *)
Fixpoint const_root (e : expr) : option string :=
  match e with
  | EId x => if konst x then Some x else None
  | EMem o _ => const_root o
  | ETupIdx t _ => const_root t
  | EIdx a _ => const_root a
  | ECast e _ => const_root e
  | EPar e => const_root e
  | _ => None
  end.
Inductive complaint : Set := AssignmentToConst (x : string) | InvalidAssignmentTarget.
(** type_validator.rs 1802-1937: the target of an assignment; [None] if it is accepted. *)
Definition check_target (e : expr) : option complaint :=
  match e with
  | EId _ | EMem _ _ | ETupIdx _ _ | EIdx _ _ => option_map AssignmentToConst (const_root e)
  | _ => Some InvalidAssignmentTarget
  end.
End check.

(** One part with the types of the container and of the part, as the typing of the
    expressions gives them ([expr_mir_type]). *)
Record lstep : Set := LStep { l_part : part; l_container : ty; l_result : ty }.
(** expr.rs / builder: one extraction and one insertion, with destination [d]. *)
Definition extract (d : nat) (c : value) (s : lstep) : minstr :=
  match l_part s with
  | Field f => IExtractField d c f (l_result s)
  | Elem i => IExtractTuple d c i (l_result s)
  end.
Definition insert (d : nat) (c : value) (s : lstep) (w : value) : minstr :=
  match l_part s with
  | Field f => IInsertField d c f w (l_container s)
  | Elem i => IInsertTuple d c i w (l_container s)
  end.
(** stmt.rs 277-309: the values on the way to the target, from the fresh number [n]. *)
Fixpoint extracts (n : nat) (c : value) (ss : list lstep) : list minstr :=
  match ss with
  | [] => []
  | s :: r => extract n c s :: extracts (S n) (Op n) r
  end.
(** stmt.rs 311-339: the loop from the deepest step outwards, on the reversed steps; the value
    extracted for step [i] is [n + i]; [k] is the next fresh number. *)
Fixpoint inserts (n k : nat) (base w : value) (ss : list lstep) : list minstr * value :=
  match ss with
  | [] => ([], w)
  | s :: r =>
    let c := match length r with O => base | S i => Op (n + i) end in
    let x := inserts n (S k) base (Op k) r in
    (insert k c s w :: fst x, snd x)
  end.
(** stmt.rs 277-352: the instructions and the value that the variable is bound to. *)
Definition write_back (n : nat) (base : value) (ss : list lstep) (w : value) : list minstr * value :=
  let x := inserts n (n + length ss) base w (rev ss) in
  (extracts n base ss ++ fst x, snd x).
