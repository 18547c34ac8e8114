(** The checks that semantic analysis runs on function bodies: control flow and types.

    Models crates/compiler/semantic/src/validation/control_flow_validator.rs 68-386, and, for
    the scalar fragment of Src.v, type_validator.rs (statements) and scope checking.
    A block [{ s1; ..; sn }] is [SSeq s1 (.. (SSeq sn SSkip))]; an empty block is [SSkip]. *)
From Coq Require Import ZArith Bool String List.
From Verif Require Import Mir Src.
Import ListNotations.
Open Scope Z_scope.

(** 353-377: [contains_break]. *)
Fixpoint contains_break (c : stmt) : bool :=
  match c with
  | SBreak => true
  | SSeq a b => contains_break a || contains_break b
  | SIf _ a b => contains_break a || contains_break b
  | SIf1 _ a => contains_break a
  | _ => false
  end.

(** 126-253: does a statement end its path?  (The result of
    [analyze_for_unreachable_code_in_statement] and [.._in_sequence].) *)
Fixpoint terminates (depth : nat) (c : stmt) : bool :=
  match c with
  | SReturn _ => true
  | SSeq a b => terminates depth a || terminates depth b
  | SIf _ a b => terminates depth a && terminates depth b
  | SLoop b => negb (contains_break b)
  | SBreak | SContinue => Nat.ltb 0 depth
  | _ => false
  end.

(** 129-157: the statements that get an "unreachable" warning are those that follow a
    statement that ends its path; here, the body without them. *)
Fixpoint prune (depth : nat) (c : stmt) : stmt :=
  match c with
  | SSeq a b => SSeq (prune depth a) (if terminates depth a then SSkip else prune depth b)
  | SIf e a b => SIf e (prune depth a) (prune depth b)
  | SIf1 e a => SIf1 e (prune depth a)
  | SWhile e b => SWhile e (prune (S depth) b)
  | SLoop b => SLoop (prune (S depth) b)
  | SFor i e st b => SFor (prune depth i) e (prune depth st) (prune (S depth) b)
  | _ => c
  end.

(** 226-250: no error "break outside loop" or "continue outside loop". *)
Fixpoint loops_ok (depth : nat) (c : stmt) : bool :=
  match c with
  | SBreak | SContinue => Nat.ltb 0 depth
  | SSeq a b | SIf _ a b => loops_ok depth a && loops_ok depth b
  | SIf1 _ a => loops_ok depth a
  | SWhile _ b | SLoop b => loops_ok (S depth) b
  | SFor i _ st b => loops_ok depth i && loops_ok depth st && loops_ok (S depth) b
  | _ => true
  end.

(** 318-350: [statement_guarantees_hard_return]. *)
Fixpoint hard_return (c : stmt) : bool :=
  match c with
  | SReturn _ => true
  | SSeq a b => hard_return a || hard_return b
  | SIf _ a b => hard_return a && hard_return b
  | SLoop b => hard_return b
  | _ => false
  end.
(** 260-315: [body_returns_on_all_paths] and [statement_provides_return_value]. *)
Fixpoint provides_return (c : stmt) : bool :=
  match c with
  | SReturn _ => true
  | SSeq a SSkip => provides_return a
  | SSeq a b => hard_return a || provides_return b
  | SIf _ a b => provides_return a && provides_return b
  | SLoop b => provides_return b
  | _ => false
  end.

(** Every variable an expression mentions is declared. *)
Fixpoint scoped (D : list nat) (e : expr) : bool :=
  match e with
  | ELit _ _ | EBool _ => true
  | EVar x => mem_nat x D
  | EUn _ a | ECast a _ => scoped D a
  | EBin _ l r => scoped D l && scoped D r
  | ECall _ args => scoped_args D args
  end
with scoped_args (D : list nat) (es : exprs) : bool :=
  match es with ENil => true | ECons e es' => scoped D e && scoped_args D es' end.

Section Types.
Variables (V : nat -> ty) (sg : sigs) (ret : option ty).
Definition has_type (D : list nat) (e : expr) (t : ty) : bool :=
  scoped D e && match type_of V sg e with Some u => ty_eqb u t | None => false end.

(** type_validator.rs 1340-1560 (statements) and the scope checker: [Some D'] if the
    statement is well typed where the variables [D] are declared; afterwards [D'] are. *)
Fixpoint typed (D : list nat) (c : stmt) : option (list nat) :=
  match c with
  | SSkip | SBreak | SContinue => Some D
  | SSeq a b => match typed D a with Some D' => typed D' b | None => None end
  | SLet x e => if has_type D e (V x) then Some (x :: D) else None
  | SAssign x e => if mem_nat x D && has_type D e (V x) then Some D else None
  | SCall f args =>
    match nth_error sg f with
    | Some (ps, None) => if scoped_args D args && types_of_args V sg args ps then Some D else None
    | _ => None
    end
  | SExpr e => match type_of V sg e with Some t => if scoped D e then Some D else None | None => None end
  | SAssert e => if has_type D e TBool then Some D else None
  | SIf e a b =>
    if has_type D e TBool then
      match typed D a, typed D b with Some _, Some _ => Some D | _, _ => None end
    else None
  | SIf1 e a =>
    if has_type D e TBool then match typed D a with Some _ => Some D | None => None end else None
  | SWhile e b =>
    if has_type D e TBool then match typed D b with Some _ => Some D | None => None end else None
  | SLoop b => match typed D b with Some _ => Some D | None => None end
  | SFor i e st b =>
    match typed D i with
    | Some D' => if has_type D' e TBool then
                   match typed D' st, typed D' b with Some _, Some _ => Some D | _, _ => None end
                 else None
    | None => None
    end
  | SReturn None => match ret with None => Some D | Some _ => None end
  | SReturn (Some e) => match ret with Some t => if has_type D e t then Some D else None | None => None end
  end.
End Types.

(** parser.rs 1388-1430: the first and third parts of [for] are simple statements. *)
Definition simple (c : stmt) : bool :=
  match c with SLet _ _ | SAssign _ _ | SCall _ _ | SExpr _ | SAssert _ => true | _ => false end.
Fixpoint for_parts (c : stmt) : bool :=
  match c with
  | SSeq a b | SIf _ a b => for_parts a && for_parts b
  | SIf1 _ a | SWhile _ a | SLoop a => for_parts a
  | SFor i _ st b => simple i && simple st && for_parts b
  | _ => true
  end.

(** A function passes semantic analysis. *)
Definition sfun_ok (sg : sigs) (f : sfun) : bool :=
  loops_ok 0 (s_body f) && provides_return (s_body f) && for_parts (s_body f)
  && match typed (s_vars f) sg (s_ret f) (seq 0 (length (s_params f))) (s_body f) with
     | Some _ => true | None => false end
  && forallb (fun p => ty_eqb (s_vars f (fst p)) (snd p)) (combine (seq 0 (length (s_params f))) (s_params f)).
Definition module_ok (fs : list sfun) : bool := forallb (sfun_ok (map sig_of fs)) fs.

(** The loops of a function that may be left by [break] (used to state what the
    missing-return check does get right): no [loop] has a [break] of its own. *)
Fixpoint loops_unbroken (c : stmt) : bool :=
  match c with
  | SSeq a b | SIf _ a b => loops_unbroken a && loops_unbroken b
  | SIf1 _ a | SWhile _ a => loops_unbroken a
  | SLoop a => negb (contains_break a) && loops_unbroken a
  | SFor i _ st b => loops_unbroken i && loops_unbroken st && loops_unbroken b
  | _ => true
  end.
