(** Independent meaning of source programs: what running a function does, written from the
    language documentation (docs/getting-started.md) and without reference to the compiler.

    Arithmetic on felts is modulo 2^31 - 1 and on u32 modulo 2^32.  Division by zero, failed
    assertions and casts of numbers that are no felt are failures.  Both operands of [&&] and
    [||] are evaluated.  Undefined variables and ill-typed operands have no meaning. *)
From Coq Require Import ZArith Bool String List.
From Verif Require Import M31 Isa Mir MirSem Src.
Import ListNotations.
Open Scope Z_scope.

Definition store : Type := nat -> option val.
Definition set (s : store) (x : nat) (v : val) : store := fun y => if Nat.eqb y x then Some v else s y.

Definition lit_val (n : Z) (t : ty) : res val :=
  match t with TFelt => ROk (VFelt n) | TU32 => ROk (VU32 n) | _ => RStuck end.
Definition src_un (op : unop) (a : val) : res val :=
  match op, a with
  | Not, VBool b => ROk (VBool (negb b))
  | Neg, VFelt x => ROk (VFelt ((- x) mod P))
  | Neg, VU32 x => ROk (VU32 ((- x) mod B32))
  | _, _ => RStuck
  end.
Definition src_bin (op : sop) (a b : val) : res val :=
  match a, b with
  | VFelt x, VFelt y =>
    match op with
    | SAdd => ROk (VFelt ((x + y) mod P))
    | SSub => ROk (VFelt ((x - y) mod P))
    | SMul => ROk (VFelt ((x * y) mod P))
    | SDiv => if y =? 0 then RTrap else ROk (VFelt ((x * minv y) mod P))
    | SEq => ROk (VBool (x =? y))
    | SNeq => ROk (VBool (negb (x =? y)))
    | _ => RStuck
    end
  | VU32 x, VU32 y =>
    match op with
    | SAdd => ROk (VU32 ((x + y) mod B32))
    | SSub => ROk (VU32 ((x - y) mod B32))
    | SMul => ROk (VU32 ((x * y) mod B32))
    | SDiv => if y =? 0 then RTrap else ROk (VU32 (x / y))
    | SMod => if y =? 0 then RTrap else ROk (VU32 (x mod y))
    | SEq => ROk (VBool (x =? y))
    | SNeq => ROk (VBool (negb (x =? y)))
    | SLt => ROk (VBool (x <? y))
    | SGt => ROk (VBool (y <? x))
    | SLe => ROk (VBool (x <=? y))
    | SGe => ROk (VBool (y <=? x))
    | SBitAnd => ROk (VU32 (Z.land x y))
    | SBitOr => ROk (VU32 (Z.lor x y))
    | SBitXor => ROk (VU32 (Z.lxor x y))
    | _ => RStuck
    end
  | VBool x, VBool y =>
    match op with
    | SEq => ROk (VBool (Bool.eqb x y))
    | SNeq => ROk (VBool (negb (Bool.eqb x y)))
    | SAnd => ROk (VBool (x && y))
    | SOr => ROk (VBool (x || y))
    | _ => RStuck
    end
  | _, _ => RStuck
  end.

(** What the function does when control leaves a statement. *)
Inductive out : Type := ONext (s : store) | OBreak (s : store) | OCont (s : store) | ORet (v : option val).

Section Sem.
(** The result of calling another function. *)
Variable call : nat -> list val -> res (option val).

Fixpoint eval (s : store) (e : expr) : res val :=
  match e with
  | ELit n t => lit_val n t
  | EBool b => ROk (VBool b)
  | EVar x => of_opt (s x)
  | EUn op a => rbind (eval s a) (src_un op)
  | EBin op l r => rbind (eval s l) (fun a => rbind (eval s r) (fun b => src_bin op a b))
  | ECall f args => rbind (evals s args) (fun vs => rbind (call f vs) of_opt)
  | ECast a _ => rbind (eval s a) (fun v =>
                 match v with VU32 z => if z <? P then ROk (VFelt z) else RTrap | _ => RStuck end)
  end
with evals (s : store) (es : exprs) : res (list val) :=
  match es with
  | ENil => ROk []
  | ECons e es' => rbind (eval s e) (fun v => rbind (evals s es') (fun vs => ROk (v :: vs)))
  end.

Definition cond (s : store) (e : expr) (k : bool -> res out) : res out :=
  rbind (eval s e) (fun v => match v with VBool b => k b | _ => RStuck end).

(** Running a statement; [n] bounds the nesting of statements and the number of loop rounds. *)
Fixpoint sexec (n : nat) (s : store) (c : stmt) : res out :=
  match n with
  | O => RFuel
  | S k =>
    match c with
    | SSkip => ROk (ONext s)
    | SSeq a b => rbind (sexec k s a) (fun o => match o with ONext s' => sexec k s' b | _ => ROk o end)
    | SLet x e | SAssign x e => rbind (eval s e) (fun v => ROk (ONext (set s x v)))
    | SCall f args => rbind (evals s args) (fun vs => rbind (call f vs) (fun _ => ROk (ONext s)))
    | SExpr e => rbind (eval s e) (fun _ => ROk (ONext s))
    | SAssert e => cond s e (fun b => if b then ROk (ONext s) else RTrap)
    | SIf e a b => cond s e (fun v => sexec k s (if v then a else b))
    | SIf1 e a => cond s e (fun v => if v then sexec k s a else ROk (ONext s))
    | SWhile e b =>
      cond s e (fun v =>
        if v then rbind (sexec k s b) (fun o =>
                  match o with
                  | ONext s' | OCont s' => sexec k s' (SWhile e b)
                  | OBreak s' => ROk (ONext s')
                  | ORet v => ROk (ORet v)
                  end)
        else ROk (ONext s))
    | SLoop b =>
      rbind (sexec k s b) (fun o =>
        match o with
        | ONext s' | OCont s' => sexec k s' (SLoop b)
        | OBreak s' => ROk (ONext s')
        | ORet v => ROk (ORet v)
        end)
    | SFor i e st b =>
      rbind (sexec k s i) (fun o =>
        match o with
        | ONext s' => sfor k s' e st b
        | _ => RStuck
        end)
    | SBreak => ROk (OBreak s)
    | SContinue => ROk (OCont s)
    | SReturn None => ROk (ORet None)
    | SReturn (Some e) => rbind (eval s e) (fun v => ROk (ORet (Some v)))
    end
  end
(** The rounds of a [for] loop: [continue] runs the step. *)
with sfor (n : nat) (s : store) (e : expr) (st b : stmt) : res out :=
  match n with
  | O => RFuel
  | S k =>
    cond s e (fun v =>
      if v then rbind (sexec k s b) (fun o =>
                match o with
                | ONext s' | OCont s' =>
                  rbind (sexec k s' st) (fun o' =>
                    match o' with ONext s'' => sfor k s'' e st b | _ => RStuck end)
                | OBreak s' => ROk (ONext s')
                | ORet v => ROk (ORet v)
                end)
      else ROk (ONext s))
  end.

(** The parameters are the first variables. *)
Definition init (args : list val) : store := fun x => nth_error args x.
Definition frun (n : nat) (f : sfun) (args : list val) : res (option val) :=
  rbind (sexec n (init args) (s_body f)) (fun o => match o with ORet v => ROk v | _ => RStuck end).
End Sem.

(** Calling function [k] of a module: [n] bounds the depth of calls, [F] the work of each. *)
Fixpoint src_call (fs : list sfun) (F n : nat) (k : nat) (args : list val) : res (option val) :=
  match n with
  | O => RFuel
  | S n' => match nth_error fs k with
            | Some f => frun (src_call fs F n') F f args
            | None => RStuck
            end
  end.
