(** Independent meaning of the MIR: what running a MIR function does.

    Sources: the documentation of crates/compiler/mir/src/instruction.rs 235-372 and
    terminator.rs, and what the code generator emits for each construct
    (crates/compiler/codegen/src/generator.rs and builder/*.rs): in particular a
    literal has the type of the position it stands in, a conditional branch tests the
    first machine word of its condition ([jnz], builder/ctrlflow.rs), and a comparison
    of felts takes an integer literal as a felt.  Nothing here refers to a pass.

    Memory, calls and allocation go through a [world]: theorems quantify over every
    world, so they hold for every callee and every memory layout.  Ill-typed or
    undefined uses, and constructs the code generator rejects, are [RStuck]. *)
From Coq Require Import ZArith Bool String List.
From Verif Require Import M31 Isa Mir.
Import ListNotations.
Open Scope Z_scope.

(** Run-time values.  A u32 occupies two machine words, every other scalar one. *)
Inductive val : Set :=
| VFelt (z : Z) | VU32 (z : Z) | VBool (b : bool) | VUnit
| VTup (vs : list val) | VStr (fs : list (string * val)) | VPtr (a : Z).

(** Result of a computation: a value, a run-time failure (division by zero, failed
    assertion, out-of-range cast), no meaning, or not finished within the fuel. *)
Inductive res (A : Type) : Type := ROk (a : A) | RTrap | RStuck | RFuel.
Arguments ROk {A} a. Arguments RTrap {A}. Arguments RStuck {A}. Arguments RFuel {A}.

Definition rbind {A B} (r : res A) (k : A -> res B) : res B :=
  match r with ROk a => k a | RTrap => RTrap | RStuck => RStuck | RFuel => RFuel end.
Definition of_opt {A} (o : option A) : res A :=
  match o with Some a => ROk a | None => RStuck end.

(** Does a value have the outermost shape of a type, and fit it? *)
Definition u32b (z : Z) : bool := (0 <=? z) && (z <? B32).
Definition shape (t : ty) (v : val) : bool :=
  match t, v with
  | TFelt, VFelt z => wfb z
  | TU32, VU32 z => u32b z
  | TBool, VBool _ | TUnit, VUnit => true
  | TTuple _, VTup _ | TStruct _ _, VStr _ => true
  | TArr _ _, VPtr _ | TPtr _, VPtr _ => true
  | _, _ => false
  end.

Definition env : Type := nat -> option val.
Definition upd (e : env) (d : nat) (v : val) : env :=
  fun x => if Nat.eqb x d then Some v else e x.

(** A literal standing where a value of type [t] is expected. *)
Definition lit_as (t : ty) (l : lit) : option val :=
  match t, l with
  | TFelt, LInt n => Some (VFelt (n mod P))
  | TU32, LInt n => Some (VU32 (n mod B32))
  | TBool, LBool b => Some (VBool b)
  | TUnit, LUnit => Some VUnit
  | _, _ => None
  end.
Definition eval_as (e : env) (t : ty) (v : value) : option val :=
  match v with
  | Lit l => lit_as t l
  | Op i => match e i with Some x => if shape t x then Some x else None | None => None end
  | VErr => None
  end.

(** A value in a position without a declared type (felt comparison, assertion,
    aggregate operand): integer literals are felts, and u32 values do not fit. *)
Definition eval_any (e : env) (v : value) : option val :=
  match v with
  | Lit (LInt n) => Some (VFelt (n mod P))
  | Lit (LBool b) => Some (VBool b)
  | Lit LUnit => Some VUnit
  | Op i => match e i with
            | Some (VU32 _) => None
            | Some (VFelt z) => if wfb z then Some (VFelt z) else None
            | r => r
            end
  | VErr => None
  end.

(** The operand type of an operator; [None] for the felt/bool equality tests. *)
Definition op_type (op : binop) : option ty :=
  match op with
  | Add | Sub | Mul | Div | Less | Greater | LessEqual | GreaterEqual => Some TFelt
  | Eq | Neq => None
  | And | Or => Some TBool
  | _ => Some TU32
  end.

(** The operators on run-time values.  Felt orderings have no code (felt.rs). *)
Definition sem_bin (op : binop) (a b : val) : res val :=
  match op, a, b with
  | Add, VFelt x, VFelt y => ROk (VFelt ((x + y) mod P))
  | Sub, VFelt x, VFelt y => ROk (VFelt ((x - y) mod P))
  | Mul, VFelt x, VFelt y => ROk (VFelt ((x * y) mod P))
  | Div, VFelt x, VFelt y => if y =? 0 then RTrap else ROk (VFelt ((x * minv y) mod P))
  | Eq, VFelt x, VFelt y => ROk (VBool (x =? y))
  | Neq, VFelt x, VFelt y => ROk (VBool (negb (x =? y)))
  | Eq, VBool x, VBool y => ROk (VBool (Bool.eqb x y))
  | Neq, VBool x, VBool y => ROk (VBool (negb (Bool.eqb x y)))
  | And, VBool x, VBool y => ROk (VBool (x && y))
  | Or, VBool x, VBool y => ROk (VBool (x || y))
  | U32Add, VU32 x, VU32 y => ROk (VU32 ((x + y) mod B32))
  | U32Sub, VU32 x, VU32 y => ROk (VU32 ((x - y) mod B32))
  | U32Mul, VU32 x, VU32 y => ROk (VU32 ((x * y) mod B32))
  | U32Div, VU32 x, VU32 y => if y =? 0 then RTrap else ROk (VU32 (x / y))
  | U32Rem, VU32 x, VU32 y => if y =? 0 then RTrap else ROk (VU32 (x mod y))
  | U32Eq, VU32 x, VU32 y => ROk (VBool (x =? y))
  | U32Neq, VU32 x, VU32 y => ROk (VBool (negb (x =? y)))
  | U32Less, VU32 x, VU32 y => ROk (VBool (x <? y))
  | U32Greater, VU32 x, VU32 y => ROk (VBool (y <? x))
  | U32LessEqual, VU32 x, VU32 y => ROk (VBool (x <=? y))
  | U32GreaterEqual, VU32 x, VU32 y => ROk (VBool (y <=? x))
  | U32BitwiseAnd, VU32 x, VU32 y => ROk (VU32 (Z.land x y))
  | U32BitwiseOr, VU32 x, VU32 y => ROk (VU32 (Z.lor x y))
  | U32BitwiseXor, VU32 x, VU32 y => ROk (VU32 (Z.lxor x y))
  | _, _, _ => RStuck
  end.
Definition sem_un (op : unop) (a : val) : res val :=
  match op, a with
  | Not, VBool b => ROk (VBool (negb b))
  | Neg, VFelt x => ROk (VFelt ((- x) mod P))
  | _, _ => RStuck
  end.

(** The machine word of a one-word scalar.  Assertions compare words: [assert(c)] is
    lowered to an assertion that the boolean [c] equals the integer 1. *)
Definition one_word (v : val) : option Z :=
  match v with VFelt z => Some z | VBool b => Some (if b then 1 else 0) | _ => None end.

(** Operands of a binary operator, then the operator. *)
Definition eval_opnd (e : env) (op : binop) (v : value) : option val :=
  match op_type op with Some t => eval_as e t v | None => eval_any e v end.
Definition eval_bin (e : env) (op : binop) (l r : value) : res val :=
  rbind (of_opt (eval_opnd e op l)) (fun a =>
  rbind (of_opt (eval_opnd e op r)) (fun b => sem_bin op a b)).

(** Memory selectors: a [place] with its index operands evaluated. *)
Inductive sel : Set := SIdx (i : Z) | SField (name : string) | STup (i : nat).
Definition eval_proj (e : env) (p : proj) : option sel :=
  match p with
  | PIdx v => match eval_as e TFelt v with Some (VFelt z) => Some (SIdx z) | _ => None end
  | PField n => Some (SField n)
  | PTup i => Some (STup i)
  end.
Fixpoint omap {A B} (f : A -> option B) (l : list A) : option (list B) :=
  match l with
  | [] => Some []
  | a :: r => match f a, omap f r with Some b, Some t => Some (b :: t) | _, _ => None end
  end.

(** What surrounds a function: memory (over a state [S]), allocation and calls.  The
    type recorded for the base pointer is passed because it fixes the strides. *)
Record world (S : Type) : Type := World {
  w_load : S -> option ty -> val -> list sel -> ty -> res val;
  w_store : S -> option ty -> val -> list sel -> ty -> val -> res S;
  w_array : S -> nat -> list val -> ty -> bool -> res (val * S);
  w_alloc : S -> Z -> res (val * S);
  w_call : nat -> list val -> S -> res (list val * S) }.
Arguments w_load {S}. Arguments w_store {S}. Arguments w_array {S}.
Arguments w_alloc {S}. Arguments w_call {S}.

Fixpoint find_field {A} (n : string) (l : list (string * A)) : option A :=
  match l with
  | [] => None
  | (m, a) :: r => if String.eqb n m then Some a else find_field n r
  end.
Fixpoint set_field {A} (n : string) (a : A) (l : list (string * A)) : list (string * A) :=
  match l with
  | [] => []
  | (m, b) :: r => if String.eqb n m then (m, a) :: r else (m, b) :: set_field n a r
  end.
Fixpoint set_nth {A} (n : nat) (a : A) (l : list A) : list A :=
  match n, l with
  | _, [] => []
  | O, _ :: r => a :: r
  | S k, b :: r => b :: set_nth k a r
  end.
(** Values paired with the types of their positions. *)
Fixpoint eval_list (e : env) (ts : list ty) (vs : list value) : option (list val) :=
  match ts, vs with
  | [], [] => Some []
  | t :: ts', v :: vs' =>
    match eval_as e t v, eval_list e ts' vs' with Some x, Some r => Some (x :: r) | _, _ => None end
  | _, _ => None
  end.
(** The fields of a struct literal, in the order of the declaration: that is how they lie in
    memory (codegen/src/builder/aggregates.rs 8-42). *)
Definition eval_fields (e : env) (fts : list (string * ty)) (fs : list (string * value))
  : option (list (string * val)) :=
  if Nat.eqb (length fs) (length fts)
  then omap (fun f => match find_field (fst f) fs with
                      | Some v => match eval_as e (snd f) v with Some x => Some (fst f, x) | None => None end
                      | None => None
                      end) fts
  else None.
Fixpoint bind_all (e : env) (ds : list nat) (vs : list val) : option env :=
  match ds, vs with
  | [], [] => Some e
  | d :: ds', v :: vs' => bind_all (upd e d v) ds' vs'
  | _, _ => None
  end.

Section Exec.
  Context {S : Type} (W : world S) (tys : nat -> option ty).

  (** What one instruction computes: the values of its destinations, in order, and the
      new state (a phi is executed on block entry, not here). *)
  Definition effect (e : env) (s : S) (i : minstr) : res (list val * S) :=
    let one r := rbind r (fun v : val => ROk ([v], s)) in
    match i with
    | IAssign _ v t => one (of_opt (eval_as e t v))
    | IUnary op _ v => one (rbind (of_opt (eval_any e v)) (sem_un op))
    | IBinary op _ l r => one (eval_bin e op l r)
    | ICall _ c args ps =>
      rbind (of_opt (eval_list e ps args)) (fun vs => w_call W c vs s)
    | ICast _ v st dt =>
      match st, dt with
      | TU32, TFelt =>
        one (rbind (of_opt (eval_as e TU32 v)) (fun x =>
             match x with VU32 z => if z <? P then ROk (VFelt z) else RTrap | _ => RStuck end))
      | _, _ => RStuck
      end
    | ILoad _ p t =>
      rbind (of_opt (e (pl_base p))) (fun b =>
      rbind (of_opt (omap (eval_proj e) (pl_projs p))) (fun ss =>
      one (w_load W s (tys (pl_base p)) b ss t)))
    | IStore p v t =>
      rbind (of_opt (e (pl_base p))) (fun b =>
      rbind (of_opt (omap (eval_proj e) (pl_projs p))) (fun ss =>
      rbind (of_opt (eval_as e t v)) (fun x =>
      rbind (w_store W s (tys (pl_base p)) b ss t x) (fun s' => ROk ([], s')))))
    | IDebug _ _ => RStuck
    | INop => ROk ([], s)
    | IPhi _ _ _ => RStuck
    | IMakeTuple d es =>
      match tys d with
      | Some (TTuple ts) => one (rbind (of_opt (eval_list e ts es)) (fun vs => ROk (VTup vs)))
      | _ => RStuck
      end
    | IExtractTuple _ v n t =>
      one (rbind (of_opt (eval_any e v)) (fun x =>
           match x with
           | VTup vs => match nth_error vs n with
                        | Some y => if shape t y then ROk y else RStuck
                        | None => RStuck
                        end
           | _ => RStuck
           end))
    | IMakeStruct _ fs t =>
      match t with
      | TStruct _ fts => one (rbind (of_opt (eval_fields e fts fs)) (fun vs => ROk (VStr vs)))
      | _ => RStuck
      end
    | IExtractField _ v n t =>
      one (rbind (of_opt (eval_any e v)) (fun x =>
           match x with
           | VStr fs => match find_field n fs with
                        | Some y => if shape t y then ROk y else RStuck
                        | None => RStuck
                        end
           | _ => RStuck
           end))
    | IInsertField _ v n w t =>
      match t with
      | TStruct _ fts =>
        one (rbind (of_opt (eval_any e v)) (fun x =>
             rbind (of_opt (find_field n fts)) (fun ft =>
             rbind (of_opt (eval_as e ft w)) (fun y =>
             match x with
             | VStr fs => match find_field n fs with
                          | Some _ => ROk (VStr (set_field n y fs))
                          | None => RStuck
                          end
             | _ => RStuck
             end))))
      | _ => RStuck
      end
    | IInsertTuple _ v n w t =>
      match t with
      | TTuple ts =>
        one (rbind (of_opt (eval_any e v)) (fun x =>
             rbind (of_opt (nth_error ts n)) (fun et =>
             rbind (of_opt (eval_as e et w)) (fun y =>
             match x with
             | VTup vs => match nth_error vs n with
                          | Some _ => ROk (VTup (set_nth n y vs))
                          | None => RStuck
                          end
             | _ => RStuck
             end))))
      | _ => RStuck
      end
    | IMakeArray d es t c =>
      rbind (of_opt (omap (eval_as e t) es)) (fun vs =>
      rbind (w_array W s d vs t c) (fun r => ROk ([fst r], snd r)))
    | IAssertEq l r =>
      rbind (of_opt (eval_any e l)) (fun a =>
      rbind (of_opt (eval_any e r)) (fun b =>
      match one_word a, one_word b with
      | Some x, Some y => if x =? y then ROk ([], s) else RTrap
      | _, _ => RStuck
      end))
    | IAlloc _ c =>
      rbind (of_opt (eval_as e TFelt c)) (fun x =>
      match x with
      | VFelt z => rbind (w_alloc W s z) (fun r => ROk ([fst r], snd r))
      | _ => RStuck
      end)
    end.

  (** One instruction: compute, then bind the destinations. *)
  Definition exec (e : env) (s : S) (i : minstr) : res (env * S) :=
    rbind (effect e s i) (fun r =>
    rbind (of_opt (bind_all e (dests i) (fst r))) (fun e' => ROk (e', snd r))).

  Fixpoint exec_list (e : env) (s : S) (is : list minstr) : res (env * S) :=
    match is with
    | [] => ROk (e, s)
    | i :: r => rbind (exec e s i) (fun x => exec_list (fst x) (snd x) r)
    end.
End Exec.

(** Phis: evaluated together, in the environment left by the predecessor. *)
Fixpoint src_from (p : nat) (ss : list (nat * value)) : option value :=
  match ss with
  | [] => None
  | (q, v) :: r => if Nat.eqb p q then Some v else src_from p r
  end.
Fixpoint span_phi (is : list minstr) : list (nat * ty * list (nat * value)) * list minstr :=
  match is with
  | IPhi d t ss :: r => let x := span_phi r in ((d, t, ss) :: fst x, snd x)
  | _ => ([], is)
  end.
Definition phi_val (e : env) (prev : option nat) (ph : nat * ty * list (nat * value)) : option val :=
  match prev with
  | None => None
  | Some p => match src_from p (snd ph) with
              | Some v => eval_as e (snd (fst ph)) v
              | None => None
              end
  end.
Definition enter (e : env) (prev : option nat) (phs : list (nat * ty * list (nat * value)))
  : option env :=
  match omap (phi_val e prev) phs with
  | Some vs => bind_all e (map (fun p => fst (fst p)) phs) vs
  | None => None
  end.

(** The word a conditional branch tests: booleans and felts as they are, a u32 by its
    low 16-bit limb (the first of its two words); only boolean literals are accepted. *)
Definition truth (e : env) (v : value) : option bool :=
  match v with
  | Lit (LBool b) => Some b
  | Op i => match e i with
            | Some (VBool b) => Some b
            | Some (VFelt z) => if wfb z then Some (negb (z =? 0)) else None
            | Some (VU32 z) => if u32b z then Some (negb (z mod B16 =? 0)) else None
            | _ => None
            end
  | _ => None
  end.

(** Where a terminator goes: another block, or out with the returned values. *)
Inductive nxt : Set := NGo (b : nat) | NRet (vs : list val).
Definition branch_op (op : binop) : bool :=
  match op with Eq | Neq | U32Eq | U32Neq => true | _ => false end.
Definition exec_term (e : env) (rets : list (option ty)) (t : term) : res nxt :=
  match t with
  | TJump b => ROk (NGo b)
  | TIf c a b => rbind (of_opt (truth e c)) (fun x => ROk (NGo (if x then a else b)))
  | TCmp op l r a b =>
    if branch_op op
    then rbind (eval_bin e op l r) (fun x =>
         match x with VBool c => ROk (NGo (if c then a else b)) | _ => RStuck end)
    else RStuck
  | TReturn vs =>
    rbind (of_opt (omap (fun t => t) rets)) (fun ts =>
    rbind (of_opt (eval_list e ts vs)) (fun xs => ROk (NRet xs)))
  | TUnreachable => RStuck
  end.

(** Running a function: [fuel] bounds the number of blocks visited. *)
Fixpoint run {S} (W : world S) (f : func) (fuel : nat) (prev : option nat) (cur : nat)
  (e : env) (s : S) : res (list val * S) :=
  match fuel with
  | O => RFuel
  | Datatypes.S k =>
    match nth_error (f_blocks f) cur with
    | None => RStuck
    | Some b =>
      let sp := span_phi (b_instrs b) in
      rbind (of_opt (enter e prev (fst sp))) (fun e1 =>
      rbind (exec_list W (f_types f) e1 s (snd sp)) (fun x =>
      rbind (exec_term (fst x) (map (f_types f) (f_rets f)) (b_term b)) (fun n =>
      match n with
      | NGo b' => run W f k (Some cur) b' (fst x) (snd x)
      | NRet vs => ROk (vs, snd x)
      end)))
    end
  end.

Definition call_fn {S} (W : world S) (f : func) (fuel : nat) (args : list val) (s : S)
  : res (list val * S) :=
  match bind_all (fun _ => None) (f_params f) args with
  | Some e => run W f fuel None (f_entry f) e s
  | None => RStuck
  end.

(** [g] does exactly what [f] does, whenever what [f] does is defined: same results and
    memory, same failures, same number of blocks visited, for every surrounding world. *)
Definition same_behaviour (f g : func) : Prop :=
  forall S (W : world S) fuel args s,
    call_fn W f fuel args s <> RStuck -> call_fn W g fuel args s = call_fn W f fuel args s.

(** [g] returns whatever [f] returns (used where a pass may remove failures or blocks). *)
Definition same_results (f g : func) : Prop :=
  forall S (W : world S) fuel args s r,
    call_fn W f fuel args s = ROk r -> exists fuel', call_fn W g fuel' args s = ROk r.
