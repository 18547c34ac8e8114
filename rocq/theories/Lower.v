(** Lowering of source functions to MIR, with SSA construction on the fly.

    Models crates/compiler/mir/src/lowering/{function,stmt,expr,builder,utils}.rs,
    crates/compiler/mir/src/builder/{cfg_builder,instr_builder}.rs and the SSA construction
    methods of crates/compiler/mir/src/function.rs 440-690 (after Braun et al.), for the
    source fragment of Src.v.  [None] is a panic, an [Err] or a recursion that is too deep.
    Simplifications: the blocks are functions of the block number; phis are kept apart from
    the other instructions of their block (basic_block.rs [push_phi_front] keeps them in
    front); the block of a phi is passed around instead of searched ([find_phi_block]);
    [loop_stack] is the argument [lc] (only its top is read); names, spans, comments and
    the filled flags are dropped. *)
From Coq Require Import ZArith Bool String List.
From Verif Require Import M31 Isa Mir Src.
Import ListNotations.

(** A phi: its id, the variable it stands for (not in the code; no computation here reads
    it), its type, and for each predecessor the id of the value that comes from there. *)
Record lphi : Set := LPhi { p_dest : nat; p_var : nat; p_ty : ty; p_src : list (nat * nat) }.

(** The state of [MirBuilder] and its [MirFunction].  [l_ent] and [l_cls] are not in the
    code and no computation here reads them: they record, for the proofs, which id was
    found for a variable at the start of a block, and which ids removed phis were equal to. *)
Record lst : Type := Lst {
  l_nb : nat;                                (* number of blocks *)
  l_phis : nat -> list lphi;
  l_body : nat -> list minstr;
  l_term : nat -> term;
  l_preds : nat -> list nat;
  l_next : nat;                              (* next value id *)
  l_tys : nat -> option ty;                  (* value_types *)
  l_def : nat -> nat -> option nat;          (* current_def: variable, block *)
  l_loc : nat -> option nat;                 (* locals *)
  l_inc : nat -> list (nat * nat);           (* incomplete_phis: variable, phi *)
  l_sealed : nat -> bool;
  l_cur : nat;                               (* current_block_id *)
  l_ent : nat -> nat -> option nat;
  l_cls : nat -> nat }.

Definition upf {A} (f : nat -> A) (i : nat) (a : A) : nat -> A :=
  fun j => if Nat.eqb j i then a else f j.
Definition upf2 {A} (f : nat -> nat -> A) (i j : nat) (a : A) : nat -> nat -> A :=
  fun x y => if Nat.eqb x i && Nat.eqb y j then a else f x y.

(** cfg_builder.rs 96, basic_block.rs [has_terminator]. *)
Definition finished (st : lst) (b : nat) : bool :=
  match l_term st b with TUnreachable => false | _ => true end.

(** function.rs [new_typed_value_id]. *)
Definition fresh (t : ty) (st : lst) : nat * lst :=
  (l_next st,
   Lst (l_nb st) (l_phis st) (l_body st) (l_term st) (l_preds st) (S (l_next st))
       (upf (l_tys st) (l_next st) (Some t)) (l_def st) (l_loc st) (l_inc st) (l_sealed st)
       (l_cur st) (l_ent st) (l_cls st)).

(** instr_builder.rs [add_instruction]: at the end of the current block. *)
Definition emit (i : minstr) (st : lst) : lst :=
  Lst (l_nb st) (l_phis st) (upf (l_body st) (l_cur st) (l_body st (l_cur st) ++ [i])) (l_term st)
      (l_preds st) (l_next st) (l_tys st) (l_def st) (l_loc st) (l_inc st) (l_sealed st)
      (l_cur st) (l_ent st) (l_cls st).

(** function.rs 466-475: [write_variable]. *)
Definition write (x b v : nat) (st : lst) : lst :=
  Lst (l_nb st) (l_phis st) (l_body st) (l_term st) (l_preds st) (l_next st) (l_tys st)
      (upf2 (l_def st) x b (Some v)) (upf (l_loc st) x (Some v)) (l_inc st) (l_sealed st)
      (l_cur st) (l_ent st) (l_cls st).

(** Bookkeeping for the proofs: [v] is what [x] is at the start of [b] (first answer kept). *)
Definition note (x b v : nat) (st : lst) : lst :=
  Lst (l_nb st) (l_phis st) (l_body st) (l_term st) (l_preds st) (l_next st) (l_tys st)
      (l_def st) (l_loc st) (l_inc st) (l_sealed st) (l_cur st)
      (match l_ent st x b with Some _ => l_ent st | None => upf2 (l_ent st) x b (Some v) end)
      (l_cls st).

(** function.rs 444-460 [new_phi] and 518-525 [new_incomplete_phi]: the type is that of the
    value last bound to the variable. *)
Definition new_phi (x b : nat) (st : lst) : option (nat * lst) :=
  match l_loc st x with
  | None => None
  | Some i =>
    match l_tys st i with
    | None => None
    | Some t =>
      let (o, st1) := fresh t st in
      Some (o, Lst (l_nb st1) (upf (l_phis st1) b (l_phis st1 b ++ [LPhi o x t []])) (l_body st1)
                   (l_term st1) (l_preds st1) (l_next st1) (l_tys st1) (l_def st1) (l_loc st1)
                   (l_inc st1) (l_sealed st1) (l_cur st1) (l_ent st1) (l_cls st1))
    end
  end.

(** 570-600: [update_phi_operands]. *)
Definition set_src (o : nat) (ss : list (nat * nat)) (p : lphi) : lphi :=
  if Nat.eqb (p_dest p) o then LPhi (p_dest p) (p_var p) (p_ty p) ss else p.
Definition set_sources (b o : nat) (ss : list (nat * nat)) (st : lst) : lst :=
  Lst (l_nb st) (upf (l_phis st) b (map (set_src o ss) (l_phis st b))) (l_body st) (l_term st)
      (l_preds st) (l_next st) (l_tys st) (l_def st) (l_loc st) (l_inc st) (l_sealed st)
      (l_cur st) (l_ent st) (l_cls st).

(** 603-622: the only operand other than the phi itself, if there is exactly one. *)
Definition only_operand (o : nat) (vs : list nat) : option nat :=
  match filter (fun v => negb (Nat.eqb v o)) vs with
  | [] => None
  | u :: r => if forallb (Nat.eqb u) r then Some u else None
  end.

(** 624-633, 660-685: [replace_value_uses] everywhere, then [remove_phi_instruction]. *)
Definition sub_src (o u : nat) (p : lphi) : lphi :=
  LPhi (p_dest p) (p_var p) (p_ty p) (map (fun s => (fst s, sub_id o u (snd s))) (p_src p)).
Definition remove_phi (b o u : nat) (st : lst) : lst :=
  let phis := fun c => map (sub_src o u) (l_phis st c) in
  Lst (l_nb st)
      (upf phis b (filter (fun p => negb (Nat.eqb (p_dest p) o)) (phis b)))
      (fun c => map (imap (sub_val o u) (sub_id o u)) (l_body st c))
      (fun c => tmap (sub_val o u) (l_term st c))
      (l_preds st) (l_next st) (l_tys st) (l_def st) (l_loc st) (l_inc st) (l_sealed st) (l_cur st)
      (l_ent st)
      (fun i => if Nat.eqb (l_cls st i) (l_cls st o) then l_cls st u else l_cls st i).

(** 546-550 and 603-633: set the operands, then [try_remove_trivial_phi]. *)
Definition finish (b o : nat) (ss : list (nat * nat)) (st : lst) : nat * lst :=
  let st1 := set_sources b o ss st in
  match only_operand o (map snd ss) with
  | None => (o, st1)
  | Some u => (u, remove_phi b o u st1)
  end.

(** 538-544: the operands, predecessor by predecessor. *)
Fixpoint read_all (rd : nat -> lst -> option (nat * lst)) (ps : list nat) (st : lst)
  : option (list nat * lst) :=
  match ps with
  | [] => Some ([], st)
  | p :: r =>
    match rd p st with
    | None => None
    | Some (v, st1) =>
      match read_all rd r st1 with
      | None => None
      | Some (vs, st2) => Some (v :: vs, st2)
      end
    end
  end.

(** 478-516: [read_variable] and [read_variable_recursive]; [n] bounds the recursion. *)
Fixpoint read (n : nat) (x b : nat) (st : lst) : option (nat * lst) :=
  match n with
  | O => None
  | S k =>
    match l_def st x b with
    | Some v => Some (v, st)
    | None =>
      if l_sealed st b then
        match l_preds st b with
        | [p] =>
          match read k x p st with
          | None => None
          | Some (v, st1) => Some (v, write x b v (note x b v st1))
          end
        | ps =>
          match new_phi x b st with
          | None => None
          | Some (o, st1) =>
            match read_all (read k x) ps (write x b o (note x b o st1)) with
            | None => None
            | Some (vs, st2) =>
              let (v, st3) := finish b o (combine ps vs) st2 in
              Some (v, write x b v st3)
            end
          end
        end
      else
        match new_phi x b st with
        | None => None
        | Some (o, st1) =>
          let st2 := Lst (l_nb st1) (l_phis st1) (l_body st1) (l_term st1) (l_preds st1) (l_next st1)
                         (l_tys st1) (l_def st1) (l_loc st1) (upf (l_inc st1) b (l_inc st1 b ++ [(x, o)]))
                         (l_sealed st1) (l_cur st1) (l_ent st1) (l_cls st1) in
          Some (o, write x b o (note x b o st2))
        end
    end
  end.
Definition depth (st : lst) : nat := 2 * l_nb st + 2.

(** cfg_builder.rs 50, 74: [new_block], [switch_to_block]. *)
Definition new_block (st : lst) : nat * lst :=
  (l_nb st,
   Lst (S (l_nb st)) (l_phis st) (l_body st) (l_term st) (l_preds st) (l_next st) (l_tys st)
       (l_def st) (l_loc st) (l_inc st) (l_sealed st) (l_cur st) (l_ent st) (l_cls st)).
Definition switch (b : nat) (st : lst) : lst :=
  Lst (l_nb st) (l_phis st) (l_body st) (l_term st) (l_preds st) (l_next st) (l_tys st)
      (l_def st) (l_loc st) (l_inc st) (l_sealed st) b (l_ent st) (l_cls st).

(** function.rs [connect], basic_block.rs [add_pred]: no duplicates. *)
Definition connect (p : nat) (preds : nat -> list nat) (b : nat) : nat -> list nat :=
  if mem_nat p (preds b) then preds else upf preds b (preds b ++ [p]).
(** cfg_builder.rs 108-143: [set_terminator_internal] on a block without terminator. *)
Definition set_term (b : nat) (t : term) (st : lst) : lst :=
  Lst (l_nb st) (l_phis st) (l_body st) (upf (l_term st) b t)
      (fold_left (connect b) (targets t) (l_preds st)) (l_next st) (l_tys st)
      (l_def st) (l_loc st) (l_inc st) (l_sealed st) (l_cur st) (l_ent st) (l_cls st).
(** 155-163: [terminate] panics if the current block has a terminator. *)
Definition terminate (t : term) (st : lst) : option lst :=
  if finished st (l_cur st) then None else Some (set_term (l_cur st) t st).

(** function.rs 688-705: [seal_block].  The incomplete phis are kept in a hash map: [ord]
    is its iteration order, an arbitrary rearrangement. *)
Section Order.
Variable ord : list (nat * nat) -> list (nat * nat).
Fixpoint complete (b : nat) (phis : list (nat * nat)) (st : lst) : option lst :=
  match phis with
  | [] => Some st
  | (x, o) :: r =>
    match read_all (read (depth st) x) (l_preds st b) st with
    | None => None
    | Some (vs, st1) =>
      let (v, st2) := finish b o (combine (l_preds st b) vs) st1 in
      complete b r
        (match l_def st2 x b with
         | Some w => if negb (Nat.eqb v o) && Nat.eqb w o then write x b v st2 else st2
         | None => st2
         end)
    end
  end.
Definition seal (b : nat) (st : lst) : option lst :=
  complete b (ord (l_inc st b))
    (Lst (l_nb st) (l_phis st) (l_body st) (l_term st) (l_preds st) (l_next st) (l_tys st)
         (l_def st) (l_loc st) (upf (l_inc st) b []) (upf (l_sealed st) b true) (l_cur st)
         (l_ent st) (l_cls st)).

(** instruction.rs 95-146: [BinaryOp::from_parser], by the type of the left operand. *)
Definition from_parser (op : sop) (t : ty) : option binop :=
  match op, t with
  | SAdd, TFelt => Some Add | SSub, TFelt => Some Sub
  | SMul, TFelt => Some Mul | SDiv, TFelt => Some Div
  | SEq, TFelt => Some Eq | SNeq, TFelt => Some Neq
  | SLt, TFelt => Some Less | SGt, TFelt => Some Greater
  | SLe, TFelt => Some LessEqual | SGe, TFelt => Some GreaterEqual
  | SAdd, TU32 => Some U32Add | SSub, TU32 => Some U32Sub | SMul, TU32 => Some U32Mul
  | SDiv, TU32 => Some U32Div | SMod, TU32 => Some U32Rem
  | SEq, TU32 => Some U32Eq | SNeq, TU32 => Some U32Neq
  | SLt, TU32 => Some U32Less | SGt, TU32 => Some U32Greater
  | SLe, TU32 => Some U32LessEqual | SGe, TU32 => Some U32GreaterEqual
  | SBitAnd, TU32 => Some U32BitwiseAnd | SBitOr, TU32 => Some U32BitwiseOr
  | SBitXor, TU32 => Some U32BitwiseXor
  | SEq, TBool => Some Eq | SNeq, TBool => Some Neq
  | SAnd, TBool => Some And | SOr, TBool => Some Or
  | _, _ => None
  end.

(** Monad plumbing ([?] of Rust). *)
Local Notation "'do' p <- e ; k" := (match e with Some p => k | None => None end)
  (at level 200, p pattern, e at level 100, k at level 200).

Section Fun.
Variables (V : nat -> ty) (sg : sigs).
(** The type of an expression according to semantic analysis. *)
Definition ety (e : expr) : option ty := type_of V sg e.

(** expr.rs 65-165, 228-275, 330-400, 566-597; utils.rs 25-44. *)
Fixpoint lower_expr (e : expr) (st : lst) : option (value * lst) :=
  match e with
  | ELit n _ => Some (Lit (LInt (n mod B32)%Z), st)
  | EBool b => Some (Lit (LBool b), st)
  | EVar x => do (v, st1) <- read (depth st) x (l_cur st) st; Some (Op v, st1)
  | EUn op a =>
    do (v, st1) <- lower_expr a st;
    do t <- ety e;
    let (d, st2) := fresh t st1 in
    Some (Op d, emit (IUnary op d v) st2)
  | EBin op l r =>
    do (v, st1) <- lower_expr l st;
    do (w, st2) <- lower_expr r st1;
    do t <- ety e;
    let (d, st3) := fresh t st2 in
    do tl <- ety l;
    do o <- from_parser op tl;
    Some (Op d, emit (IBinary o d v w) st3)
  | ECall f args =>
    do (vs, st1) <- lower_exprs args st;
    do s <- nth_error sg f;
    do t <- snd s;
    let (d, st2) := fresh t st1 in
    Some (Op d, emit (ICall [d] f vs (fst s)) st2)
  | ECast a t =>
    do (v, st1) <- lower_expr a st;
    do ta <- ety a;
    let (d, st2) := fresh t st1 in
    Some (Op d, emit (ICast d v ta t) st2)
  end
with lower_exprs (es : exprs) (st : lst) : option (list value * lst) :=
  match es with
  | ENil => Some ([], st)
  | ECons e r =>
    do (v, st1) <- lower_expr e st;
    do (vs, st2) <- lower_exprs r st1;
    Some (v :: vs, st2)
  end.

(** builder.rs 106-150: [bind_variable_def]. *)
Definition bind_var (x : nat) (v : value) (st : lst) : option lst :=
  match v with
  | Op i => Some (write x (l_cur st) i st)
  | Lit l => let (d, st1) := fresh (V x) st in
             Some (write x (l_cur st1) d (emit (IAssign d v (V x)) st1))
  | VErr => None
  end.

(** stmt.rs.  [lc]: where [continue] and [break] go. *)
Fixpoint lower_stmt (lc : option (nat * nat)) (c : stmt) (st : lst) : option lst :=
  match c with
  | SSkip => Some st
  (* 535-549: stop when the current block has been terminated *)
  | SSeq a b =>
    do st1 <- lower_stmt lc a st;
    if finished st1 (l_cur st1) then Some st1 else lower_stmt lc b st1
  | SLet x e | SAssign x e => do (v, st1) <- lower_expr e st; bind_var x v st1
  (* utils.rs 51-79: a function without result has no destinations *)
  | SCall f args =>
    do (vs, st1) <- lower_exprs args st;
    do s <- nth_error sg f;
    Some (emit (ICall [] f vs (fst s)) st1)
  | SExpr e => do (_, st1) <- lower_expr e st; Some st1
  | SAssert e => do (v, st1) <- lower_expr e st; Some (emit (IAssertEq v (Lit (LInt 1))) st1)
  (* 402-533 *)
  | SIf e a b =>
    do (v, st1) <- lower_expr e st;
    let (bt, st2) := new_block st1 in
    let (be, st3) := new_block st2 in
    do st4 <- terminate (TIf v bt be) st3;
    do st5 <- seal bt st4;
    do st6 <- seal be st5;
    do st7 <- lower_stmt lc a (switch bt st6);
    do st8 <- lower_stmt lc b (switch be st7);
    let fins := (if finished st7 (l_cur st7) then [] else [l_cur st7])
                ++ (if finished st8 (l_cur st8) then [] else [l_cur st8]) in
    match fins with
    | [] => Some st8
    | _ =>
      let (bm, st9) := new_block st8 in
      do st10 <- seal bm (fold_left (fun s f => set_term f (TJump bm) s) fins st9);
      Some (switch bm st10)
    end
  | SIf1 e a =>
    do (v, st1) <- lower_expr e st;
    let (bt, st2) := new_block st1 in
    let (bm, st3) := new_block st2 in
    do st4 <- terminate (TIf v bt bm) st3;
    do st5 <- seal bt st4;
    do st6 <- seal bm st5;
    do st7 <- lower_stmt lc a (switch bt st6);
    let st8 := switch bm st7 in
    Some (if finished st7 (l_cur st7) then st8 else set_term (l_cur st7) (TJump bm) st8)
  (* 551-609 *)
  | SWhile e b =>
    let (bh, st1) := new_block st in
    let (bb, st2) := new_block st1 in
    let (bx, st3) := new_block st2 in
    do st4 <- terminate (TJump bh) st3;
    do (v, st5) <- lower_expr e (switch bh st4);
    do st6 <- terminate (TIf v bb bx) st5;
    do st7 <- seal bb st6;
    do st8 <- seal bx st7;
    do st9 <- lower_stmt (Some (bh, bx)) b (switch bb st8);
    do st10 <- (if finished st9 (l_cur st9) then Some st9 else terminate (TJump bh) st9);
    do st11 <- seal bh st10;
    Some (switch bx st11)
  (* 611-653 *)
  | SLoop b =>
    let (bb, st1) := new_block st in
    let (bx, st2) := new_block st1 in
    do st3 <- terminate (TJump bb) st2;
    do st4 <- seal bx st3;
    do st5 <- lower_stmt (Some (bb, bx)) b (switch bb st4);
    do st6 <- (if finished st5 (l_cur st5) then Some st5 else terminate (TJump bb) st5);
    do st7 <- seal bb st6;
    Some (switch bx st7)
  (* 655-722 *)
  | SFor i e s b =>
    do st0 <- lower_stmt lc i st;
    if finished st0 (l_cur st0) then Some st0 else
    let (bh, st1) := new_block st0 in
    let (bb, st2) := new_block st1 in
    let (bs, st3) := new_block st2 in
    let (bx, st4) := new_block st3 in
    do st5 <- terminate (TJump bh) st4;
    do (v, st6) <- lower_expr e (switch bh st5);
    do st7 <- terminate (TIf v bb bx) st6;
    do st8 <- seal bb st7;
    do st9 <- seal bx st8;
    do st10 <- lower_stmt (Some (bs, bx)) b (switch bb st9);
    do st11 <- (if finished st10 (l_cur st10) then Some st10 else terminate (TJump bs) st10);
    do st12 <- seal bs st11;
    do st13 <- lower_stmt lc s (switch bs st12);
    do st14 <- (if finished st13 (l_cur st13) then Some st13 else terminate (TJump bh) st13);
    do st15 <- seal bh st14;
    Some (switch bx st15)
  (* 724-746 *)
  | SBreak => do t <- lc; terminate (TJump (snd t)) st
  | SContinue => do t <- lc; terminate (TJump (fst t)) st
  (* 133-183 *)
  | SReturn None => terminate (TReturn []) st
  | SReturn (Some e) => do (v, st1) <- lower_expr e st; terminate (TReturn [v]) st1
  end.

(** lowering/function.rs 240-290: the parameters get the first ids. *)
Fixpoint lower_params (x : nat) (ts : list ty) (st : lst) : list nat * lst :=
  match ts with
  | [] => ([], st)
  | t :: r =>
    let (d, st1) := fresh t st in
    let (ds, st2) := lower_params (S x) r (write x 0 d st1) in
    (d :: ds, st2)
  end.
End Fun.

(** function.rs [MirFunction::new]: one empty block, the entry. *)
Definition start : lst :=
  Lst 1 (fun _ => []) (fun _ => []) (fun _ => TUnreachable) (fun _ => []) 0 (fun _ => None)
      (fun _ _ => None) (fun _ => None) (fun _ => []) (fun _ => false) 0
      (fun _ _ => None) (fun i => i).

(** The blocks of the finished function. *)
Definition phi_instr (p : lphi) : minstr :=
  IPhi (p_dest p) (p_ty p) (map (fun s => (fst s, Op (snd s))) (p_src p)).
Definition block_of (st : lst) (b : nat) : block :=
  Block (map phi_instr (l_phis st b) ++ l_body st b) (l_term st b) (l_preds st b).

(** lowering/function.rs 205-238, 292-334: [lower_function]. *)
Definition lower_state (sg : sigs) (f : sfun) : option (list nat * lst) :=
  let (ps, st) := lower_params 0 (s_params f) start in
  do st1 <- seal 0 st;
  do st2 <- lower_stmt (s_vars f) sg None (s_body f) st1;
  Some (ps, st2).
Definition lower_fun (sg : sigs) (f : sfun) : option func :=
  do (ps, st) <- lower_state sg f;
  let (rs, st1) := match s_ret f with
                   | None => ([], st)
                   | Some t => let (r, s) := fresh t st in ([r], s)
                   end in
  Some (Func (map (block_of st1) (seq 0 (l_nb st1))) 0 ps rs (l_next st1) (l_tys st1)).
End Order.
