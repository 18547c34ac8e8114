(** Properties C30-C33: compile-time evaluation and the instruction- and branch-level
    optimisations. *)
From Coq Require Import ZArith Bool String List Lia.
From Verif Require Import M31 M31Facts Instr Isa Mir MirSem MirPasses MirFacts MirLocalFacts
  MirSim MirFuseFacts MirBranchFacts MirIsa MirIsaFacts.
Import ListNotations.
Open Scope Z_scope.

(** A world in which memory, calls and allocation do nothing useful: enough for the
    functions of the examples, which use none of them. *)
Definition w0 : world unit :=
  World unit (fun _ _ _ _ _ => RStuck) (fun _ _ _ _ _ _ => RStuck) (fun _ _ _ _ _ => RStuck)
        (fun _ _ => RStuck) (fun _ _ _ => RStuck).

(** ** C30: a folded constant is what the machine computes *)

(** The operator on run-time values, as the machine instruction computes it: operands in
    two frame slots, result in a third.  A division by zero has no machine step. *)
Theorem C30_machine_operators : forall op a b d t i m s x y,
  opcode op a b d t = Some i -> (op = U32Div -> apart s d t) ->
  holds m (slot s a) x -> holds m (slot s b) y ->
  match sem_bin op x y with
  | ROk z => exists eff, isa i m s = Some eff /\ holds (upds m (writes eff)) (slot s d) z
  | RTrap => isa i m s = None
  | _ => True
  end.
Proof. exact opcode_ok. Qed.
Print Assumptions C30_machine_operators.

(** What is folded, for all operators: the constant denotes the value of the operation.
    Literals are those the source language can hold (32-bit); for the felt equality
    tests they must in addition be below the field modulus, see the refutation below. *)
Theorem C30_folded_constant_partial : forall op a b c e,
  eval_binary_op op a b = EvLit c -> u32_lit a -> u32_lit b ->
  (felt_cmp op = true -> felt_lit a /\ felt_lit b) ->
  exists x, eval_bin e op (Lit a) (Lit b) = ROk x /\ lit_as (result_type op) c = Some x.
Proof. exact eval_binary_ok. Qed.
Print Assumptions C30_folded_constant_partial.

(** The two together: if the operands were left to run time, the machine would store
    the cells of the folded constant. *)
Theorem C30_folded_constant_is_machine_value : forall op a b c i x y (fa fb d t : Z) m s,
  eval_binary_op op a b = EvLit c -> u32_lit a -> u32_lit b -> felt_cmp op = false ->
  opcode op fa fb d t = Some i -> (op = U32Div -> apart s d t) ->
  eval_opnd (fun _ => None) op (Lit a) = Some x -> holds m (slot s fa) x ->
  eval_opnd (fun _ => None) op (Lit b) = Some y -> holds m (slot s fb) y ->
  exists eff z, isa i m s = Some eff /\ lit_as (result_type op) c = Some z /\
                holds (upds m (writes eff)) (slot s d) z.
Proof.
  intros op a b c i x y fa fb d t m s He Ha Hb Hf Ho Hd Ex Hx Ey Hy.
  destruct (eval_binary_ok op a b c (fun _ => None) He Ha Hb) as (z & E1 & E2); [congruence|].
  unfold eval_bin in E1. rewrite Ex, Ey in E1. cbn [of_opt rbind] in E1.
  pose proof (opcode_ok op fa fb d t i m s x y Ho Hd Hx Hy) as K. rewrite E1 in K.
  destruct K as (eff & K1 & K2). eauto.
Qed.
Print Assumptions C30_folded_constant_is_machine_value.

Theorem C30_folded_unary : forall op a c e,
  eval_unary_op op a = Some c ->
  exists x, rbind (of_opt (eval_any e (Lit a))) (sem_un op) = ROk x /\
            lit_as (match op with Not => TBool | Neg => TFelt end) c = Some x.
Proof. intros op a c e H. destruct (eval_unary_ok op a c e H) as (x & A & B). exists x. auto. Qed.
Print Assumptions C30_folded_unary.

(** When folding makes the compiler panic: exactly on a felt division by the literal
    2147483647 or 4294967294, which are zero in the field. *)
Theorem C30_folding_panics : forall op a b, u32_lit b ->
  (eval_binary_op op a b = EvPanic <-> op = Div /\ (exists n, a = LInt n) /\ b = LInt P \/
                                       op = Div /\ (exists n, a = LInt n) /\ b = LInt (2 * P)).
Proof.
  intros op a b Hb. rewrite eval_binary_panic. split.
  - intros (-> & n & m & -> & -> & Hm & Hz). cbn in Hb.
    assert (exists k, m = k * P) as (k & ->) by (exists (m / P); pose proof (Z.div_mod m P ltac:(discriminate)); lia).
    assert (k = 1 \/ k = 2 \/ k <= 0 \/ 3 <= k) as [-> | [-> | [K|K]]] by lia; eauto.
    + exfalso. unfold P in *. lia.
    + exfalso. unfold P, B32 in *. lia.
  - intros [(-> & (n & ->) & ->)|(-> & (n & ->) & ->)]; split; auto; eexists; eexists; repeat split; discriminate.
Qed.
Print Assumptions C30_folding_panics.

(** The full statement fails for felt equality: the literal 2147483647 is accepted as a
    felt and denotes 0, but folding compares the digits. *)
Theorem C30_felt_equality_refuted :
  exists a b c, u32_lit a /\ u32_lit b /\ eval_binary_op Eq a b = EvLit c /\
    exists x y, eval_bin (fun _ => None) Eq (Lit a) (Lit b) = ROk x /\ lit_as TBool c = Some y /\ x <> y.
Proof.
  exists (LInt P), (LInt 0), (LBool false).
  split; [split; [discriminate|reflexivity]|]. split; [split; [discriminate|reflexivity]|].
  split; [reflexivity|]. exists (VBool true), (VBool false).
  split; [reflexivity|]. split; [reflexivity|]. discriminate.
Qed.
Print Assumptions C30_felt_equality_refuted.

Example C30_ex_fold : eval_binary_op U32Sub (LInt 3) (LInt 5) = EvLit (LInt 4294967294).
Proof. reflexivity. Qed.
(** The hypotheses of the machine theorem on a concrete memory: 7 / 2 at slots 0 and 2. *)
Example C30_ex_machine :
  let m a := if a =? 100 then 7 else if a =? 102 then 2 else 0 in
  let s := St 0 100 in
  holds m (slot s 0) (VU32 7) /\ holds m (slot s 2) (VU32 2) /\ apart s 4 6 /\
  opcode U32Div 0 2 4 6 = Some (U32StoreDivRemFpFp 0 2 4 6) /\
  sem_bin U32Div (VU32 7) (VU32 2) = ROk (VU32 3).
Proof.
  cbv zeta. split; [|split; [|split; [|split; reflexivity]]].
  - repeat split; discriminate.
  - repeat split; discriminate.
  - intros i j [-> | ->] [-> | ->]; vm_compute; discriminate.
Qed.

(** ** C31: a simplified instruction computes the same value *)

(** Instructions that may be simplified wrongly: the literal 0 minus something, and the
    literal 1 divided by something. *)
Theorem C31_simplified_value_partial : forall op l r v e,
  try_simplify op l r = SAssign v -> left_identity_bad op l = false -> lits_fit op l r ->
  (forall x, eval_bin e op l r = ROk x -> eval_as e (result_type op) v = Some x) /\
  eval_bin e op l r <> RTrap.
Proof. intros op l r v e H1 H2 H3. exact (try_simplify_ok op l r v H1 H2 H3 e). Qed.
Print Assumptions C31_simplified_value_partial.

(** The whole pass, and constant folding: every function behaves as before. *)
Theorem C31_arithmetic_simplify_partial : forall f g,
  arithmetic_simplify f = Some g ->
  (forall b op d l r, In b (f_blocks f) -> In (IBinary op d l r) (b_instrs b) ->
     left_identity_bad op l = false /\ lits_fit op l r) ->
  same_behaviour f g.
Proof.
  intros f g H K. eapply rewrite_all_ok; [exact H|].
  intros b i j Hb Hi Hj. apply simplify_instr_ok; auto. intros op d l r ->. eapply K; eauto.
Qed.
Print Assumptions C31_arithmetic_simplify_partial.
Theorem C31_constant_folding_partial : forall f g,
  constant_folding f = Some g ->
  (forall b op d l r, In b (f_blocks f) -> In (IBinary op d l r) (b_instrs b) -> lits_fit op l r) ->
  same_behaviour f g.
Proof.
  intros f g H K. eapply rewrite_all_ok; [exact H|].
  intros b i j Hb Hi Hj. apply fold_instr_ok; auto. intros op d l r ->. eapply K; eauto.
Qed.
Print Assumptions C31_constant_folding_partial.

(** A one-block function [fn(x) -> y { y := l op r; return y }]. *)
Definition one_op (t : ty) (op : binop) (l r : value) : func :=
  Func [Block [IBinary op 1 l r] (TReturn [Op 1]) []] 0 [0%nat] [1%nat] 2
       (fun v => match v with 0 | 1 => Some t | _ => None end)%nat.

(** 0 - x becomes x, and 1 / x becomes x. *)
Theorem C31_zero_minus_refuted :
  exists f g, arithmetic_simplify f = Some g /\
    call_fn w0 f 1 [VFelt 5] tt = ROk ([VFelt (P - 5)], tt) /\
    call_fn w0 g 1 [VFelt 5] tt = ROk ([VFelt 5], tt).
Proof.
  exists (one_op TFelt Sub (Lit (LInt 0)) (Op 0)). eexists. split; [reflexivity|]. split; reflexivity.
Qed.
Print Assumptions C31_zero_minus_refuted.
Theorem C31_zero_minus_u32_refuted :
  exists f g, arithmetic_simplify f = Some g /\
    call_fn w0 f 1 [VU32 5] tt = ROk ([VU32 4294967291], tt) /\
    call_fn w0 g 1 [VU32 5] tt = ROk ([VU32 5], tt).
Proof.
  exists (one_op TU32 U32Sub (Lit (LInt 0)) (Op 0)). eexists. split; [reflexivity|]. split; reflexivity.
Qed.
Print Assumptions C31_zero_minus_u32_refuted.
Theorem C31_one_over_refuted :
  exists f g, arithmetic_simplify f = Some g /\
    call_fn w0 f 1 [VU32 5] tt = ROk ([VU32 0], tt) /\
    call_fn w0 g 1 [VU32 5] tt = ROk ([VU32 5], tt).
Proof.
  exists (one_op TU32 U32Div (Lit (LInt 1)) (Op 0)). eexists. split; [reflexivity|]. split; reflexivity.
Qed.
Print Assumptions C31_one_over_refuted.
(** ... and the failure of 1 / 0 is lost. *)
Theorem C31_one_over_zero_refuted :
  exists f g, arithmetic_simplify f = Some g /\
    call_fn w0 f 1 [VU32 0] tt = RTrap /\ call_fn w0 g 1 [VU32 0] tt = ROk ([VU32 0], tt).
Proof.
  exists (one_op TU32 U32Div (Lit (LInt 1)) (Op 0)). eexists. split; [reflexivity|]. split; reflexivity.
Qed.
Print Assumptions C31_one_over_zero_refuted.

Example C31_ex_simplify : exists g,
  arithmetic_simplify (one_op TFelt Mul (Op 0) (Lit (LInt 1))) = Some g /\
  g <> one_op TFelt Mul (Op 0) (Lit (LInt 1)) /\
  call_fn w0 g 1 [VFelt 9] tt = ROk ([VFelt 9], tt).
Proof. eexists. split; [reflexivity|]. split; [discriminate|reflexivity]. Qed.

(** ** C32: a fused branch goes where the comparison and the branch went *)

(** One terminator, every environment. *)
Theorem C32_fused_terminator_partial : forall e rets op l r a b,
  fusible op = true -> fuse_safe op l r ->
  forall n, rbind (eval_bin e op l r) (fun x =>
              match x with VBool c => ROk (NGo (if c then a else b)) | _ => RStuck end) = ROk n ->
  exec_term e rets (fuse_term op l r a b) = ROk n.
Proof.
  intros e rets op l r a b Hf Hs n H.
  pose proof (fuse_term_ok e rets op l r a b Hf Hs) as K. rewrite H in K. apply K. discriminate.
Qed.
Print Assumptions C32_fused_terminator_partial.

(** The pass on a whole function: same results, same memory, same failures, same number
    of blocks.  Missing from the full claim: comparing a u32 with the literal 0, and
    comparing two literals one of which is 0. *)
Theorem C32_fuse_cmp_partial : forall f,
  phis_first f ->
  (forall b is op c l r x y, In b (f_blocks f) -> b_instrs b = is ++ [IBinary op c l r] ->
     b_term b = TIf (Op c) x y -> fusible op = true -> fuse_safe op l r) ->
  same_behaviour f (fuse_cmp f).
Proof.
  intros f Hp Hs S W fuel args s. apply (proj1 (rrel_true _ _ _)). apply fuse_sim; auto.
  intros blk is op c l r a b Hb Hf. destruct (fused_spec _ _ _ _ _ _ _ Hf) as (E1 & E2 & _ & [(o & l' & r' & E & F)|(v & E)]).
  - injection E as <- <- <-. eapply Hs; eauto.
  - discriminate.
Qed.
Print Assumptions C32_fuse_cmp_partial.

(** [fn(x) { if l op r then return 1 else return 0 }]. *)
Definition branch_fn (t : ty) (op : binop) (l r : value) : func :=
  Func [Block [IBinary op 1 l r] (TIf (Op 1) 1 2) [];
        Block [] (TReturn [Lit (LInt 1)]) [0%nat]; Block [] (TReturn [Lit (LInt 0)]) [0%nat]]
       0 [0%nat] [2%nat] 3
       (fun v => match v with 0 => Some t | 1 => Some TBool | 2 => Some TFelt | _ => None end)%nat.

(** A u32 equal to 65536 is found to be zero: the branch looks at its low half only. *)
Theorem C32_u32_zero_refuted :
  exists f, phis_first f /\
    call_fn w0 f 2 [VU32 65536] tt = ROk ([VFelt 0], tt) /\
    call_fn w0 (fuse_cmp f) 2 [VU32 65536] tt = ROk ([VFelt 1], tt).
Proof.
  exists (branch_fn TU32 U32Eq (Op 0) (Lit (LInt 0))). split; [|split; reflexivity].
  intros b [<-|[<-|[<-|[]]]]; reflexivity.
Qed.
Print Assumptions C32_u32_zero_refuted.
(** The same on the machine: the emitted branch reads one cell. *)
Theorem C32_u32_branch_reads_low_half : forall z m s c o, 0 <= z < B32 -> holds m (slot s c) (VU32 z) ->
  exists eff, isa (JnzFpImm c o) m s = Some eff /\
    (z mod B16 = 0 -> next eff = St ((pc s + 1) mod P) (fp s)).
Proof.
  intros z m s c o Hz Hv.
  destruct (branch_cell_ok (fun _ => Some (VU32 z)) 0%nat (VU32 z) m s c o eq_refl Hv) as (eff & E & _ & K).
  exists eff. split; auto. intro H0. apply K. cbn. assert (u32b z = true) as -> by (apply u32b_iff; auto).
  rewrite H0. reflexivity.
Qed.
Print Assumptions C32_u32_branch_reads_low_half.

Example C32_ex_fused : exists is a, 
  nth_error (f_blocks (fuse_cmp (branch_fn TFelt Eq (Op 0) (Lit (LInt 0))))) 0 = Some (Block is (TIf (Op 0) 2 a) []) /\
  fuse_safe Eq (Op 0) (Lit (LInt 0)).
Proof.
  exists [], 1%nat. split; [reflexivity|]. intros _. split; auto. intros [H _]. discriminate.
Qed.

(** ** C33: a branch on a constant becomes the jump it would have taken *)
Theorem C33_simplified_branch : forall t u e rets,
  simplify_term t = BTo u -> term_fit t ->
  forall n, exec_term e rets t = ROk n -> exec_term e rets u = ROk n.
Proof.
  intros t u e rets H K n E. pose proof (simplify_term_ok t u H K e rets) as L. rewrite E in L.
  apply L. discriminate.
Qed.
Print Assumptions C33_simplified_branch.

(** The pass on a whole function.  [term_fit]: the literals of constant comparisons fit
    their types (felt literals below the modulus). *)
Theorem C33_simplify_branches : forall f g,
  (forall b, In b (f_blocks f) -> term_fit (b_term b)) ->
  simplify_branches f = Some g -> same_behaviour f g.
Proof. exact simplify_branches_same. Qed.
Print Assumptions C33_simplify_branches.

Definition const_branch (l r : Z) : func :=
  Func [Block [] (TCmp Eq (Lit (LInt l)) (Lit (LInt r)) 1 2) [];
        Block [] (TReturn [Lit (LInt 1)]) [0%nat]; Block [] (TReturn [Lit (LInt 0)]) [0%nat]]
       0 [] [0%nat] 1 (fun v => match v with 0 => Some TFelt | _ => None end)%nat.

(** Without it the property fails, for the same reason as C30. *)
Theorem C33_felt_equality_refuted :
  exists f g, simplify_branches f = Some g /\
    call_fn w0 f 2 [] tt = ROk ([VFelt 1], tt) /\ call_fn w0 g 2 [] tt = ROk ([VFelt 0], tt).
Proof. exists (const_branch P 0). eexists. split; [reflexivity|]. split; reflexivity. Qed.
Print Assumptions C33_felt_equality_refuted.

Example C33_ex : exists g, simplify_branches (const_branch 7 7) = Some g /\
  nth_error (f_blocks g) 0 = Some (Block [] (TJump 1) []) /\
  call_fn w0 g 2 [] tt = ROk ([VFelt 1], tt) /\
  (forall b, In b (f_blocks (const_branch 7 7)) -> term_fit (b_term b)).
Proof.
  eexists. split; [reflexivity|]. split; [reflexivity|]. split; [reflexivity|].
  intros b [<-|[<-|[<-|[]]]] op l r x y; cbn; try discriminate. intro H; injection H as <- <- <- <- <-.
  split; [|split]; [| |intros _; split]; intros a H; injection H as <-; split; try discriminate; reflexivity.
Qed.
