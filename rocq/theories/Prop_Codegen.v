(** Properties C40 to C43: code generation. *)
From Coq Require Import ZArith Bool String List Lia.
From Verif Require Import M31 Instr Isa Mir MirSem MirIsa MirLegal Cg CgLink CgSpec CgRun
  CgPassFacts CgStepFacts CgBoolFacts CgLinkFacts CgLayoutFacts.
Import ListNotations.
Open Scope Z_scope.

(** ** C40: rewriting of instructions *)

(** Whatever an instruction does, what replaces it after de-duplication and
    canonicalisation does as well, in every machine state: it writes the same cells with
    the same values, except for the temporaries taken from the end [f] of the frame, and
    control continues at the same place. *)
Theorem C40_same_effect : forall f i t s m e,
  felts m -> temps_apart f (i, t) s -> isa i m s = Some e ->
  stands_for s f (snd (dedup1 f (i, t))) (map (fun x => canon (fst x)) (fst (dedup1 f (i, t)))) m e.
Proof. exact rewrite_ok. Qed.
Print Assumptions C40_same_effect.
(** And it fails when the instruction fails; only a u32 multiplication by zero, which
    becomes a constant, no longer inspects its operand. *)
Theorem C40_same_failures : forall f i t s m,
  felts m -> temps_apart f (i, t) s -> isa i m s = None -> (forall a d, i <> U32StoreMulFpImm a 0 0 d) ->
  seq (map (fun x => canon (fst x)) (fst (dedup1 f (i, t)))) m s = None.
Proof. exact rewrite_none. Qed.
Print Assumptions C40_same_failures.
(** The exception: the multiplication of a cell pair that holds no u32 traps, what
    replaces it stores 0. *)
Theorem C40_mul_zero_refuted : exists i f t s m e,
  felts m /\ temps_apart f (i, t) s /\ isa i m s = None /\
  CgSpec.seq (map (fun x => canon (fst x)) (fst (dedup1 f (i, t)))) m s = Some e.
Proof.
  exists (U32StoreMulFpImm 3 0 0 5), 9, None, (St 0 100), (fun _ => 70000). eexists.
  split; [intros a; split; [discriminate|reflexivity]|]. split; [|split; reflexivity].
  intros b n k j Hb. discriminate Hb.
Qed.
Print Assumptions C40_mul_zero_refuted.
(** The temporaries of a whole function: each instruction gets its own, from the end of
    the frame upwards. *)
Theorem C40_temporaries : forall is f k i, nth_error is k = Some i ->
  exists f1, f <= f1 /\ nth_error (fst (dedup f is)) k = Some (fst (dedup1 f1 i)) /\
    f1 <= snd (dedup1 f1 i) <= snd (dedup f is) /\
    (forall j i', (j < k)%nat -> nth_error is j = Some i' ->
       exists f2, nth_error (fst (dedup f is)) j = Some (fst (dedup1 f2 i')) /\ snd (dedup1 f2 i') <= f1).
Proof. exact dedup_temps. Qed.
Print Assumptions C40_temporaries.
(** Doubling a felt and squaring a u32. *)
Example C40_case :
  map fst (fst (dedup1 9 (StoreAddFpFp 3 3 5, None))) = [StoreAddFpImm 3 0 9; StoreAddFpFp 9 3 5] /\
  map fst (fst (dedup1 9 (U32StoreMulFpFp 3 4 5, None))) = [U32StoreAddFpImm 3 0 0 9; U32StoreMulFpFp 9 4 5] /\
  canon (StoreMulFpImm 3 1 5) = StoreAddFpImm 3 0 5 /\
  (exists m s e, felts m /\ temps_apart 9 (StoreAddFpFp 3 3 5, None) s /\
     isa (StoreAddFpFp 3 3 5) m s = Some e /\ writes e = [(105, 42)]).
Proof.
  split; [reflexivity|]. split; [reflexivity|]. split; [reflexivity|].
  exists (fun _ => 21), (St 0 100). eexists. split; [intros a; split; [discriminate|reflexivity]|].
  split; [|split; reflexivity].
  intros b n k j Hb Hk Hj. injection Hb as <- <-. cbn in Hk. assert (k = 9) by lia. assert (j = 0) by lia. subst. discriminate.
Qed.

(** ** C41: labels *)

(** In a linked program, a jump, branch or call that names a label marking one place only
    goes to the first word of the instruction marked (a branch whose condition is zero
    goes on to the next instruction), whatever the sizes of the instructions between. *)
Theorem C41_transfers : forall g p k i l n,
  link g = COk p -> nth_error (g_code g) k = Some (i, Some l) ->
  In (l, n) (g_labels g) -> (forall n', In (l, n') (g_labels g) -> n' = n) ->
  ~ In l (map snd (g_blobs g)) -> l <> HEAP ->
  exists j i', nth_error (p_code p) k = Some j /\ nth_error (p_code p) n = Some i' /\
    size_qm31 j = size_qm31 i /\
    forall m s e, pc s = start (p_code p) k -> isa j m s = Some e ->
    match i with
    | JmpRelImm _ | CallAbsImm _ _ => pc (next e) = start (p_code p) n
    | JnzFpImm c _ => pc (next e) = if m (slot s c) =? 0 then start (p_code p) (S k) else start (p_code p) n
    | _ => True
    end.
Proof. exact link_transfers. Qed.
Print Assumptions C41_transfers.
(** The labels of a module: each marks the rewritten form of the instruction it stood
    before when it was emitted.  ([expand] rewrites the emitted items in place, [placed]
    says that each instruction and label is where the program and the label table have
    it.)  The hypotheses: no two labels have the same name, and no function's last block
    is unreachable. *)
Theorem C41_module : forall fs p, compile fs = COk p ->
  (forall fn f, In (fn, f) (legal_funcs fs) -> last_term f = true) ->
  exists g, gen_module fs = COk g /\
  (NoDup (names g) ->
  exists Ls r es lab,
    lay_all (legal_funcs fs) = COk Ls /\
    emitted (legal_funcs fs) 0 [] false (legal_funcs fs) Ls r es /\
    placed (fetch (p_code p)) lab 0 r (total (p_code p)) /\
    (forall l b, lab l = Some b -> 0 <= b < LIMIT) /\ total (p_code p) < LIMIT).
Proof. exact compile_placed. Qed.
Print Assumptions C41_module.

Definition all_felt (_ : nat) : option ty := Some TFelt.
Definition bool_felts (v : nat) : option ty := match v with O => Some TBool | _ => Some TFelt end.
(** [fn f(c: bool) -> felt { if c { 2 } else { 1 } }] and [fn f_1() -> felt { 7 }]. *)
Definition branching : func :=
  Func [Block [] (TIf (Op 0) 2 1) []; Block [] (TReturn [Lit (LInt 1)]) []; Block [] (TReturn [Lit (LInt 2)]) []]
    0 [0%nat] [1%nat] 2 bool_felts.
Definition const_seven : func := Func [Block [] (TReturn [Lit (LInt 7)]) []] 0 [] [0%nat] 1 all_felt.
Example C41_case :
  exists g p, gen_module [("f"%string, branching); ("g"%string, const_seven)] = COk g /\
    compile [("f"%string, branching); ("g"%string, const_seven)] = COk p /\ NoDup (names g) /\
    p_code p = [JnzFpImm 2147483643 4; JmpRelImm 1; StoreImm 1 2147483644; Ret; StoreImm 2 2147483644; Ret;
                StoreImm 7 2147483644; Ret].
Proof.
  eexists _, _. split; [vm_compute; reflexivity|]. split; [vm_compute; reflexivity|]. split; [|reflexivity].
  apply distinct_nodup. vm_compute. reflexivity.
Qed.

(** The block labels of a function may have the name of another function: with a function
    [f_1] beside [f], the branch to block 1 of [f] enters [f_1].  The compiled [f(false)]
    returns 7 instead of 1. *)
Theorem C41_name_clash_refuted :
  exists fs p, compile fs = COk p /\ distinct (map fst fs) = true /\
    mir_call fs 9 9 0 [VBool false] = ROk ([VFelt 1], tt) /\
    run_program 1 99 99 p "f" [0] 1 = Some [Some 7].
Proof.
  exists [("f"%string, branching); ("f_1"%string, const_seven)]. eexists.
  split; [vm_compute; reflexivity|]. split; [reflexivity|]. split; vm_compute; reflexivity.
Qed.
Print Assumptions C41_name_clash_refuted.
(** The numbers of local labels come from a counter that at least doubles from function
    to function; in a release build it wraps around after 64 functions and numbers are
    used again.  Here [f(2)] returns 16, the answer of the last function, instead of 6. *)
Definition is_const (k a b : Z) : func :=
  Func [Block [IBinary Eq 1 (Op 0) (Lit (LInt k))] (TIf (Op 1) 1 2) [];
        Block [] (TReturn [Lit (LInt a)]) []; Block [] (TReturn [Lit (LInt b)]) []]
    0 [0%nat] [2%nat] 3 (fun v => match v with 1%nat => Some TBool | _ => Some TFelt end).
Definition many_functions : funcs :=
  ("f"%string, is_const 1 5 6)
  :: map (fun k => (("g" ++ dec (N.of_nat k))%string, const_seven)) (List.seq 0 63)
  ++ [("last"%string, is_const 3 15 16)].
Theorem C41_counter_refuted :
  exists p, compile many_functions = COk p /\
    mir_call many_functions 9 9 0 [VFelt 2] = ROk ([VFelt 6], tt) /\
    run_program 1 99 99 p "f" [2] 1 = Some [Some 16].
Proof.
  eexists. split; [vm_compute; reflexivity|]. split; vm_compute; reflexivity.
Qed.
Print Assumptions C41_counter_refuted.

(** ** C42: frame layout *)

(** In the layout a function starts with, the parameters fill the slots below the return
    slots, in order; every other value has slots of its type's size in [0 .. frame-1];
    return slots and the two saved registers, [-K-2 .. -1], belong to no value; and the
    slots of different values do not overlap. *)
Theorem C42_disjoint_partial : forall f L ps rs, lay_new f = COk L -> NoDup (f_params f) ->
  types_of f (f_params f) = Some ps -> types_of f (f_rets f) = Some rs ->
  nret L = sizes rs /\ 0 <= frame L /\
  (forall k p t, nth_error (f_params f) k = Some p -> nth_error ps k = Some t ->
     slots L p = Some (- sizes ps - sizes rs - 2 + sizes (firstn k ps), msize t)) /\
  (forall v x, ~ In v (f_params f) -> slots L v = Some x ->
     In v (all_dests f) /\ 0 <= fst x /\ fst x + snd x <= frame L /\
     exists t, f_types f v = Some t /\ snd x = msize t) /\
  (forall v, In v (all_dests f) -> slots L v <> None) /\
  (forall v w x y, v <> w -> slots L v = Some x -> slots L w = Some y -> apart_slots x y).
Proof. exact layout_ok. Qed.
Print Assumptions C42_disjoint_partial.
(** [fn main(a: felt, b: u32) -> u32] with two locals. *)
Definition mixed : func :=
  Func [Block [IBinary U32Add 3 (Op 1) (Op 1); IAssign 4 (Op 0) TFelt] (TReturn [Op 3]) []]
    0 [0%nat; 1%nat] [2%nat] 5 (fun v => match v with 0%nat | 4%nat => Some TFelt | _ => Some TU32 end).
Example C42_case : exists L, lay_new mixed = COk L /\ map (slots L) [0%nat; 1%nat; 3%nat; 4%nat] =
  [Some (-7, 1); Some (-6, 2); Some (0, 2); Some (2, 1)] /\ frame L = 3.
Proof. eexists. split; [vm_compute; reflexivity|]. split; reflexivity. Qed.

(** While code is generated, values are moved to other slots, and then disjointness is
    lost.  An argument that sits at the highest slot ever used by a call is passed in
    place although other values were meanwhile placed above it:
    [fn main(a, b) { let r = g(a); let t = a + b; h(t); let s = g(r); return t + s; }]
    has [t] overwritten by the second call of [g].  Returned: 25 instead of 120. *)
Definition identity : func := Func [Block [] (TReturn [Op 0]) []] 0 [0%nat] [1%nat] 2 all_felt.
Definition nothing : func := Func [Block [] (TReturn []) []] 0 [0%nat] [] 1 all_felt.
Definition three_calls : func :=
  Func [Block [ICall [2%nat] 0 [Op 0] [TFelt]; IBinary Add 3 (Op 0) (Op 1);
               ICall [] 1 [Op 3] [TFelt]; ICall [4%nat] 0 [Op 2] [TFelt];
               IBinary Add 5 (Op 3) (Op 4)] (TReturn [Op 5]) []]
    0 [0%nat; 1%nat] [6%nat] 7 all_felt.
Definition in_place_module : funcs :=
  [("g"%string, identity); ("h"%string, nothing); ("main"%string, three_calls)].
Theorem C42_in_place_refuted :
  exists p, compile in_place_module = COk p /\
    mir_call in_place_module 9 9 2 [VFelt 10; VFelt 100] = ROk ([VFelt 120], tt) /\
    run_program 1 99 99 p "main" [10; 100] 1 = Some [Some 25].
Proof. eexists. split; [vm_compute; reflexivity|]. split; vm_compute; reflexivity. Qed.
Print Assumptions C42_in_place_refuted.
(** Blocks are generated in the order of their numbers, not of execution: a call result
    used in a block with a smaller number is read from the slot the value had before the
    call moved it.  Returned: 1 instead of 101. *)
Definition late_call : func :=
  Func [Block [] (TIf (Op 0) 1 2) []; Block [] (TJump 4) []; Block [] (TReturn [Lit (LInt 0)]) [];
        Block [IBinary Add 3 (Op 2) (Lit (LInt 1))] (TReturn [Op 3]) [];
        Block [ICall [2%nat] 0 [Op 1] [TFelt]] (TJump 3) []]
    0 [0%nat; 1%nat] [4%nat] 5 bool_felts.
Theorem C42_block_order_refuted :
  exists p, compile [("g"%string, identity); ("main"%string, late_call)] = COk p /\
    mir_call [("g"%string, identity); ("main"%string, late_call)] 9 9 1 [VBool true; VFelt 100]
      = ROk ([VFelt 101], tt) /\
    run_program 1 99 99 p "main" [1; 100] 1 = Some [Some 1].
Proof. eexists. split; [vm_compute; reflexivity|]. split; vm_compute; reflexivity. Qed.
Print Assumptions C42_block_order_refuted.

(** ** C43: boolean operators *)

(** Wherever the sequence emitted for [l || r] is placed, running it leaves 1 in the
    destination slot if one of the operands is true and 0 otherwise, changes no other
    cell, and ends behind the sequence.  The operands (constants or slots) must not share
    the destination's slot, because it is cleared first. *)
Theorem C43_or : forall M lab d l r st u is st' a z m s x y,
  (forall l b, lab l = Some b -> 0 <= b < P) ->
  sc_or d l r st = COk (u, is, st') -> placed (code M) lab a is z -> pc s = a ->
  0 <= a -> z < P -> fits M a z (fp s) ->
  is_true (lay st) m s l x -> is_true (lay st) m s r y ->
  elsewhere (lay st) s d l -> elsewhere (lay st) s d r ->
  exists m', msteps M m s m' (St z (fp s)) /\ m' (slot s d) = (if x || y then 1 else 0) /\
    (forall c, c <> slot s d -> m' c = m c).
Proof. intros M lab d l r st u is st' a z m s x y Hl. exact (or_ok M lab Hl d l r st u is st' a z m s x y). Qed.
Print Assumptions C43_or.
Theorem C43_and : forall M lab d l r st u is st' a z m s x y,
  (forall l b, lab l = Some b -> 0 <= b < P) ->
  sc_and d l r st = COk (u, is, st') -> placed (code M) lab a is z -> pc s = a ->
  0 <= a -> z < P -> fits M a z (fp s) ->
  is_true (lay st) m s l x -> is_true (lay st) m s r y ->
  elsewhere (lay st) s d l -> elsewhere (lay st) s d r ->
  exists m', msteps M m s m' (St z (fp s)) /\ m' (slot s d) = (if x && y then 1 else 0) /\
    (forall c, c <> slot s d -> m' c = m c).
Proof. intros M lab d l r st u is st' a z m s x y Hl. exact (and_ok M lab Hl d l r st u is st' a z m s x y). Qed.
Print Assumptions C43_and.
Theorem C43_not : forall M lab d v st u is st' a z m s x,
  (forall l b, lab l = Some b -> 0 <= b < P) ->
  sc_not d v st = COk (u, is, st') -> placed (code M) lab a is z -> pc s = a ->
  0 <= a -> z < P -> fits M a z (fp s) ->
  is_true (lay st) m s v x ->
  exists m', msteps M m s m' (St z (fp s)) /\ m' (slot s d) = (if x then 0 else 1) /\
    (forall c, c <> slot s d -> m' c = m c).
Proof.
  intros M lab d v st u is st' a z m s x Hl H1 H2 H3 H4 H5 H6 H7.
  destruct (not_ok M lab Hl d v st u is st' a z m s x H1 H2 H3 H4 H5 H6 H7) as (m' & A & B & C).
  exists m'. split; auto. split; auto. destruct x; exact B.
Qed.
Print Assumptions C43_not.
(** [v0 || v1] into slot 2, placed at address 10. *)
Definition two_bools : layout := Lay (fun v => match v with 0%nat => Some (0, 1) | 1%nat => Some (1, 1) | _ => None end) 3 0.
Definition or_code : list instr :=
  repeat Ret 10 ++ [StoreImm 0 2; JnzFpImm 0 3; JnzFpImm 1 2; JmpRelImm 2; StoreImm 1 2].
Example C43_case : exists is st', sc_or 2 (Op 0) (Op 1) (est0 two_bools 0 [] false) = COk (tt, is, st') /\
  placed (fetch or_code) (fun l => if String.eqb l "or_true_0" then Some 14 else Some 15) 10 is 15 /\
  is_true two_bools (fun a => if a =? 101 then 1 else 0) (St 10 100) (Op 0) false /\
  is_true two_bools (fun a => if a =? 101 then 1 else 0) (St 10 100) (Op 1) true /\
  elsewhere two_bools (St 10 100) 2 (Op 0) /\ elsewhere two_bools (St 10 100) 2 (Op 1).
Proof.
  eexists _, _. split; [vm_compute; reflexivity|]. split.
  { cbn [placed]. repeat split; try reflexivity; do 2 eexists; repeat split; reflexivity. }
  split; [exists 0, 1; split; reflexivity|]. split; [exists 1, 1; split; reflexivity|].
  split; intros i o n E; injection E as <-; cbn; intros E; injection E as <- <-; discriminate.
Qed.
