(** Property C34: dead code elimination. *)
From Coq Require Import ZArith Bool String List Lia.
From Verif Require Import M31 Isa Mir MirSem MirPasses MirFacts MirLocalFacts MirSim MirFuseFacts
  MirBranchFacts MirDce MirDceFacts Prop_Mir.
Import ListNotations.
Open Scope Z_scope.

(** ** C34: removing unreachable blocks and unused pure instructions *)

(** Which blocks are kept: exactly those on a path from the entry. *)
Theorem C34_kept_blocks : forall f b, reachable f b = true <-> path (f_blocks f) (f_entry f) b.
Proof. exact reachable_iff. Qed.
Print Assumptions C34_kept_blocks.

(** The elimination does not panic on functions whose branch targets exist. *)
Theorem C34_no_panic : forall f,
  (f_entry f < length (f_blocks f))%nat ->
  (forall b, In b (f_blocks f) -> forall x, In x (targets (b_term b)) -> (x < length (f_blocks f))%nat) ->
  exists g, dce f = Some g.
Proof. intros f H K. destruct (compact_total f H K) as (g & E). unfold dce. rewrite E. eauto. Qed.
Print Assumptions C34_no_panic.

(** Removing blocks changes nothing at all, failures and running time included, provided
    no phi of a reachable block names a block whose number changes. *)
Theorem C34_blocks_partial : forall f g, compact f = Some g -> phis_stable f ->
  forall S (W : world S) fuel args s, call_fn W g fuel args s = call_fn W f fuel args s.
Proof. intros f g H K. exact (compact_same f K g H). Qed.
Print Assumptions C34_blocks_partial.

(** The whole pass: every result the function returns, it still returns, with the same
    effect on the rest of the world.  An unused array creation must be unobservable. *)
Theorem C34_results_partial : forall f g, dce f = Some g -> phis_first f -> phis_stable f ->
  forall S (W : world S) fuel args s r, array_pure W \/ no_arrays f ->
  call_fn W f fuel args s = ROk r -> call_fn W g fuel args s = ROk r.
Proof. exact dce_results. Qed.
Print Assumptions C34_results_partial.

(** ... and afterwards every pure instruction with a destination is used. *)
Theorem C34_nothing_dead_left : forall f g b i d, dce f = Some g ->
  In b (f_blocks g) -> In i (b_instrs b) -> has_side_effects i = false -> dest i = Some d ->
  exists c, In c (f_blocks g) /\
    ((exists j, In j (b_instrs c) /\ In d (uses j)) \/ In d (term_uses (b_term c))).
Proof.
  intros f g b i d H Hb Hi Hs Hd. unfold dce in H. destruct (compact f) as [h|]; [|discriminate].
  injection H as <-. pose proof (remove_dead_complete h b i Hb Hi) as K.
  unfold keep_instr in K. rewrite Hs in K.
  assert (U : (0 < use_count (remove_dead h) d)%nat).
  { destruct i; try discriminate; rewrite Hd in K; apply Nat.ltb_lt in K; exact K. }
  clear -U. unfold use_count in U. induction (f_blocks (remove_dead h)) as [|c l IH]; cbn in U; [lia|].
  destruct (mem_nat d (term_uses (b_term c))) eqn:E1.
  { exists c. split; [left; auto|]. right. apply mem_nat_in; auto. }
  destruct (filter (fun i => mem_nat d (uses i)) (b_instrs c)) as [|j r] eqn:E2.
  - destruct IH as (c' & A & B); [cbn in U; lia|]. exists c'. split; [right; auto|auto].
  - exists c. split; [left; auto|]. left. exists j.
    assert (In j (filter (fun i => mem_nat d (uses i)) (b_instrs c))) as F by (rewrite E2; left; auto).
    apply filter_In in F. destruct F as [F1 F2]. split; auto. apply mem_nat_in; auto.
Qed.
Print Assumptions C34_nothing_dead_left.

(** [fn(c) { x := if c then 10 else 20; return x }] with an unreachable block in front of
    the branches, as [if true {..} else {..}] leaves one. *)
Definition phi_after_dead : func :=
  Func [Block [] (TIf (Op 0) 2 3) []; Block [] (TJump 4) [];
        Block [] (TJump 4) [0%nat]; Block [] (TJump 4) [0%nat];
        Block [IPhi 1 TFelt [(1%nat, Lit (LInt 0)); (2%nat, Lit (LInt 10)); (3%nat, Lit (LInt 20))]] (TReturn [Op 1]) [1%nat; 2%nat; 3%nat]]
       0 [0%nat] [1%nat] 2
       (fun v => match v with 0 => Some TBool | 1 => Some TFelt | _ => None end)%nat.

(** Block numbers shift, phi sources do not: the function returns the other branch's
    value. *)
Theorem C34_phi_sources_refuted :
  exists f g, phis_first f /\ no_arrays f /\ dce f = Some g /\
    call_fn w0 f 3 [VBool false] tt = ROk ([VFelt 20], tt) /\
    call_fn w0 g 3 [VBool false] tt = ROk ([VFelt 10], tt).
Proof.
  exists phi_after_dead. eexists. split; [|split; [|split; [reflexivity|split; reflexivity]]].
  - intros b Hb. repeat (destruct Hb as [<-|Hb]; [reflexivity|]). destruct Hb.
  - intros b d es t c Hb. repeat (destruct Hb as [<-|Hb]; [cbn; intros H; repeat (destruct H as [H|H]; [discriminate|]); exact H|]). destruct Hb.
Qed.
Print Assumptions C34_phi_sources_refuted.

(** A failure can disappear: the unused quotient of a division by zero is removed. *)
Theorem C34_failure_removed_refuted :
  exists f g, phis_first f /\ phis_stable f /\ no_arrays f /\ dce f = Some g /\
    call_fn w0 f 1 [VU32 0] tt = RTrap /\ call_fn w0 g 1 [VU32 0] tt = ROk ([VU32 7], tt).
Proof.
  exists (Func [Block [IBinary U32Div 1 (Lit (LInt 5)) (Op 0)] (TReturn [Lit (LInt 7)]) []] 0 [0%nat] [2%nat] 3
            (fun v => match v with 0 | 1 | 2 => Some TU32 | _ => None end)%nat).
  eexists. split; [|split; [|split; [|split; [reflexivity|split; reflexivity]]]].
  - intros b [<-|[]]. reflexivity.
  - intros p b blk d t ss p' _ _ Hb Hi _. destruct b as [|[|b]]; cbn in Hb; try discriminate.
    injection Hb as <-. destruct Hi as [Hi|[]]; discriminate.
  - intros b d es t c [<-|[]] [H|[]]. discriminate.
Qed.
Print Assumptions C34_failure_removed_refuted.

(** A loop with a dead computation and an unreachable block at the end: hypotheses hold,
    both are removed, the result stays. *)
Definition dce_loop : func :=
  Func [Block [IAssign 4 (Lit (LInt 9)) TFelt] (TJump 1) [];
        Block [IPhi 1 TFelt [(0%nat, Op 0); (1%nat, Op 2)]; IBinary Add 2 (Op 1) (Lit (LInt 1));
               IBinary Mul 5 (Op 4) (Op 4)]
              (TCmp Eq (Op 2) (Lit (LInt 5)) 2 1) [0%nat; 1%nat];
        Block [] (TReturn [Op 2]) [1%nat];
        Block [] (TReturn [Op 0]) []]
       0 [0%nat] [2%nat] 6 (fun v => Some TFelt).
Example C34_ex : exists g, dce dce_loop = Some g /\ phis_first dce_loop /\ phis_stable dce_loop /\ no_arrays dce_loop /\
  length (f_blocks g) = 3%nat /\ instr_count g = 2%nat /\
  call_fn w0 dce_loop 9 [VFelt 2] tt = ROk ([VFelt 5], tt) /\ call_fn w0 g 9 [VFelt 2] tt = ROk ([VFelt 5], tt).
Proof.
  eexists. split; [reflexivity|]. split; [|split; [|split; [|repeat split]]].
  - intros b Hb. repeat (destruct Hb as [<-|Hb]; [reflexivity|]). destruct Hb.
  - intros p b blk d t ss p' _ (blk' & Hp & _) _ _ Hi. change (kept dce_loop) with [0; 1; 2]%nat in Hi.
    destruct p as [|[|[|p]]]; cbn in Hi; try discriminate; injection Hi as <-; reflexivity.
  - intros b d es t c Hb. repeat (destruct Hb as [<-|Hb]; [cbn; intros H; repeat (destruct H as [H|H]; [discriminate|]); exact H|]). destruct Hb.
Qed.
