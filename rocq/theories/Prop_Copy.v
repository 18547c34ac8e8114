(** Property C35: copy propagation. *)
From Coq Require Import ZArith Bool String List Lia.
From Verif Require Import M31 Isa Mir MirSem MirPasses MirFacts MirLocalFacts MirSim MirDce MirDceFacts MirSsa MirSsaFacts MirSsaMap
  MirCopy MirCopyFacts Prop_Mir.
Import ListNotations.
Open Scope Z_scope.

(** ** C35: copies can be replaced by their sources *)

(** The pass runs to completion, in whatever order it goes through its table of copies. *)
Theorem C35_total : forall f ord, (forall d, In d ord -> copy_src f d <> None) ->
  exists g, copy_prop ord f = Some g.
Proof. exact copy_prop_total. Qed.
Print Assumptions C35_total.

(** On a function in single assignment form, in every world, for every input: the same
    results, the same effects, the same failures, the same running time.  [ord] is the
    iteration order of the table of copies, whatever it is. *)
Theorem C35_same : forall f ord g, ssa f -> phis_first f ->
  (forall r, In r (f_rets f) -> ~ In r (all_dests f)) ->
  (forall d, In d ord <-> copy_src f d <> None) ->
  copy_prop ord f = Some g ->
  forall S (W : world S) fuel args s, call_fn W f fuel args s <> RStuck ->
    call_fn W g fuel args s = call_fn W f fuel args s.
Proof. intros f ord g H1 H2 H3 H4 H5. exact (copy_prop_same f ord g H1 H2 H3 H4 H5). Qed.
Print Assumptions C35_same.

(** The result is in single assignment form again. *)
Theorem C35_keeps_form : forall f ord g, ssa f -> phis_first f ->
  (forall r, In r (f_rets f) -> ~ In r (all_dests f)) ->
  (forall d, In d ord <-> copy_src f d <> None) ->
  copy_prop ord f = Some g ->
  ssa g /\ phis_first g /\ (forall r, In r (f_rets g) -> ~ In r (all_dests g)).
Proof.
  intros f ord g H1 H2 H3 H4 H. unfold copy_prop in H.
  destruct (resolved f ord) as [l|] eqn:E; [|discriminate]. injection H as <-.
  exact (copy_prop_keeps f ord l H1 H2 H3 H4 E).
Qed.
Print Assumptions C35_keeps_form.

(** No copy of one value into another of the same type is left. *)
Theorem C35_copies_gone : forall f ord g, 
  (forall d, In d ord <-> copy_src f d <> None) -> copy_prop ord f = Some g ->
  forall b d s t, In b (f_blocks g) -> In (IAssign d (Op s) t) (b_instrs b) -> copy_src f d = None.
Proof.
  intros f ord g Ho H b d s t Hb Hi. unfold copy_prop in H.
  destruct (resolved f ord) as [l|]; [|discriminate]. injection H as <-.
  unfold remove_copies in Hb. cbn [with_blocks f_blocks] in Hb. apply in_map_iff in Hb.
  destruct Hb as (c & <- & Hc). cbn [b_instrs] in Hi. apply filter_In in Hi. destruct Hi as [_ Hi].
  cbn in Hi. destruct (copy_src f d) eqn:E; auto. exfalso.
  assert (In d ord) by (apply Ho; congruence). apply mem_nat_iff in H. rewrite H in Hi. discriminate.
Qed.
Print Assumptions C35_copies_gone.

(** Without single assignment the pass is wrong: here [2 := 0; 0 := 1; return 2], where [0]
    is assigned between the copy and the use. *)
Theorem C35_single_assignment_needed_refuted : exists f g,
  phis_first f /\ copy_prop [2%nat] f = Some g /\ (forall d, In d [2%nat] <-> copy_src f d <> None) /\
  call_fn w0 f 1 [VFelt 10; VFelt 20] tt = ROk ([VFelt 10], tt) /\
  call_fn w0 g 1 [VFelt 10; VFelt 20] tt = ROk ([VFelt 21], tt).
Proof.
  exists (Func [Block [IAssign 2 (Op 0) TFelt; IBinary Add 0 (Op 1) (Lit (LInt 1))] (TReturn [Op 2]) []]
               0 [0; 1]%nat [3]%nat 4 (fun _ => Some TFelt)).
  eexists. split; [|split; [reflexivity|split; [|split; reflexivity]]].
  - intros b [<-|[]]. reflexivity.
  - intro d. split.
    + intros [<-|[]]. discriminate.
    + unfold copy_src. cbn. destruct d as [|[|[|d]]]; cbn; intro H; try congruence; auto.
Qed.
Print Assumptions C35_single_assignment_needed_refuted.

(** A loop with chained copies, some feeding a phi: the hypotheses hold, the copies
    disappear, the result stays. *)
Definition copy_loop : func :=
  Func [Block [IAssign 3 (Op 0) TFelt; IAssign 4 (Op 3) TFelt] (TJump 1) [];
        Block [IPhi 1 TFelt [(0%nat, Op 4); (1%nat, Op 5)]; IBinary Add 2 (Op 1) (Lit (LInt 1));
               IAssign 5 (Op 2) TFelt]
              (TCmp Eq (Op 5) (Lit (LInt 5)) 2 1) [0%nat; 1%nat];
        Block [IAssign 6 (Op 5) TFelt] (TReturn [Op 6]) [1%nat]]
       0 [0%nat] [7%nat] 8 (fun v => Some TFelt).
Definition copy_loop_av (b : nat) : list nat :=
  match b with 0 => [0] | 1 => [0; 4] | 2 => [0; 5] | _ => [] end%nat.
Example C35_ex : exists g, copy_prop [5; 3; 6; 4]%nat copy_loop = Some g /\ ssa copy_loop /\ phis_first copy_loop /\
  (forall r, In r (f_rets copy_loop) -> ~ In r (all_dests copy_loop)) /\
  (forall d, In d [5; 3; 6; 4]%nat <-> copy_src copy_loop d <> None) /\
  instr_count copy_loop = 6%nat /\ instr_count g = 2%nat /\
  call_fn w0 copy_loop 9 [VFelt 2] tt = ROk ([VFelt 5], tt) /\ call_fn w0 g 9 [VFelt 2] tt = ROk ([VFelt 5], tt).
Proof.
  eexists. split; [reflexivity|]. split; [apply (ssa_cert_sound copy_loop_av); reflexivity|].
  split; [|split; [|split; [|repeat split]]].
  - intros b Hb. repeat (destruct Hb as [<-|Hb]; [reflexivity|]). destruct Hb.
  - intros r [<-|[]] H. cbn in H. repeat (destruct H as [H|H]; [discriminate|]). exact H.
  - intro d. split.
    + intro H. repeat (destruct H as [<-|H]; [discriminate|]). destruct H.
    + unfold copy_src. cbn. intro H. do 7 (destruct d as [|d]; [cbn in *; try congruence; tauto|]). cbn in H. congruence.
Qed.
