(** Property C36: common-subexpression elimination inside a block. *)
From Coq Require Import ZArith Bool String List Lia.
From Verif Require Import M31 Isa Mir MirSem MirPasses MirFacts MirLocalFacts MirSim MirDce MirDceFacts MirSsa MirSsaFacts MirSsaMap
  MirCopy MirCopyFacts MirCse MirCseFacts Prop_Mir.
Import ListNotations.
Open Scope Z_scope.

(** ** C36: equal pure expressions can share one result *)

(** On a function in single assignment form whose recorded types are those of its
    expressions and which builds no array from operands only: if the pass removed no call,
    allocation or array, every result the function returns, it still returns, with the same
    effects.  Missing: the pass does remove calls and merge arrays (below), and it removes
    failing computations nobody uses. *)
Theorem C36_results_partial : forall f, ssa f -> phis_first f ->
  (forall r, In r (f_rets f) -> ~ In r (all_dests f)) -> keys_typed f -> no_keyed_arrays f ->
  effects (local_cse f) = effects f ->
  forall S (W : world S) fuel args s r,
    call_fn W f fuel args s = ROk r -> call_fn W (local_cse f) fuel args s = ROk r.
Proof.
  intros f H1 H2 H3 H4 H5. apply local_cse_sim. unfold cse_ready. auto.
Qed.
Print Assumptions C36_results_partial.

(** The result is in single assignment form again, and well typed. *)
Theorem C36_keeps_form : forall f, ssa f -> phis_first f ->
  (forall r, In r (f_rets f) -> ~ In r (all_dests f)) -> keys_typed f -> no_keyed_arrays f ->
  let g := local_cse f in
  ssa g /\ phis_first g /\ (forall r, In r (f_rets g) -> ~ In r (all_dests g)) /\ keys_typed g /\ no_keyed_arrays g.
Proof. intros f H1 H2 H3 H4 H5. apply local_cse_ready. unfold cse_ready. auto. Qed.
Print Assumptions C36_keeps_form.

(** A call whose result is not used disappears together with its effects as soon as some
    expression of the block is shared.  Here the callee counts its invocations. *)
Definition counting : world nat :=
  World nat (fun _ _ _ _ _ => RStuck) (fun _ _ _ _ _ _ => RStuck) (fun _ _ _ _ _ => RStuck)
        (fun _ _ => RStuck) (fun _ _ s => ROk ([VFelt 0], S s)).
Definition calls_and_shares : func :=
  Func [Block [ICall [1%nat] 0 [] []; IBinary Add 2 (Op 0) (Op 0); IBinary Add 3 (Op 0) (Op 0);
               IBinary Mul 4 (Op 2) (Op 3)] (TReturn [Op 4]) []]
       0 [0%nat] [5%nat] 6 (fun _ => Some TFelt).
Theorem C36_call_dropped_refuted : exists f, ssa f /\ phis_first f /\
  (forall r, In r (f_rets f) -> ~ In r (all_dests f)) /\ keys_typed f /\ no_keyed_arrays f /\
  call_fn counting f 1 [VFelt 3] 0%nat = ROk ([VFelt 36], 1%nat) /\
  call_fn counting (local_cse f) 1 [VFelt 3] 0%nat = ROk ([VFelt 36], 0%nat).
Proof.
  exists calls_and_shares. split; [apply (ssa_cert_sound (fun _ => [0%nat])); reflexivity|].
  split; [|split; [|split; [|split; [|split; reflexivity]]]].
  - intros b [<-|[]]. reflexivity.
  - intros r [<-|[]] H. cbn in H. repeat (destruct H as [H|H]; [discriminate|]). exact H.
  - intros b i d [<-|[]] Hi K D. exists TFelt. split; [reflexivity|]. cbn in Hi.
    repeat (destruct Hi as [<-|Hi]; [try reflexivity; exfalso; apply K; reflexivity|]). destruct Hi.
  - intros b d es t c [<-|[]] Hi. cbn in Hi. repeat (destruct Hi as [Hi|Hi]; [discriminate|]). destruct Hi.
Qed.
Print Assumptions C36_call_dropped_refuted.

(** Arrays are objects, not values.  Two arrays built from the same elements become one,
    and a store into the first shows up in the second: [a = [x]; b = [x]; a[0] = 9; b[0]].
    The memory is a list of cells, an array is laid out at the end of it. *)
Definition cells : world (list val) :=
  World (list val)
    (fun s _ b ss _ => match b, ss with
                       | VPtr a, [SIdx i] => of_opt (nth_error s (Z.to_nat (a + i)))
                       | _, _ => RStuck end)
    (fun s _ b ss _ x => match b, ss with
                         | VPtr a, [SIdx i] => ROk (set_nth (Z.to_nat (a + i)) x s)
                         | _, _ => RStuck end)
    (fun s _ vs _ _ => ROk (VPtr (Z.of_nat (length s)), s ++ vs))
    (fun _ _ => RStuck) (fun _ _ _ => RStuck).
Definition two_arrays : func :=
  Func [Block [IMakeArray 1 [Op 0] TFelt false; IMakeArray 2 [Op 0] TFelt false;
               IStore (Place 1 [PIdx (Lit (LInt 0))]) (Lit (LInt 9)) TFelt;
               ILoad 3 (Place 2 [PIdx (Lit (LInt 0))]) TFelt] (TReturn [Op 3]) []]
       0 [0%nat] [4%nat] 5
       (fun v => match v with 1 | 2 => Some (TArr TFelt 1) | _ => Some TFelt end)%nat.
Theorem C36_arrays_merged_refuted : exists f s1 s2, ssa f /\ phis_first f /\
  (forall r, In r (f_rets f) -> ~ In r (all_dests f)) /\ keys_typed f /\
  call_fn cells f 1 [VFelt 3] [] = ROk ([VFelt 3], s1) /\
  call_fn cells (local_cse f) 1 [VFelt 3] [] = ROk ([VFelt 9], s2).
Proof.
  exists two_arrays. do 2 eexists. split; [apply (ssa_cert_sound (fun _ => [0%nat])); reflexivity|].
  split; [|split; [|split; [|split; reflexivity]]].
  - intros b [<-|[]]. reflexivity.
  - intros r [<-|[]] H. cbn in H. repeat (destruct H as [H|H]; [discriminate|]). exact H.
  - intros b i d [<-|[]] Hi K D. cbn in Hi.
    destruct Hi as [<-|[<-|[<-|[<-|[]]]]]; cbn in D; try discriminate; injection D as <-;
      (eexists; split; [reflexivity|exact Logic.I]).
Qed.
Print Assumptions C36_arrays_merged_refuted.

(** A tuple and an array of the same elements are taken to be the same expression: the
    array takes the place of the tuple, and the function loses its meaning. *)
Definition tuple_and_array : func :=
  Func [Block [IMakeArray 1 [Op 0] TFelt false; IMakeTuple 2 [Op 0];
               IStore (Place 1 [PIdx (Lit (LInt 0))]) (Lit (LInt 9)) TFelt;
               IExtractTuple 3 (Op 2) 0 TFelt] (TReturn [Op 3]) []]
       0 [0%nat] [4%nat] 5
       (fun v => match v with 1 => Some (TArr TFelt 1) | 2 => Some (TTuple [TFelt]) | _ => Some TFelt end)%nat.
Theorem C36_tuple_array_refuted : exists f s1, ssa f /\ phis_first f /\
  (forall r, In r (f_rets f) -> ~ In r (all_dests f)) /\ keys_typed f /\
  call_fn cells f 1 [VFelt 3] [] = ROk ([VFelt 3], s1) /\
  call_fn cells (local_cse f) 1 [VFelt 3] [] = RStuck.
Proof.
  exists tuple_and_array. eexists. split; [apply (ssa_cert_sound (fun _ => [0%nat])); reflexivity|].
  split; [|split; [|split; [|split; reflexivity]]].
  - intros b [<-|[]]. reflexivity.
  - intros r [<-|[]] H. cbn in H. repeat (destruct H as [H|H]; [discriminate|]). exact H.
  - intros b i d [<-|[]] Hi K D. cbn in Hi. destruct Hi as [<-|[<-|[<-|[<-|[]]]]]; cbn in D; try discriminate; injection D as <-.
    + eexists; split; [reflexivity|exact Logic.I].
    + eexists; split; [reflexivity|]. exists [TFelt]. split; [reflexivity|]. repeat constructor.
    + eexists; split; reflexivity.
Qed.
Print Assumptions C36_tuple_array_refuted.

(** A loop in which an addition is shared: the hypotheses hold, the second addition goes, the
    call stays, the result stays. *)
Definition cse_loop : func :=
  Func [Block [] (TJump 1) [];
        Block [IPhi 1 TFelt [(0%nat, Op 0); (1%nat, Op 8)]; IBinary Add 2 (Op 1) (Op 1); IBinary Add 3 (Op 1) (Op 1);
               IMakeTuple 4 [Op 2; Op 0]; IMakeTuple 5 [Op 3; Op 0]; IExtractTuple 6 (Op 5) 1 TFelt;
               ICall [7%nat] 0 [] []; IBinary Add 9 (Op 7) (Op 6); IBinary Add 8 (Op 1) (Lit (LInt 1))]
              (TCmp Eq (Op 8) (Lit (LInt 5)) 2 1) [0%nat; 1%nat];
        Block [IExtractTuple 10 (Op 4) 0 TFelt; IBinary Mul 11 (Op 10) (Op 9)] (TReturn [Op 11]) [1%nat]]
       0 [0%nat] [12%nat] 13
       (fun v => match v with 4 | 5 => Some (TTuple [TFelt; TFelt]) | _ => Some TFelt end)%nat.
Definition cse_loop_av (b : nat) : list nat :=
  match b with 0 => [0] | 1 => [0] | 2 => [0; 1; 2; 3; 4; 5; 6; 7; 8; 9] | _ => [] end%nat.
Example C36_ex : ssa cse_loop /\ phis_first cse_loop /\
  (forall r, In r (f_rets cse_loop) -> ~ In r (all_dests cse_loop)) /\ keys_typed cse_loop /\ no_keyed_arrays cse_loop /\
  effects (local_cse cse_loop) = effects cse_loop /\
  instr_count cse_loop = 11%nat /\ instr_count (local_cse cse_loop) = 10%nat /\
  call_fn counting cse_loop 9 [VFelt 2] 0%nat = ROk ([VFelt 16], 3%nat) /\
  call_fn counting (local_cse cse_loop) 9 [VFelt 2] 0%nat = ROk ([VFelt 16], 3%nat).
Proof.
  split; [apply (ssa_cert_sound cse_loop_av); reflexivity|].
  split; [|split; [|split; [|split; [|repeat split]]]].
  - intros b Hb. repeat (destruct Hb as [<-|Hb]; [reflexivity|]). destruct Hb.
  - intros r [<-|[]] H. cbn in H. repeat (destruct H as [H|H]; [discriminate|]). exact H.
  - intros b i d Hb Hi K D.
    destruct Hb as [<-|[<-|[<-|[]]]]; cbn in Hi; repeat (destruct Hi as [<-|Hi]); try contradiction;
      cbn in D; try (exfalso; apply K; reflexivity); injection D as <-; eexists; (split; [reflexivity|]);
      try reflexivity; exists [TFelt; TFelt]; (split; [reflexivity|]); repeat constructor.
  - intros b d es t c Hb Hi. repeat (destruct Hb as [<-|Hb]; [cbn in Hi; repeat (destruct Hi as [Hi|Hi]; [discriminate|]); destruct Hi|]).
    destruct Hb.
Qed.
