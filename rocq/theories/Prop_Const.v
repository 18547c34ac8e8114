(** Property C37: constant propagation. *)
From Coq Require Import ZArith Bool String List Lia.
From Verif Require Import M31 Isa Mir MirSem MirReach MirPasses MirFacts MirLocalFacts MirSim MirSsa MirSsaFacts MirConst MirConstFacts
  Prop_Mir Prop_Cse.
Import ListNotations.
Open Scope Z_scope.

(** ** C37: what is declared constant is constant *)

(** The literal as a value of the kind of [x]. *)
Definition is_literal (l : lit) (x : val) : Prop :=
  match x with
  | VFelt z => l = LInt z
  | VU32 z => l = LInt z
  | VBool b => l = LBool b
  | VUnit => l = LUnit
  | _ => False
  end.

(** Whenever the analysis declares [v] to be [l], then in every state of every execution in
    which [v] has a value, that value is [l].  Literals have to be in range, and calls may
    have one result at most (see below). *)
Theorem C37_constant : forall n f st, analyse n f = CDone st -> lits_in_range f -> single_results f ->
  forall S (W : world S) args s0 b k e s, reached W f args s0 b k e s ->
  forall v l x, st v = Const l -> e v = Some x -> is_literal l x.
Proof.
  intros n f st H H1 H2 S W args s0 b k e s HR v l x Hv Hx.
  pose proof (analyse_sound n f st H H1 H2 S W args s0 b k e s v l x HR Hv Hx) as D.
  destruct l, x; cbn in *; try contradiction; try (destruct D as [D _]); subst; auto.
Qed.
Print Assumptions C37_constant.

(** Putting the constants in place changes no result, effect, failure or running time. *)
Theorem C37_same : forall f g, const_prop f = CDone g -> phis_first f -> lits_in_range f -> single_results f ->
  same_behaviour f g.
Proof. exact const_prop_same. Qed.
Print Assumptions C37_same.

(** The analysis ends on every function. *)
Theorem C37_terminates : forall f, const_prop f <> CFuel.
Proof. exact const_prop_ends. Qed.
Print Assumptions C37_terminates.

(** Single assignment form is kept. *)
Theorem C37_keeps_form : forall f g, const_prop f = CDone g -> ssa f -> phis_first f ->
  (forall r, In r (f_rets f) -> ~ In r (all_dests f)) ->
  ssa g /\ phis_first g /\ (forall r, In r (f_rets g) -> ~ In r (all_dests g)).
Proof. exact const_prop_keeps. Qed.
Print Assumptions C37_keeps_form.

(** Without the restriction on calls it fails.  The results of a call with two results stay
    unknown to the analysis, and a phi of an unknown value and 5 is declared to be 5:
      if p { (a, b) = g() } else { 5 }. *)
Definition two_results : world nat :=
  World nat (fun _ _ _ _ _ => RStuck) (fun _ _ _ _ _ _ => RStuck) (fun _ _ _ _ _ => RStuck)
        (fun _ _ => RStuck) (fun _ _ s => ROk ([VFelt 1; VFelt 2], S s)).
Definition call_or_five : func :=
  Func [Block [] (TIf (Op 0) 1 2) [];
        Block [ICall [1%nat; 2%nat] 0 [] []] (TJump 3) [0%nat];
        Block [] (TJump 3) [0%nat];
        Block [IPhi 3 TFelt [(1%nat, Op 1); (2%nat, Lit (LInt 5))]; IBinary Add 4 (Op 3) (Lit (LInt 1))] (TReturn [Op 4]) [1%nat; 2%nat]]
       0 [0%nat] [5%nat] 6 (fun v => match v with 0%nat => Some TBool | _ => Some TFelt end).
Theorem C37_multi_result_call_refuted : exists f g, ssa f /\ phis_first f /\
  (forall r, In r (f_rets f) -> ~ In r (all_dests f)) /\ lits_in_range f /\
  const_prop f = CDone g /\
  call_fn two_results f 3 [VBool true] 0%nat = ROk ([VFelt 2], 1%nat) /\
  call_fn two_results g 3 [VBool true] 0%nat = ROk ([VFelt 6], 1%nat).
Proof.
  exists call_or_five. eexists. split.
  { apply (ssa_cert_sound (fun b => match b with 0 => [0] | 1 => [0] | 2 => [0] | _ => [0] end)%nat). reflexivity. }
  split; [|split; [|split; [|split; [reflexivity|split; reflexivity]]]].
  - intros b Hb. repeat (destruct Hb as [<-|Hb]; [reflexivity|]). destruct Hb.
  - intros r [<-|[]] H. cbn in H. repeat (destruct H as [H|H]; [discriminate|]). exact H.
  - intros b i Hb Hi. destruct Hb as [<-|[<-|[<-|[<-|[]]]]]; cbn in Hi; try contradiction.
    + destruct Hi as [<-|[]]. exact Logic.I.
    + destruct Hi as [<-|[<-|[]]].
      * intros p l [E|[E|[]]]; [discriminate|]. injection E as _ <-. cbn. split; [lia|reflexivity].
      * split; [|split]; [discriminate| |discriminate]. intros a E. injection E as <-. cbn. split; [lia|reflexivity].
Qed.
Print Assumptions C37_multi_result_call_refuted.

(** Nor does it hold for felt literals at or above the modulus: 2147483647 is 0 as a field
    element, but the analysis compares the numbers. *)
Definition big_literal : func :=
  Func [Block [IAssign 1 (Lit (LInt P)) TFelt; IBinary Eq 2 (Op 1) (Lit (LInt 0));
               IAssign 3 (Op 2) TBool] (TReturn [Op 3]) []]
       0 [] [4%nat] 5 (fun v => match v with 1%nat => Some TFelt | _ => Some TBool end).
Theorem C37_felt_literal_refuted : exists f g, ssa f /\ phis_first f /\ single_results f /\
  (forall r, In r (f_rets f) -> ~ In r (all_dests f)) /\ const_prop f = CDone g /\
  call_fn two_results f 1 [] 0%nat = ROk ([VBool true], 0%nat) /\
  call_fn two_results g 1 [] 0%nat = ROk ([VBool false], 0%nat).
Proof.
  exists big_literal. eexists. split.
  { apply (ssa_cert_sound (fun _ => [])). reflexivity. }
  split; [|split; [|split; [|split; [reflexivity|split; reflexivity]]]].
  - intros b [<-|[]]. reflexivity.
  - intros b i [<-|[]] Hi. cbn in Hi. destruct Hi as [<-|[<-|[<-|[]]]]; cbn; lia.
  - intros r [<-|[]] H. cbn in H. repeat (destruct H as [H|H]; [discriminate|]). exact H.
Qed.
Print Assumptions C37_felt_literal_refuted.

(** A loop: x is 3 however often the loop turns, the counter is not constant. *)
Definition const_loop : func :=
  Func [Block [IAssign 1 (Lit (LInt 3)) TFelt] (TJump 1) [];
        Block [IPhi 2 TFelt [(0%nat, Op 0); (1%nat, Op 3)]; IPhi 4 TFelt [(0%nat, Op 1); (1%nat, Op 5)];
               IBinary Add 3 (Op 2) (Lit (LInt 1)); IBinary Mul 5 (Op 4) (Lit (LInt 1)); ICall [8%nat] 0 [Op 5] [TFelt]]
              (TCmp Eq (Op 3) (Lit (LInt 5)) 2 1) [0%nat; 1%nat];
        Block [IBinary Add 6 (Op 4) (Op 3)] (TReturn [Op 6]) [1%nat]]
       0 [0%nat] [7%nat] 9 (fun _ => Some TFelt).
Example C37_ex : exists st g, analyse 20 const_loop = CDone st /\ st 4%nat = Const (LInt 3) /\ st 3%nat = NonConst /\
  const_prop const_loop = CDone g /\ g <> const_loop /\
  lits_in_range const_loop /\ single_results const_loop /\ phis_first const_loop /\
  call_fn counting const_loop 9 [VFelt 2] 0%nat = ROk ([VFelt 8], 3%nat) /\
  call_fn counting g 9 [VFelt 2] 0%nat = ROk ([VFelt 8], 3%nat).
Proof.
  do 2 eexists. split; [reflexivity|]. split; [reflexivity|]. split; [reflexivity|]. split; [reflexivity|].
  split; [discriminate|]. split; [|split; [|split; [|split; reflexivity]]].
  - intros b i Hb Hi. destruct Hb as [<-|[<-|[<-|[]]]]; cbn in Hi.
    + destruct Hi as [<-|[]]. cbn. split; [lia|reflexivity].
    + destruct Hi as [<-|[<-|[<-|[<-|[<-|[]]]]]]; try exact Logic.I;
        try (intros p l [E|[E|[]]]; discriminate);
        (split; [|split]; [discriminate| |discriminate]; intros a E; injection E as <-; cbn; split; [lia|reflexivity]).
    + destruct Hi as [<-|[]]. split; [|split]; discriminate.
  - intros b i Hb Hi. destruct Hb as [<-|[<-|[<-|[]]]]; cbn in Hi.
    + destruct Hi as [<-|[]]; cbn; lia.
    + destruct Hi as [<-|[<-|[<-|[<-|[<-|[]]]]]]; cbn; lia.
    + destruct Hi as [<-|[]]; cbn; lia.
  - intros b Hb. repeat (destruct Hb as [<-|Hb]; [reflexivity|]). destruct Hb.
Qed.
