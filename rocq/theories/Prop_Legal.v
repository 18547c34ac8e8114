(** Property C39: legalised u32 comparisons. *)
From Coq Require Import ZArith Bool String List Lia.
From Verif Require Import M31 Isa Mir MirSem MirSsa MirLegal MirLegalFacts.
Import ListNotations.
Open Scope Z_scope.

(** ** C39: rewriting comparisons changes no result *)

(** The rewritten function does what the original does: same results, memory, failures and
    running time, in every world.  (The ids of a MIR function come from its id counter.) *)
Theorem C39_same : forall f, ids_below f -> same_behaviour f (legalize f).
Proof. exact legal_same. Qed.
Print Assumptions C39_same.

(** Afterwards only [==] and [<] are left among the u32 comparison instructions. *)
Theorem C39_legal : forall f b op d l r, In b (f_blocks (legalize f)) ->
  In (IBinary op d l r) (b_instrs b) ->
  op <> U32Neq /\ op <> U32Greater /\ op <> U32GreaterEqual /\ op <> U32LessEqual.
Proof.
  intros f b op d l r Hb Hi. pose proof (legal_ops f b _ Hb Hi) as H.
  destruct op; cbn in H; try discriminate; repeat split; discriminate.
Qed.
Print Assumptions C39_legal.

(** Each of the four rewritten comparisons, for all pairs of u32 values: running the
    replacement leaves in the destination the truth of the comparison. *)
Theorem C39_each : forall S (W : world S) tys e s n d l r x y,
  eval_as e TU32 l = Some (VU32 x) -> eval_as e TU32 r = Some (VU32 y) ->
  (forall i, In i (val_ids l ++ val_ids r) -> (i < n)%nat) -> (d < n)%nat ->
  forall op b, In (op, b) [(U32Neq, negb (x =? y)); (U32Greater, y <? x);
                           (U32GreaterEqual, y <=? x); (U32LessEqual, x <=? y);
                           (U32Eq, x =? y); (U32Less, x <? y)] ->
  exists e', exec_list W tys e s (fst (legal_instr n (IBinary op d l r))) = ROk (e', s) /\
    e' d = Some (VBool b) /\ (forall v, (v < n)%nat -> v <> d -> e' v = e v).
Proof.
  intros S W tys e s n d l r x y Hl Hr Hv Hd op b Hop.
  assert (E : exec W tys e s (IBinary op d l r) = ROk (upd e d (VBool b), s)).
  { unfold exec. cbn [effect Mir.dests]. unfold eval_bin, eval_opnd. cbn [In] in Hop.
    repeat (destruct Hop as [K|Hop]; [injection K as <- <-; cbn [op_type]; rewrite Hl, Hr; reflexivity|]).
    destruct Hop. }
  pose proof (legal_instr_sim S W tys tys n n e e s (IBinary op d l r)) as R.
  rewrite E in R. cbn [MirSim.rrel] in R.
  destruct R as ([e' s'] & -> & Ha & Hs); auto.
  - intros v [H|H]; cbn in H; [destruct H as [<-|[]]; auto|auto].
  - intros v Hv'; reflexivity.
  - cbn [fst snd] in *. subst s'. exists e'. split; auto. split.
    + rewrite (Ha d Hd). cbn. unfold upd. rewrite Nat.eqb_refl. reflexivity.
    + intros v Hv' Hn. rewrite (Ha v Hv'). cbn. unfold upd.
      destruct (Nat.eqb_spec v d); [contradiction|auto].
Qed.
Print Assumptions C39_each.

(** The temporaries are fresh: a function that defines every value once still does. *)
Theorem C39_single_assignment : forall f, ids_below f -> single_def f -> single_def (legalize f).
Proof. exact legal_single. Qed.
Print Assumptions C39_single_assignment.

(** A function with all four: [(a != 7) == ((a > b) == ((a >= b) == (a <= b)))]. *)
Definition four_cmps : func :=
  Func [Block [IBinary U32Neq 2 (Lit (LInt 7)) (Op 0);
               IBinary U32Greater 3 (Op 0) (Op 1);
               IBinary U32GreaterEqual 4 (Op 0) (Op 1);
               IBinary U32LessEqual 5 (Op 0) (Op 1);
               IBinary Eq 6 (Op 4) (Op 5); IBinary Eq 7 (Op 3) (Op 6); IBinary Eq 8 (Op 2) (Op 7)]
              (TReturn [Op 8]) []]
    0 [0%nat; 1%nat] [9%nat] 10
    (fun v => if (Nat.ltb v 2) then Some TU32 else if Nat.ltb v 10 then Some TBool else None).
Definition closed_world : world unit :=
  World unit (fun _ _ _ _ _ => RStuck) (fun _ _ _ _ _ _ => RStuck) (fun _ _ _ _ _ => RStuck)
        (fun _ _ => RStuck) (fun _ _ _ => RStuck).
Example C39_case :
  ids_below four_cmps /\ single_def four_cmps /\
  map b_instrs (f_blocks (legalize four_cmps)) =
    [[IBinary U32Eq 10 (Op 0) (Lit (LInt 7)); IUnary Not 2 (Op 10);
      IBinary U32Less 3 (Op 1) (Op 0);
      IBinary U32Less 11 (Op 0) (Op 1); IUnary Not 4 (Op 11);
      IBinary U32Less 12 (Op 1) (Op 0); IUnary Not 5 (Op 12);
      IBinary Eq 6 (Op 4) (Op 5); IBinary Eq 7 (Op 3) (Op 6); IBinary Eq 8 (Op 2) (Op 7)]] /\
  call_fn closed_world four_cmps 1 [VU32 9; VU32 4] tt = ROk ([VBool false], tt) /\
  call_fn closed_world (legalize four_cmps) 1 [VU32 9; VU32 4] tt = ROk ([VBool false], tt).
Proof.
  split; [|split; [unfold single_def; cbn; repeat (constructor; [cbn; lia|]); constructor|split; [reflexivity|]]].
  - split.
    + intros b [<-|[]]. split.
      * intros i Hi v Hv. cbn in Hi, Hv |- *.
        repeat (destruct Hi as [<-|Hi]; [cbn in Hv; lia|]). destruct Hi.
      * intros v Hv. cbn in Hv |- *. lia.
    + intros v Hv. cbn in Hv |- *. lia.
  - split; reflexivity.
Qed.
