(** Reading back the accesses of a concrete row, and machine steps from rows. *)
From Coq Require Import ZArith Bool List Lia Permutation.
From Verif Require Import M31 M31Facts Instr Isa Machine Air AirOpcodes AirSpec AirChain AirMem AirGlobal AirCheck AirExec.
Import ListNotations.
Open Scope Z_scope.

Fixpoint parse (l : list (Z * list Z)) : list acc :=
  match l with
  | (_, [a; p; o0; o1; o2; o3]) :: (_, [_; _; n0; n1; n2; n3]) :: r =>
    Acc a p (Q o0 o1 o2 o3) (Q n0 n1 n2 n3) :: parse r
  | _ => []
  end.
Lemma parse_mem clk accs : parse (mem_tuples clk accs) = accs.
Proof.
  induction accs as [|[a p [o0 o1 o2 o3] [n0 n1 n2 n3]] l IH]; [reflexivity|].
  cbn [mem_tuples flat_map app ac_addr ac_prev ac_old ac_new qlist q0 q1 q2 q3 parse].
  fold (mem_tuples clk l). rewrite IH. reflexivity.
Qed.
(** A memory holding the previous contents. *)
Definition mem_of (accs : list acc) (d : flat) : flat := fun b =>
  match find (fun x => ac_addr x =? b) accs with Some x => ac_old x | None => d b end.

(** In a memory with the previous contents, a row with distinct cells is a step of the
    machine that leaves exactly the new contents. *)
Theorem performs_step i s s' accs f :
  performs i s s' accs -> NoDup (map ac_addr accs) -> (forall x, In x accs -> ac_addr x < ADDRS) ->
  (forall x, In x accs -> f (ac_addr x) = ac_old x) ->
  exists f' lg, fstep f s i f' s' lg /\
    (forall x, In x accs -> f' (ac_addr x) = ac_new x) /\
    (forall a, ~ In a (map ac_addr accs) -> f' a = f a) /\
    Permutation lg (map (fun x => (ac_addr x, ac_new x)) accs).
Proof.
  intros Hp Hnd Hin_ini Hcells.
  destruct (Hp f Hcells) as (Hat & e & He & Hn & Hpk & Hfelt & Hperm).
  set (sn := seen f (code_addrs (pc s) i) ++ seen f (reads e)).
  assert (Hperm' : Permutation (map (fun x => (ac_addr x, ac_new x)) accs) (sn ++ stored (writes e)))
    by (unfold sn; rewrite <- app_assoc; exact Hperm).
  assert (Haddrs : Permutation (map ac_addr accs) (map fst sn ++ map fst (stored (writes e)))).
  { rewrite <- map_app. rewrite <- (Permutation_map fst Hperm'). rewrite map_map. cbn [fst]. apply Permutation_refl. }
  assert (Hnd2 : NoDup (map fst sn ++ map fst (stored (writes e))))
    by (apply (Permutation_NoDup Haddrs Hnd)).
  assert (Hndw : NoDup (map fst (stored (writes e)))).
  { clear - Hnd2. induction (map fst sn) as [|x l IH]; [exact Hnd2|]. cbn [app] in Hnd2. inversion Hnd2; auto. }
  assert (Hdisj : forall a, In a (map fst sn) -> ~ In a (map fst (stored (writes e)))).
  { clear - Hnd2. induction (map fst sn) as [|x l IH]; intros a Ha; [destruct Ha|].
    cbn [app] in Hnd2. inversion Hnd2 as [|? ? H1 H2]; subst. destruct Ha as [->|Ha].
    - intros Hx. apply H1. apply in_or_app. right. exact Hx.
    - exact (IH H2 a Ha). }
  assert (Hlt : forall a, In a (map ac_addr accs) -> a < ADDRS).
  { intros a Ha. apply in_map_iff in Ha. destruct Ha as (x & <- & Hx). exact (Hin_ini x Hx). }
  exists (upds f (stored (writes e))), (seen f (code_addrs (pc s) i) ++ seen f (reads e) ++ stored (writes e)).
  split; [|split; [|split]].
  - split; [exact Hat|]. exists e. split; [exact He|]. split.
    { rewrite Hpk, app_nil_r. intros a Ha. split; [|exact (Hfelt a Ha)]. apply Hlt. rewrite Haddrs.
      apply in_or_app. left. unfold sn, seen. rewrite map_app, !map_map. cbn [fst]. rewrite !map_id.
      apply in_or_app. right. exact Ha. }
    split.
    { intros w Hw. apply Hlt. rewrite Haddrs. apply in_or_app. right. unfold stored. rewrite map_map. cbn [fst].
      apply in_map_iff. exists w. auto. }
    split; [exact Hn|]. split; [reflexivity|reflexivity].
  - intros x Hx. assert (Hi : In (ac_addr x, ac_new x) (sn ++ stored (writes e))).
    { rewrite <- Hperm'. apply in_map_iff. exists x. auto. }
    apply in_app_or in Hi. destruct Hi as [Hi|Hi].
    + assert (Hv : ac_new x = f (ac_addr x)).
      { unfold sn, seen in Hi. rewrite <- map_app in Hi. apply in_map_iff in Hi. destruct Hi as (b & Hb & _). congruence. }
      rewrite Hv. apply upds_out. apply Hdisj. apply (in_map fst) in Hi. exact Hi.
    + apply upds_in; assumption.
  - intros a Ha. apply upds_out. intros Hi. apply Ha. rewrite Haddrs. apply in_or_app. right. exact Hi.
  - apply Permutation_sym. exact Hperm.
Qed.
