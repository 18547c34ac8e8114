(** The VM performs every run of the flat machine whose code lies below its program and
    stack limit. *)
From Coq Require Import ZArith Bool List Lia Permutation.
From Verif Require Import M31 M31Facts Instr InstrFacts VmMem VmMemFacts Vm Isa IsaFacts Machine VmFacts RunFacts VmPropFacts.
Import ListNotations.
Open Scope Z_scope.

Lemma fstep_ext f g s i f' s' lg : (forall a, f a = g a) -> fstep f s i f' s' lg -> fstep g s i f' s' lg.
Proof.
  intros He Hs.
  assert (H : fruns f s [(s, i)] (lg ++ []) f' s') by (econstructor; [exact Hs|constructor; reflexivity]).
  apply (fruns_ext f g) in H; [|exact He]. inversion H as [|? ? ? f1 s1 l1 ? l2 ? ? H1 H2 E1 E2]; subst.
  inversion H2 as [? ? ? Hx|]; subst. rewrite !app_nil_r in *. subst.
  destruct H1 as (K1 & e & K2 & K3 & K4 & K5 & K6 & K7). split; [exact K1|]. exists e.
  split; [exact K2|]. split; [exact K3|]. split; [exact K4|]. split; [exact K5|]. split; [|exact K7].
  intros b. rewrite Hx. apply K6.
Qed.
Theorem fruns_vm f s tr lg f' s' : fruns f s tr lg f' s' -> forall v,
  vok v -> v_st v = s -> (forall a, raw (v_mem v) a = f a) ->
  (forall s1 i b, In (s1, i) tr -> In b (code_addrs (pc s1) i) -> 0 <= b < zlen (locals (v_mem v))) ->
  exists v', steps (length tr) v v' /\ v_st v' = s' /\ (forall a, raw (v_mem v') a = f' a).
Proof.
  induction 1 as [f f' s Hx|f s i f1 s1 l1 tr l2 f2 s2 Hs Hr IH]; intros v Hv Hst Hf Hb.
  - exists v. split; [constructor|]. split; [exact Hst|]. intros a. rewrite Hf, Hx. reflexivity.
  - assert (Hs' : fstep (raw (v_mem v)) (v_st v) i f1 s1 l1).
    { rewrite Hst. apply (fstep_ext f); [intros a; symmetry; apply Hf|exact Hs]. }
    destruct (step_complete v i f1 s1 l1 Hv Hs') as (v1 & Hstep & Hst1 & Hf1).
    { rewrite Hst. intros b Hbin. apply (Hb s i b); [left; reflexivity|exact Hbin]. }
    destruct (step_ok v v1 Hv Hstep) as (i' & lg' & _ & _ & Hv1 & _ & _ & _ & Hlen & _).
    destruct (IH v1 Hv1 Hst1 Hf1) as (v' & Hsteps & Hst' & Hf').
    { intros s3 i3 b Hin Hbin. specialize (Hb s3 i3 b (or_intror Hin) Hbin). lia. }
    exists v'. split; [cbn [length]; econstructor; eassumption|]. auto.
Qed.
