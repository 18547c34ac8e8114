(** Property C73, continued: the sum the verifier starts from ([Transcript.initial_logup_sum]) consists of
    exactly the public contributions to the relations of [AirGlobal]. *)
From Coq Require Import ZArith List Lia Ring.
From Verif Require Import M31 Transcript.
From Verif Require AirGlobal AirMem.
Import ListNotations.
Open Scope Z_scope.

(** The public data of [p] in a proof without any rows. *)
Definition to_pub (x : entry) : AirGlobal.pub := (e_addr x, Q (e_v0 x) (e_v1 x) (e_v2 x) (e_v3 x), e_clock x).
Definition only_public (p : public_data) : AirGlobal.proof :=
  AirGlobal.Proof [] [] [] [] (St (pc0 p) (fp0 p)) (St (pc1 p) (fp1 p)) (clock p)
    (map to_pub (present (program (public_memory p)))) (map to_pub (present (input (public_memory p)))) (map to_pub (present (output (public_memory p))))
    (root0 p) (root1 p) [] [].
(** All numbers of present contents are reduced, as values of [M31] are. *)
Definition reduced (x : entry) : Prop := Forall wf (numbers x).

Section Sum.
  Variables (Rel K : Type) (zero one : K) (add mul sub : K -> K -> K) (neg inv : K -> K).
  Variables (registers merkle mem : Rel -> list Z -> K).
  Hypothesis ring_K : ring_theory zero one add mul sub neg (@eq K).
  Hypothesis inv_neg : forall x, inv (neg x) = neg (inv x).
  Add Ring K_ring : ring_K.

  (** The fraction [m / combine(tuple)] for multiplicities 1 and -1. *)
  Definition fraction (combine : list Z -> K) (t : Z * list Z) : K :=
    if fst t =? P - 1 then neg (inv (combine (snd t))) else inv (combine (snd t)).
  Definition total (combine : list Z -> K) (l : list (Z * list Z)) : K := fold_right (fun t s => add (fraction combine t) s) zero l.
  Definition sum (l : list K) : K := fold_right add zero l.

  Lemma sum_app l l' : sum (l ++ l') = add (sum l) (sum l').
  Proof. unfold sum. induction l as [|x l IH]; cbn [app fold_right]; [ring|rewrite IH; ring]. Qed.
  Lemma total_app c l l' : total c (l ++ l') = add (total c l) (total c l').
  Proof. unfold total. induction l as [|x l IH]; cbn [app fold_right]; [ring|rewrite IH; ring]. Qed.
  Lemma sum_left : forall l a, fold_left add l a = add a (sum l).
  Proof. unfold sum. induction l as [|x l IH]; intros a; cbn [fold_left fold_right]; [ring|rewrite IH; ring]. Qed.

  Lemma entries_sum r (m : Z) (k : K) root (H : m = 1 /\ k = one \/ m = P - 1 /\ k = neg one) : forall l, Forall reduced l ->
    sum (map inv (flat_map (entry_terms Rel K mul neg merkle mem P 30 r k root) l)) =
    add (total (mem r) (map (AirGlobal.pub_tuple m) (map to_pub l))) (total (merkle r) (flat_map (AirGlobal.pub_leaves root) (map to_pub l))).
  Proof.
    induction l as [|x l IH]; intros F; [cbn; ring|]. inversion F as [|? ? Rx Fl]; subst. specialize (IH Fl).
    cbn [flat_map map]. rewrite map_app, sum_app, IH, total_app. cbn [total fold_right]. change (fold_right (fun t s => add (fraction (mem r) t) s) zero) with (total (mem r)).
    destruct x as [a v0 v1 v2 v3 c]. unfold reduced, numbers in Rx. cbn [e_addr e_v0 e_v1 e_v2 e_v3 e_clock] in Rx.
    inversion Rx as [|? ? Wa R0]; subst. inversion R0 as [|? ? W0 R1]; subst. inversion R1 as [|? ? W1 R2]; subst. inversion R2 as [|? ? W2 R3]; subst. inversion R3 as [|? ? W3 R4]; subst. inversion R4 as [|? ? Wc _]; subst.
    unfold entry_terms, to_pub, AirGlobal.pub_tuple, AirGlobal.pub_leaves, AirMem.tok, qlist. cbn [e_addr e_v0 e_v1 e_v2 e_v3 e_clock q0 q1 q2 q3 map sum total fold_right].
    unfold wf in *. rewrite (Z.mod_small a), (Z.mod_small c), (Z.mod_small v0), (Z.mod_small v1), (Z.mod_small v2), (Z.mod_small v3) by assumption.
    unfold fraction. cbn [fst snd]. rewrite Z.eqb_refl, !inv_neg.
    destruct H as [[-> ->]|[-> ->]].
    - replace (1 =? P - 1) with false by reflexivity. replace (mul one (mem r [a; c; v0; v1; v2; v3])) with (mem r [a; c; v0; v1; v2; v3]) by ring. ring.
    - rewrite Z.eqb_refl. replace (mul (neg one) (mem r [a; c; v0; v1; v2; v3])) with (neg (mem r [a; c; v0; v1; v2; v3])) by ring. rewrite inv_neg. ring.
  Qed.

  Lemma public_sum p r :
    Forall reduced (present (program (public_memory p)) ++ present (input (public_memory p)) ++ present (output (public_memory p))) ->
    initial_logup_sum Rel K zero add mul neg inv one (neg one) registers merkle mem P 30 p r =
    add (total (registers r) (AirGlobal.reg_side (only_public p))) (add (total (mem r) (AirGlobal.mem_side (only_public p))) (total (merkle r) (AirGlobal.merkle_side (only_public p)))).
  Proof.
    intros F. apply Forall_app in F. destruct F as [F1 F]. apply Forall_app in F. destruct F as [F2 F3].
    unfold initial_logup_sum. cbv zeta. rewrite sum_left, !map_app, !sum_app.
    rewrite (entries_sum r 1 one (root0 p)), (entries_sum r 1 one (root0 p)), (entries_sum r (P - 1) (neg one) (root1 p)) by auto.
    unfold AirGlobal.reg_side, AirGlobal.mem_side, AirGlobal.merkle_side, AirGlobal.boundary, AirGlobal.op_tuples, only_public.
    cbn [AirGlobal.p_ops AirGlobal.p_cus AirGlobal.p_mem AirGlobal.p_start AirGlobal.p_end AirGlobal.p_clock AirGlobal.p_program AirGlobal.p_input AirGlobal.p_output AirGlobal.p_root0 AirGlobal.p_root1 AirGlobal.p_merkle flat_map].
    rewrite !app_nil_r, !app_nil_l, !total_app. cbn [total fold_right map sum pc fp]. unfold fraction. cbn [fst snd]. rewrite Z.eqb_refl, inv_neg.
    replace (1 =? P - 1) with false by reflexivity. ring.
  Qed.
End Sum.

(** ** C73: the verifier's sum *)
(** In every field of fractions, for every combination of tuples with challenges: the sum of the public
    data is the sum of multiplicity / combination over the public tuples of the three relations. *)
Theorem C73_public_sum : forall Rel K zero one add mul sub neg inv registers merkle mem,
  ring_theory zero one add mul sub neg (@eq K) -> (forall x, inv (neg x) = neg (inv x)) ->
  forall p (r : Rel),
  Forall reduced (present (program (public_memory p)) ++ present (input (public_memory p)) ++ present (output (public_memory p))) ->
  initial_logup_sum Rel K zero add mul neg inv one (neg one) registers merkle mem P 30 p r =
  add (total K zero add neg inv (registers r) (AirGlobal.reg_side (only_public p)))
    (add (total K zero add neg inv (mem r) (AirGlobal.mem_side (only_public p))) (total K zero add neg inv (merkle r) (AirGlobal.merkle_side (only_public p)))).
Proof. intros Rel K zero one add mul sub neg inv registers merkle mem R I p r. exact (public_sum Rel K zero one add mul sub neg inv registers merkle mem R I p r). Qed.
Print Assumptions C73_public_sum.
Example C73_public_sum_example : let p := PublicData 3 10 8 10 7 11 12 (Entries [Some (Entry 0 1 2 3 4 0)] [None] [Some (Entry 100 5 0 0 0 7)]) in
  Forall reduced (present (program (public_memory p)) ++ present (input (public_memory p)) ++ present (output (public_memory p))) /\
  AirGlobal.mem_side (only_public p) = [(1, [0; 0; 1; 2; 3; 4]); (P - 1, [100; 7; 5; 0; 0; 0])].
Proof. cbv zeta. split; [|reflexivity]. cbn. unfold reduced, numbers, wf, P. repeat constructor; cbn; lia. Qed.
