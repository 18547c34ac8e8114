(** Balanced token flows are paths.  A balanced set of edges between tokens with one
    source and one sink, without cycles, can be walked from the source to the sink. *)
From Coq Require Import ZArith Bool List Lia Permutation.
From Verif Require Import M31 M31Facts Air.
Import ListNotations.
Open Scope Z_scope.

(** The sum of the multiplicities of tuple [t]. *)
Fixpoint total (t : list Z) (es : list (Z * list Z)) : Z :=
  match es with
  | [] => 0
  | (m, v) :: r => (if list_eq_dec Z.eq_dec v t then m else 0) + total t r
  end.
(** What a vanishing log-up sum establishes: every tuple's multiplicities sum to zero in
    the field. *)
Definition balanced (es : list (Z * list Z)) : Prop := forall t, total t es mod P = 0.

Definition produced (es : list (Z * list Z)) : list (list Z) :=
  map snd (filter (fun e => fst e =? 1) es).
Definition consumed (es : list (Z * list Z)) : list (list Z) :=
  map snd (filter (fun e => fst e =? P - 1) es).
(** Only multiplicities 0, 1 and -1. *)
Definition unital (es : list (Z * list Z)) : Prop :=
  Forall (fun e => fst e = 0 \/ fst e = 1 \/ fst e = P - 1) es.

Lemma total_app t l l' : total t (l ++ l') = total t l + total t l'.
Proof. induction l as [|[m v] l IH]; cbn [total app]; [reflexivity|]. rewrite IH. ring. Qed.

Notation dec := (list_eq_dec Z.eq_dec).
Lemma total_counts t es : unital es ->
  (total t es) mod P =
  (Z.of_nat (count_occ dec (produced es) t) - Z.of_nat (count_occ dec (consumed es) t)) mod P.
Proof.
  induction 1 as [|[m v] es Hm _ IH]; [reflexivity|].
  cbn [total]. rewrite Zplus_mod, IH, <- Zplus_mod. clear IH.
  unfold produced, consumed. cbn [filter fst] in *.
  destruct Hm as [->|[->| ->]].
  - change (0 =? 1) with false. change (0 =? P - 1) with false. cbv iota.
    destruct (dec v t); rewrite Z.add_0_l; reflexivity.
  - change (1 =? 1) with true. change (1 =? P - 1) with false. cbv iota. cbn [map snd count_occ].
    destruct (dec v t); [|rewrite Z.add_0_l; reflexivity].
    rewrite Nat2Z.inj_succ. f_equal. lia.
  - change (P - 1 =? 1) with false. change (P - 1 =? P - 1) with true. cbv iota. cbn [map snd count_occ].
    destruct (dec v t); [|rewrite Z.add_0_l; reflexivity].
    rewrite Nat2Z.inj_succ.
    match goal with |- (P - 1 + (?a - ?b)) mod P = _ =>
      replace (P - 1 + (a - b)) with (a - Z.succ b + 1 * P) by (unfold Z.succ; ring) end.
    apply Z_mod_plus_full.
Qed.
Lemma count_le {A} (d : forall x y : A, {x = y} + {x <> y}) l x : (count_occ d l x <= length l)%nat.
Proof. induction l; cbn [count_occ length]; [lia|]. destruct (d a x); lia. Qed.
Lemma filter_len {A} (f : A -> bool) l : (length (filter f l) <= length l)%nat.
Proof. induction l; cbn [filter length]; [lia|]. destruct (f a); cbn [length]; lia. Qed.

Theorem balanced_perm es :
  unital es -> balanced es -> Z.of_nat (length es) < P -> Permutation (consumed es) (produced es).
Proof.
  intros Hu Hb Hlen. rewrite (Permutation_count_occ dec). intros t.
  specialize (Hb t). rewrite total_counts in Hb by exact Hu.
  assert (H1 : (count_occ dec (produced es) t <= length es)%nat).
  { etransitivity; [apply count_le|]. unfold produced. rewrite map_length. apply filter_len. }
  assert (H2 : (count_occ dec (consumed es) t <= length es)%nat).
  { etransitivity; [apply count_le|]. unfold consumed. rewrite map_length. apply filter_len. }
  rewrite mod_sub_zero in Hb. rewrite !Z.mod_small in Hb by lia. lia.
Qed.
Lemma produced_app l l' : produced (l ++ l') = produced l ++ produced l'.
Proof. unfold produced. rewrite filter_app, map_app. reflexivity. Qed.
Lemma consumed_app l l' : consumed (l ++ l') = consumed l ++ consumed l'.
Proof. unfold consumed. rewrite filter_app, map_app. reflexivity. Qed.

(** *** Walks *)
Section Walk.
  Context {E T : Type}.
  Variable src dst : E -> T.

  Fixpoint walk (s : T) (es : list E) (t : T) : Prop :=
    match es with
    | [] => s = t
    | e :: r => src e = s /\ walk (dst e) r t
    end.
  (** No non-empty part of the edges is balanced by itself. *)
  Definition acyclic (es : list E) : Prop :=
    forall c r, Permutation es (c ++ r) -> Permutation (map src c) (map dst c) -> c = [].

  Lemma acyclic_tail e es : acyclic (e :: es) -> acyclic es.
  Proof.
    intros H c r Hp Hc. apply (H c (e :: r)); [|exact Hc].
    rewrite Hp. apply Permutation_middle.
  Qed.
  Lemma acyclic_perm es es' : Permutation es es' -> acyclic es -> acyclic es'.
  Proof. intros Hp H c r Hr. apply (H c r). rewrite Hp. exact Hr. Qed.

  Hypothesis tdec : forall x y : T, {x = y} + {x <> y}.

  Theorem walk_exists es : forall s t,
    acyclic es -> Permutation (t :: map src es) (s :: map dst es) ->
    exists es', Permutation es es' /\ walk s es' t.
  Proof.
    remember (length es) as n eqn:Hn. revert es Hn.
    induction n as [|n IH]; intros es Hn s t Hac Hp.
    - destruct es; [|discriminate Hn]. exists []. split; [constructor|].
      cbn [map] in Hp. apply Permutation_length_1 in Hp. symmetry. exact Hp.
    - destruct (in_dec tdec s (map src es)) as [Hin|Hout].
      + apply in_map_iff in Hin. destruct Hin as (e & He & Hin).
        apply in_split in Hin. destruct Hin as (l1 & l2 & ->).
        assert (Hpe : Permutation (l1 ++ e :: l2) (e :: l1 ++ l2)) by (symmetry; apply Permutation_middle).
        destruct (IH (l1 ++ l2)) with (s := dst e) (t := t) as (es' & He' & Hw).
        * rewrite app_length in *. cbn [length] in Hn. lia.
        * eapply acyclic_tail, acyclic_perm; [exact Hpe|exact Hac].
        * rewrite (Permutation_map src Hpe), (Permutation_map dst Hpe) in Hp. cbn [map] in Hp.
          rewrite He in Hp. rewrite perm_swap in Hp. apply Permutation_cons_inv in Hp. exact Hp.
        * exists (e :: es'). split; [rewrite Hpe; apply perm_skip; exact He'|].
          split; [exact He|exact Hw].
      + exfalso. assert (t = s) as ->.
        { assert (Hin : In s (t :: map src es)) by (rewrite Hp; left; reflexivity).
          destruct Hin as [H|H]; [exact H|contradiction]. }
        apply Permutation_cons_inv in Hp.
        specialize (Hac es []). rewrite app_nil_r in Hac. specialize (Hac (Permutation_refl _) Hp).
        subst es. discriminate Hn.
  Qed.
  Lemma no_source es : acyclic es -> Permutation (map src es) (map dst es) -> es = [].
  Proof. intros H. apply (H es []). rewrite app_nil_r. apply Permutation_refl. Qed.
End Walk.

(** Edges that strictly raise a rank have no cycle. *)
Lemma ranked_acyclic {E T} (src dst : E -> T) (rank : T -> Z) es :
  Forall (fun e => rank (src e) < rank (dst e)) es -> acyclic src dst es.
Proof.
  intros Hr c r Hp Hc. destruct c as [|e0 c0]; [reflexivity|exfalso].
  assert (Hall : Forall (fun e => rank (src e) < rank (dst e)) (e0 :: c0)).
  { apply Forall_forall. intros e He. rewrite Forall_forall in Hr. apply Hr. rewrite Hp.
    apply in_or_app. left. exact He. }
  remember (e0 :: c0) as c eqn:Ec.
  assert (Hmax : exists e, In e c /\ forall x, In x c -> rank (dst x) <= rank (dst e)).
  { rewrite Ec. clear. revert e0. induction c0 as [|e1 c0 IH]; intros e0.
    - exists e0. split; [left; reflexivity|]. intros x [->|[]]. lia.
    - destruct (IH e1) as (m & Hm & Hx). destruct (Z.le_ge_cases (rank (dst m)) (rank (dst e0))) as [H|H].
      + exists e0. split; [left; reflexivity|]. intros x [->|Hin]; [lia|]. specialize (Hx x Hin). lia.
      + exists m. split; [right; exact Hm|]. intros x [->|Hin]; [exact H|]. apply Hx. exact Hin. }
  destruct Hmax as (m & Hm & Hx).
  assert (Hin : In (dst m) (map src c)) by (rewrite Hc; apply in_map; exact Hm).
  apply in_map_iff in Hin. destruct Hin as (e & He & Hin).
  rewrite Forall_forall in Hall. specialize (Hall e Hin). specialize (Hx e Hin). rewrite He in Hall. lia.
Qed.

(** A progression of [n + 1] distinct numbers does not fit in a list of length [n]. *)
Lemma pigeon (g : nat -> Z) l :
  (forall i j, (i <= length l)%nat -> (j <= length l)%nat -> g i = g j -> i = j) ->
  (forall j, (j <= length l)%nat -> In (g j) l) -> False.
Proof.
  intros Hinj Hin.
  assert (H : (length (map g (seq 0 (S (length l)))) <= length l)%nat).
  { apply NoDup_incl_length.
    - apply NoDup_map_on; [|apply seq_NoDup].
      intros x y Hx Hy. apply in_seq in Hx. apply in_seq in Hy. apply Hinj; lia.
    - intros x Hx. apply in_map_iff in Hx. destruct Hx as (j & <- & Hj). apply in_seq in Hj.
      apply Hin. lia. }
  rewrite map_length, seq_length in H. lia.
Qed.

(** Edges that advance a clock by one modulo P: fewer than P of them have no cycle. *)
Lemma clock_acyclic {E T} (src dst : E -> T) (clk : T -> Z) es :
  Forall (fun e => wf (clk (src e)) /\ clk (dst e) = (clk (src e) + 1) mod P) es ->
  Z.of_nat (length es) < P -> acyclic src dst es.
Proof.
  intros Hr Hlen c r Hp Hc. destruct c as [|e0 c0]; [reflexivity|exfalso].
  remember (e0 :: c0) as c eqn:Ec.
  assert (Hall : forall e, In e c -> wf (clk (src e)) /\ clk (dst e) = (clk (src e) + 1) mod P).
  { rewrite Forall_forall in Hr. intros e He. apply Hr. rewrite Hp. apply in_or_app. left. exact He. }
  assert (Hcl : Z.of_nat (length c) < P).
  { apply Permutation_length in Hp. rewrite app_length in Hp. lia. }
  assert (He0 : In e0 c) by (rewrite Ec; left; reflexivity).
  set (ck := map (fun e => clk (src e)) c).
  assert (Hstep : forall x, In x ck -> In ((x + 1) mod P) ck).
  { intros x Hx. apply in_map_iff in Hx. destruct Hx as (e & <- & He).
    destruct (Hall e He) as [_ Hd]. rewrite <- Hd.
    assert (Hin : In (dst e) (map src c)) by (rewrite Hc; apply in_map; exact He).
    apply in_map_iff in Hin. destruct Hin as (e' & He' & Hin'). rewrite <- He'.
    apply in_map_iff. exists e'. split; [reflexivity|exact Hin']. }
  set (x0 := clk (src e0)).
  assert (Hw0 : wf x0) by (apply Hall; exact He0).
  apply (pigeon (fun j => (x0 + Z.of_nat j) mod P) ck).
  - intros i j Hi Hj. unfold ck in Hi, Hj. rewrite map_length in Hi, Hj. intros Heq.
    rewrite <- mod_sub_zero in Heq. replace (x0 + Z.of_nat i - (x0 + Z.of_nat j)) with (Z.of_nat i - Z.of_nat j) in Heq by ring.
    rewrite mod_sub_zero in Heq. rewrite !Z.mod_small in Heq by lia. lia.
  - intros j _. induction j as [|j IH].
    + rewrite Z.add_0_r, wf_mod by exact Hw0. apply in_map_iff. exists e0. split; [reflexivity|exact He0].
    + apply Hstep in IH. rewrite Zplus_mod_idemp_l in IH. rewrite Nat2Z.inj_succ.
      replace (x0 + Z.succ (Z.of_nat j)) with (x0 + Z.of_nat j + 1) by ring. exact IH.
Qed.

Lemma perm_filter {A} (f : A -> bool) l l' : Permutation l l' -> Permutation (filter f l) (filter f l').
Proof.
  induction 1 as [|x l l' _ IH|x y l|l l' l'' _ IH1 _ IH2]; cbn [filter].
  - constructor.
  - destruct (f x); [apply perm_skip|]; exact IH.
  - destruct (f x), (f y); try apply Permutation_refl. apply perm_swap.
  - rewrite IH1. exact IH2.
Qed.
