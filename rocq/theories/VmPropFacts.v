(** Consequences of the step theorems used in the property files. *)
From Coq Require Import ZArith Bool List Lia.
From Verif Require Import M31 M31Facts Instr InstrFacts VmMem VmMemFacts Vm Isa IsaFacts Machine VmFacts RunFacts LoadFacts MemSpec.
Import ListNotations.
Open Scope Z_scope.
Ltac Zify.zify_post_hook ::= Z.div_mod_to_equations.

(** ** C05 *)
Lemma isa_access_count i f s e :
  isa i f s = Some e -> is_print i = false ->
  Z.of_nat (length (reads e) + length (writes e)) = memory_accesses i.
Proof.
  intros H Hp. destruct i; cbn [is_print] in Hp; try discriminate Hp; cbn [isa] in H;
  repeat match type of H with context [if ?b then _ else _] => destruct b end;
  try discriminate H; injection H as <-; reflexivity.
Qed.

Lemma code_addrs_length a i : Z.of_nat (length (code_addrs a i)) = size_qm31 i.
Proof.
  unfold code_addrs. destruct (size_qm31_cases i) as [[H1 H2]|[H1 H2]]; rewrite H1;
  destruct (Z.leb_spec (size_m31 i) 4); try lia; reflexivity.
Qed.

Lemma fstep_log_length f s i f' s' lg :
  fstep f s i f' s' lg -> is_print i = false ->
  Z.of_nat (length lg) = size_qm31 i + memory_accesses i.
Proof.
  intros (_ & e & He & _ & _ & _ & _ & ->) Hp. unfold seen, stored.
  rewrite !app_length, !map_length, Nat2Z.inj_add, code_addrs_length. f_equal.
  eapply isa_access_count; [exact He|exact Hp].
Qed.

Lemma step_log_length v v' i :
  vok v -> step v = (v', None) -> instr_at (raw (v_mem v)) (pc (v_st v)) i -> is_print i = false ->
  zlen (mtrace (v_mem v')) = zlen (mtrace (v_mem v)) + size_qm31 i + memory_accesses i.
Proof.
  intros Hv Hs Hi Hp. destruct (step_ok _ _ Hv Hs) as (j & lg & Hf & _ & _ & _ & Ht & _).
  assert (i = j) by (eapply instr_at_unique; [exact Hi|apply Hf]). subst j.
  rewrite Ht, zlen_app. assert (Hl := fstep_log_length _ _ _ _ _ _ Hf Hp).
  assert (Hz : zlen (acc_log lg) = Z.of_nat (length lg)) by (unfold zlen, acc_log; rewrite map_length; reflexivity).
  lia.
Qed.

(** ** C06 *)
Lemma qprojb_eq q : qprojb q = (q1 q =? 0) && (q2 q =? 0) && (q3 q =? 0).
Proof. reflexivity. Qed.

Lemma mem_ops_refine ops : forall m f,
  minv_ok m -> (forall a, raw m a = f a) ->
  Forall (fun o => match o with MRead a => 0 <= a | MWrite a _ => 0 <= a end) ops ->
  fst (mem_ops m ops) = map Some (fst (map_ops f ops)) /\
  (forall a, raw (snd (mem_ops m ops)) a = snd (map_ops f ops) a) /\ minv_ok (snd (mem_ops m ops)).
Proof.
  induction ops as [|o ops IH]; intros m f Hm Hf Hops.
  - cbn. auto.
  - apply Forall_cons_iff in Hops as [Ho Hops]. destruct o as [a|a q]; cbn [mem_ops map_ops].
    + unfold get_data, get_qm31. unfold valid_addr, MAX_ADDRESS.
      destruct (Z.leb_spec 268435456 a) as [H1|H1]; destruct (Z.ltb_spec 268435455 a); try lia; cbn [negb].
      * destruct (IH m f Hm Hf Hops) as (I1 & I2 & I3).
        destruct (mem_ops m ops) as [os m'], (map_ops f ops) as [os' f']. cbn in *. rewrite I1. auto.
      * rewrite qprojb_eq, Hf. destruct ((q1 (f a) =? 0) && (q2 (f a) =? 0) && (q3 (f a) =? 0)).
        -- destruct (IH (log m a (f a)) f Hm Hf Hops) as (I1 & I2 & I3).
           destruct (mem_ops (log m a (f a)) ops) as [os m'], (map_ops f ops) as [os' f']. cbn in *. rewrite I1. auto.
        -- destruct (IH m f Hm Hf Hops) as (I1 & I2 & I3).
           destruct (mem_ops m ops) as [os m'], (map_ops f ops) as [os' f']. cbn in *. rewrite I1. auto.
    + destruct (Z.leb_spec 268435456 a) as [H1|H1].
      * rewrite insert_bad by (unfold MAX_ADDRESS; lia).
        destruct (IH m f Hm Hf Hops) as (I1 & I2 & I3).
        destruct (mem_ops m ops) as [os m'], (map_ops f ops) as [os' f']. cbn in *. rewrite I1. auto.
      * destruct (insert_spec m a q Hm) as (m1 & -> & K1 & _ & _ & K2); [unfold MAX_ADDRESS; lia|].
        destruct (IH m1 (fun b => if b =? a then q else f b) K1) as (I1 & I2 & I3); [|exact Hops|].
        { intros b. rewrite K2, Hf. reflexivity. }
        destruct (mem_ops m1 ops) as [os m'], (map_ops _ ops) as [os' f']. cbn in *. rewrite I1. auto.
Qed.

(** ** Plain sequences of steps *)
Inductive steps : nat -> vm -> vm -> Prop :=
| steps_0 v : steps 0 v v
| steps_S n v v1 v2 : step v = (v1, None) -> steps n v1 v2 -> steps (S n) v v2.

Lemma run_to_steps n v v' : run_to n v v' -> steps n v v'.
Proof. induction 1; econstructor; eauto. Qed.

Theorem steps_fruns n v v' :
  vok v -> steps n v v' ->
  exists tr lg, fruns (raw (v_mem v)) (v_st v) tr lg (raw (v_mem v')) (v_st v') /\
    vok v' /\ length tr = n /\
    v_trace v' = v_trace v ++ map fst tr /\
    mtrace (v_mem v') = mtrace (v_mem v) ++ acc_log lg.
Proof.
  intros Hv H. revert Hv. induction H as [v|n v v1 v2 Hs Hr IH]; intros Hv.
  - exists [], []. split; [constructor; reflexivity|]. split; [exact Hv|]. cbn. rewrite !app_nil_r. auto.
  - destruct (step_ok _ _ Hv Hs) as (i & lg1 & Hf & _ & Hv1 & _ & Ht & Htr & _).
    destruct (IH Hv1) as (tr & lg & Hfr & Hv2 & Hn & Htr2 & Ht2).
    exists ((v_st v, i) :: tr), (lg1 ++ lg). split; [econstructor; eassumption|].
    split; [exact Hv2|]. split; [cbn; lia|]. split; [rewrite Htr2, Htr, <- app_assoc; reflexivity|].
    rewrite Ht2, Ht, <- app_assoc; unfold acc_log; rewrite map_app; reflexivity.
Qed.

(** ** C07: replay *)
Lemma upds_seen f l b : upds f (seen f l) b = f b.
Proof.
  assert (G : forall l g, (forall x, g x = f x) -> upds g (seen f l) b = f b).
  { clear l. induction l as [|a l IH]; intros g Hg; cbn [seen map upds]; [apply Hg|].
    apply IH. intros x. destruct (Z.eqb_spec x a) as [->|]; [reflexivity|apply Hg]. }
  apply G. reflexivity.
Qed.
Lemma fstep_replay f s i f' s' lg : fstep f s i f' s' lg -> forall a, upds f lg a = f' a.
Proof.
  intros (_ & e & _ & _ & _ & _ & Hf & ->) a. rewrite !upds_app, Hf.
  rewrite (upds_ext _ f); [reflexivity|].
  intros x. rewrite (upds_ext _ f); [apply upds_seen|]. intros y. apply upds_seen.
Qed.
Lemma fruns_replay f s tr lg f' s' : fruns f s tr lg f' s' -> forall a, upds f lg a = f' a.
Proof.
  induction 1 as [f f' s H|f s i f1 s1 l1 tr l2 f2 s2 Hs Hr IH]; intros a.
  - cbn. symmetry. apply H.
  - rewrite upds_app. rewrite <- IH. apply upds_ext. apply (fstep_replay _ _ _ _ _ _ Hs).
Qed.
Lemma fruns_split tr1 : forall f s sk i tr2 lg f' s',
  fruns f s (tr1 ++ (sk, i) :: tr2) lg f' s' ->
  exists l1 lk l2 fk f1 s1, fruns f s tr1 l1 fk sk /\ fstep fk sk i f1 s1 lk /\
    fruns f1 s1 tr2 l2 f' s' /\ lg = l1 ++ lk ++ l2 /\ (forall a, fk a = upds f l1 a).
Proof.
  induction tr1 as [|x tr1 IH]; intros f s sk i tr2 lg f' s' H; cbn in H;
  inversion H as [|? ? ? f1 s1 l1 ? l2 ? ? Hs Hr]; subst.
  - exists [], l1, l2, f, f1, s1. split; [constructor; reflexivity|]. auto 10.
  - destruct (IH _ _ _ _ _ _ _ _ Hr) as (m1 & mk & m2 & fk & g1 & t1 & A & B & C & D & E).
    exists (l1 ++ m1), mk, m2, fk, g1, t1. split; [econstructor; eassumption|]. split; [exact B|].
    split; [exact C|]. split; [rewrite D, <- app_assoc; reflexivity|].
    intros a. rewrite E, upds_app. apply upds_ext. intros y. symmetry. apply (fstep_replay _ _ _ _ _ _ Hs).
Qed.

(** Cells no access mentions keep their content. *)
Lemma upds_notin {A} (l : list (Z * A)) : forall f a, ~ In a (map fst l) -> upds f l a = f a.
Proof.
  induction l as [|[b v] l IH]; intros f a Hn; cbn [upds]; [reflexivity|].
  rewrite IH; [|intros H; apply Hn; right; exact H].
  destruct (Z.eqb_spec a b) as [->|]; [exfalso; apply Hn; left; reflexivity|reflexivity].
Qed.

(** ** C11: call and return *)
Lemma fruns_notin f s tr lg f' s' a : fruns f s tr lg f' s' -> ~ In a (map fst lg) -> f' a = f a.
Proof. intros H Hn. rewrite <- (fruns_replay _ _ _ _ _ _ H). apply upds_notin, Hn. Qed.

Lemma call_ret f0 s0 off t f1 s1 l1 f2 s2 f3 s3 l3 :
  swf s0 ->
  fstep f0 s0 (CallAbsImm off t) f1 s1 l1 ->
  fp s2 = fp s1 ->
  f2 ((fp s1 - 1) mod P) = f1 ((fp s1 - 1) mod P) ->
  f2 ((fp s1 - 2) mod P) = f1 ((fp s1 - 2) mod P) ->
  fstep f2 s2 Ret f3 s3 l3 ->
  pc s1 = t /\ s3 = St ((pc s0 + 1) mod P) (fp s0).
Proof.
  intros Hs (_ & e & He & _ & _ & Hn & Hf & _) Hfp H1 H2 (_ & e' & He' & _ & _ & Hn' & _ & _).
  cbn [isa] in He, He'. injection He as <-. injection He' as <-. cbn [next writes] in *.
  subst s1. cbn [fp pc] in *. split; [reflexivity|].
  rewrite Hn', Hfp.
  assert (E1 : ((fp s0 + off + 2) mod P - 1) mod P = ((fp s0 + off) mod P + 1) mod P).
  { rewrite Zminus_mod_idemp_l, Zplus_mod_idemp_l. f_equal. lia. }
  assert (E2 : ((fp s0 + off + 2) mod P - 2) mod P = (fp s0 + off) mod P).
  { rewrite Zminus_mod_idemp_l. f_equal. lia. }
  rewrite E1 in *. rewrite E2 in *. rewrite H1, H2, !Hf. cbn [stored map upds fst snd].
  rewrite Z.eqb_refl. rewrite (Z.eqb_refl ((fp s0 + off) mod P)).
  assert (Hd : (fp s0 + off) mod P =? ((fp s0 + off) mod P + 1) mod P = false).
  { apply Z.eqb_neq. intros E. assert (Hm := mod_wf (fp s0 + off)). unfold wf in Hm.
    set (x := (fp s0 + off) mod P) in *.
    destruct (Z.eq_dec x (P - 1)) as [Hx|Hx].
    - rewrite Hx in E. replace (P - 1 + 1) with P in E by lia. rewrite Z_mod_same_full in E. unfold P in E; lia.
    - rewrite Z.mod_small in E by lia. lia. }
  rewrite Hd. cbn [q0]. reflexivity.
Qed.

(** ** C14 *)
Lemma run_to_nonfinal n v v' : run_to n v v' ->
  exists T, v_trace v' = v_trace v ++ T /\ length T = n /\ Forall (fun s => pc s <> v_final v) T.
Proof.
  induction 1 as [v|n v v1 v2 Hp Hs Hr (T & H1 & H2 & H3)].
  - exists []. rewrite app_nil_r. auto.
  - apply step_trace in Hs as [Ht Hf]. exists (v_st v :: T).
    split; [rewrite H1, Ht, <- app_assoc; reflexivity|]. split; [cbn; lia|].
    constructor; [exact Hp|]. rewrite Hf in H3. exact H3.
Qed.
