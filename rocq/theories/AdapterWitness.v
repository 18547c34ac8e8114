(** A family of runs with a long gap between two accesses of a cell: a counting loop. *)
From Coq Require Import ZArith Bool List Lia Permutation.
From Verif Require Import M31 M31Facts Instr InstrFacts VmMem Vm Abi Isa IsaFacts Machine VmFacts VmPropFacts AirChain AirMem Adapter AdapterSpec AdapterFacts AdapterRun AdapterProps.
Import ListNotations.
Open Scope Z_scope.

Definition upd1 (f : flat) (a v : Z) : flat := fun b => if b =? a then Q v 0 0 0 else f b.
Lemma fstep_add f p x a imm d :
  instr_at f p (StoreAddFpImm a imm d) -> 0 <= p < 100 -> 0 <= x < 100 -> 0 <= a < 100 -> 0 <= d < 100 -> is_felt (f (x + a)) ->
  let v := (q0 (f (x + a)) + imm) mod P in
  fstep f (St p x) (StoreAddFpImm a imm d) (upd1 f (x + d) v) (St (p + 1) x)
    [(p, f p); (x + a, f (x + a)); (x + d, Q v 0 0 0)].
Proof.
  intros Hi Hp Hx Ha Hd Hf v. split; [exact Hi|].
  assert (E1 : (x + a) mod P = x + a) by (apply Z.mod_small; unfold P; lia).
  assert (E2 : (x + d) mod P = x + d) by (apply Z.mod_small; unfold P; lia).
  assert (E3 : (p + 1) mod P = p + 1) by (apply Z.mod_small; unfold P; lia).
  eexists. split; [reflexivity|]. cbn [reads peeks writes next fp pc app In fst snd stored map upds seen code_addrs size_m31].
  rewrite E1, E2, E3. split; [|split; [|split; [|split]]].
  - intros b [<-|[]]. split; [clear - Hp Hx Ha; unfold ADDRS; lia|exact Hf].
  - intros w [<-|[]]. cbn [fst]. clear - Hp Hx Hd. unfold ADDRS. lia.
  - reflexivity.
  - intros b. reflexivity.
  - reflexivity.
Qed.
Lemma fstep_imm f p x imm d :
  instr_at f p (StoreImm imm d) -> 0 <= p < 100 -> 0 <= x < 100 -> 0 <= d < 100 ->
  fstep f (St p x) (StoreImm imm d) (upd1 f (x + d) imm) (St (p + 1) x) [(p, f p); (x + d, Q imm 0 0 0)].
Proof.
  intros Hi Hp Hx Hd. split; [exact Hi|].
  assert (E2 : (x + d) mod P = x + d) by (apply Z.mod_small; unfold P; lia).
  assert (E3 : (p + 1) mod P = p + 1) by (apply Z.mod_small; unfold P; lia).
  eexists. split; [reflexivity|]. cbn [reads peeks writes next fp pc app In fst snd stored map upds seen code_addrs size_m31].
  rewrite E2, E3. split; [|split; [|split; [|split]]].
  - intros b [].
  - intros w [<-|[]]. cbn [fst]. clear - Hp Hx Hd. unfold ADDRS. lia.
  - reflexivity.
  - intros b. reflexivity.
  - reflexivity.
Qed.
Lemma fstep_jnz f p x c o t :
  instr_at f p (JnzFpImm c o) -> 0 <= p < 100 -> 0 <= x < 100 -> 0 <= c < 100 -> is_felt (f (x + c)) ->
  t = (if q0 (f (x + c)) =? 0 then p + 1 else (p + o) mod P) ->
  fstep f (St p x) (JnzFpImm c o) f (St t x) [(p, f p); (x + c, f (x + c))].
Proof.
  intros Hi Hp Hx Hc Hf ->. split; [exact Hi|].
  assert (E1 : (x + c) mod P = x + c) by (apply Z.mod_small; unfold P; lia).
  assert (E3 : (p + 1) mod P = p + 1) by (apply Z.mod_small; unfold P; lia).
  eexists. split; [reflexivity|]. cbn [reads peeks writes next fp pc app In fst snd stored map upds seen code_addrs size_m31].
  rewrite E1, E3. split; [|split; [|split; [|split]]].
  - intros b [<-|[]]. split; [clear - Hp Hx Hc; unfold ADDRS; lia|exact Hf].
  - intros w [].
  - destruct (q0 (f (x + c)) =? 0); reflexivity.
  - intros b. reflexivity.
  - reflexivity.
Qed.

(** Code at 0..6, frame at 10. *)
Definition loop_code (n : Z) : list instr :=
  [ StoreImm 5 0;                (* 0: [fp] = 5 *)
    StoreImm 0 1;                (* 1: [fp+1] = 0 *)
    StoreAddFpImm 1 1 2;         (* 2: [fp+2] = [fp+1] + 1 *)
    StoreAddFpImm 2 0 1;         (* 3: [fp+1] = [fp+2] *)
    StoreAddFpImm 2 (P - n) 3;   (* 4: [fp+3] = [fp+2] - n *)
    JnzFpImm 3 (P - 3);          (* 5: if [fp+3] <> 0 goto 2 *)
    StoreAddFpImm 0 0 4 ].       (* 6: [fp+4] = [fp] *)
(** Memory at the start: the code, and [v] in the cell [fp]. *)
Definition loop_words (n v : Z) : list qm31 :=
  flat_map to_words (loop_code n) ++ [qzero; qzero; qzero; Q v 0 0 0; qzero; qzero; qzero; qzero].
Definition loop_map (n v : Z) : amap := map (fun k => (Z.of_nat k, (nth k (loop_words n v) qzero, 0, 0))) (seq 0 15).
Definition loop_flat (n v : Z) : flat := fun a => match ini_of (loop_map n v) a with Some q => q | None => qzero end.

Definition code_ok (n : Z) (f : flat) : Prop := forall k i, nth_error (loop_code n) k = Some i -> instr_at f (Z.of_nat k) i.
Lemma code_upd n f a v : 10 <= a -> code_ok n f -> code_ok n (upd1 f a v).
Proof.
  intros Ha H k i Hk. specialize (H k i Hk).
  assert (Hl : (k < 7)%nat) by (apply (proj1 (nth_error_Some (loop_code n) k)); rewrite Hk; discriminate).
  destruct H as [r Hr]. exists r. rewrite <- Hr. unfold upd1.
  assert (E : (Z.of_nat k + 1) mod P = Z.of_nat k + 1) by (apply Z.mod_small; unfold P; lia). rewrite E.
  rewrite !(proj2 (Z.eqb_neq _ a)) by lia. reflexivity.
Qed.
Lemma upd1_same f a v : upd1 f a v a = Q v 0 0 0. Proof. unfold upd1. rewrite Z.eqb_refl. reflexivity. Qed.
Lemma upd1_other f a v b : b <> a -> upd1 f a v b = f b.
Proof. intros H. unfold upd1. rewrite (proj2 (Z.eqb_neq b a)) by exact H. reflexivity. Qed.
Definition quiet (a : Z) (e : event) : Prop :=
  is_print (ev_instr e) = false /\ NoDup (map fst (ev_log e)) /\ ~ In a (map fst (ev_log e)).
Ltac quiet_tac := split; [reflexivity|]; split; [cbn; repeat (constructor; [cbn; lia|]); constructor|cbn; lia].

Lemma iteration n f k : code_ok n f -> 0 <= k < n -> n < P -> f 11 = Q k 0 0 0 ->
  exists ev f', eruns f (St 2 10) ev f' (St (if k + 1 =? n then 6 else 2) 10) /\ length ev = 4%nat /\
    code_ok n f' /\ f' 11 = Q (k + 1) 0 0 0 /\ (forall a, a < 11 \/ 13 < a -> f' a = f a) /\ Forall (quiet 10) ev.
Proof.
  intros Hc Hk Hn H11.
  set (f1 := upd1 f 12 (k + 1)). set (f2 := upd1 f1 11 (k + 1)). set (f3 := upd1 f2 13 ((k + 1 + (P - n)) mod P)).
  assert (Hc1 : code_ok n f1) by (apply code_upd; [lia|exact Hc]).
  assert (Hc2 : code_ok n f2) by (apply code_upd; [lia|exact Hc1]).
  assert (Hc3 : code_ok n f3) by (apply code_upd; [lia|exact Hc2]).
  assert (S1 : fstep f (St 2 10) (StoreAddFpImm 1 1 2) f1 (St 3 10) [(2, f 2); (11, f 11); (12, Q (k + 1) 0 0 0)]).
  { pose proof (fstep_add f 2 10 1 1 2 (Hc 2%nat _ eq_refl) ltac:(lia) ltac:(lia) ltac:(lia) ltac:(lia)) as H.
    change (10 + 1) with 11 in H. change (10 + 2) with 12 in H. change (2 + 1) with 3 in H. rewrite H11 in H. cbn [q0] in H.
    rewrite (Z.mod_small (k + 1)) in H by lia. rewrite H11. apply H. reflexivity. }
  assert (S2 : fstep f1 (St 3 10) (StoreAddFpImm 2 0 1) f2 (St 4 10) [(3, f1 3); (12, f1 12); (11, Q (k + 1) 0 0 0)]).
  { pose proof (fstep_add f1 3 10 2 0 1 (Hc1 3%nat _ eq_refl) ltac:(lia) ltac:(lia) ltac:(lia) ltac:(lia)) as H.
    change (10 + 1) with 11 in H. change (10 + 2) with 12 in H. change (3 + 1) with 4 in H.
    assert (E : f1 12 = Q (k + 1) 0 0 0) by apply upd1_same. rewrite E in H. cbn [q0] in H.
    rewrite Z.add_0_r, (Z.mod_small (k + 1)) in H by lia. rewrite E. apply H. reflexivity. }
  assert (S3 : fstep f2 (St 4 10) (StoreAddFpImm 2 (P - n) 3) f3 (St 5 10) [(4, f2 4); (12, f2 12); (13, Q ((k + 1 + (P - n)) mod P) 0 0 0)]).
  { pose proof (fstep_add f2 4 10 2 (P - n) 3 (Hc2 4%nat _ eq_refl) ltac:(lia) ltac:(lia) ltac:(lia) ltac:(lia)) as H.
    change (10 + 2) with 12 in H. change (10 + 3) with 13 in H. change (4 + 1) with 5 in H.
    assert (E : f2 12 = Q (k + 1) 0 0 0) by (unfold f2; rewrite upd1_other by lia; apply upd1_same). rewrite E in H. cbn [q0] in H.
    rewrite E. apply H. reflexivity. }
  assert (E13 : f3 13 = Q ((k + 1 + (P - n)) mod P) 0 0 0) by apply upd1_same.
  assert (Hz : (q0 (f3 13) =? 0) = (k + 1 =? n)).
  { rewrite E13. cbn [q0]. destruct (Z.eqb_spec (k + 1) n) as [->|Hne].
    - replace (n + (P - n)) with (1 * P) by ring. rewrite Z_mod_mult. reflexivity.
    - apply Z.eqb_neq. rewrite Z.mod_small; lia. }
  assert (S4 : fstep f3 (St 5 10) (JnzFpImm 3 (P - 3)) f3 (St (if k + 1 =? n then 6 else 2) 10) [(5, f3 5); (13, f3 13)]).
  { apply (fstep_jnz f3 5 10 3 (P - 3)); try lia; [exact (Hc3 5%nat _ eq_refl)|change (10 + 3) with 13; rewrite E13; reflexivity|].
    change (10 + 3) with 13. rewrite Hz. destruct (k + 1 =? n); reflexivity. }
  eexists _, f3. split; [|split; [|split; [exact Hc3|split; [|split]]]].
  - econstructor; [exact S1|]. econstructor; [exact S2|]. econstructor; [exact S3|]. econstructor; [exact S4|]. constructor. reflexivity.
  - reflexivity.
  - unfold f3, f2. rewrite upd1_other by lia. apply upd1_same.
  - intros a Ha. unfold f3, f2, f1. rewrite !upd1_other by lia. reflexivity.
  - apply Forall_cons; [quiet_tac|]. apply Forall_cons; [quiet_tac|]. apply Forall_cons; [quiet_tac|]. apply Forall_cons; [quiet_tac|constructor].
Qed.
Lemma eruns_app f s ev f1 s1 ev' f2 s2 : eruns f s ev f1 s1 -> eruns f1 s1 ev' f2 s2 -> exists ev'', eruns f s ev'' f2 s2 /\ ev'' = ev ++ ev'.
Proof.
  intros H. revert ev' f2 s2. induction H as [f f' s H|f s i f1 s1 lg ev f2 s2 H1 H2 IH]; intros ev' g2 t2 H'.
  - exists ev'. split; [|reflexivity]. destruct H' as [g g' t Hg|g t i g1 t1 lg ev g2 t2 Hs Hr].
    + constructor. intros a. rewrite Hg. apply H.
    + econstructor; [|exact Hr]. clear - Hs H.
      destruct Hs as (Hat & e & Hi & Hrd & Hw & Hn & Hf & Hl).
      split; [unfold instr_at in *; rewrite <- !H; exact Hat|].
      exists e. split; [rewrite <- Hi; apply felt_ext_isa; intros a; rewrite H; reflexivity|].
      split; [intros a Ha; rewrite <- H; apply Hrd, Ha|]. split; [exact Hw|]. split; [exact Hn|].
      split; [intros b; rewrite Hf; apply upds_ext; exact H|].
      rewrite Hl. unfold seen. f_equal; [apply map_ext; intros a; rewrite H; reflexivity|].
      f_equal. apply map_ext; intros a; rewrite H; reflexivity.
  - destruct (IH _ _ _ H') as (ev'' & Hr & ->). exists ((s, i, lg) :: ev ++ ev'). split; [|reflexivity]. econstructor; eassumption.
Qed.
Lemma iterations n m : forall f k, code_ok n f -> 0 <= k -> k + Z.of_nat m = n -> (0 < m)%nat -> n < P -> f 11 = Q k 0 0 0 ->
  exists ev f', eruns f (St 2 10) ev f' (St 6 10) /\ length ev = (4 * m)%nat /\
    code_ok n f' /\ (forall a, a < 11 \/ 13 < a -> f' a = f a) /\ Forall (quiet 10) ev.
Proof.
  induction m as [|m IH]; intros f k Hc Hk Hm H0 Hn H11; [lia|].
  destruct (iteration n f k Hc ltac:(lia) Hn H11) as (ev1 & f1 & R1 & L1 & C1 & E1 & O1 & Q1).
  destruct m as [|m].
  - exists ev1, f1. rewrite (proj2 (Z.eqb_eq (k + 1) n)) in R1 by lia. split; [exact R1|]. split; [lia|]. split; [exact C1|]. split; assumption.
  - destruct (IH f1 (k + 1) C1 ltac:(lia) ltac:(lia) ltac:(lia) Hn E1) as (ev2 & f2 & R2 & L2 & C2 & O2 & Q2).
    rewrite (proj2 (Z.eqb_neq (k + 1) n)) in R1 by lia.
    destruct (eruns_app _ _ _ _ _ _ _ _ R1 R2) as (ev & R & ->). exists (ev1 ++ ev2), f2.
    split; [exact R|]. split; [rewrite app_length; lia|]. split; [exact C2|].
    split; [intros a Ha; rewrite O2, O1 by exact Ha; reflexivity|]. apply Forall_app. split; assumption.
Qed.

Lemma instr_at_word f k i w r : f (Z.of_nat k) = w -> (k < 8)%nat -> qlist w = Instr.encode i ++ r -> instr_at f (Z.of_nat k) i.
Proof. intros E _ H. exists (r ++ qlist (f ((Z.of_nat k + 1) mod P))). rewrite E, H, <- app_assoc. reflexivity. Qed.
Lemma loop_code_ok n v : code_ok n (loop_flat n v).
Proof.
  intros k i Hk.
  destruct k as [|k]; [injection Hk as <-; apply (instr_at_word _ 0 _ (Q 9 5 0 0) [0]); [reflexivity|lia|reflexivity]|].
  destruct k as [|k]; [injection Hk as <-; apply (instr_at_word _ 1 _ (Q 9 0 1 0) [0]); [reflexivity|lia|reflexivity]|].
  destruct k as [|k]; [injection Hk as <-; apply (instr_at_word _ 2 _ (Q 4 1 1 2) []); [reflexivity|lia|reflexivity]|].
  destruct k as [|k]; [injection Hk as <-; apply (instr_at_word _ 3 _ (Q 4 2 0 1) []); [reflexivity|lia|reflexivity]|].
  destruct k as [|k]; [cbn [nth_error loop_code] in Hk; assert (Hi : i = StoreAddFpImm 2 (P - n) 3) by congruence; subst i; apply (instr_at_word _ 4 _ (Q 4 2 (P - n) 3) []); [reflexivity|lia|reflexivity]|].
  destruct k as [|k]; [injection Hk as <-; apply (instr_at_word _ 5 _ (Q 14 3 (P - 3) 0) [0]); [reflexivity|lia|reflexivity]|].
  destruct k as [|k]; [injection Hk as <-; apply (instr_at_word _ 6 _ (Q 4 0 0 4) []); [reflexivity|lia|reflexivity]|].
  destruct k; discriminate.
Qed.
Lemma loop_blank n v : blank (loop_map n v).
Proof.
  split.
  - unfold loop_map. apply nodup_locals.
  - intros a w c k H. apply hget_in in H. unfold loop_map in H. apply in_map_iff in H. destruct H as (j & E & _).
    generalize dependent (nth j (loop_words n v) qzero). intros q E. injection E as _ _ <- <-. auto.
Qed.
Lemma quiet_last a ev : Forall (quiet a) ev -> forall k h, last_at (rev (timeline k ev) ++ h) a = last_at h a.
Proof.
  induction 1 as [|e ev (_ & _ & He) Hev IH]; intros k h; [reflexivity|]. cbn [timeline]. rewrite rev_app_distr, <- app_assoc, IH.
  rewrite last_at_app. assert (El : last_at (rev (at_clock k (ev_log e))) a = None); [|rewrite El; reflexivity].
  apply last_at_none. rewrite map_rev, <- in_rev. unfold at_clock. rewrite map_map. cbn [fst]. exact He.
Qed.
(** The run: the cell 10 is written at clock 1 and read at clock 4 * m + 3. *)
Theorem long_run m v : (0 < m)%nat -> Z.of_nat m < 400000000 -> wf v ->
  let n := Z.of_nat m in
  exists ev f' s', eruns (loop_flat n v) (St 0 10) ev f' s' /\ Z.of_nat (length ev) < P /\
    Forall (fun e => is_print (ev_instr e) = false) ev /\ Forall (fun e => NoDup (map fst (ev_log e))) ev /\
    exists x, In x (moves (ini_of (loop_map n v)) [] (timeline 1 ev)) /\ mv_addr x = 10 /\ mv_from x = 1 /\
      mv_clk x = 4 * n + 3 /\ mv_old x = Q 5 0 0 0 /\ mv_new x = Q 5 0 0 0 /\ mv_first x = Q v 0 0 0.
Proof.
  intros Hm0 Hm Hv n. set (f := loop_flat n v). pose proof (loop_code_ok n v) as Hc. fold f in Hc.
  set (f1 := upd1 f 10 5). set (f2 := upd1 f1 11 0).
  assert (Hc1 : code_ok n f1) by (apply code_upd; [lia|exact Hc]).
  assert (Hc2 : code_ok n f2) by (apply code_upd; [lia|exact Hc1]).
  pose proof (fstep_imm f 0 10 5 0 (Hc 0%nat _ eq_refl) ltac:(lia) ltac:(lia) ltac:(lia)) as S1.
  pose proof (fstep_imm f1 1 10 0 1 (Hc1 1%nat _ eq_refl) ltac:(lia) ltac:(lia) ltac:(lia)) as S2.
  change (10 + 0) with 10 in S1. change (10 + 1) with 11 in S2. change (0 + 1) with 1 in S1. change (1 + 1) with 2 in S2.
  fold f1 in S1. fold f2 in S2.
  destruct (iterations n m f2 0 Hc2 ltac:(lia) ltac:(lia) Hm0 ltac:(unfold P; lia)) as (ev & f3 & R & L & C3 & O3 & Q3); [apply upd1_same|].
  assert (E10 : f3 10 = Q 5 0 0 0).
  { rewrite O3 by lia. unfold f2. rewrite upd1_other by lia. apply upd1_same. }
  pose proof (fstep_add f3 6 10 0 0 4 (C3 6%nat _ eq_refl) ltac:(lia) ltac:(lia) ltac:(lia) ltac:(lia)) as S3.
  change (10 + 0) with 10 in S3. change (10 + 4) with 14 in S3. change (6 + 1) with 7 in S3. rewrite E10 in S3. specialize (S3 eq_refl).
  cbv zeta in S3. cbn [q0] in S3. change ((5 + 0) mod P) with 5 in S3.
  destruct (eruns_app _ _ _ _ _ _ _ _ R (eruns_cons _ _ _ _ _ _ _ _ _ S3 (eruns_nil _ _ _ (fun a => eq_refl)))) as (evs & R' & ->).
  set (e1 := (St 0 10, StoreImm 5 0, [(0, f 0); (10, Q 5 0 0 0)]) : event) in *.
  set (e2 := (St 1 10, StoreImm 0 1, [(1, f1 1); (11, Q 0 0 0 0)]) : event) in *.
  set (e3 := (St 6 10, StoreAddFpImm 0 0 4, [(6, f3 6); (10, Q 5 0 0 0); (14, Q 5 0 0 0)]) : event) in *.
  exists (e1 :: e2 :: ev ++ [e3]), (upd1 f3 14 5), (St 7 10).
  split; [econstructor; [exact S1|]; econstructor; [exact S2|]; exact R'|].
  assert (Hlen : length (e1 :: e2 :: ev ++ [e3]) = (4 * m + 3)%nat) by (cbn [length]; rewrite app_length; cbn [length]; lia).
  split; [rewrite Hlen; unfold P; lia|].
  assert (Hq : Forall (fun e => is_print (ev_instr e) = false /\ NoDup (map fst (ev_log e))) (e1 :: e2 :: ev ++ [e3])).
  { assert (Hq1 : forall e : event, quiet (-1) e -> is_print (ev_instr e) = false /\ NoDup (map fst (ev_log e))) by (intros e (A & B & _); auto).
    apply Forall_cons; [apply Hq1; quiet_tac|]. apply Forall_cons; [apply Hq1; quiet_tac|]. apply Forall_app. split.
    - eapply Forall_impl; [|exact Q3]. intros e (A & B & _). auto.
    - apply Forall_cons; [apply Hq1; quiet_tac|constructor]. }
  split; [eapply Forall_impl; [|exact Hq]; intros e [A _]; exact A|].
  split; [eapply Forall_impl; [|exact Hq]; intros e [_ A]; exact A|].
  assert (Htl : forall k ev ev', timeline k (ev ++ ev') = timeline k ev ++ timeline (k + Z.of_nat (length ev)) ev').
  { clear. intros k ev. revert k. induction ev as [|e ev IH]; intros k ev'; cbn [app timeline length].
    - rewrite Z.add_0_r. reflexivity.
    - rewrite IH, <- app_assoc. do 3 f_equal. lia. }
  set (h0 := [(11, Q 0 0 0 0, 2); (1, f1 1, 2); (10, Q 5 0 0 0, 1); (0, f 0, 1)] : list timed).
  set (h := rev (timeline 3 ev) ++ h0).
  assert (Hl : last_at h 10 = Some (Q 5 0 0 0, 1)).
  { unfold h. rewrite (quiet_last 10 ev Q3). reflexivity. }
  exists (move_of (ini_of (loop_map n v)) ((6, f3 6, 3 + Z.of_nat (length ev)) :: h) (10, Q 5 0 0 0, 3 + Z.of_nat (length ev))).
  split.
  - change (timeline 1 (e1 :: e2 :: ev ++ [e3])) with ([(0, f 0, 1); (10, Q 5 0 0 0, 1); (1, f1 1, 2); (11, Q 0 0 0 0, 2)] ++ timeline 3 (ev ++ [e3])).
    rewrite moves_app. apply in_or_app. right. rewrite Htl, moves_app. apply in_or_app. right.
    change (rev [(0, f 0, 1); (10, Q 5 0 0 0, 1); (1, f1 1, 2); (11, Q 0 0 0 0, 2)] ++ []) with h0.
    cbn [timeline app ev_log snd e3 at_clock map fst moves In]. fold h. right. left. reflexivity.
  - cbn [move_of mv_addr mv_from mv_clk mv_old mv_new mv_first]. cbn [last_at Z.eqb Pos.eqb]. rewrite Hl.
    split; [reflexivity|]. split; [reflexivity|]. split; [rewrite L; lia|]. split; [reflexivity|]. split; reflexivity.
Qed.
Lemma loop_agrees n v : agrees (ini_of (loop_map n v)) (loop_flat n v).
Proof. intros a w H. unfold loop_flat. rewrite H. reflexivity. Qed.
