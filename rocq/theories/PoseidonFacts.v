(** Facts about the hash chip. *)
From Coq Require Import ZArith Bool List Lia.
From Verif Require Import M31 M31Facts Air Poseidon PoseidonSpec AirChain.
Import ListNotations.
Open Scope Z_scope.

(** ** The matrices *)
Lemma state16 (x : list Z) : length x = 16%nat ->
  exists a0 a1 a2 a3 a4 a5 a6 a7 a8 a9 b0 b1 b2 b3 b4 b5, x = [a0; a1; a2; a3; a4; a5; a6; a7; a8; a9; b0; b1; b2; b3; b4; b5].
Proof.
  intros H. do 16 (destruct x as [|? x]; [discriminate H|]). destruct x; [|discriminate H].
  do 16 eexists. reflexivity.
Qed.
Ltac open16 x H := let E := fresh in
  destruct (state16 x H) as (? & ? & ? & ? & ? & ? & ? & ? & ? & ? & ? & ? & ? & ? & ? & ? & E); subst x.

Lemma cadd a b a' b' : a mod P = a' mod P -> b mod P = b' mod P -> (a + b) mod P = (a' + b') mod P.
Proof. intros H1 H2. rewrite Zplus_mod, H1, H2, <- Zplus_mod. reflexivity. Qed.
Lemma cmul a b a' b' : a mod P = a' mod P -> b mod P = b' mod P -> (a * b) mod P = (a' * b') mod P.
Proof. intros H1 H2. rewrite Zmult_mod, H1, H2, <- Zmult_mod. reflexivity. Qed.
Lemma cmod a a' : a mod P = a' mod P -> (a mod P) mod P = a' mod P.
Proof. rewrite Zmod_mod. auto. Qed.
(** Removes the inner reductions. *)
Ltac strip := repeat match goal with
  | |- (_ + _) mod P = _ => eapply cadd
  | |- (_ * _) mod P = _ => eapply cmul
  | |- (_ mod P) mod P = _ => eapply cmod
  | |- _ => reflexivity
  end.
Ltac pushmod := unfold madd, mmul; etransitivity; [strip|].

Lemma apply_m4_spec a b c d : apply_m4 a b c d =
  [(5 * a + 7 * b + c + 3 * d) mod P; (4 * a + 6 * b + c + d) mod P;
   (a + 3 * b + 5 * c + 7 * d) mod P; (a + b + 4 * c + 6 * d) mod P].
Proof.
  unfold apply_m4. cbv zeta. repeat (apply f_equal2; [pushmod; f_equal; ring|]). reflexivity.
Qed.
Lemma apply_external_spec x : length x = 16%nat -> apply_external x = apply ME x.
Proof.
  intros H. open16 x H. unfold apply_external, apply. cbn [seq flat_map nth Nat.mul Nat.add app].
  rewrite !apply_m4_spec. cbn [app map nth Nat.mul Nat.add].
  repeat (apply f_equal2; [cbv [dot ME M4 seq map nth fold_right Nat.div Nat.modulo Nat.divmod Nat.eqb fst snd Nat.sub]; pushmod; f_equal; ring|]).
  reflexivity.
Qed.
Lemma apply_internal_spec diag x : length x = 16%nat -> length diag = 16%nat ->
  apply_internal diag x = apply (MI diag) x.
Proof.
  intros H D. open16 x H. open16 diag D. unfold apply_internal, apply, map2.
  cbn [seq map app nth hd tl fold_left combine fst snd].
  repeat (apply f_equal2; [cbv [dot MI seq map nth fold_right Nat.eqb]; pushmod; f_equal; ring|]).
  reflexivity.
Qed.

Lemma apply_state m x : is_state (apply m x).
Proof.
  split; [reflexivity|]. apply Forall_forall. intros y H. apply in_map_iff in H. destruct H as (i & <- & _). apply mod_wf.
Qed.

(** ** The rounds *)
Lemma sbox_spec s c : mmul (square (square (madd s c))) (madd s c) = sbox (s + c).
Proof.
  unfold sbox, square. pushmod. f_equal. ring.
Qed.
Lemma sbox_spec' s c : mmul (madd s c) (square (square (madd s c))) = sbox (s + c).
Proof. unfold mmul at 1. rewrite Z.mul_comm. apply sbox_spec. Qed.
Lemma full_round_spec rc x : length x = 16%nat -> length rc = 16%nat -> fst (full_round rc x) = full rc x.
Proof.
  intros H R. unfold full_round, full. cbn [fst]. rewrite apply_external_spec.
  - f_equal. open16 x H. open16 rc R. unfold map2. cbn [seq map combine nth fst snd]. rewrite !sbox_spec. reflexivity.
  - unfold map2. rewrite map_length, combine_length, !map_length, combine_length. lia.
Qed.
Lemma partial_round_spec diag rc x : length x = 16%nat -> length diag = 16%nat -> 
  fst (partial_round diag (nth 0 rc 0) x) = partial diag rc x.
Proof.
  intros H D. unfold partial_round, partial. cbn [fst]. rewrite apply_internal_spec; [|destruct x; [discriminate H|exact H]|exact D].
  rewrite sbox_spec'. destruct x; [discriminate H|]. reflexivity.
Qed.
Lemma full_state rc x : is_state (full rc x). Proof. apply apply_state. Qed.
Lemma partial_state diag rc x : is_state (partial diag rc x). Proof. apply apply_state. Qed.

Lemma rounds_spec {A B} (round : A -> list Z -> list Z * list Z) (spec : B -> list Z -> list Z) (f : B -> A) cs x :
  is_state x -> (forall c y, In c cs -> is_state y -> fst (round (f c) y) = spec c y) ->
  (forall c y, is_state (spec c y)) ->
  fst (rounds round (map f cs) x) = fold_left (fun s c => spec c s) cs x /\ is_state (fst (rounds round (map f cs) x)).
Proof.
  revert x. induction cs as [|c cs IH]; intros x X H S; [split; [reflexivity|exact X]|]. cbn [map rounds fold_left].
  pose proof (H c x (or_introl eq_refl) X) as E. destruct (round (f c) x) as [st cols] eqn:R. cbn [fst] in E. subst st.
  destruct (IH (spec c x) (S _ _) (fun c' y I => H c' y (or_intror I)) S) as [A1 A2].
  destruct (rounds round (map f cs) (spec c x)) as [st' cols'] eqn:R'. cbn [fst] in *. auto.
Qed.

Section Tables.
Variables (rc : list (list Z)) (diag : list Z).
Hypothesis Hok : tables_ok rc diag.
Let k := generate rc diag.

Lemma row16 r : (r < 22)%nat -> length (nth r rc []) = 16%nat.
Proof using Hok.
  intros H. destruct Hok as (L & F & _). rewrite Forall_forall in F. apply F, nth_In. lia.
Qed.
Lemma seq_nth16 (l : list Z) : length l = 16%nat -> map (fun i => nth i l 0) (seq 0 16) = l.
Proof. intros H. open16 l H. reflexivity. Qed.
Lemma k_diag : internal_matrix k = diag.
Proof using Hok. destruct Hok as (_ & _ & D & _). apply seq_nth16, D. Qed.
Lemma k_first : firstn half (external_round_consts k) = map (fun r => nth r rc []) (seq 0 4).
Proof using Hok.
  cbn [k generate external_round_consts]. rewrite firstn_app. cbn [half FULL_ROUNDS map length seq Nat.div Nat.divmod fst firstn Nat.sub app].
  unfold T. rewrite !seq_nth16 by (apply row16; lia). reflexivity.
Qed.
Lemma k_last : skipn half (external_round_consts k) = map (fun r => nth r rc []) (seq 18 4).
Proof using Hok.
  cbn [k generate external_round_consts]. rewrite skipn_app. cbn [half FULL_ROUNDS map length seq Nat.div Nat.divmod fst skipn Nat.sub app PARTIAL_ROUNDS Nat.add].
  unfold T. rewrite !seq_nth16 by (apply row16; lia). reflexivity.
Qed.
Lemma k_inner : internal_round_consts k = map (fun r => nth 0 (nth r rc []) 0) (seq 4 14).
Proof. reflexivity. Qed.

Lemma fold_rounds f lo n x : (forall r, (lo <= r < lo + n)%nat -> round rc diag r = f r) ->
  fold_left (fun s r => round rc diag r s) (seq lo n) x = fold_left (fun s r => f r s) (seq lo n) x.
Proof.
  revert lo x. induction n as [|n IH]; intros lo x H; [reflexivity|]. cbn [seq fold_left].
  rewrite (H lo) by lia. apply IH. intros r Hr. apply H. lia.
Qed.

(** The rounds of [write_trace] are the published permutation. *)
Lemma write_rounds_spec x : length x = 16%nat ->
  fst (write_rounds k x) = permutation rc diag x /\ is_state (fst (write_rounds k x)).
Proof using Hok.
  intros X. unfold write_rounds. rewrite k_first, k_last, k_inner, k_diag.
  rewrite (apply_external_spec x X).
  destruct (rounds_spec full_round (fun r => full (nth r rc [])) (fun r => nth r rc []) (seq 0 4) (apply ME x)) as [E1 S1];
    [apply apply_state|intros c y I (Y & _); apply in_seq in I; apply full_round_spec; [exact Y|apply row16; lia]|intros; apply full_state|].
  destruct (rounds full_round (map (fun r => nth r rc []) (seq 0 4)) (apply ME x)) as [s1 c1]. cbn [fst] in E1, S1.
  destruct (rounds_spec (partial_round diag) (fun r => partial diag (nth r rc [])) (fun r => nth 0 (nth r rc []) 0) (seq 4 14) s1) as [E2 S2];
    [exact S1|intros c y I (Y & _); apply partial_round_spec; [exact Y|apply Hok]|intros; apply partial_state|].
  destruct (rounds (partial_round diag) (map (fun r => nth 0 (nth r rc []) 0) (seq 4 14)) s1) as [s2 c2]. cbn [fst] in E2, S2.
  destruct (rounds_spec full_round (fun r => full (nth r rc [])) (fun r => nth r rc []) (seq 18 4) s2) as [E3 S3];
    [exact S2|intros c y I (Y & _); apply in_seq in I; apply full_round_spec; [exact Y|apply row16; lia]|intros; apply full_state|].
  destruct (rounds full_round (map (fun r => nth r rc []) (seq 18 4)) s2) as [s3 c3]. cbn [fst] in E3, S3 |- *.
  split; [|exact S3]. unfold permutation. change (seq 0 22) with (seq 0 4 ++ seq 4 14 ++ seq 18 4).
  rewrite !fold_left_app.
  rewrite (fold_rounds (fun r => full (nth r rc [])) 0 4);
    [|intros r Hr; unfold round; replace (r <? 4)%nat with true by (symmetry; apply Nat.ltb_lt; lia); reflexivity].
  rewrite <- E1.
  rewrite (fold_rounds (fun r => partial diag (nth r rc [])) 4 14);
    [|intros r Hr; unfold round; replace (r <? 4)%nat with false by (symmetry; apply Nat.ltb_ge; lia);
      replace (18 <=? r)%nat with false by (symmetry; apply Nat.leb_gt; lia); reflexivity].
  rewrite <- E2.
  rewrite (fold_rounds (fun r => full (nth r rc [])) 18 4);
    [|intros r Hr; unfold round; replace (18 <=? r)%nat with true by (symmetry; apply Nat.leb_le; lia); rewrite orb_true_r; reflexivity].
  exact E3.
Qed.
Lemma digest_spec x : length x = 16%nat -> digest k x = nth 0 (permutation rc diag x) 0.
Proof using Hok.
  intros X. unfold digest. destruct (write_rounds_spec x X) as [<- _]. destruct (fst (write_rounds k x)); reflexivity.
Qed.
Lemma digest_wf x : length x = 16%nat -> wf (digest k x).
Proof using Hok.
  intros X. unfold digest. destruct (write_rounds_spec x X) as [_ (L & F)]. destruct (fst (write_rounds k x)); [discriminate L|].
  inversion F; assumption.
Qed.
End Tables.

(** ** The constraints *)
Definition zeros (cs : list Z) : Prop := Forall (fun c => c mod P = 0) cs.
(** The constraints of a reader accept the columns [cols] with the result [a] ... *)
Definition accepts {A} (m : reader A) (cols : list Z) (a : A) : Prop :=
  forall rest, exists cs, m (cols ++ rest) = (a, rest, cs) /\ zeros cs.
(** ... and force the columns [cols] and the result [a]. *)
Definition forces {A} (m : reader A) (cols : list Z) (a : A) : Prop :=
  forall ms a' rest cs, Forall wf ms -> (length cols <= length ms)%nat -> m ms = (a', rest, cs) -> zeros cs ->
    a' = a /\ ms = cols ++ rest.

Lemma accepts_ret {A} (a : A) : accepts (ret a) [] a.
Proof. intros rest. exists []. split; [reflexivity|constructor]. Qed.
Lemma accepts_bind {A B} (m : reader A) (f : A -> reader B) c1 c2 a b :
  accepts m c1 a -> accepts (f a) c2 b -> accepts (bind m f) (c1 ++ c2) b.
Proof.
  intros H1 H2 rest. destruct (H1 (c2 ++ rest)) as (cs1 & E1 & Z1). destruct (H2 rest) as (cs2 & E2 & Z2).
  exists (cs1 ++ cs2). unfold bind. rewrite <- app_assoc, E1, E2. split; [reflexivity|]. apply Forall_app. auto.
Qed.
Lemma forces_ret {A} (a : A) : forces (ret a) [] a.
Proof. intros ms a' rest cs _ _ H _. injection H as <- <- _. auto. Qed.
Lemma forces_bind {A B} (m : reader A) (f : A -> reader B) c1 c2 a b :
  forces m c1 a -> forces (f a) c2 b -> forces (bind m f) (c1 ++ c2) b.
Proof.
  intros H1 H2 ms b' rest cs W L E Z. unfold bind in E. destruct (m ms) as [[a1 ms1] cs1] eqn:E1.
  destruct (f a1 ms1) as [[b1 ms2] cs2] eqn:E2. injection E as -> -> <-. apply Forall_app in Z. destruct Z as [Z1 Z2].
  rewrite app_length in L. destruct (H1 _ _ _ _ W ltac:(lia) E1 Z1) as [-> ->].
  apply Forall_app in W. destruct W as [_ W]. rewrite app_length in L.
  destruct (H2 _ _ _ _ W ltac:(lia) E2 Z2) as [-> ->]. rewrite app_assoc. auto.
Qed.

Lemma accepts_expect e s : accepts (expect e s) [s] s.
Proof.
  intros rest. eexists. split; [reflexivity|]. cbn [hd]. repeat constructor. rewrite Z.sub_diag, Z.mul_0_r. reflexivity.
Qed.
Lemma forces_expect e s : e mod P <> 0 -> wf s -> forces (expect e s) [s] s.
Proof.
  intros He Hs ms a' rest cs W L E Z. destruct ms as [|m ms]; [cbn in L; lia|]. cbn in E. injection E as <- <- <-.
  inversion Z as [|? ? Z1 _]; subst. inversion W as [|? ? Wm _]; subst.
  destruct (mul_zero _ _ Z1) as [C|C]; [contradiction|]. apply mod_sub_zero in C.
  rewrite (wf_mod _ Hs), (wf_mod _ Wm) in C. subst m. auto.
Qed.
Lemma accepts_all e ss : accepts (expect_all e ss) ss ss.
Proof.
  induction ss as [|s ss IH]; [apply accepts_ret|]. cbn [expect_all].
  apply (accepts_bind _ _ [s] ss s); [apply accepts_expect|]. rewrite <- (app_nil_r ss) at 2.
  apply (accepts_bind _ _ ss [] ss); [exact IH|apply accepts_ret].
Qed.
Lemma forces_all e ss : e mod P <> 0 -> Forall wf ss -> forces (expect_all e ss) ss ss.
Proof.
  intros He H. induction H as [|s ss Hs _ IH]; [apply forces_ret|]. cbn [expect_all].
  apply (forces_bind _ _ [s] ss s); [apply forces_expect; assumption|]. rewrite <- (app_nil_r ss) at 2.
  apply (forces_bind _ _ ss [] ss); [exact IH|apply forces_ret].
Qed.

Lemma map2_wf f a b : (forall x y, wf (f x y)) -> Forall wf (map2 f a b).
Proof. intros H. apply Forall_forall. intros x I. apply in_map_iff in I. destruct I as (p & <- & _). apply H. Qed.
Lemma squares_wf a : Forall wf (map square a).
Proof. apply Forall_forall. intros x I. apply in_map_iff in I. destruct I as (p & <- & _). apply mmul_wf. Qed.
Lemma external_wf x : Forall wf (apply_external x).
Proof.
  apply Forall_forall. intros y I. unfold apply_external in I. apply in_flat_map in I. destruct I as (i & _ & I).
  apply in_map_iff in I. destruct I as (j & <- & _). apply madd_wf.
Qed.

Lemma accepts_full e rc x : accepts (eval_full e rc x) (snd (full_round rc x)) (fst (full_round rc x)).
Proof.
  unfold eval_full, full_round. cbn [fst snd]. eapply accepts_bind; [apply accepts_all|].
  eapply accepts_bind; [apply accepts_all|]. apply accepts_all.
Qed.
Lemma forces_full e rc x : e mod P <> 0 -> forces (eval_full e rc x) (snd (full_round rc x)) (fst (full_round rc x)).
Proof.
  intros He. unfold eval_full, full_round. cbn [fst snd]. eapply forces_bind; [apply forces_all; [exact He|apply squares_wf]|].
  eapply forces_bind; [apply forces_all; [exact He|apply squares_wf]|]. apply forces_all; [exact He|apply external_wf].
Qed.
Lemma accepts_partial e diag c x : accepts (eval_partial e diag c x) (snd (partial_round diag c x)) (fst (partial_round diag c x)).
Proof.
  unfold eval_partial, partial_round. cbn [fst snd].
  refine (accepts_bind _ _ [_] [_; _] _ _ (accepts_expect _ _) _).
  refine (accepts_bind _ _ [_] [_] _ _ (accepts_expect _ _) _).
  refine (accepts_bind _ _ [_] [] _ _ (accepts_expect _ _) _). apply accepts_ret.
Qed.
Lemma forces_partial e diag c x : e mod P <> 0 ->
  forces (eval_partial e diag c x) (snd (partial_round diag c x)) (fst (partial_round diag c x)).
Proof.
  intros He. unfold eval_partial, partial_round. cbn [fst snd].
  refine (forces_bind _ _ [_] [_; _] _ _ (forces_expect _ _ He (mmul_wf _ _)) _).
  refine (forces_bind _ _ [_] [_] _ _ (forces_expect _ _ He (mmul_wf _ _)) _).
  refine (forces_bind _ _ [_] [] _ _ (forces_expect _ _ He (mmul_wf _ _)) _). apply forces_ret.
Qed.
Lemma accepts_rounds {A} (ev : A -> list Z -> reader (list Z)) wr cs x :
  (forall c y, accepts (ev c y) (snd (wr c y)) (fst (wr c y))) ->
  accepts (eval_rounds ev cs x) (snd (rounds wr cs x)) (fst (rounds wr cs x)).
Proof.
  intros H. revert x. induction cs as [|c cs IH]; intros x; [apply accepts_ret|]. cbn [eval_rounds rounds].
  pose proof (H c x) as Hc. destruct (wr c x) as [st cols]. cbn [fst snd] in Hc. specialize (IH st).
  destruct (rounds wr cs st) as [st' cols']. cbn [fst snd] in *. exact (accepts_bind _ _ _ _ _ _ Hc IH).
Qed.
Lemma forces_rounds {A} (ev : A -> list Z -> reader (list Z)) wr cs x :
  (forall c y, forces (ev c y) (snd (wr c y)) (fst (wr c y))) ->
  forces (eval_rounds ev cs x) (snd (rounds wr cs x)) (fst (rounds wr cs x)).
Proof.
  intros H. revert x. induction cs as [|c cs IH]; intros x; [apply forces_ret|]. cbn [eval_rounds rounds].
  pose proof (H c x) as Hc. destruct (wr c x) as [st cols]. cbn [fst snd] in Hc. specialize (IH st).
  destruct (rounds wr cs st) as [st' cols']. cbn [fst snd] in *. exact (forces_bind _ _ _ _ _ _ Hc IH).
Qed.
Lemma accepts_perm k e x : accepts (eval_perm k e x) (snd (write_rounds k x)) (fst (write_rounds k x)).
Proof.
  unfold eval_perm, write_rounds.
  pose proof (accepts_rounds (eval_full e) full_round (firstn half (external_round_consts k)) (apply_external x) (fun c y => accepts_full e c y)) as H1.
  destruct (rounds full_round _ (apply_external x)) as [s1 c1]. cbn [fst snd] in H1.
  pose proof (accepts_rounds (eval_partial e (internal_matrix k)) (partial_round (internal_matrix k)) (internal_round_consts k) s1 (fun c y => accepts_partial e _ c y)) as H2.
  destruct (rounds (partial_round _) _ s1) as [s2 c2]. cbn [fst snd] in H2.
  pose proof (accepts_rounds (eval_full e) full_round (skipn half (external_round_consts k)) s2 (fun c y => accepts_full e c y)) as H3.
  destruct (rounds full_round _ s2) as [s3 c3]. cbn [fst snd] in *.
  exact (accepts_bind _ _ _ _ _ _ H1 (accepts_bind _ _ _ _ _ _ H2 H3)).
Qed.
Lemma forces_perm k e x : e mod P <> 0 -> forces (eval_perm k e x) (snd (write_rounds k x)) (fst (write_rounds k x)).
Proof.
  intros He. unfold eval_perm, write_rounds.
  pose proof (forces_rounds (eval_full e) full_round (firstn half (external_round_consts k)) (apply_external x) (fun c y => forces_full e c y He)) as H1.
  destruct (rounds full_round _ (apply_external x)) as [s1 c1]. cbn [fst snd] in H1.
  pose proof (forces_rounds (eval_partial e (internal_matrix k)) (partial_round (internal_matrix k)) (internal_round_consts k) s1 (fun c y => forces_partial e _ c y He)) as H2.
  destruct (rounds (partial_round _) _ s1) as [s2 c2]. cbn [fst snd] in H2.
  pose proof (forces_rounds (eval_full e) full_round (skipn half (external_round_consts k)) s2 (fun c y => forces_full e c y He)) as H3.
  destruct (rounds full_round _ s2) as [s3 c3]. cbn [fst snd] in *.
  exact (forces_bind _ _ _ _ _ _ H1 (forces_bind _ _ _ _ _ _ H2 H3)).
Qed.

Lemma masks_app xs rest : masks (length xs) (xs ++ rest) = (xs, rest, []).
Proof. induction xs as [|x xs IH]; [reflexivity|]. cbn [masks length app]. unfold bind, mask. cbn [hd tl]. rewrite IH. reflexivity. Qed.
Lemma masks_16 xs rest : length xs = 16%nat -> masks T (xs ++ rest) = (xs, rest, []).
Proof. intros H. change T with 16%nat. rewrite <- H. apply masks_app. Qed.

(** ** Lengths *)
Lemma map2_length f a b : length (map2 f a b) = Nat.min (length a) (length b).
Proof. unfold map2. rewrite map_length. apply combine_length. Qed.
Lemma external_length x : length (apply_external x) = 16%nat.
Proof. reflexivity. Qed.
Lemma rounds_length {A} (wr : A -> list Z -> list Z * list Z) n cs x :
  length x = 16%nat -> (forall c y, In c cs -> length y = 16%nat -> length (fst (wr c y)) = 16%nat /\ length (snd (wr c y)) = n) ->
  length (fst (rounds wr cs x)) = 16%nat /\ length (snd (rounds wr cs x)) = (length cs * n)%nat.
Proof.
  revert x. induction cs as [|c cs IH]; intros x X H; [auto|]. cbn [rounds].
  destruct (H c x (or_introl eq_refl) X) as [L1 L2]. destruct (wr c x) as [st cols]. cbn [fst snd] in *.
  destruct (IH st L1 (fun c' y I => H c' y (or_intror I))) as [M1 M2]. destruct (rounds wr cs st) as [st' cols']. cbn [fst snd] in *.
  split; [exact M1|]. rewrite app_length. cbn [length Nat.mul]. lia.
Qed.
Lemma write_rounds_length rc diag x : tables_ok rc diag -> length x = 16%nat ->
  length (snd (write_rounds (generate rc diag) x)) = 426%nat.
Proof.
  intros Hok X. unfold write_rounds. rewrite (k_first rc diag Hok), (k_last rc diag Hok), k_inner, (k_diag rc diag Hok).
  assert (F : forall lo n, (lo + n <= 22)%nat -> forall c y, In c (map (fun r => nth r rc []) (seq lo n)) -> length y = 16%nat ->
    length (fst (full_round c y)) = 16%nat /\ length (snd (full_round c y)) = 48%nat).
  { intros lo n Hn c y I Y. apply in_map_iff in I. destruct I as (r & <- & I). apply in_seq in I.
    pose proof (row16 rc diag Hok r ltac:(lia)). unfold full_round. cbn [fst snd]. rewrite !app_length, !external_length, !map_length, map2_length. lia. }
  destruct (rounds_length full_round 48 (map (fun r => nth r rc []) (seq 0 4)) (apply_external x) (external_length x) (F 0%nat 4%nat ltac:(lia))) as [A1 A2].
  destruct (rounds full_round _ (apply_external x)) as [s1 c1]. cbn [fst snd] in A1, A2.
  destruct (rounds_length (partial_round diag) 3 (map (fun r => nth 0 (nth r rc []) 0) (seq 4 14)) s1 A1) as [B1 B2].
  { intros c y _ Y. unfold partial_round. cbn [fst snd]. split; [|reflexivity]. unfold apply_internal. rewrite map2_length.
    destruct Hok as (_ & _ & D & _). destruct y; [discriminate Y|]. cbn [length tl] in *. lia. }
  destruct (rounds (partial_round diag) _ s1) as [s2 c2]. cbn [fst snd] in B1, B2.
  destruct (rounds_length full_round 48 (map (fun r => nth r rc []) (seq 18 4)) s2 B1 (F 18%nat 4%nat ltac:(lia))) as [C1 C2].
  destruct (rounds full_round _ s2) as [s3 c3]. cbn [fst snd] in *. rewrite !app_length, A2, B2, C2. reflexivity.
Qed.

(** ** Rows *)
Lemma full_cols_wf rc x : Forall wf (snd (full_round rc x)).
Proof. unfold full_round. cbn [snd]. rewrite !Forall_app. split; [apply squares_wf|]. split; [apply squares_wf|apply external_wf]. Qed.
Lemma partial_cols_wf diag c x : Forall wf (snd (partial_round diag c x)).
Proof. unfold partial_round. cbn [snd]. repeat (apply Forall_cons; [apply mmul_wf|]). constructor. Qed.
Lemma rounds_wf {A} (wr : A -> list Z -> list Z * list Z) cs x :
  (forall c y, Forall wf (snd (wr c y))) -> Forall wf (snd (rounds wr cs x)).
Proof.
  intros H. revert x. induction cs as [|c cs IH]; intros x; [constructor|]. cbn [rounds].
  pose proof (H c x) as Hc. destruct (wr c x) as [st cols]. specialize (IH st). destruct (rounds wr cs st) as [st' cols'].
  cbn [snd] in *. apply Forall_app. auto.
Qed.
Lemma write_rounds_wf k x : Forall wf (snd (write_rounds k x)).
Proof.
  unfold write_rounds.
  pose proof (rounds_wf full_round (firstn half (external_round_consts k)) (apply_external x) full_cols_wf) as H1.
  destruct (rounds full_round _ (apply_external x)) as [s1 c1]. cbn [snd] in H1.
  pose proof (rounds_wf (partial_round (internal_matrix k)) (internal_round_consts k) s1 (partial_cols_wf _)) as H2.
  destruct (rounds (partial_round _) _ s1) as [s2 c2]. cbn [snd] in H2.
  pose proof (rounds_wf full_round (skipn half (external_round_consts k)) s2 full_cols_wf) as H3.
  destruct (rounds full_round _ s2) as [s3 c3]. cbn [snd] in *. rewrite !Forall_app. auto.
Qed.

Lemma hash_air_eq k e x ms : length x = 16%nat -> hash_air k (e :: x ++ ms) =
  Air (snd (eval_perm k e x ms)) [RE Poseidon2 (- e) x; RE Poseidon2 e [hd 0 (fst (fst (eval_perm k e x ms)))]].
Proof.
  intros X. unfold hash_air, eval_row. unfold bind at 1. unfold mask at 1. cbn [hd tl].
  unfold bind at 1. rewrite (masks_16 x _ X). unfold bind at 1.
  destruct (eval_perm k e x ms) as [[st rest] cs]. cbn [fst snd]. unfold ret. rewrite !app_nil_r. reflexivity.
Qed.
Lemma write_row_eval k e x : length x = 16%nat -> exists cs,
  hash_air k (write_row k e x) = Air cs [RE Poseidon2 (- e) x; RE Poseidon2 e [digest k x]] /\ zeros cs.
Proof.
  intros X. unfold write_row, digest. rewrite (hash_air_eq k e x _ X).
  destruct (accepts_perm k e x []) as (cs & E & Z). rewrite app_nil_r in E. rewrite E. cbn [fst snd]. eauto.
Qed.
Lemma split_row (row : list Z) : length row = 443%nat -> exists e x ms, row = e :: x ++ ms /\ length x = 16%nat /\ length ms = 426%nat /\
  e = nth 0 row 0 /\ x = firstn 16 (skipn 1 row).
Proof.
  intros L. destruct row as [|e r]; [discriminate L|]. exists e, (firstn 16 r), (skipn 16 r).
  rewrite firstn_skipn. cbn [length] in L. rewrite firstn_length, skipn_length. repeat split; lia.
Qed.
Lemma row_forced_aux k e x ms : length x = 16%nat -> length ms = length (snd (write_rounds k x)) ->
  Forall wf ms -> zeros (a_cons (hash_air k (e :: x ++ ms))) -> e mod P <> 0 -> ms = snd (write_rounds k x).
Proof.
  intros X L W Z He. rewrite (hash_air_eq k e x ms X) in Z. cbn [a_cons] in Z.
  destruct (eval_perm k e x ms) as [[st rest] cs] eqn:E. cbn [snd] in Z.
  destruct (forces_perm k e x He ms st rest cs W ltac:(rewrite L; apply le_n) E Z) as [_ Hm].
  rewrite Hm, app_length in L. destruct rest; [|cbn [length] in L; lia]. rewrite app_nil_r in Hm. exact Hm.
Qed.
Lemma row_forced rc diag e x ms : tables_ok rc diag -> length x = 16%nat -> length ms = 426%nat ->
  wf e -> Forall wf ms -> zeros (a_cons (hash_air (generate rc diag) (e :: x ++ ms))) -> e <> 0 ->
  e :: x ++ ms = write_row (generate rc diag) e x.
Proof.
  intros Hok X L We Wm Z He. unfold write_row.
  rewrite (row_forced_aux (generate rc diag) e x ms X) at 1; [reflexivity| |exact Wm|exact Z|rewrite (wf_mod _ We); exact He].
  rewrite L. symmetry. apply write_rounds_length; assumption.
Qed.
