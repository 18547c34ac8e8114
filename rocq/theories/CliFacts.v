(** The command-line parser accepts exactly the grammar. *)
From Coq Require Import ZArith Bool List Lia.
From Verif Require Import M31 M31Facts Cli CliSpec.
Import ListNotations.
Open Scope Z_scope.

Lemma m31_from_i64_spec n : wf (m31_from_i64 n) /\ m31_from_i64 n = n mod P.
Proof.
  assert (H : m31_from_i64 n = n mod P).
  { unfold m31_from_i64, mfrom. assert (Hq := Z.quot_rem' n P). destruct (Z.rem n P <? 0).
    - replace (Z.rem n P + P) with (n + (1 - Z.quot n P) * P) by lia. apply Z_mod_plus_full.
    - replace (Z.rem n P) with (n + (- Z.quot n P) * P) by lia. apply Z_mod_plus_full. }
  split; [|exact H]. rewrite H. apply Z.mod_pos_bound. reflexivity.
Qed.

(** ** White space *)
Lemma skip_split s : exists w, s = w ++ skip_ws s /\ spaces w.
Proof.
  induction s as [|b r (w & E & Hw)]; [exists []; split; [reflexivity|constructor]|].
  cbn [skip_ws]. destruct (is_ws b) eqn:Hb.
  - exists (b :: w). split; [cbn; f_equal; exact E|constructor; assumption].
  - exists []. split; [reflexivity|constructor].
Qed.
Lemma skip_len s : (length (skip_ws s) <= length s)%nat.
Proof. induction s as [|b r IH]; [apply le_n|]. cbn [skip_ws]. destruct (is_ws b); cbn [length]; lia. Qed.
Lemma skip_app w s : spaces w -> skip_ws (w ++ s) = skip_ws s.
Proof. induction 1 as [|b w Hb _ IH]; [reflexivity|]. cbn [app skip_ws]. rewrite Hb. exact IH. Qed.
Lemma skip_all w : spaces w -> skip_ws w = [].
Proof. intros H. rewrite <- (app_nil_r w), skip_app by exact H. reflexivity. Qed.
Definition solid (s : list Z) : Prop := match s with b :: _ => is_ws b = false | [] => True end.
Lemma skip_solid s : solid s -> skip_ws s = s.
Proof. destruct s as [|b r]; [reflexivity|]. cbn. intros ->. reflexivity. Qed.
Lemma skip_is_solid s : solid (skip_ws s).
Proof. induction s as [|b r IH]; [exact I|]. cbn [skip_ws]. destruct (is_ws b) eqn:E; [exact IH|exact E]. Qed.
Lemma skip_skip s : skip_ws (skip_ws s) = skip_ws s.
Proof. apply skip_solid, skip_is_solid. Qed.

(** ** Numbers *)
Lemma digits_sound s : forall acc n v k r, digits s acc n = (v, k, r) ->
  exists ds, s = decimal ds ++ r /\ Forall (fun d => 0 <= d <= 9) ds /\
    v = fold_left (fun a d => 10 * a + d) ds acc /\ k = (n + length ds)%nat.
Proof.
  induction s as [|b s IH]; intros acc n v k r H; cbn [digits] in H.
  - injection H as <- <- <-. exists []. repeat split; [constructor|cbn; lia].
  - destruct (is_digit b) eqn:Hb.
    + apply IH in H. destruct H as (ds & -> & Hd & -> & ->). exists ((b - 48) :: ds).
      unfold is_digit in Hb. apply andb_true_iff in Hb. destruct Hb as [Hb1 Hb2]. apply Z.leb_le in Hb1, Hb2.
      split; [change (decimal (b - 48 :: ds)) with (48 + (b - 48) :: decimal ds); replace (48 + (b - 48)) with b by lia; reflexivity|].
      split; [constructor; [lia|exact Hd]|]. split; [reflexivity|cbn [length]; lia].
    + injection H as <- <- <-. exists []. repeat split; [constructor|cbn; lia].
Qed.
Definition no_digit (r : list Z) : Prop := match r with b :: _ => is_digit b = false | [] => True end.
Lemma digits_complete ds r : Forall (fun d => 0 <= d <= 9) ds -> no_digit r -> forall acc n,
  digits (decimal ds ++ r) acc n = (fold_left (fun a d => 10 * a + d) ds acc, (n + length ds)%nat, r).
Proof.
  intros Hd Hr. induction Hd as [|d ds Hb _ IH]; intros acc n.
  - cbn [decimal map app fold_left length]. rewrite Nat.add_0_r. destruct r as [|b r]; [reflexivity|].
    cbn [digits]. cbn [no_digit] in Hr. rewrite Hr. reflexivity.
  - cbn [decimal map app digits]. unfold is_digit.
    destruct (Z.leb_spec 48 (48 + d)); [|lia]. destruct (Z.leb_spec (48 + d) 57); [|lia]. cbn [andb].
    fold (decimal ds). rewrite IH. cbn [fold_left length]. replace (48 + d - 48) with d by lia.
    replace (S n + length ds)%nat with (n + S (length ds))%nat by lia. reflexivity.
Qed.
Lemma value_nonneg ds : Forall (fun d => 0 <= d <= 9) ds -> forall acc, 0 <= acc ->
  0 <= fold_left (fun a d => 10 * a + d) ds acc.
Proof. induction 1 as [|d ds Hd _ IH]; intros acc Ha; [exact Ha|]. cbn [fold_left]. apply IH. lia. Qed.

Lemma parse_number_sound s v r : parse_number s = POk v r -> exists t, s = t ++ r /\ prints v t.
Proof.
  unfold parse_number.
  destruct s as [|b s].
  { cbn. discriminate. }
  destruct (Z.eqb_spec b b_minus) as [->|Hm].
  - destruct (digits s 0 0) as [[x k] q] eqn:E. destruct k as [|k]; [discriminate|].
    destruct ((I64_MIN <=? - x) && (- x <=? I64_MAX)) eqn:Hr; [|discriminate].
    intros H. injection H as <- <-. apply digits_sound in E. destruct E as (ds & -> & Hd & -> & Hk).
    exists (45 :: decimal ds). split; [reflexivity|]. apply pr_neg.
    + split; [|exact Hd]. intros ->. cbn in Hk. discriminate.
    + apply andb_true_iff in Hr. destruct Hr as [Hr _]. apply Z.leb_le in Hr. unfold value_of, I64_MIN in *. lia.
  - destruct (digits (b :: s) 0 0) as [[x k] q] eqn:E. destruct k as [|k]; [discriminate|].
    destruct ((I64_MIN <=? x) && (x <=? I64_MAX)) eqn:Hr; [|discriminate].
    intros H. injection H as <- <-. apply digits_sound in E. destruct E as (ds & Es & Hd & -> & Hk).
    exists (decimal ds). split; [exact Es|]. apply pr_pos.
    + split; [|exact Hd]. intros ->. cbn in Hk. discriminate.
    + apply andb_true_iff in Hr. destruct Hr as [_ Hr]. apply Z.leb_le in Hr. exact Hr.
Qed.

Lemma starts_some w : forall s r, starts w s = Some r -> s = w ++ r.
Proof.
  induction w as [|x w IH]; intros [|y s] r H; cbn in H; try (injection H as <-; reflexivity); [discriminate|].
  destruct (Z.eqb_spec x y) as [->|]; [|discriminate]. cbn. f_equal. apply IH. exact H.
Qed.
Lemma parse_bool_sound s v r : parse_bool s = POk v r -> exists t, s = t ++ r /\ prints v t.
Proof.
  unfold parse_bool. destruct (starts w_true s) as [q|] eqn:E1.
  - intros H. injection H as <- <-. apply starts_some in E1. exists w_true. split; [exact E1|constructor].
  - destruct (starts w_false s) as [q|] eqn:E2; [|discriminate].
    intros H. injection H as <- <-. apply starts_some in E2. exists w_false. split; [exact E2|constructor].
Qed.

(** ** Soundness *)
Definition sound_value (k : nat) : Prop := forall s v r, parse_value k s = POk v r ->
  exists w t, s = w ++ t ++ r /\ spaces w /\ prints v t.
Definition sound_list (k : nat) : Prop := forall c s l r, parse_list k c s = POk l r ->
  exists t, s = t ++ c :: r /\ items l t.
Definition sound_items (k : nat) : Prop := forall c s l r, parse_items k c s = POk l r ->
  exists t, s = t ++ c :: r /\ items1 l t.
Lemma spaces_app w w' : spaces w -> spaces w' -> spaces (w ++ w').
Proof. intros H1 H2. apply Forall_app. split; assumption. Qed.
Lemma lead w l t : spaces w -> items1 l t -> items1 l (w ++ t).
Proof.
  intros Hw H. inversion H as [w1 v s w2 H1 H2 H3|w1 v s w2 l' t' H1 H2 H3 H4]; subst;
  rewrite (app_assoc w w1); constructor; auto using spaces_app.
Qed.
Lemma parse_sound k : sound_value k /\ sound_list k /\ sound_items k.
Proof.
  induction k as [|k (IHv & IHl & IHi)]; [repeat split; intros ? **; discriminate|]. split; [|split].
  - intros s v r H. cbn [parse_value] in H. destruct (skip_split s) as (w & Es & Hw).
    destruct (skip_ws s) as [|b q] eqn:Eq; [discriminate|].
    destruct (Z.eqb_spec b b_lbrack) as [->|_].
    { destruct (parse_list k b_rbrack q) as [l q'| |] eqn:E; try discriminate. injection H as <- <-.
      apply IHl in E. destruct E as (t & -> & Ht). exists w, (91 :: t ++ [93]). split; [|split; [exact Hw|constructor; exact Ht]].
      rewrite Es. cbn [app]. rewrite <- app_assoc. reflexivity. }
    destruct (Z.eqb_spec b b_lpar) as [->|_].
    { destruct (parse_list k b_rpar q) as [l q'| |] eqn:E; try discriminate. injection H as <- <-.
      apply IHl in E. destruct E as (t & -> & Ht). exists w, (40 :: t ++ [41]). split; [|split; [exact Hw|constructor; exact Ht]].
      rewrite Es. cbn [app]. rewrite <- app_assoc. reflexivity. }
    destruct (Z.eqb_spec b b_lbrace) as [->|_].
    { destruct (parse_list k b_rbrace q) as [l q'| |] eqn:E; try discriminate. injection H as <- <-.
      apply IHl in E. destruct E as (t & -> & Ht). exists w, (123 :: t ++ [125]). split; [|split; [exact Hw|constructor; exact Ht]].
      rewrite Es. cbn [app]. rewrite <- app_assoc. reflexivity. }
    destruct ((b =? b_t) || (b =? b_f)).
    { apply parse_bool_sound in H. destruct H as (t & Et & Ht). exists w, t. rewrite <- Et. auto. }
    destruct ((b =? b_minus) || is_digit b); [|discriminate].
    apply parse_number_sound in H. destruct H as (t & Et & Ht). exists w, t. rewrite <- Et. auto.
  - intros c s l r H. cbn [parse_list] in H. destruct (skip_split s) as (w & Es & Hw).
    destruct (skip_ws s) as [|b q] eqn:Eq.
    + apply IHi in H. destruct H as (t & E & _). destruct t; discriminate.
    + destruct (Z.eqb_spec b c) as [->|_].
      * injection H as <- <-. exists w. split; [exact Es|constructor; exact Hw].
      * apply IHi in H. destruct H as (t & E & Ht). exists (w ++ t). split; [rewrite Es, E, <- app_assoc; reflexivity|].
        constructor. apply lead; assumption.
  - intros c s l r H. cbn [parse_items] in H. destruct (parse_value k s) as [v q| |] eqn:E; try discriminate.
    apply IHv in E. destruct E as (w & t & -> & Hw & Ht). destruct (skip_split q) as (w' & Eq & Hw').
    destruct (skip_ws q) as [|b q'] eqn:Eb; [discriminate|]. destruct (Z.eqb_spec b b_comma) as [->|_].
    + destruct (parse_items k c (skip_ws q')) as [l' e| |] eqn:Ei; try discriminate. injection H as <- <-.
      apply IHi in Ei. destruct Ei as (t' & Et' & Ht'). destruct (skip_split q') as (w2 & E2 & Hw2).
      exists (w ++ t ++ w' ++ 44 :: (w2 ++ t')). split.
      * rewrite Eq, E2, Et'. repeat (rewrite <- ?app_assoc; cbn [app]). reflexivity.
      * apply it_more; auto. apply lead; assumption.
    + destruct (Z.eqb_spec b c) as [->|_]; [|discriminate]. injection H as <- <-.
      exists (w ++ t ++ w'). split; [rewrite Eq; rewrite <- !app_assoc; reflexivity|]. constructor; assumption.
Qed.

(** ** Completeness *)
Definition stop (r : list Z) : Prop := no_digit r.
Lemma ws_no_digit b : is_ws b = true -> is_digit b = false.
Proof.
  unfold is_ws, is_digit. intros H. destruct (Z.leb_spec 48 b); [|reflexivity]. destruct (Z.leb_spec b 57); [|reflexivity].
  exfalso. rewrite !orb_true_iff, andb_true_iff, !Z.leb_le, !Z.eqb_eq in H. lia.
Qed.
Lemma stop_ws w r : spaces w -> stop r -> stop (w ++ r).
Proof. destruct 1 as [|b w Hb _]; [auto|]. intros _. cbn. apply ws_no_digit. exact Hb. Qed.
Lemma starts_app w r : starts w (w ++ r) = Some r.
Proof. induction w as [|x w IH]; [destruct r; reflexivity|]. cbn. rewrite Z.eqb_refl. exact IH. Qed.
Lemma parse_true r : parse_bool (w_true ++ r) = POk (IBool true) r.
Proof. unfold parse_bool. rewrite starts_app. reflexivity. Qed.
Lemma parse_false r : parse_bool (w_false ++ r) = POk (IBool false) r.
Proof. unfold parse_bool. change (starts w_true (w_false ++ r)) with (@None (list Z)). rewrite starts_app. reflexivity. Qed.

Lemma decimal_head ds : is_digits ds -> exists b t, decimal ds = b :: t /\ 48 <= b <= 57.
Proof. intros [Hn Hd]. destruct ds as [|d ds]; [congruence|]. inversion Hd; subst. cbn. exists (48 + d), (map (fun d => 48 + d) ds). split; [reflexivity|lia]. Qed.
Lemma digit_tests b : 48 <= b <= 57 ->
  is_ws b = false /\ (b =? b_lbrack) = false /\ (b =? b_lpar) = false /\ (b =? b_lbrace) = false /\
  (b =? b_t) || (b =? b_f) = false /\ (b =? b_minus) = false /\ is_digit b = true.
Proof.
  intros H. unfold is_ws, is_digit, b_lbrack, b_lpar, b_lbrace, b_t, b_f, b_minus.
  repeat match goal with
  | |- context [?x <=? ?y] => destruct (Z.leb_spec x y); try lia
  | |- context [?x =? ?y] => destruct (Z.eqb_spec x y); try lia
  end; auto 10.
Qed.
Lemma range_ok x : I64_MIN <= x -> x <= I64_MAX -> (I64_MIN <=? x) && (x <=? I64_MAX) = true.
Proof. intros H1 H2. apply andb_true_iff. split; apply Z.leb_le; assumption. Qed.
Lemma parse_pos ds r : is_digits ds -> value_of ds <= 9223372036854775807 -> stop r ->
  parse_number (decimal ds ++ r) = POk (INumber (value_of ds)) r.
Proof.
  intros Hd Hv Hr. destruct (decimal_head ds Hd) as (b & t & E & Hb). destruct (digit_tests b Hb) as (_ & _ & _ & _ & _ & Hm & _).
  unfold parse_number. pose proof (digits_complete ds r (proj2 Hd) Hr 0 0) as Hdig. rewrite E in *. cbn [app] in *.
  rewrite Hm, Hdig. destruct Hd as [Hn Hd]. destruct ds as [|d ds]; [congruence|]. cbn [length Nat.add].
  fold (value_of (d :: ds)). rewrite range_ok; [reflexivity| |exact Hv].
  pose proof (value_nonneg _ Hd 0). unfold value_of, I64_MIN in *. lia.
Qed.
Lemma parse_neg ds r : is_digits ds -> value_of ds <= 9223372036854775808 -> stop r ->
  parse_number (45 :: decimal ds ++ r) = POk (INumber (- value_of ds)) r.
Proof.
  intros Hd Hv Hr. unfold parse_number. change (45 =? b_minus) with true. cbv iota.
  rewrite (digits_complete ds r (proj2 Hd) Hr 0 0). destruct Hd as [Hn Hd]. destruct ds as [|d ds]; [congruence|]. cbn [length Nat.add].
  fold (value_of (d :: ds)). pose proof (value_nonneg _ Hd 0). unfold value_of, I64_MIN, I64_MAX in *.
  rewrite range_ok; [reflexivity|unfold I64_MIN; lia|unfold I64_MAX; lia].
Qed.

(** A delimiter is not white space, a comma or a digit. *)
Definition closing (c : Z) : Prop := c = 93 \/ c = 41 \/ c = 125.
Lemma prints_solid v s : prints v s -> exists b t, s = b :: t /\ is_ws b = false /\ b <> 93 /\ b <> 41 /\ b <> 125.
Proof.
  destruct 1 as [ds Hd _|ds _ _| | |l s _|l s _|l s _]; try (eexists _, _; split; [reflexivity|split; [reflexivity|lia]]).
  destruct (decimal_head ds Hd) as (b & t & -> & Hb). exists b, t. split; [reflexivity|].
  split; [apply digit_tests; exact Hb|lia].
Qed.
Lemma closing_facts c : closing c -> is_ws c = false /\ is_digit c = false /\ (c =? b_comma) = false.
Proof. intros [->|[->| ->]]; repeat split; reflexivity. Qed.

Lemma parse_items_ws w s k c : spaces w -> parse_items k c (w ++ s) = parse_items k c s.
Proof.
  intros Hw. destruct k as [|k]; [reflexivity|]. cbn [parse_items].
  replace (parse_value k (w ++ s)) with (parse_value k s); [reflexivity|].
  destruct k as [|k]; [reflexivity|]. cbn [parse_value]. rewrite skip_app by exact Hw. reflexivity.
Qed.
Lemma parse_complete :
  (forall v s, prints v s -> forall r w k, spaces w -> stop r -> (3 * length (w ++ s ++ r) + 1 <= k)%nat ->
     parse_value k (w ++ s ++ r) = POk v r) /\
  (forall l s, items l s -> forall c r k, closing c -> (3 * length (s ++ c :: r) + 3 <= k)%nat ->
     parse_list k c (s ++ c :: r) = POk l r) /\
  (forall l s, items1 l s -> forall c r k, closing c -> (3 * length (s ++ c :: r) + 2 <= k)%nat ->
     parse_items k c (s ++ c :: r) = POk l r).
Proof.
  apply prints_items_mut.
  - intros ds Hd Hv r w k Hw Hr Hk. destruct k as [|k]; [lia|]. cbn [parse_value]. rewrite skip_app by exact Hw.
    destruct (decimal_head ds Hd) as (b & t & E & Hb). destruct (digit_tests b Hb) as (H1 & H2 & H3 & H4 & H5 & H6 & H7).
    rewrite (skip_solid (decimal ds ++ r)) by (rewrite E; exact H1).
    rewrite <- (parse_pos ds r Hd Hv Hr). rewrite E. cbn [app]. rewrite H2, H3, H4, H5, H6, H7. reflexivity.
  - intros ds Hd Hv r w k Hw Hr Hk. destruct k as [|k]; [lia|]. cbn [parse_value]. rewrite skip_app by exact Hw.
    rewrite skip_solid by reflexivity. rewrite <- (parse_neg ds r Hd Hv Hr). reflexivity.
  - intros r w k Hw Hr Hk. destruct k as [|k]; [lia|]. cbn [parse_value]. rewrite skip_app by exact Hw.
    rewrite skip_solid by reflexivity. rewrite <- (parse_true r). reflexivity.
  - intros r w k Hw Hr Hk. destruct k as [|k]; [lia|]. cbn [parse_value]. rewrite skip_app by exact Hw.
    rewrite skip_solid by reflexivity. rewrite <- (parse_false r). reflexivity.
  - intros l s _ IH r w k Hw Hr Hk. destruct k as [|k]; [lia|]. cbn [parse_value]. rewrite skip_app by exact Hw.
    rewrite skip_solid by reflexivity. cbn [app]. change (91 =? b_lbrack) with true. cbv iota. rewrite <- app_assoc.
    change ([93] ++ r) with (b_rbrack :: r). rewrite (IH b_rbrack r k); [reflexivity|left; reflexivity|].
    rewrite !app_length in *. cbn [length] in *. rewrite app_length in Hk. cbn [length] in *. unfold b_rbrack. lia.
  - intros l s _ IH r w k Hw Hr Hk. destruct k as [|k]; [lia|]. cbn [parse_value]. rewrite skip_app by exact Hw.
    rewrite skip_solid by reflexivity. cbn [app]. change (40 =? b_lbrack) with false. change (40 =? b_lpar) with true. cbv iota. rewrite <- app_assoc.
    change ([41] ++ r) with (b_rpar :: r). rewrite (IH b_rpar r k); [reflexivity|right; left; reflexivity|].
    rewrite !app_length in *. cbn [length] in *. rewrite app_length in Hk. cbn [length] in *. unfold b_rpar. lia.
  - intros l s _ IH r w k Hw Hr Hk. destruct k as [|k]; [lia|]. cbn [parse_value]. rewrite skip_app by exact Hw.
    rewrite skip_solid by reflexivity. cbn [app]. change (123 =? b_lbrack) with false. change (123 =? b_lpar) with false.
    change (123 =? b_lbrace) with true. cbv iota. rewrite <- app_assoc.
    change ([125] ++ r) with (b_rbrace :: r). rewrite (IH b_rbrace r k); [reflexivity|right; right; reflexivity|].
    rewrite !app_length in *. cbn [length] in *. rewrite app_length in Hk. cbn [length] in *. unfold b_rbrace. lia.
  - intros w Hw c r k Hc Hk. destruct k as [|k]; [lia|]. cbn [parse_list]. rewrite skip_app by exact Hw.
    destruct (closing_facts c Hc) as (H1 & _ & _). rewrite skip_solid by exact H1. rewrite Z.eqb_refl. reflexivity.
  - intros l s Hs IH c r k Hc Hk. destruct k as [|k]; [lia|]. cbn [parse_list].
    (* the first item follows the white space *)
    assert (G : exists w b t, s = w ++ b :: t /\ spaces w /\ is_ws b = false /\ b <> c /\ items1 l s).
    { inversion Hs as [w v t w' Hw Hp Hw' E|w v t w' l' t' Hw Hp Hw' Hl E]; subst; apply prints_solid in Hp as Hp2;
      destruct Hp2 as (b & q & -> & H1 & H2 & H3 & H4); exists w, b; [exists (q ++ w')|exists (q ++ w' ++ 44 :: t')];
      (split; [reflexivity|split; [exact Hw|split; [exact H1|split; [destruct Hc as [->|[->| ->]]; assumption|exact Hs]]]]). }
    destruct G as (w & b & t & -> & Hw & Hb & Hne & _). rewrite <- app_assoc, skip_app by exact Hw. cbn [app].
    rewrite skip_solid by exact Hb. destruct (Z.eqb_spec b c) as [|_]; [contradiction|].
    rewrite <- (parse_items_ws w) by exact Hw. specialize (IH c r k Hc). rewrite <- app_assoc in IH. apply IH.
    rewrite <- app_assoc in Hk. lia.
  - intros w v s w' Hw _ IH Hw' c r k Hc Hk. destruct k as [|k]; [lia|]. cbn [parse_items]. rewrite <- !app_assoc in *.
    destruct (closing_facts c Hc) as (H1 & H2 & H3).
    rewrite (IH (w' ++ c :: r) w k); [|exact Hw|apply stop_ws; [exact Hw'|exact H2]|lia].
    rewrite skip_app by exact Hw'. rewrite skip_solid by exact H1. rewrite H3, Z.eqb_refl. reflexivity.
  - intros w v s w' l t Hw _ IH Hw' _ IHl c r k Hc Hk. destruct k as [|k]; [lia|]. cbn [parse_items].
    replace ((w ++ s ++ w' ++ 44 :: t) ++ c :: r) with (w ++ s ++ w' ++ 44 :: t ++ c :: r) in *
      by (repeat (rewrite <- ?app_assoc; cbn [app]); reflexivity).
    rewrite (IH (w' ++ 44 :: t ++ c :: r) w k); [|exact Hw|apply stop_ws; [exact Hw'|reflexivity]|lia].
    rewrite skip_app by exact Hw'. rewrite skip_solid by reflexivity. change (44 =? b_comma) with true. cbv iota.
    destruct (skip_split (t ++ c :: r)) as (w2 & E2 & Hw2).
    rewrite <- (parse_items_ws w2 _ k c Hw2), <- E2. rewrite (IHl c r k Hc); [reflexivity|].
    rewrite !app_length in Hk. cbn [length] in Hk. lia.
Qed.

(** ** The whole parser *)
Theorem parse_iff s v : parse_cli_arg s = POk v [] <-> spells v s.
Proof.
  unfold parse_cli_arg, parse_with. split.
  - destruct (parse_value _ s) as [x r| |] eqn:E; try discriminate. destruct (parse_sound (3 * length s + 3)) as (Hv & _ & _).
    apply Hv in E. destruct E as (w & t & -> & Hw & Ht). destruct (skip_split r) as (w' & Er & Hw').
    destruct (skip_ws r) as [|b q] eqn:Eb; [|discriminate]. intros H. injection H as <-. rewrite app_nil_r in Er. subst r.
    exists w, t, w'. auto.
  - intros (w & t & w' & -> & Hw & Ht & Hw'). destruct parse_complete as (Hc & _ & _).
    rewrite (Hc v t Ht w' w); [|exact Hw| |lia].
    + rewrite skip_all by exact Hw'. reflexivity.
    + rewrite <- (app_nil_r w'). apply stop_ws; [exact Hw'|exact I].
Qed.
(** The fuel always suffices, so anything else is rejected. *)
Definition fueled (k : nat) : Prop :=
  (forall s, (3 * length s + 1 <= k)%nat -> parse_value k s <> PFuel) /\
  (forall c s, (3 * length s + 3 <= k)%nat -> parse_list k c s <> PFuel) /\
  (forall c s, (3 * length s + 2 <= k)%nat -> parse_items k c s <> PFuel).
Lemma parse_number_fuel s : parse_number s <> PFuel.
Proof.
  unfold parse_number. destruct (match s with [] => _ | _ => _ end) as [neg s1]. destruct (digits s1 0 0) as [[x n] r].
  destruct n; [discriminate|]. destruct (_ && _); discriminate.
Qed.
Lemma parse_bool_fuel s : parse_bool s <> PFuel.
Proof. unfold parse_bool. destruct (starts w_true s); [discriminate|]. destruct (starts w_false s); discriminate. Qed.
Lemma parse_fueled k : fueled k.
Proof.
  induction k as [|k (IHv & IHl & IHi)]; [split; [|split]; intros; lia|]. split; [|split].
  - intros s Hk. cbn [parse_value]. pose proof (skip_len s) as Hs. destruct (skip_ws s) as [|b q]; [discriminate|]. cbn [length] in Hs.
    assert (Hq : forall c, parse_list k c q <> PFuel) by (intros c; apply IHl; lia).
    repeat match goal with |- (if ?x then _ else _) <> _ => destruct x end;
    try apply parse_number_fuel; try apply parse_bool_fuel; try discriminate;
    match goal with |- context [parse_list k ?c q] => specialize (Hq c); destruct (parse_list k c q) end; congruence.
  - intros c s Hk. cbn [parse_list]. pose proof (skip_len s) as Hs. destruct (skip_ws s) as [|b q]; [apply IHi; cbn [length]; lia|].
    destruct (b =? c); [discriminate|]. apply IHi. lia.
  - intros c s Hk. cbn [parse_items]. specialize (IHv s). destruct (parse_value k s) as [v r| |] eqn:E; [|discriminate|exfalso; apply IHv; [lia|reflexivity]].
    destruct (parse_sound k) as (Hv & _ & _). apply Hv in E. destruct E as (w & t & -> & _ & _).
    pose proof (skip_len r) as Hr. destruct (skip_ws r) as [|b q]; [discriminate|]. destruct (b =? b_comma).
    + assert (Hi : parse_items k c (skip_ws q) <> PFuel).
      { apply IHi. pose proof (skip_len q). rewrite !app_length in Hk. cbn [length] in *. lia. }
      destruct (parse_items k c (skip_ws q)); congruence.
    + destruct (b =? c); discriminate.
Qed.
Theorem parse_total s : parse_cli_arg s <> PFuel.
Proof.
  unfold parse_cli_arg, parse_with. destruct (parse_fueled (3 * length s + 3)) as (Hv & _ & _).
  specialize (Hv s). destruct (parse_value _ s) as [v r| |]; [|discriminate|apply Hv; lia].
  destruct (skip_ws r); discriminate.
Qed.
Theorem parse_rest s v r : parse_cli_arg s = POk v r -> r = [].
Proof.
  unfold parse_cli_arg, parse_with. destruct (parse_value _ s) as [x q| |]; try discriminate.
  destruct (skip_ws q); [|discriminate]. intros H. injection H as _ <-. reflexivity.
Qed.
