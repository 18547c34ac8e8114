(** Facts about the field: P is prime, inverses exist, Fermat's theorem. *)
From Coq Require Import ZArith Bool List Lia Znumtheory Permutation.
From Verif Require Import M31.
Import ListNotations.
Open Scope Z_scope.
Ltac Zify.zify_post_hook ::= Z.div_mod_to_equations.

Lemma P_pos : 0 < P. Proof. reflexivity. Qed.
Lemma P_val : P = 2147483647. Proof. reflexivity. Qed.

Lemma wfb_wf x : wfb x = true <-> wf x.
Proof. unfold wfb, wf. rewrite andb_true_iff, Z.leb_le, Z.ltb_lt. tauto. Qed.

Lemma mod_wf x : wf (x mod P).
Proof. unfold wf. apply Z.mod_pos_bound, P_pos. Qed.
Lemma madd_wf a b : wf (madd a b). Proof. apply mod_wf. Qed.
Lemma msub_wf a b : wf (msub a b). Proof. apply mod_wf. Qed.
Lemma mmul_wf a b : wf (mmul a b). Proof. apply mod_wf. Qed.
Lemma mneg_wf a : wf (mneg a). Proof. apply mod_wf. Qed.
Lemma mfrom_wf a : wf (mfrom a). Proof. apply mod_wf. Qed.
Lemma wf0 : wf 0. Proof. unfold wf, P. lia. Qed.
Lemma wf1 : wf 1. Proof. unfold wf, P. lia. Qed.
Lemma wf_small x : 0 <= x < 65536 -> wf x. Proof. unfold wf, P. lia. Qed.
Lemma wf_mod x : wf x -> x mod P = x.
Proof. intros H. apply Z.mod_small. exact H. Qed.
Lemma mpow_wf a e : wf (mpow a e).
Proof. destruct e; cbn [mpow]; apply mod_wf. Qed.
Lemma minv_wf a : wf (minv a). Proof. apply mpow_wf. Qed.
#[global] Hint Resolve mod_wf madd_wf msub_wf mmul_wf mneg_wf mfrom_wf wf0 wf1 minv_wf : wfdb.

(** ** Primality of P by trial division. *)
Fixpoint nodiv (fuel : nat) (d : Z) : bool :=
  match fuel with
  | O => true
  | S k => negb (P mod d =? 0) && nodiv k (d + 1)
  end.

Lemma nodiv_spec fuel d :
  0 < d -> nodiv fuel d = true ->
  forall k, d <= k < d + Z.of_nat fuel -> ~ (k | P).
Proof.
  revert d; induction fuel as [|n IH]; intros d Hd H k Hk; [lia|].
  cbn [nodiv] in H. apply andb_true_iff in H as [H1 H2].
  destruct (Z.eq_dec k d) as [->|Hne].
  - intros Hdiv. apply Z.mod_divide in Hdiv; [|lia].
    rewrite Hdiv in H1. discriminate.
  - apply (IH (d + 1)); [lia|exact H2|lia].
Qed.

Lemma nodiv_P : nodiv (Z.to_nat 46400) 2 = true.
Proof. vm_compute. reflexivity. Qed.

Theorem P_prime : prime P.
Proof.
  apply prime_alt. split; [unfold P; lia|].
  intros n Hn Hdiv.
  assert (Hsmall : forall k, 2 <= k < 46402 -> ~ (k | P)).
  { intros k Hk. apply (nodiv_spec (Z.to_nat 46400) 2); [lia|exact nodiv_P|].
    rewrite Z2Nat.id; lia. }
  destruct Hdiv as [q Hq].
  assert (0 < q) by (unfold P in *; nia).
  destruct (Z_lt_le_dec n 46402).
  - apply (Hsmall n); [lia|]. exists q. exact Hq.
  - assert (q < 46402) by (unfold P in *; nia).
    apply (Hsmall q); [|exists n; lia].
    split; [|lia]. destruct (Z.eq_dec q 1); [subst; lia|lia].
Qed.

Lemma P_rel_prime a : a mod P <> 0 -> rel_prime a P.
Proof.
  intros H. apply rel_prime_sym. apply prime_rel_prime; [exact P_prime|].
  intros Hd. apply H. apply Z.mod_divide; [unfold P; lia|exact Hd].
Qed.

(** ** Fermat's little theorem (permutation argument), for any prime. *)
Lemma NoDup_map_on {A B} (f : A -> B) l :
  (forall x y, In x l -> In y l -> f x = f y -> x = y) -> NoDup l -> NoDup (map f l).
Proof.
  induction l as [|a l IH]; intros Hinj Hnd; cbn [map]; [constructor|].
  inversion Hnd as [|? ? Hni Hnd']; subst. constructor.
  - rewrite in_map_iff. intros [y [Hy Hin]]. apply Hni.
    rewrite (Hinj a y); [exact Hin|left; reflexivity|right; exact Hin|symmetry; exact Hy].
  - apply IH; [|exact Hnd']. intros x y Hx Hy. apply Hinj; right; assumption.
Qed.

Definition prod (l : list Z) : Z := fold_right Z.mul 1 l.

Lemma prod_perm l l' : Permutation l l' -> prod l = prod l'.
Proof.
  induction 1; unfold prod in *; cbn [fold_right]; try lia.
Qed.

Section Fermat.
Variable p : Z.
Hypothesis p_prime : prime p.

Lemma p_gt1 : 1 < p. Proof. destruct p_prime. assumption. Qed.

Lemma mul_zero_p a b : (a * b) mod p = 0 -> a mod p = 0 \/ b mod p = 0.
Proof.
  assert (Hp := p_gt1).
  intros H. apply Z.mod_divide in H; [|lia].
  apply prime_mult in H; [|exact p_prime].
  destruct H as [H|H]; [left|right]; apply Z.mod_divide; lia || exact H.
Qed.

Lemma mod_sub_zero_p a b : (a - b) mod p = 0 <-> a mod p = b mod p.
Proof.
  assert (Hp := p_gt1).
  split; intros H.
  - apply Z.mod_divide in H; [|lia]. destruct H as [k Hk].
    replace a with (b + k * p) by lia. apply Z_mod_plus_full.
  - rewrite Zminus_mod, H, Z.sub_diag. apply Z.mod_0_l. lia.
Qed.

Lemma mul_cancel_p a b c : c mod p <> 0 -> (a * c) mod p = (b * c) mod p -> a mod p = b mod p.
Proof.
  intros Hc H. apply mod_sub_zero_p. apply mod_sub_zero_p in H.
  replace (a * c - b * c) with ((a - b) * c) in H by ring.
  apply mul_zero_p in H. tauto.
Qed.

Definition units : list Z := map Z.of_nat (seq 1 (Z.to_nat (p - 1))).

Lemma in_units x : In x units <-> 1 <= x < p.
Proof.
  assert (Hp := p_gt1).
  unfold units. rewrite in_map_iff. split.
  - intros [n [<- Hn]]. apply in_seq in Hn. lia.
  - intros H. exists (Z.to_nat x). rewrite Z2Nat.id by lia. split; [reflexivity|].
    apply in_seq. lia.
Qed.

Lemma NoDup_units : NoDup units.
Proof.
  unfold units. apply FinFun.Injective_map_NoDup; [|apply seq_NoDup].
  intros a b H. lia.
Qed.

Lemma prod_map_mod a l :
  prod (map (fun i => (a * i) mod p) l) mod p = (a ^ Z.of_nat (length l) * prod l) mod p.
Proof.
  induction l as [|x l IH].
  - reflexivity.
  - cbn [map length]. change (prod (?y :: ?r)) with (y * prod r).
    rewrite Nat2Z.inj_succ, Z.pow_succ_r by lia.
    rewrite Zmult_mod, IH, Zmod_mod, <- Zmult_mod. f_equal. unfold prod. cbn [fold_right]. ring.
Qed.

Lemma prod_units_nz l : (forall x, In x l -> 1 <= x < p) -> prod l mod p <> 0.
Proof.
  assert (Hp := p_gt1).
  induction l as [|x l IH]; intros H.
  - unfold prod. cbn [fold_right]. rewrite Z.mod_1_l; lia.
  - unfold prod in *. cbn [fold_right]. intros Hz. apply mul_zero_p in Hz.
    destruct Hz as [Hz|Hz].
    + specialize (H x (or_introl eq_refl)). rewrite Z.mod_small in Hz; lia.
    + apply IH in Hz; [exact Hz|]. intros y Hy. apply H. right. exact Hy.
Qed.

Theorem fermat_p a : a mod p <> 0 -> a ^ (p - 1) mod p = 1.
Proof.
  assert (Hp := p_gt1). intros Ha.
  assert (Hperm : Permutation (map (fun i => (a * i) mod p) units) units).
  { apply NoDup_Permutation_bis.
    - apply NoDup_map_on; [|exact NoDup_units].
      intros x y Hx Hy E. apply in_units in Hx, Hy.
      rewrite (Z.mul_comm a x), (Z.mul_comm a y) in E.
      apply mul_cancel_p in E; [|exact Ha]. rewrite !Z.mod_small in E; lia.
    - rewrite map_length. apply Nat.le_refl.
    - intros y Hy. apply in_map_iff in Hy as [x [<- Hx]]. apply in_units in Hx.
      apply in_units.
      assert (Hb := Z.mod_pos_bound (a * x) p).
      destruct (Z.eq_dec ((a * x) mod p) 0) as [Hz|]; [|lia].
      apply mul_zero_p in Hz as [Hz|Hz]; [tauto|]. rewrite Z.mod_small in Hz; lia. }
  apply prod_perm in Hperm.
  assert (H := prod_map_mod a units). rewrite Hperm in H.
  assert (Hlen : Z.of_nat (length units) = p - 1).
  { unfold units. rewrite map_length, seq_length, Z2Nat.id; lia. }
  rewrite Hlen in H. symmetry in H.
  rewrite <- (Z.mul_1_l (prod units)) in H at 2.
  apply mul_cancel_p in H.
  - rewrite H. apply Z.mod_1_l. lia.
  - apply prod_units_nz. intros x Hx. apply in_units. exact Hx.
Qed.
End Fermat.

Theorem fermat a : a mod P <> 0 -> a ^ (P - 1) mod P = 1.
Proof. exact (fermat_p P P_prime a). Qed.

(** The field has no zero divisors. *)
Lemma mul_zero a b : (a * b) mod P = 0 -> a mod P = 0 \/ b mod P = 0.
Proof. exact (mul_zero_p P P_prime a b). Qed.
Lemma mod_sub_zero a b : (a - b) mod P = 0 <-> a mod P = b mod P.
Proof. exact (mod_sub_zero_p P P_prime a b). Qed.
Lemma mul_cancel a b c : c mod P <> 0 -> (a * c) mod P = (b * c) mod P -> a mod P = b mod P.
Proof. exact (mul_cancel_p P P_prime a b c). Qed.

Lemma mpow_spec a e : mpow a e = a ^ Zpos e mod P.
Proof.
  induction e as [e IH|e IH|]; cbn [mpow].
  - unfold mmul. rewrite IH. rewrite <- Zmult_mod. rewrite Zmult_mod_idemp_l.
    f_equal. rewrite Pos2Z.inj_xI, Z.pow_add_r, Z.pow_1_r by lia.
    rewrite (Z.mul_comm 2), Z.pow_mul_r, Z.pow_2_r by lia. reflexivity.
  - unfold mmul. rewrite IH. rewrite <- Zmult_mod. f_equal.
    rewrite Pos2Z.inj_xO, (Z.mul_comm 2), Z.pow_mul_r, Z.pow_2_r by lia. reflexivity.
  - rewrite Z.pow_1_r. reflexivity.
Qed.

(** The inverse computed by exponentiation is the multiplicative inverse. *)
Lemma minv_gen a e : Z.succ (Zpos e) = P - 1 -> a mod P <> 0 -> (a * mpow a e) mod P = 1.
Proof.
  intros He Ha. assert (F := fermat a Ha). rewrite <- He in F.
  rewrite Z.pow_succ_r in F by (generalize e; intros; lia).
  rewrite mpow_spec, Zmult_mod_idemp_r. exact F.
Qed.
Theorem minv_spec a : a mod P <> 0 -> (a * minv a) mod P = 1.
Proof. intros Ha. exact (minv_gen a 2147483645 eq_refl Ha). Qed.
Global Opaque minv.

Theorem mdiv_spec a b q : wf a -> wf b -> mdiv a b = Some q -> wf q /\ (q * b) mod P = a.
Proof.
  unfold mdiv. intros Ha Hb. destruct (Z.eqb_spec b 0) as [->|Hn]; [discriminate|].
  intros H. injection H as <-. split; [apply mmul_wf|].
  unfold mmul. rewrite Zmult_mod_idemp_l.
  replace (a * minv b * b) with (a * (b * minv b)) by ring.
  assert (Hb0 : b mod P <> 0) by (rewrite wf_mod; assumption).
  assert (Hi := minv_spec b Hb0).
  rewrite Zmult_mod, Hi, Z.mul_1_r, Zmod_mod. apply wf_mod, Ha.
Qed.

Lemma mdiv_total a b : b <> 0 -> exists q, mdiv a b = Some q.
Proof. intros H. unfold mdiv. destruct (Z.eqb_spec b 0); [lia|]. eauto. Qed.

(** Division is the unique solution of [q * b = a]. *)
Theorem mdiv_unique a b q : wf a -> wf b -> wf q -> b <> 0 -> (q * b) mod P = a -> mdiv a b = Some q.
Proof.
  intros Ha Hb Hq Hn E. destruct (mdiv_total a b Hn) as [q' Hq'].
  destruct (mdiv_spec a b q' Ha Hb Hq') as [Hw Hs].
  rewrite Hq'. f_equal. rewrite <- (wf_mod q' Hw), <- (wf_mod q Hq).
  apply (mul_cancel q' q b); [rewrite wf_mod; assumption|]. congruence.
Qed.

Lemma qeqb_eq a b : qeqb a b = true <-> a = b.
Proof.
  unfold qeqb. rewrite !andb_true_iff, !Z.eqb_eq. destruct a, b; cbn. split.
  - intros [[[-> ->] ->] ->]. reflexivity.
  - intros E. injection E as -> -> -> ->. tauto.
Qed.

Lemma qprojb_spec q : qprojb q = true <-> q = qofm (q0 q).
Proof.
  unfold qprojb, qofm. rewrite !andb_true_iff, !Z.eqb_eq. destruct q; cbn. split.
  - intros [[-> ->] ->]. reflexivity.
  - intros E. injection E as -> -> ->. tauto.
Qed.
