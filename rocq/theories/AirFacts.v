(** Tactics and lemmas for reasoning about rows. *)
From Coq Require Import ZArith Bool List Lia Permutation.
From Verif Require Import M31 M31Facts Instr InstrFacts Isa Machine Air AirOpcodes AirSpec.
Import ListNotations.
Open Scope Z_scope.
Ltac Zify.zify_post_hook ::= Z.div_mod_to_equations.

Lemma Forall_inv2 {A} (Q : A -> Prop) x l : Forall Q (x :: l) -> Q x /\ Forall Q l.
Proof. intros H; inversion H; subst; split; assumption. Qed.

(** Break [satisfied (comp ...)] and [Forall wf cols] into hypotheses. *)
Ltac brk :=
  repeat match goal with
  | H : Forall _ [] |- _ => clear H
  | H : Forall _ (_ :: _) |- _ => apply Forall_inv2 in H; destruct H
  end.
Ltac tables :=
  repeat match goal with
  | H : lookup_ok (RE Registers _ _) |- _ => clear H
  | H : lookup_ok (RE Memory _ _) |- _ => clear H
  | H : lookup_ok (RE _ (-1) _) |- _ =>
    destruct H as [H|H]; [discriminate H|cbn [norm snd re_rel re_vals width pad map in_table] in H]
  end.
Ltac open_row c H :=
  destruct H as [?Hc ?Hl]; cbv beta zeta delta [c] in *; cbn [a_cons a_ents] in *; brk; tables.

(** Reduce the mods of single columns. *)
Ltac smallmod :=
  repeat match goal with
  | H : wf ?x |- context[?x mod P] => rewrite (Z.mod_small x P H)
  | H : wf ?x, H' : context[?x mod P] |- _ => rewrite (Z.mod_small x P H) in H'
  end.
Ltac tup :=
  cbv beta iota zeta delta [tuples mem_tuples reg_tuples a_ents filter re_rel rel_eqb map norm re_mult
    re_vals width pad flat_map app qlist ac_addr ac_prev ac_old ac_new pc fp q0 q1 q2 q3];
  rewrite ?Zplus_mod_idemp_l, ?Zminus_mod_idemp_l; smallmod.

Lemma cells_cons (f : flat) x l :
  (forall y, In y (x :: l) -> f (ac_addr y) = ac_old y) ->
  f (ac_addr x) = ac_old x /\ (forall y, In y l -> f (ac_addr y) = ac_old y).
Proof. intros H. split; [apply H; left; reflexivity|intros y Hy; apply H; right; exact Hy]. Qed.
Lemma perm_eq {A} (l l' : list A) : l = l' -> Permutation l l'.
Proof. intros ->. apply Permutation_refl. Qed.

Ltac cells H :=
  repeat (apply cells_cons in H; destruct H as [?Hcell H]); clear H; cbn [ac_addr ac_old pc fp] in *.
Ltac use_cells :=
  repeat match goal with
  | H : ?f ?a = Q _ _ _ _ |- context[?f ?a] => rewrite H
  end; cbn [q0 q1 q2 q3].
(** [row_step] for an explicit instruction, next registers and accesses; leaves the
    arithmetic that is not syntactic. *)
Ltac iwf_tac := unfold iwf; cbn [operands]; repeat (apply Forall_cons; [try assumption|]); try apply Forall_nil.
Ltac swf_tac := split; cbn [pc fp]; auto with wfdb.
Ltac tup_tac :=
  tup; try reflexivity;
  repeat (apply (f_equal2 (@cons _)) || apply (f_equal2 (@pair _ _)));
  try reflexivity; try assumption; try (symmetry; assumption).
Ltac at_tac := unfold instr_at; cbn [pc fp]; eexists; use_cells; try reflexivity.
Ltac clocks_tac := repeat (apply Forall_cons; [cbn [ac_prev]; match goal with H : 0 <= ?x < _ |- ?x < _ => exact (proj2 H) | _ => assumption end|]); try apply Forall_nil.
Ltac give i s' accs :=
  exists i, s', accs; split;
  [split; [iwf_tac|split; [swf_tac|split; [tup_tac|split; [tup_tac|
     let f := fresh "f" in let Hf := fresh "Hf" in
     intros f Hf; cells Hf; split; [at_tac|]]]]]|].
Ltac fin_reads :=
  let a := fresh "a" in let Ha := fresh "Ha" in
  intros a Ha; cbn [reads In app] in Ha;
  repeat match type of Ha with _ \/ _ => destruct Ha as [Ha|Ha] end;
  try contradiction; subst a; unfold is_felt; use_cells; reflexivity.
Ltac code_red :=
  match goal with |- context[code_addrs ?a ?i] =>
    let b := eval cbv in (size_m31 i <=? 4) in
    match b with
    | true => change (code_addrs a i) with [a]
    | false => change (code_addrs a i) with [a; (a + 1) mod P]
    end
  end.
Ltac fin_perm :=
  apply perm_eq; code_red;
  cbn [seen stored map app ac_addr ac_new reads writes fst snd pc fp];
  use_cells; try reflexivity.

Lemma bool_col x : wf x -> (x * (1 - x)) mod P = 0 -> x = 0 \/ x = 1.
Proof.
  intros Hx H. apply mul_zero in H. unfold wf in Hx. destruct H as [H|H].
  - left. rewrite Z.mod_small in H; [exact H|unfold P in *; lia].
  - right. unfold P in *. lia.
Qed.
Ltac bools :=
  repeat match goal with
  | H : (?x * (1 - ?x)) mod P = 0, Hw : wf ?x |- _ => apply (bool_col x Hw) in H
  end.
Lemma col_eq a b : wf a -> (a - b) mod P = 0 -> a = b mod P.
Proof. intros Ha H. apply mod_sub_zero in H. rewrite Z.mod_small in H; assumption. Qed.
Lemma one_l a : (1 * a) mod P = 0 -> a mod P = 0.
Proof. rewrite Z.mul_1_l. exact (fun H => H). Qed.
Ltac ones := repeat match goal with
  | H : (1 * _) mod P = 0 |- _ => apply one_l in H
  | H : (1 * _ * _) mod P = 0 |- _ => rewrite Z.mul_1_l in H
  end.
