(** What the checks of SrcCheck.v guarantee about the meaning of SrcSem.v. *)
From Coq Require Import ZArith Bool String List Lia.
From Verif Require Import M31 Isa Mir MirSem MirFacts MirCopyFacts Src SrcSem SrcCheck.
Import ListNotations.
Open Scope Z_scope.

Lemma rbind_ok {A B} (r : MirSem.res A) (k : A -> MirSem.res B) b :
  rbind r k = ROk b -> exists a, r = ROk a /\ k a = ROk b.
Proof. destruct r; cbn; try discriminate. eauto. Qed.
Lemma cond_ok call s e k o :
  cond call s e k = ROk o -> exists b, eval call s e = ROk (VBool b) /\ k b = ROk o.
Proof.
  unfold cond. intros H. destruct (rbind_ok _ _ _ H) as (v & A & B). destruct v; try discriminate.
  eauto.
Qed.

Ltac step H :=
  lazymatch type of H with
  | rbind _ _ = ROk _ => let v := fresh "v" in let A := fresh "A" in let B := fresh "B" in
                         destruct (rbind_ok _ _ _ H) as (v & A & B); clear H
  | cond _ _ _ _ = ROk _ => let v := fresh "b" in let A := fresh "A" in let B := fresh "B" in
                         destruct (cond_ok _ _ _ _ _ H) as (v & A & B); clear H
  end.

(** Unfolding a round of a [for] loop. *)
Lemma sfor_eq call k s e st b : sfor call (S k) s e st b =
  cond call s e (fun v =>
      if v then rbind (sexec call k s b) (fun o =>
                match o with
                | ONext s' | OCont s' =>
                  rbind (sexec call k s' st) (fun o' =>
                    match o' with ONext s'' => sfor call k s'' e st b | _ => RStuck end)
                | OBreak s' => ROk (ONext s')
                | ORet v => ROk (ORet v)
                end)
      else ROk (ONext s)).
Proof. reflexivity. Qed.

Section Flow.
Variable call : nat -> list val -> MirSem.res (option val).

(** A statement without a [break] of its own is never left by [break]. *)
Lemma no_break n : forall s c s',
  contains_break c = false -> sexec call n s c <> ROk (OBreak s')
with no_break_for n : forall s e st b s', sfor call n s e st b <> ROk (OBreak s').
Proof.
  - destruct n as [|n]; [discriminate|]. intros s c s' C H.
    destruct c; cbn [sexec contains_break] in H, C; try discriminate.
    + apply orb_false_iff in C. destruct C as [C1 C2]. step H. destruct v; try discriminate.
      * exact (no_break n _ _ _ C2 B).
      * injection B as ->. exact (no_break n _ _ _ C1 A).
    + step H. discriminate.
    + step H. discriminate.
    + step H. step B. discriminate.
    + step H. discriminate.
    + step H. destruct b; discriminate.
    + apply orb_false_iff in C. destruct C as [C1 C2]. step H.
      destruct b; [exact (no_break n _ _ _ C1 B)|exact (no_break n _ _ _ C2 B)].
    + step H. destruct b; [exact (no_break n _ _ _ C B)|discriminate].
    + step H. destruct b; [|discriminate]. step B. destruct v; try discriminate.
      * exact (no_break n s0 (SWhile c c0) s' eq_refl B0).
      * exact (no_break n s0 (SWhile c c0) s' eq_refl B0).
    + step H. destruct v; try discriminate.
      * exact (no_break n s0 (SLoop c) s' eq_refl B).
      * exact (no_break n s0 (SLoop c) s' eq_refl B).
    + step H. destruct v; try discriminate. exact (no_break_for n _ _ _ _ _ B).
    + destruct e; [step H|]; discriminate.
  - destruct n as [|n]; [discriminate|]. intros s e st b s' H. rewrite sfor_eq in H. step H.
    destruct b0; [|discriminate]. step B. destruct v; try discriminate.
    + step B0. destruct v; try discriminate. exact (no_break_for n _ _ _ _ _ B).
    + step B0. destruct v; try discriminate. exact (no_break_for n _ _ _ _ _ B).
Qed.

(** An infinite loop whose body has no [break] of its own is never left except by [return]. *)
Lemma loop_never_next n : forall s b s',
  contains_break b = false -> sexec call n s (SLoop b) <> ROk (ONext s').
Proof.
  induction n as [|n IH]; [discriminate|]. intros s b s' C H. cbn [sexec] in H. step H.
  destruct v; try discriminate.
  - exact (IH _ _ _ C B).
  - exact (no_break n _ _ _ C A).
  - exact (IH _ _ _ C B).
Qed.

(** A statement that ends its path is never passed. *)
Lemma terminates_never_next n : forall d s c s',
  terminates d c = true -> sexec call n s c <> ROk (ONext s').
Proof.
  induction n as [|n IH]; [discriminate|]. intros d s c s' C H.
  destruct c; cbn [terminates] in C; try discriminate.
  - cbn [sexec] in H. step H. destruct v; try discriminate. apply orb_true_iff in C.
    destruct C as [C|C]; [exact (IH d _ _ _ C A)|exact (IH d _ _ _ C B)].
  - cbn [sexec] in H. step H. apply andb_true_iff in C. destruct C as [C1 C2].
    destruct b; [exact (IH d _ _ _ C1 B)|exact (IH d _ _ _ C2 B)].
  - apply negb_true_iff in C. exact (loop_never_next _ _ _ _ C H).
  - cbn [sexec] in H. destruct e; [step H|]; discriminate.
Qed.

(** Without the statements reported unreachable the function does exactly the same. *)
Lemma prune_same n : forall d s c, sexec call n s (prune d c) = sexec call n s c
with prune_same_for n : forall d s e st b,
  sfor call n s e (prune d st) (prune (S d) b) = sfor call n s e st b.
Proof.
  - destruct n as [|n]; [reflexivity|]. intros d s c.
    destruct c; cbn [prune sexec]; try reflexivity.
    + rewrite (prune_same n d s c1). destruct (sexec call n s c1) as [o| | |] eqn:E; try reflexivity.
      cbn [rbind]. destruct o; try reflexivity. destruct (terminates d c1) eqn:T.
      * exfalso. exact (terminates_never_next _ _ _ _ _ T E).
      * apply prune_same.
    + unfold cond. match goal with |- context [eval call s ?x] => destruct (eval call s x) as [v| | |] end; cbn [rbind]; try reflexivity.
      destruct v; try reflexivity. destruct b; apply prune_same.
    + unfold cond. match goal with |- context [eval call s ?x] => destruct (eval call s x) as [v| | |] end; cbn [rbind]; try reflexivity.
      destruct v; try reflexivity. destruct b; [apply prune_same|reflexivity].
    + unfold cond. match goal with |- context [eval call s ?x] => destruct (eval call s x) as [v| | |] end; cbn [rbind]; try reflexivity.
      destruct v; try reflexivity. destruct b; [|reflexivity]. rewrite (prune_same n (S d) s c0).
      destruct (sexec call n s c0) as [o| | |]; try reflexivity. cbn [rbind].
      destruct o; try reflexivity; apply (prune_same n d _ (SWhile c c0)).
    + rewrite (prune_same n (S d) s c).
      destruct (sexec call n s c) as [o| | |]; try reflexivity. cbn [rbind].
      destruct o; try reflexivity; apply (prune_same n d _ (SLoop c)).
    + rewrite (prune_same n d s c1). destruct (sexec call n s c1) as [o| | |]; try reflexivity.
      cbn [rbind]. destruct o; try reflexivity. apply prune_same_for.
  - destruct n as [|n]; [reflexivity|]. intros d s e st b. rewrite !sfor_eq. unfold cond.
    destruct (eval call s e) as [v| | |]; cbn [rbind]; try reflexivity.
    destruct v; try reflexivity. destruct b0; [|reflexivity]. rewrite (prune_same n (S d) s b).
    destruct (sexec call n s b) as [o| | |]; try reflexivity. cbn [rbind].
    destruct o; try reflexivity; rewrite (prune_same n d _ st);
      (destruct (sexec call n _ st) as [o| | |]; try reflexivity); cbn [rbind];
      (destruct o; try reflexivity); apply prune_same_for.
Qed.

(** Where no [loop] has a [break] of its own, the missing-return check is right. *)
Lemma hard_never_next n : forall s c s',
  hard_return c = true -> loops_unbroken c = true -> sexec call n s c <> ROk (ONext s').
Proof.
  induction n as [|n IH]; [discriminate|]. intros s c s' C U H.
  destruct c; cbn [hard_return loops_unbroken] in C, U; try discriminate.
  - apply andb_true_iff in U. destruct U as [U1 U2]. cbn [sexec] in H. step H.
    destruct v; try discriminate. apply orb_true_iff in C.
    destruct C as [C|C]; [exact (IH _ _ _ C U1 A)|exact (IH _ _ _ C U2 B)].
  - apply andb_true_iff in U. destruct U as [U1 U2]. apply andb_true_iff in C. destruct C as [C1 C2].
    cbn [sexec] in H. step H. destruct b; [exact (IH _ _ _ C1 U1 B)|exact (IH _ _ _ C2 U2 B)].
  - apply andb_true_iff in U. destruct U as [U _]. apply negb_true_iff in U.
    exact (loop_never_next _ _ _ _ U H).
  - cbn [sexec] in H. destruct e; [step H|]; discriminate.
Qed.
Lemma provides_seq a b :
  provides_return (SSeq a b) = true -> provides_return a = true \/ hard_return a = true \/ provides_return b = true.
Proof. destruct b; cbn [provides_return]; rewrite ?orb_true_iff; tauto. Qed.
Lemma provides_never_next n : forall s c s',
  provides_return c = true -> loops_unbroken c = true -> sexec call n s c <> ROk (ONext s').
Proof.
  induction n as [|n IH]; [discriminate|]. intros s c s' C U H.
  destruct c; try discriminate.
  - apply provides_seq in C. cbn [loops_unbroken] in U.
    apply andb_true_iff in U. destruct U as [U1 U2]. cbn [sexec] in H. step H.
    destruct v; try discriminate.
    destruct C as [C|[C|C]]; [exact (IH _ _ _ C U1 A)|exact (hard_never_next _ _ _ _ C U1 A)|exact (IH _ _ _ C U2 B)].
  - cbn [provides_return loops_unbroken] in C, U.
    apply andb_true_iff in U. destruct U as [U1 U2]. apply andb_true_iff in C. destruct C as [C1 C2].
    cbn [sexec] in H. step H. destruct b; [exact (IH _ _ _ C1 U1 B)|exact (IH _ _ _ C2 U2 B)].
  - cbn [loops_unbroken] in U. apply andb_true_iff in U. destruct U as [U _].
    apply negb_true_iff in U. exact (loop_never_next _ _ _ _ U H).
  - cbn [sexec] in H. destruct e; [step H|]; discriminate.
Qed.

(** Outside loops, control leaves a checked statement at its end or by [return]. *)
Definition stays (o : out) : Prop := match o with OBreak _ | OCont _ => False | _ => True end.
Lemma loops_ok_stays n : forall s c o, loops_ok 0 c = true -> sexec call n s c = ROk o -> stays o
with sfor_stays n : forall s e st b o, sfor call n s e st b = ROk o -> stays o.
Proof.
  - destruct n as [|n]; [discriminate|]. intros s c o L H.
    destruct c; cbn [sexec loops_ok] in H, L; try discriminate.
    + injection H as <-. exact Logic.I.
    + apply andb_true_iff in L. destruct L as [L1 L2]. step H. destruct v; cbn in B.
      * exact (loops_ok_stays n _ _ _ L2 B).
      * destruct (loops_ok_stays n _ _ _ L1 A).
      * destruct (loops_ok_stays n _ _ _ L1 A).
      * injection B as <-. exact Logic.I.
    + step H. injection B as <-. exact Logic.I.
    + step H. injection B as <-. exact Logic.I.
    + step H. step B. injection B0 as <-. exact Logic.I.
    + step H. injection B as <-. exact Logic.I.
    + step H. destruct b; [injection B as <-; exact Logic.I|discriminate].
    + apply andb_true_iff in L. destruct L as [L1 L2]. step H.
      destruct b; [exact (loops_ok_stays n _ _ _ L1 B)|exact (loops_ok_stays n _ _ _ L2 B)].
    + step H. destruct b; [exact (loops_ok_stays n _ _ _ L B)|injection B as <-; exact Logic.I].
    + step H. destruct b; [|injection B as <-; exact Logic.I]. step B.
      assert (K : forall s0, sexec call n s0 (SWhile c c0) = ROk o -> stays o).
      { clear - loops_ok_stays L. intros s0. apply loops_ok_stays. exact L. }
      destruct v; [exact (K _ B0)|injection B0 as <-; exact Logic.I|exact (K _ B0)|injection B0 as <-; exact Logic.I].
    + step H.
      assert (K : forall s0, sexec call n s0 (SLoop c) = ROk o -> stays o).
      { clear - loops_ok_stays L. intros s0. apply loops_ok_stays. exact L. }
      destruct v; [exact (K _ B)|injection B as <-; exact Logic.I|exact (K _ B)|injection B as <-; exact Logic.I].
    + step H. destruct v; try discriminate. exact (sfor_stays n _ _ _ _ _ B).
    + destruct e; [step H; injection B as <-|injection H as <-]; exact Logic.I.
  - destruct n as [|n]; [discriminate|]. intros s e st b o H. rewrite sfor_eq in H. step H.
    destruct b0; [|injection B as <-; exact Logic.I]. step B. destruct v.
    + step B0. destruct v; try discriminate. exact (sfor_stays n _ _ _ _ _ B).
    + injection B0 as <-. exact Logic.I.
    + step B0. destruct v; try discriminate. exact (sfor_stays n _ _ _ _ _ B).
    + injection B0 as <-. exact Logic.I.
Qed.
End Flow.

(** Type soundness. *)
Scheme expr_mut := Induction for expr Sort Prop
  with exprs_mut := Induction for exprs Sort Prop.
Combined Scheme expr_exprs_ind from expr_mut, exprs_mut.

Definition nstuck {A} (good : A -> Prop) (r : MirSem.res A) : Prop :=
  match r with ROk a => good a | RStuck => False | _ => True end.
Lemma nstuck_bind {A B} (g : A -> Prop) (h : B -> Prop) r k :
  nstuck g r -> (forall a, g a -> nstuck h (k a)) -> nstuck h (rbind r k).
Proof. destruct r; cbn; auto. Qed.
Lemma nstuck_impl {A} (g h : A -> Prop) r : nstuck g r -> (forall a, g a -> h a) -> nstuck h r.
Proof. destruct r; cbn; auto. Qed.

Definition fits (t : ty) (v : val) : Prop := shape t v = true.
Definition fit_ret (t : option ty) (v : option val) : Prop :=
  match t, v with Some t, Some v => fits t v | None, None => True | _, _ => False end.

Lemma wfb_iff z : wfb z = true <-> 0 <= z < P.
Proof. unfold wfb. rewrite andb_true_iff, Z.leb_le, Z.ltb_lt. reflexivity. Qed.
Lemma u32b_iff z : u32b z = true <-> 0 <= z < B32.
Proof. unfold u32b. rewrite andb_true_iff, Z.leb_le, Z.ltb_lt. reflexivity. Qed.
Lemma wfb_mod z : wfb (z mod P) = true.
Proof. apply wfb_iff. apply Z.mod_pos_bound. reflexivity. Qed.
Lemma u32b_mod z : u32b (z mod B32) = true.
Proof. apply u32b_iff. apply Z.mod_pos_bound. reflexivity. Qed.

Lemma log2_u32 z : 0 <= z < B32 -> Z.log2 z < 32.
Proof.
  intros [A B]. destruct (Z.eq_dec z 0) as [->|N]; [reflexivity|].
  apply Z.log2_lt_pow2; [lia|]. exact B.
Qed.
Lemma u32b_log z : 0 <= z -> Z.log2 z < 32 -> u32b z = true.
Proof.
  intros A B. apply u32b_iff. split; [exact A|]. destruct (Z.eq_dec z 0) as [->|N]; [reflexivity|].
  apply (Z.log2_lt_pow2 z 32) in B; [exact B|lia].
Qed.

Lemma src_bin_fits op t r x y :
  bin_type op t = Some r -> fits t x -> fits t y -> nstuck (fits r) (src_bin op x y).
Proof.
  unfold fits. intros T X Y.
  destruct t; try (destruct op; discriminate); destruct x; try discriminate; destruct y; try discriminate;
    destruct op; try discriminate; cbn [bin_type] in T; injection T as <-; cbn [src_bin];
    repeat match goal with |- nstuck _ (if ?c then _ else _) => destruct c eqn:? end;
    cbn [nstuck]; try exact Logic.I; cbn [shape]; try reflexivity; try apply wfb_mod; try apply u32b_mod;
    cbn [shape] in X, Y; apply u32b_iff in X; apply u32b_iff in Y.
  - apply Z.eqb_neq in Heqb. apply u32b_iff. split.
    + apply Z.div_pos; lia.
    + apply Z.le_lt_trans with z; [|lia]. apply Z.div_le_upper_bound; [lia|]. nia.
  - apply Z.eqb_neq in Heqb. apply u32b_iff. pose proof (Z.mod_pos_bound z z0). lia.
  - apply u32b_log; [apply Z.land_nonneg; lia|].
    eapply Z.le_lt_trans; [apply Z.log2_land; lia|]. pose proof (log2_u32 z X). lia.
  - apply u32b_log; [apply Z.lor_nonneg; lia|]. rewrite Z.log2_lor by lia.
    pose proof (log2_u32 z X). pose proof (log2_u32 z0 Y). lia.
  - apply u32b_log; [apply Z.lxor_nonneg; lia|].
    eapply Z.le_lt_trans; [apply Z.log2_lxor; lia|].
    pose proof (log2_u32 z X). pose proof (log2_u32 z0 Y). lia.
Qed.
Lemma src_un_fits op t r x :
  un_type op t = Some r -> fits t x -> nstuck (fits r) (src_un op x).
Proof.
  unfold fits. intros T X.
  destruct t; try (destruct op; discriminate); destruct x; try discriminate;
    destruct op; try discriminate; cbn [un_type] in T; injection T as <-; cbn [src_un nstuck shape];
    try reflexivity; try apply wfb_mod; try apply u32b_mod.
Qed.


Section Types.
Variables (call : nat -> list val -> MirSem.res (option val)) (V : nat -> ty) (sg : sigs).
Hypothesis calls_fit : forall f ps t vs,
  nth_error sg f = Some (ps, t) -> Forall2 fits ps vs -> nstuck (fit_ret t) (call f vs).

Definition covers (D : list nat) (s : store) : Prop :=
  (forall x v, s x = Some v -> fits (V x) v) /\ (forall x, In x D -> s x <> None).

Lemma eval_fits s D : covers D s ->
  (forall e t, type_of V sg e = Some t -> scoped D e = true -> nstuck (fits t) (eval call s e)) /\
  (forall es ps, types_of_args V sg es ps = true -> scoped_args D es = true ->
     nstuck (Forall2 fits ps) (evals call s es)).
Proof.
  intros [C1 C2]. apply expr_exprs_ind.
  - intros n t t' T _. cbn [type_of] in T. destruct (_ && _) eqn:E; [|discriminate].
    injection T as <-. apply andb_true_iff in E. destruct E as [E1 E2].
    cbn [eval]. unfold lit_val. destruct t; try discriminate E2; try (exfalso; apply Z.ltb_lt in E2; apply Z.leb_le in E1; lia);
      cbn [nstuck]; unfold fits; cbn [shape].
    + apply wfb_iff. apply Z.ltb_lt in E2. apply Z.leb_le in E1. split; [exact E1|exact E2].
    + apply u32b_iff. apply Z.ltb_lt in E2. apply Z.leb_le in E1. split; [exact E1|exact E2].
  - intros b t T _. injection T as <-. reflexivity.
  - intros x t T S. injection T as <-. cbn [eval scoped] in *. unfold mem_nat in S.
    apply existsb_exists in S. destruct S as (y & I & Y). apply Nat.eqb_eq in Y. subst y.
    destruct (s x) as [v|] eqn:E; [exact (C1 _ _ E)|destruct (C2 _ I E)].
  - intros op e IH t T S. cbn [type_of scoped eval] in *. destruct (type_of V sg e) as [u|]; [|discriminate].
    eapply nstuck_bind; [exact (IH u eq_refl S)|]. intros a A. exact (src_un_fits _ _ _ _ T A).
  - intros op l IHl r IHr t T S. cbn [type_of scoped eval] in *. apply andb_true_iff in S. destruct S as [S1 S2].
    destruct (type_of V sg l) as [u|]; [|discriminate]. destruct (type_of V sg r) as [w|]; [|discriminate].
    destruct (ty_eqb u w) eqn:E; [|discriminate]. apply ty_eqb_eq in E. subst w.
    eapply nstuck_bind; [exact (IHl u eq_refl S1)|]. intros a A.
    eapply nstuck_bind; [exact (IHr u eq_refl S2)|]. intros b B. exact (src_bin_fits _ _ _ _ _ T A B).
  - intros f args IH t T S. cbn [type_of scoped eval] in *.
    destruct (nth_error sg f) as [[ps [r|]]|] eqn:E; try discriminate.
    destruct (types_of_args V sg args ps) eqn:TA; [|discriminate]. injection T as <-.
    eapply nstuck_bind; [exact (IH ps TA S)|]. intros vs A. cbv beta in A.
    eapply nstuck_bind; [exact (calls_fit _ _ _ _ E A)|]. intros [v|] B; cbn in B; [exact B|destruct B].
  - intros e IH u t T S. cbn [type_of scoped eval] in *.
    destruct (type_of V sg e) as [w|]; [|discriminate].
    destruct w; try discriminate. destruct u; try discriminate. injection T as <-.
    eapply nstuck_bind; [exact (IH _ eq_refl S)|]. intros v A. unfold fits in A.
    destruct v; try discriminate. destruct (z <? P) eqn:L; [|exact Logic.I]. cbn [nstuck].
    unfold fits. cbn [shape] in *. apply u32b_iff in A. apply wfb_iff. apply Z.ltb_lt in L. lia.
  - intros ps T _. destruct ps; [|discriminate]. constructor.
  - intros e IHe es IHes ps T S. destruct ps as [|p ps]; [discriminate|]. cbn [types_of_args scoped_args evals] in *.
    destruct (type_of V sg e) as [u|]; [|discriminate]. apply andb_true_iff in T. destruct T as [T1 T2].
    apply ty_eqb_eq in T1. subst u. apply andb_true_iff in S. destruct S as [S1 S2].
    eapply nstuck_bind; [exact (IHe _ eq_refl S1)|]. intros v A.
    eapply nstuck_bind; [exact (IHes _ T2 S2)|]. intros vs B. constructor; assumption.
Qed.

Lemma has_type_fits s D e t :
  covers D s -> has_type V sg D e t = true -> nstuck (fits t) (eval call s e).
Proof.
  intros C H. unfold has_type in H. apply andb_true_iff in H. destruct H as [S T].
  destruct (type_of V sg e) as [u|] eqn:E; [|discriminate]. apply ty_eqb_eq in T. subst u.
  exact (proj1 (eval_fits s D C) e t E S).
Qed.

Variable ret : option ty.
Definition fit_out (D D' : list nat) (o : out) : Prop :=
  match o with
  | ONext s => covers D' s
  | OBreak s | OCont s => covers D s
  | ORet v => fit_ret ret v
  end.
Lemma covers_set D s x v : covers D s -> fits (V x) v -> covers (x :: D) (set s x v).
Proof.
  intros [C1 C2] F. split.
  - intros y w. unfold set. destruct (Nat.eqb y x) eqn:E.
    + apply Nat.eqb_eq in E. subst. intros H. injection H as <-. exact F.
    + apply C1.
  - intros y I. unfold set. destruct (Nat.eqb y x) eqn:E; [discriminate|].
    destruct I as [<-|I]; [rewrite Nat.eqb_refl in E; discriminate|exact (C2 _ I)].
Qed.
Lemma covers_incl D D' s : incl D D' -> covers D' s -> covers D s.
Proof. intros I [C1 C2]. split; [exact C1|]. intros x H. exact (C2 x (I x H)). Qed.
Lemma mem_nat_in x l : mem_nat x l = true -> In x l.
Proof.
  unfold mem_nat. intros S. apply existsb_exists in S. destruct S as (y & I & Y).
  apply Nat.eqb_eq in Y. subst. exact I.
Qed.
Lemma typed_incl c : forall D D', typed V sg ret D c = Some D' -> incl D D'.
Proof.
  induction c; intros D D' T; cbn [typed] in T;
    repeat match type of T with
           | context [match ?x with _ => _ end] =>
             lazymatch x with
             | typed _ _ _ _ _ => fail
             | _ => destruct x; try discriminate
             end
           end; try (injection T as <-; try apply incl_refl; apply incl_tl; apply incl_refl).
  { destruct (typed V sg ret D c1) as [D1|] eqn:E; [|discriminate].
    eapply incl_tran; [exact (IHc1 _ _ E)|exact (IHc2 _ _ T)]. }
  all: repeat match type of T with
              | match ?x with _ => _ end = Some _ => destruct x; try discriminate
              end; injection T as <-; apply incl_refl.
Qed.

Lemma incl_covers_out D D1 D' o :
  incl D D1 -> fit_out D1 D' o -> fit_out D D' o.
Proof. intros I. destruct o; cbn; auto; apply covers_incl; exact I. Qed.

Ltac inv_typed T :=
  repeat match type of T with
         | match ?x with _ => _ end = Some _ => let E := fresh "E" in destruct x eqn:E; try discriminate T
         end.

Lemma covers_stay D x v s : covers D s -> In x D -> fits (V x) v -> covers D (set s x v).
Proof.
  intros C _ F. apply covers_incl with (x :: D); [apply incl_tl, incl_refl|]. apply covers_set; assumption.
Qed.

Lemma cond_fits D s e k (h : out -> Prop) :
  covers D s -> has_type V sg D e TBool = true -> (forall b, nstuck h (k b)) ->
  nstuck h (cond call s e k).
Proof.
  intros C T K. unfold cond. eapply nstuck_bind; [exact (has_type_fits _ _ _ _ C T)|].
  intros v F. unfold fits in F. destruct v; try discriminate. apply K.
Qed.

Lemma simple_next n s c o : simple c = true -> sexec call n s c = ROk o -> exists s', o = ONext s'.
Proof.
  intros S H. destruct n as [|n]; [discriminate|]. destruct c; try discriminate; cbn [sexec] in H; step H.
  - injection B as <-. eauto.
  - injection B as <-. eauto.
  - step B. injection B0 as <-. eauto.
  - injection B as <-. eauto.
  - destruct b; [injection B as <-; eauto|discriminate].
Qed.

Lemma sexec_sfor_fits n : (forall D D' c s,
  for_parts c = true -> typed V sg ret D c = Some D' -> covers D s ->
  nstuck (fit_out D D') (sexec call n s c)) /\
  (forall D e st b s D1 D2,
  simple st = true -> for_parts b = true ->
  has_type V sg D e TBool = true -> typed V sg ret D st = Some D1 -> typed V sg ret D b = Some D2 ->
  covers D s -> nstuck (fit_out D D) (sfor call n s e st b)).
Proof.
  induction n as [|n [sexec_fits sfor_fits]]; [split; intros; exact Logic.I|]. split.
  - intros D D' c s FP T C.
    pose proof (typed_incl _ _ _ T) as IN.
    destruct c; cbn [typed for_parts sexec] in FP, T |- *.
    + injection T as <-. exact C.
    + apply andb_true_iff in FP. destruct FP as [F1 F2].
      destruct (typed V sg ret D c1) as [D1|] eqn:E; [|discriminate].
      eapply nstuck_bind; [exact (sexec_fits _ _ _ _ F1 E C)|].
      intros o O. destruct o; cbn in O |- *; try exact O.
      pose proof (sexec_fits _ _ _ _ F2 T O) as R. eapply nstuck_impl; [exact R|].
      intros o'. apply incl_covers_out. exact (typed_incl _ _ _ E).
    + inv_typed T. injection T as <-.
      eapply nstuck_bind; [exact (has_type_fits _ _ _ _ C E)|]. intros v F. cbn. apply covers_set; assumption.
    + inv_typed T. injection T as <-. apply andb_true_iff in E. destruct E as [E1 E2].
      eapply nstuck_bind; [exact (has_type_fits _ _ _ _ C E2)|]. intros v F. cbn.
      apply covers_stay; [exact C|exact (mem_nat_in _ _ E1)|exact F].
    + destruct (nth_error sg f) as [[ps [r|]]|] eqn:E; try discriminate.
      destruct (_ && _) eqn:E1; [|discriminate]. injection T as <-.
      apply andb_true_iff in E1. destruct E1 as [E1 E2].
      eapply nstuck_bind; [exact (proj2 (eval_fits s D C) args ps E2 E1)|]. intros vs F. cbv beta in F.
      eapply nstuck_bind; [exact (calls_fit _ _ _ _ E F)|]. intros v _. exact C.
    + destruct (type_of V sg e) as [t|] eqn:E; [|discriminate].
      destruct (scoped D e) eqn:E1; [|discriminate]. injection T as <-.
      eapply nstuck_bind; [exact (proj1 (eval_fits s D C) e t E E1)|]. intros v _. exact C.
    + inv_typed T. injection T as <-. eapply cond_fits; [exact C|exact E|]. intros [|]; [exact C|exact Logic.I].
    + apply andb_true_iff in FP. destruct FP as [F1 F2]. inv_typed T. injection T as <-.
      eapply cond_fits; [exact C|exact E|]. intros b.
      assert (K : forall c D1, for_parts c = true -> typed V sg ret D c = Some D1 ->
                  nstuck (fit_out D D) (sexec call n s c)).
      { clear - sexec_fits C. intros c D1 F1 E0.
        eapply nstuck_impl; [exact (sexec_fits _ _ _ _ F1 E0 C)|].
        intros o O. destruct o; cbn in *; try exact O. eapply covers_incl; [exact (typed_incl _ _ _ E0)|exact O]. }
      destruct b; [exact (K _ _ F1 E0)|exact (K _ _ F2 E1)].
    + inv_typed T. injection T as <-. eapply cond_fits; [exact C|exact E|]. intros [|]; [|exact C].
      eapply nstuck_impl; [exact (sexec_fits _ _ _ _ FP E0 C)|].
      intros o O. destruct o; cbn in *; try exact O. eapply covers_incl; [exact (typed_incl _ _ _ E0)|exact O].
    + pose proof T as TT. inv_typed T. injection T as <-. eapply cond_fits; [exact C|exact E|].
      intros [|]; [|exact C].
      eapply nstuck_bind; [exact (sexec_fits _ _ _ _ FP E0 C)|].
      assert (K : forall s', covers D s' -> nstuck (fit_out D D) (sexec call n s' (SWhile c c0))).
      { clear - sexec_fits FP E E0. intros s' C'. apply sexec_fits; [exact FP| |exact C'].
        cbn [typed]. rewrite E, E0. reflexivity. }
      pose proof (typed_incl _ _ _ E0) as IN'.
      intros o O. destruct o; cbn in *; try exact O; apply K; try exact O; exact (covers_incl _ _ _ IN' O).
    + inv_typed T. injection T as <-.
      eapply nstuck_bind; [exact (sexec_fits _ _ _ _ FP E C)|].
      assert (K : forall s', covers D s' -> nstuck (fit_out D D) (sexec call n s' (SLoop c))).
      { clear - sexec_fits FP E. intros s' C'. apply sexec_fits; [exact FP| |exact C'].
        cbn [typed]. rewrite E. reflexivity. }
      pose proof (typed_incl _ _ _ E) as IN'.
      intros o O. destruct o; cbn in *; try exact O; apply K; try exact O; exact (covers_incl _ _ _ IN' O).
    + apply andb_true_iff in FP. destruct FP as [FP F3]. apply andb_true_iff in FP. destruct FP as [F1 F2].
      inv_typed T. injection T as <-.
      assert (F1' : for_parts c1 = true) by (destruct c1; try discriminate; reflexivity).
      pose proof (sexec_fits _ _ _ _ F1' E C) as R.
      destruct (sexec call n s c1) as [o| | |] eqn:EX; try exact R.
      destruct (simple_next _ _ _ _ F1 EX) as (s1 & ->). cbn in R |- *.
      eapply nstuck_impl; [exact (sfor_fits _ _ _ _ _ _ _ F2 F3 E0 E1 E2 R)|].
      pose proof (typed_incl _ _ _ E) as IN'.
      intros o O. destruct o; cbn in *; try exact O; exact (covers_incl _ _ _ IN' O).
    + injection T as <-. exact C.
    + injection T as <-. exact C.
    + destruct e as [e|]; inv_typed T.
      * eapply nstuck_bind; [eapply has_type_fits; eassumption|]. intros v F. cbn. rewrite E. exact F.
      * cbn. rewrite E. exact Logic.I.
  - intros D e st b s D1 D2 SI FP E TS TB C. rewrite sfor_eq.
    eapply cond_fits; [exact C|exact E|]. intros [|]; [|exact C].
    eapply nstuck_bind; [exact (sexec_fits _ _ _ _ FP TB C)|].
    assert (F1 : for_parts st = true) by (destruct st; try discriminate; reflexivity).
    assert (K : forall s', covers D s' -> nstuck (fit_out D D)
        (rbind (sexec call n s' st) (fun o' => match o' with ONext s'' => sfor call n s'' e st b | _ => RStuck end))).
    { clear - sexec_fits sfor_fits SI F1 FP E TS TB. intros s' C'.
      pose proof (sexec_fits _ _ _ _ F1 TS C') as R.
      destruct (sexec call n s' st) as [o| | |] eqn:EX; try exact R.
      destruct (simple_next _ _ _ _ SI EX) as (s1 & ->). cbn in R |- *.
      eapply sfor_fits; try eassumption. exact (covers_incl _ _ _ (typed_incl _ _ _ TS) R). }
    pose proof (typed_incl _ _ _ TB) as IN'.
    intros o O. destruct o; cbn in *; try exact O; apply K; try exact O; exact (covers_incl _ _ _ IN' O).
Qed.
Definition sexec_fits n := proj1 (sexec_sfor_fits n).
End Types.

(** Calls between checked functions. *)
Lemma combine_seq_in {A} (l : list A) : forall k i a, nth_error l i = Some a -> In ((k + i)%nat, a) (combine (seq k (length l)) l).
Proof.
  induction l as [|b l IH]; intros k i a H; [destruct i; discriminate|]. cbn [length seq combine].
  destruct i as [|i]; cbn in H.
  - left. injection H as ->. rewrite Nat.add_0_r. reflexivity.
  - right. rewrite <- Nat.add_succ_comm. apply IH. exact H.
Qed.
Lemma init_covers V ps args :
  forallb (fun p => ty_eqb (V (fst p)) (snd p)) (combine (seq 0 (length ps)) ps) = true ->
  Forall2 fits ps args -> covers V (seq 0 (length ps)) (init args).
Proof.
  intros H F. rewrite forallb_forall in H. split.
  - intros x v X. unfold init in X.
    assert (exists p, nth_error ps x = Some p /\ fits p v) as (p & PX & PF).
    { revert x X. clear H. induction F as [|p a ps args PA F IH]; intros x X; [destruct x; discriminate|].
      destruct x as [|x]; cbn in *; [injection X as <-; eauto|exact (IH _ X)]. }
    pose proof (H _ (combine_seq_in ps 0 x p PX)) as E. cbn in E. apply ty_eqb_eq in E. rewrite E. exact PF.
  - intros x I. apply in_seq in I. unfold init.
    intros N. apply nth_error_None in N.
    assert (length ps = length args) by (clear - F; induction F; cbn; congruence). lia.
Qed.

Lemma src_call_fits fs F n : forallb (fun f => loops_unbroken (s_body f)) fs = true -> module_ok fs = true ->
  forall k ps t vs, nth_error (map sig_of fs) k = Some (ps, t) -> Forall2 fits ps vs ->
  nstuck (fit_ret t) (src_call fs F n k vs).
Proof.
  intros U OK. induction n as [|n IH]; intros k ps t vs K A; [exact Logic.I|].
  cbn [src_call]. rewrite nth_error_map in K. destruct (nth_error fs k) as [f|] eqn:E; [|discriminate].
  cbn in K. injection K as <- <-. unfold module_ok in OK. rewrite forallb_forall in OK, U.
  pose proof (U f (nth_error_In _ _ E)) as UF. cbv beta in UF.
  pose proof (OK f (nth_error_In _ _ E)) as OF. unfold sfun_ok in OF.
  rewrite !andb_true_iff in OF. destruct OF as ((((L & R) & FP) & T) & PT).
  destruct (typed _ _ _ _ _) as [D'|] eqn:TD; [|discriminate].
  pose proof (sexec_fits (src_call fs F n) (s_vars f) (map sig_of fs)
                (fun f ps t vs => IH f ps t vs) (s_ret f) F _ _ _ _ FP TD (init_covers _ _ _ PT A)) as S.
  unfold frun. eapply nstuck_bind with (g := fun o => match o with ORet v => fit_ret (s_ret f) v | _ => False end).
  - destruct (sexec (src_call fs F n) F (init vs) (s_body f)) as [o| | |] eqn:EX; try exact S.
    cbn in S |- *. pose proof (loops_ok_stays _ _ _ _ _ L EX) as ST.
    destruct o; cbn in *; try (destruct ST); try exact S.
    exact (provides_never_next _ _ _ _ _ R UF EX).
  - intros o O. destruct o; try destruct O. exact O.
Qed.
