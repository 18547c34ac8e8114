(** Property C79: a tuple pattern binds each name to its element. *)
From Coq Require Import ZArith NArith String List Bool Lia Arith.
From Verif Require Import M31 Syn Mir MirSem AssignPath Prop_AssignPath Destruct.
Import ListNotations.
Open Scope list_scope.
Open Scope nat_scope.

(** ** Specification *)
(** The pattern has the shape of the type. *)
Inductive matches : pat -> ty -> Prop :=
| matches_id x t : matches (PId x) t
| matches_nil : matches (PTuple []) (TTuple [])
| matches_cons p ps t ts : matches p t -> matches (PTuple ps) (TTuple ts) -> matches (PTuple (p :: ps)) (TTuple (t :: ts)).
(** The names of the pattern and the parts of the value they stand for. *)
Inductive binds : pat -> val -> list (string * val) -> Prop :=
| binds_id x v : binds (PId x) v [(x, v)]
| binds_nil : binds (PTuple []) (VTup []) []
| binds_cons p ps v vs l m : binds p v l -> binds (PTuple ps) (VTup vs) m -> binds (PTuple (p :: ps)) (VTup (v :: vs)) (l ++ m).

(** ** Lemmas *)
Section ind.
Variable Q : pat -> Prop.
Hypothesis (Hi : forall x, Q (PId x)) (Ht : forall ps, Forall Q ps -> Q (PTuple ps)).
Fixpoint pat_all (p : pat) : Q p :=
  match p with
  | PId x => Hi x
  | PTuple ps => Ht ps ((fix go l : Forall Q l := match l with [] => Forall_nil _ | a :: l => Forall_cons _ (pat_all a) (go l) end) ps)
  end.
End ind.

Lemma Forall2_length {A B} (R : A -> B -> Prop) l m : Forall2 R l m -> length l = length m.
Proof. intros F. induction F; cbn; congruence. Qed.

Definition bound (e : env) (bs : list (string * nat)) (l : list (string * val)) : Prop :=
  Forall2 (fun b v => fst b = fst v /\ e (snd b) = Some (snd v)) bs l.
(** The code for a pattern does what it should. *)
Definition works {S} (W : world S) tys (s : S) (p : pat) (t : ty) (x : val) (i n : nat) (e : env)
  (r : option (list minstr * list (string * nat) * nat)) : Prop :=
  exists is bs n' e' l, r = Some (is, bs, n') /\ n <= n' /\ exec_list W tys e s is = ROk (e', s) /\
    (forall j, j < n -> e' j = e j) /\ (forall b, In b bs -> snd b = i \/ n <= snd b < n') /\ binds p x l /\ bound e' bs l.

Lemma exec_element {S} (W : world S) tys e (s : S) n i k t vs v : e i = Some (VTup vs) -> nth_error vs k = Some v -> has_ty t v ->
  exec W tys e s (IExtractTuple n (Op i) k t) = ROk (upd e n v, s).
Proof. intros E N H. unfold exec. cbn [effect eval_any]. rewrite E. cbn [of_opt rbind]. rewrite N, (has_shape _ _ H). reflexivity. Qed.
Lemma bound_keep e e' bs l : (forall b, In b bs -> e' (snd b) = e (snd b)) -> bound e bs l -> bound e' bs l.
Proof.
  intros K B. induction B as [|b v bs l [A C] B IH]; constructor.
  - split; [exact A|]. rewrite K by (left; reflexivity). exact C.
  - apply IH. intros c I. apply K. right. exact I.
Qed.
Lemma lower_works {S} (W : world S) tys (s : S) : forall p t x i n e, matches p t -> has_ty t x -> e i = Some x -> i < n ->
  works W tys s p t x i n e (lower_pat p i t n).
Proof.
  induction p as [y|ps IH] using pat_all; intros t x i n e M H E L.
  - exists [], [(y, i)], n, e, [(y, x)]. split; [reflexivity|]. split; [lia|]. split; [reflexivity|]. split; [reflexivity|].
    split; [intros b [<-|[]]; left; reflexivity|]. split; [apply binds_id|]. constructor; [split; [reflexivity|exact E]|constructor].
  - assert (exists ts, t = TTuple ts) as [ts ->] by (inversion M; subst; eexists; reflexivity).
    assert (exists vs, x = VTup vs /\ Forall2 has_ty ts vs) as (vs & -> & F).
    { inversion H as [? ? Sh Nt Ns|? vs F|]; subst; [destruct (Nt ts eq_refl)|]. exists vs. split; [reflexivity|exact F]. }
    cbn [lower_pat]. clear H.
    assert (G : forall qs us ws k n e, Forall (fun p => forall t x i n e, matches p t -> has_ty t x -> e i = Some x -> i < n ->
        works W tys s p t x i n e (lower_pat p i t n)) qs -> matches (PTuple qs) (TTuple us) -> Forall2 has_ty us ws ->
        (forall j, nth_error ts (k + j) = nth_error us j) -> (forall j, nth_error vs (k + j) = nth_error ws j) ->
        e i = Some (VTup vs) -> i < n -> exists is bs n' e' l, lower_elems lower_pat i ts qs k n = Some (is, bs, n') /\ n <= n' /\
        exec_list W tys e s is = ROk (e', s) /\ (forall j, j < n -> e' j = e j) /\ (forall b, In b bs -> n <= snd b < n') /\
        binds (PTuple qs) (VTup ws) l /\ bound e' bs l).
    { clear M F IH L E e n ps. induction qs as [|q qs IHq]; intros us ws k n e A M F Nt Nv E L.
      - inversion M; subst. inversion F; subst. exists [], [], n, e, []. split; [reflexivity|]. split; [lia|]. split; [reflexivity|].
        split; [reflexivity|]. split; [intros b []|]. split; constructor.
      - inversion M as [| |? ? t us' Mq Mqs]; subst. inversion F as [|? v ? ws' Hv Fv]; subst. inversion A as [|? ? Aq Aqs]; subst.
        pose proof (Nt 0) as Nt0. pose proof (Nv 0) as Nv0. rewrite Nat.add_0_r in Nt0, Nv0. cbn [nth_error] in Nt0, Nv0.
        destruct (Aq t v n (Datatypes.S n) (upd e n v) Mq Hv (upd_same e n v) (Nat.lt_succ_diag_r n)) as (is & bs & n1 & e1 & l & R1 & L1 & X1 & K1 & I1 & B1 & D1).
        destruct (IHq us' ws' (Datatypes.S k) n1 e1 Aqs Mqs Fv) as (js & cs & n2 & e2 & m & R2 & L2 & X2 & K2 & I2 & B2 & D2).
        + intros j. rewrite Nat.add_succ_comm. apply (Nt (Datatypes.S j)).
        + intros j. rewrite Nat.add_succ_comm. apply (Nv (Datatypes.S j)).
        + rewrite K1 by lia. rewrite upd_other by lia. exact E.
        + lia.
        + exists (IExtractTuple n (Op i) k t :: is ++ js), (bs ++ cs), n2, e2, (l ++ m). split.
          { cbn [lower_elems]. rewrite Nt0, R1. rewrite R2. reflexivity. }
          split; [lia|]. split.
          { cbn [exec_list]. rewrite (exec_element W tys e s n i k t vs v E Nv0 Hv). cbn [rbind fst snd]. rewrite exec_app, X1. cbn [rbind fst snd]. exact X2. }
          split; [intros j J; rewrite K2 by lia; rewrite K1 by lia; apply upd_other; lia|]. split.
          { intros b B. apply in_app_iff in B. destruct B as [B|B]; [destruct (I1 b B) as [->|X]; lia|specialize (I2 b B); lia]. }
          split; [apply binds_cons; assumption|]. apply Forall2_app; [|exact D2].
          apply (bound_keep e1); [|exact D1]. intros b B. apply K2. destruct (I1 b B) as [->|X]; lia. }
    destruct (G ps ts vs 0 n e IH M F (fun _ => eq_refl) (fun _ => eq_refl) E L) as (is & bs & n' & e' & l & R & Ln & X & K & I & B & D).
    exists is, bs, n', e', l. split; [exact R|]. split; [exact Ln|]. split; [exact X|]. split; [exact K|].
    split; [intros b J; right; apply I, J|]. split; assumption.
Qed.

(** ** C79: what the names are bound to *)
(** For every pattern with the shape of the value's type, at every depth: the code is there, it ends
    without failing, leaves all earlier values as they are, and every name is bound to a value that is
    its part of the tuple. *)
Theorem C79_bound : forall S (W : world S) tys (s : S) p t x i n e,
  matches p t -> has_ty t x -> e i = Some x -> i < n ->
  exists is bs n' e' l, lower_pat p i t n = Some (is, bs, n') /\ exec_list W tys e s is = ROk (e', s) /\
    (forall j, j < n -> e' j = e j) /\ binds p x l /\
    Forall2 (fun b v => fst b = fst v /\ e' (snd b) = Some (snd v)) bs l.
Proof.
  intros S W tys s p t x i n e M H E L. destruct (lower_works W tys s p t x i n e M H E L) as (is & bs & n' & e' & l & R & _ & X & K & _ & B & D).
  exists is, bs, n', e', l. split; [exact R|]. split; [exact X|]. split; [exact K|]. split; assumption.
Qed.
Print Assumptions C79_bound.

(** ** C79: which patterns are accepted *)
Fixpoint depth (p : pat) : nat :=
  match p with PId _ => 0 | PTuple ps => Datatypes.S (list_max (map depth ps)) end.
(** An accepted pattern has the shape of the type of the value. *)
Definition accepts_only (allowed : pat -> Prop) : Prop := forall p t, allowed p -> (check_let p t = [] <-> matches p t).

Lemma tuple_matches : forall ps ts, matches (PTuple ps) (TTuple ts) <-> Forall2 matches ps ts.
Proof.
  induction ps as [|p ps IH]; intros ts; split; intros H; inversion H; subst; constructor; try assumption; apply IH; assumption.
Qed.
Lemma flat : forall ps ts, Forall (fun p => depth p = 0) ps -> (check_length ps ts = [] <-> Forall2 matches ps ts).
Proof.
  intros ps ts D. unfold check_length. destruct (Nat.eqb_spec (length ts) (length ps)) as [E|E].
  - split; [intros _|reflexivity]. revert ts E. induction D as [|p ps Dp D IH]; intros [|t ts] E; try discriminate E; constructor.
    + destruct p; [apply matches_id|discriminate Dp].
    + apply IH. now injection E.
  - split; [discriminate|]. intros F. apply Forall2_length in F. congruence.
Qed.
Lemma depth_parts ps d : list_max (map depth ps) <= d -> Forall (fun p => depth p <= d) ps.
Proof. intros H. apply list_max_le in H. apply Forall_forall. intros p I. rewrite Forall_forall in H. apply H, in_map, I. Qed.
Lemma nested p t : depth p <= 1 -> (check_nested (p, t) = [] <-> matches p t).
Proof.
  intros D. destruct p as [x|ps]; [split; [intros _; apply matches_id|reflexivity]|].
  destruct t as [| | |ts| | | | | | |]; cbn [check_nested]; try (split; [discriminate|intros M; inversion M]).
  rewrite tuple_matches. apply flat. cbn [depth] in D. apply Forall_impl with (P := fun p => depth p <= 0); [intros p Hp; lia|]. apply depth_parts. lia.
Qed.

(** It is so for patterns in patterns.  Missing: deeper patterns, where it fails (below). *)
Theorem C79_accepted_partial : accepts_only (fun p => depth p <= 2).
Proof.
  intros p t D. destruct p as [x|ps]; [split; [intros _; apply matches_id|reflexivity]|].
  destruct t as [| | |ts| | | | | | |]; cbn [check_let]; try (split; [discriminate|intros M; inversion M]).
  rewrite tuple_matches. assert (F : Forall (fun p => depth p <= 1) ps) by (apply depth_parts; cbn [depth] in D; lia). clear D.
  unfold check_length. destruct (Nat.eqb_spec (length ts) (length ps)) as [E|E].
  - cbn [app]. revert ts E. induction F as [|p ps Dp F IH]; intros [|t ts] E; try discriminate E; [split; [constructor|reflexivity]|].
    cbn [combine flat_map]. split.
    + intros X. apply app_eq_nil in X. destruct X as [X Y]. constructor; [apply nested; assumption|apply IH; [now injection E|exact Y]].
    + intros X. inversion X as [|? ? ? ? A B]; subst. apply (nested p t Dp) in A. rewrite A. apply IH; [now injection E|exact B].
  - split; [discriminate|]. intros X. apply Forall2_length in X. congruence.
Qed.
Print Assumptions C79_accepted_partial.

(** let (a, (b, c)) = (1, (2, true)); *)
Open Scope string_scope.
Definition nested_pat : pat := PTuple [PId "a"; PTuple [PId "b"; PId "c"]].
Definition nested_ty : ty := TTuple [TFelt; TTuple [TU32; TBool]].
Example C79_sample : depth nested_pat = 2 /\ check_let nested_pat nested_ty = [] /\ matches nested_pat nested_ty /\
  has_ty nested_ty (VTup [VFelt 1; VTup [VU32 2; VBool true]]) /\
  binds nested_pat (VTup [VFelt 1; VTup [VU32 2; VBool true]]) [("a", VFelt 1); ("b", VU32 2); ("c", VBool true)] /\
  lower_pat nested_pat 0 nested_ty 1 = Some ([IExtractTuple 1 (Op 0) 0 TFelt; IExtractTuple 2 (Op 0) 1 (TTuple [TU32; TBool]);
    IExtractTuple 3 (Op 2) 0 TU32; IExtractTuple 4 (Op 2) 1 TBool], [("a", 1); ("b", 3); ("c", 4)], 5).
Proof.
  split; [reflexivity|]. split; [reflexivity|]. split; [apply C79_accepted_partial; [cbn; lia|reflexivity]|]. split; [|split; [|reflexivity]].
  - apply has_tuple. constructor; [apply has_flat; try reflexivity; discriminate|]. constructor; [|constructor].
    apply has_tuple. constructor; [apply has_flat; try reflexivity; discriminate|]. constructor; [|constructor]. apply has_flat; try reflexivity; discriminate.
  - apply (binds_cons _ _ _ _ [("a", VFelt 1)]); [apply binds_id|]. apply (binds_cons _ _ _ _ [("b", VU32 2); ("c", VBool true)] []); [|apply binds_nil].
    apply (binds_cons _ _ _ _ [("b", VU32 2)]); [apply binds_id|]. apply (binds_cons _ _ _ _ [("c", VBool true)] []); [apply binds_id|apply binds_nil].
Qed.

(** ** C79: refutation *)
(** let (x, (y, (a, b))) = …: in the third level nothing is checked.  A pattern with too few names
    is accepted and compiled, one with too many and one for a number are accepted and fail in lowering. *)
Definition deep (ps : list pat) : pat := PTuple [PId "x"; PTuple [PId "y"; PTuple ps]].
Definition deep_ty (t : ty) : ty := TTuple [TFelt; TTuple [TFelt; t]].
Theorem C79_third_level_refuted : ~ accepts_only (fun p => depth p <= 3) /\
  (let p := deep [PId "a"; PId "b"] in let t := deep_ty (TTuple [TFelt; TFelt; TFelt]) in check_let p t = [] /\ ~ matches p t /\ lower_pat p 0 t 1 <> None) /\
  (let p := deep [PId "a"; PId "b"; PId "c"] in let t := deep_ty (TTuple [TFelt; TFelt]) in check_let p t = [] /\ ~ matches p t /\ lower_pat p 0 t 1 = None) /\
  (let p := deep [PId "a"; PId "b"] in let t := deep_ty TFelt in check_let p t = [] /\ ~ matches p t /\ lower_pat p 0 t 1 = None).
Proof.
  assert (N : forall ps t, matches (deep ps) (deep_ty t) -> matches (PTuple ps) t).
  { intros ps t M. apply tuple_matches in M. inversion M as [|? ? ? ? _ M1]; subst. inversion M1 as [|? ? ? ? M2 _]; subst.
    apply tuple_matches in M2. inversion M2 as [|? ? ? ? _ M3]; subst. inversion M3; subst. assumption. }
  assert (N1 : ~ matches (deep [PId "a"; PId "b"]) (deep_ty (TTuple [TFelt; TFelt; TFelt]))).
  { intros M. apply N, tuple_matches, Forall2_length in M. discriminate M. }
  split; [|split; [|split]]; cbv zeta.
  - intros H. apply N1. apply H; [cbn; lia|reflexivity].
  - split; [reflexivity|]. split; [exact N1|discriminate].
  - split; [reflexivity|]. split; [|reflexivity]. intros M. apply N, tuple_matches, Forall2_length in M. discriminate M.
  - split; [reflexivity|]. split; [|reflexivity]. intros M. apply N in M. inversion M.
Qed.
Print Assumptions C79_third_level_refuted.
