(** Property C90: the check of all exercises has the same outcome under every schedule. *)
From Coq Require Import Ascii String List Bool Arith Lia Permutation.
From Verif Require Import Progress Prop_Progress CheckAll.
Import ListNotations.
Open Scope nat_scope.
Open Scope list_scope.

(** ** Invariants of all schedules *)
Definition held (t : thread) : list nat := match t with Took i => [i] | _ => [] end.
Definition right (works : nat -> bool) (i : nat) (v : check) : Prop :=
  match v with CheckDone => works i = true | CheckPending => works i = false | _ => True end.
Record inv (n k : nat) (works : nat -> bool) (s : sys) : Prop := Inv {
  inv_taken : Permutation (started s ++ flat_map held (threads s)) (seq 0 (Nat.min (counter s) n));
  inv_stopped : In Stopped (threads s) -> n < counter s;
  inv_threads : List.length (threads s) = k;
  inv_length : List.length (progresses s) = n;
  inv_channel : Forall (fun m => right works (fst m) (snd m)) (channel s);
  inv_results : forall i v, nth_error (progresses s) i = Some v -> right works i v }.

Lemma put_length v : forall l i, List.length (put i v l) = List.length l.
Proof. induction l as [|x l IH]; intros [|i]; cbn; auto. Qed.
Lemma put_nth v : forall l i j w, nth_error (put i v l) j = Some w -> (j = i /\ w = v) \/ nth_error l j = Some w.
Proof.
  induction l as [|x l IH]; intros [|i] [|j] w H; cbn in *; try discriminate H; auto; [left; split; congruence|].
  destruct (IH _ _ _ H) as [[-> ->]|Q]; auto.
Qed.
Lemma start_inv n k works : inv n k works (start n k).
Proof.
  constructor; cbn.
  - induction k as [|k IH]; cbn; [constructor|exact IH].
  - intros I. apply repeat_spec in I. discriminate I.
  - apply repeat_length.
  - apply repeat_length.
  - constructor.
  - intros i v H. apply nth_error_In in H. apply repeat_spec in H. subst v. exact I.
Qed.
Lemma step_inv n k works s t : inv n k works s -> step n works s t -> inv n k works t.
Proof.
  intros [T P L M C R] S. destruct S; cbn [counter threads channel progresses started] in *.
  - constructor; cbn [counter threads channel progresses started]; try assumption.
    + rewrite flat_map_app in *. cbn [flat_map held app] in *. destruct (Nat.ltb_spec c n) as [H|H]; cbn [held app].
      * rewrite Nat.min_l in T by lia. rewrite Nat.min_l by lia. rewrite seq_S. cbn [Nat.add].
        eapply Permutation_trans; [|apply Permutation_app_tail; exact T]. rewrite <- !app_assoc. apply Permutation_app_head.
        apply Permutation_app_head. apply Permutation_cons_append.
      * rewrite Nat.min_r in T by lia. rewrite Nat.min_r by lia. exact T.
    + intros I. destruct (Nat.ltb_spec c n) as [H|H]; [|lia]. apply in_app_or in I. cbn in I.
      destruct I as [I|[I|I]]; [|discriminate I|]; assert (n < c) by (apply P; apply in_or_app; cbn; auto); lia.
    + rewrite app_length in *. exact L.
  - constructor; cbn [counter threads channel progresses started]; try assumption.
    + rewrite flat_map_app in *. cbn [flat_map held app] in *. eapply Permutation_trans; [|exact T]. rewrite <- !app_assoc. apply Permutation_app_head.
      cbn [app]. apply Permutation_middle.
    + intros I. apply P. apply in_app_or in I. apply in_or_app. cbn in *. destruct I as [I|[I|I]]; auto; discriminate I.
    + rewrite app_length in *. exact L.
    + apply Forall_app. split; [exact C|]. constructor; [exact I|constructor].
  - constructor; cbn [counter threads channel progresses started]; try assumption.
    + rewrite flat_map_app in *. exact T.
    + intros I. apply P. apply in_app_or in I. apply in_or_app. cbn in *. destruct I as [I|[I|I]]; auto; discriminate I.
    + rewrite app_length in *. exact L.
    + apply Forall_app. split; [exact C|]. constructor; [|constructor]. cbn. destruct H as [->| ->]; [exact I|].
      destruct (works i) eqn:W; exact W.
  - pose proof (Forall_inv C) as Rv. pose proof (Forall_inv_tail C) as C'. constructor; cbn [counter threads channel progresses started]; try assumption; [rewrite put_length; exact M|].
    intros j w H. destruct (put_nth _ _ _ _ _ H) as [[-> ->]|Q]; [exact Rv|exact (R _ _ Q)].
Qed.
Lemma reaches_inv n k works s : reaches n works (start n k) s -> inv n k works s.
Proof. induction 1 as [|t u _ IH S]; [apply start_inv|exact (step_inv _ _ _ _ _ IH S)]. Qed.

(** The threads run every exercise, and none of them twice. *)
Theorem C90_each_once : forall n k works s, 0 < k -> reaches n works (start n k) s ->
  NoDup (started s) /\ (finished s -> Permutation (started s) (seq 0 n)).
Proof.
  intros n k works s K H. destruct (reaches_inv _ _ _ _ H) as [T P L _ _ _]. split.
  - assert (D : NoDup (started s ++ flat_map held (threads s))).
    { apply (Permutation_NoDup (Permutation_sym T)). apply seq_NoDup. }
    clear - D. induction (started s) as [|x g IH]; [constructor|]. cbn in D. inversion D as [|y z N D']; subst. constructor; [|exact (IH D')].
    intros I. apply N. apply in_or_app. left. exact I.
  - intros [F _]. assert (E : flat_map held (threads s) = []).
    { clear - F. induction F as [|t ts -> _ IH]; [reflexivity|exact IH]. }
    rewrite E, app_nil_r in T. assert (n < counter s).
    { apply P. destruct (threads s) as [|t ts]; [cbn in L; lia|]. inversion F; subst. left. reflexivity. }
    rewrite Nat.min_r in T by lia. exact T.
Qed.
Print Assumptions C90_each_once.
(** The check does not get stuck. *)
Theorem C90_goes_on : forall n works s, finished s \/ exists t, step n works s t.
Proof.
  intros n works [c ts q p g]. destruct q as [|[i v] q]; [|right; eexists; constructor].
  assert (D : Forall (fun t => t = Stopped) ts \/ exists l t r, ts = l ++ t :: r /\ t <> Stopped).
  { induction ts as [|t ts IH]; [left; constructor|]. destruct t; try (right; exists []; eexists; exists ts; split; [reflexivity|discriminate]).
    destruct IH as [F|(l & t & r & -> & N)]; [left; constructor; auto|right]. exists (Stopped :: l), t, r. auto. }
  destruct D as [F|(l & t & r & -> & N)]; [left; split; [exact F|reflexivity]|right].
  destruct t; [eexists; constructor|eexists; constructor| |destruct (N eq_refl)]. eexists. apply (Report n works l r i None). left. reflexivity.
Qed.
Print Assumptions C90_goes_on.

(** ** The pass over the results *)
Definition status (a : progress) (i : nat) (b : bool) : Prop := if b then is_done a i else is_pending a i.
Lemma status_same a a' i b : nth_error (exercises a') i = nth_error (exercises a) i -> status a i b -> status a' i b.
Proof. intros E S. destruct b; destruct S as [n S]; exists n; rewrite E; exact S. Qed.
Lemma settle_spec works retry : (forall i, retry i = None \/ retry i = Some (works i)) -> forall ps ind a first,
  good a -> ind + List.length ps = List.length (exercises a) -> (forall j v, nth_error ps j = Some v -> right works (ind + j) v) ->
  match settle retry ind ps a first with
  | Some (a', f) => good a' /\ current a' = current a /\ map fst (exercises a') = map fst (exercises a) /\
    (forall i, i < ind -> nth_error (exercises a') i = nth_error (exercises a) i) /\
    (forall i, ind <= i < ind + List.length ps -> status a' i (works i)) /\
    match first with
    | Some k => f = Some k
    | None => match f with
      | Some i => ind <= i < ind + List.length ps /\ works i = false /\ forall j, ind <= j < i -> works j = true
      | None => forall j, ind <= j < ind + List.length ps -> works j = true end
    end
  | None => exists i, ind <= i < ind + List.length ps /\ retry i = None
  end.
Proof.
  intros Rt. induction ps as [|p ps IH]; intros ind a first G L R; cbn [settle List.length] in *.
  - split; [exact G|]. repeat split; try (intros; lia); auto. destruct first; [reflexivity|intros; lia].
  - set (o := match p with CheckDone => Some true | CheckPending => Some false | _ => retry ind end).
    assert (O : (o = None /\ retry ind = None) \/ o = Some (works ind)).
    { specialize (R 0 p eq_refl). rewrite Nat.add_0_r in R. subst o. destruct p; cbn in R; try (right; congruence); destruct (Rt ind); auto. }
    destruct O as [[-> N]| ->]; [exists ind; split; [lia|exact N]|].
    destruct (C88_marked a ind (works ind) G) as (b & ch & -> & Gb & Cb & Nb & Sb & Ob & _); [lia|].
    assert (Lb : List.length (exercises b) = List.length (exercises a)).
    { apply (f_equal (@List.length bytes)) in Nb. rewrite !map_length in Nb. exact Nb. }
    set (first' := match first with Some f => Some f | None => if works ind then None else Some ind end).
    specialize (IH (S ind) b first' Gb). rewrite Lb in IH. specialize (IH ltac:(lia)).
    assert (R' : forall j v, nth_error ps j = Some v -> right works (S ind + j) v).
    { intros j v H. specialize (R (S j) v H). replace (S ind + j) with (ind + S j) by lia. exact R. }
    specialize (IH R'). destruct (settle retry (S ind) ps b first') as [[a' f]|].
    + destruct IH as (Ga & Ca & Na & Ba & Sa & Fa). split; [exact Ga|]. split; [congruence|]. split; [congruence|]. split; [|split].
      * intros i H. rewrite Ba by lia. apply Ob. lia.
      * intros i H. destruct (Nat.eq_dec i ind) as [->|D]; [|apply Sa; lia]. apply (status_same b); [apply Ba; lia|exact Sb].
      * subst first'. destruct first as [k|]; [exact Fa|]. destruct (works ind) eqn:W.
        -- destruct f as [i|].
           ++ destruct Fa as (A & B & D). split; [lia|]. split; [exact B|]. intros j H. destruct (Nat.eq_dec j ind) as [->|]; [exact W|apply D; lia].
           ++ intros j H. destruct (Nat.eq_dec j ind) as [->|]; [exact W|apply Fa; lia].
        -- subst f. split; [lia|]. split; [exact W|]. intros; lia.
    + destruct IH as (i & H & N). exists i. split; [lia|exact N].
Qed.
(** Whatever the schedule and however many threads there are: when the check ends, exactly the exercises that work are done, the
    first one that does not is where the learner goes on, and all else is as before; it fails only if an exercise could not be run
    even on its own. *)
Theorem C90_outcome : forall k works retry a s, good a -> (forall i, retry i = None \/ retry i = Some (works i)) ->
  reaches (List.length (exercises a)) works (start (List.length (exercises a)) k) s -> finished s ->
  match settle retry 0 (progresses s) a None with
  | Some (a', first) => good a' /\ current a' = current a /\ map fst (exercises a') = map fst (exercises a) /\
    (forall i, i < List.length (exercises a) -> if works i then is_done a' i else is_pending a' i) /\
    match first with
    | Some i => i < List.length (exercises a) /\ works i = false /\ forall j, j < i -> works j = true
    | None => forall j, j < List.length (exercises a) -> works j = true
    end
  | None => exists i, i < List.length (exercises a) /\ retry i = None
  end.
Proof.
  intros k works retry a s G Rt H _. destruct (reaches_inv _ _ _ _ H) as [_ _ _ M _ R].
  pose proof (settle_spec works retry Rt (progresses s) 0 a None G M R) as S. rewrite M in S. cbn [Nat.add] in S.
  destruct (settle retry 0 (progresses s) a None) as [[a' f]|].
  - destruct S as (A & B & C & _ & D & E). split; [exact A|]. split; [exact B|]. split; [exact C|]. split; [intros i L; apply D; lia|].
    destruct f as [i|]; [|intros j L; apply E; lia]. destruct E as (E1 & E2 & E3). split; [lia|]. split; [exact E2|]. intros j L. apply E3. lia.
  - destruct S as (i & L & N). exists i. split; [lia|exact N].
Qed.
Print Assumptions C90_outcome.

(** Two exercises, one thread; the run of the second fails in parallel and is repeated. *)
Example C90_sample : let works := fun i => Nat.eqb i 1 in
  exists s, reaches 2 works (start 2 1) s /\ finished s /\ started s = [0; 1] /\
    settle (fun i => Some (works i)) 0 (progresses s) (sample false) None = Some (sample true, Some 0).
Proof.
  cbv zeta. eexists. split.
  - eapply There; [eapply There; [eapply There; [eapply There; [eapply There; [eapply There; [eapply There; [eapply There; [eapply There; [eapply There; [eapply There; [apply Here|]|]|]|]|]|]|]|]|]|]|].
    + apply (Fetch _ _ [] []).
    + apply (Announce _ _ [] [] 0).
    + apply (Report _ _ [] [] 0 (Some false)). right. reflexivity.
    + apply (Fetch _ _ [] []).
    + apply (Announce _ _ [] [] 1).
    + apply (Report _ _ [] [] 1 None). left. reflexivity.
    + apply (Fetch _ _ [] []).
    + apply Receive.
    + apply Receive.
    + apply Receive.
    + apply Receive.
  - split; [split; [repeat constructor|reflexivity]|]. split; reflexivity.
Qed.
