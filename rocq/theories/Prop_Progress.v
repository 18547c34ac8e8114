(** Property C88: the progress of a learner is kept. *)
From Coq Require Import Ascii String List Bool Arith Lia.
From Verif Require Import Progress.
Import ListNotations.
Open Scope nat_scope.
Open Scope list_scope.

(** ** Specification *)
(** Names as dev/check.rs asks for them (26, 95): letters, digits and underscores, so no line ends; unique. *)
Definition good_names (names : list bytes) : Prop := NoDup names /\ Forall (fun n => n <> [] /\ ~ In newline n) names.
Definition counted (a : progress) : Prop := n_done a = List.length (filter snd (exercises a)).
Definition good (a : progress) : Prop := good_names (map fst (exercises a)) /\ current a < List.length (exercises a) /\ counted a.
Definition is_done (a : progress) (i : nat) : Prop := exists n, nth_error (exercises a) i = Some (n, true).
Definition is_pending (a : progress) (i : nat) : Prop := exists n, nth_error (exercises a) i = Some (n, false).
(** The exercises in the order in which one comes to them from the current one on. *)
Definition turn (a : progress) (i : nat) : nat := if current a <? i then i else i + List.length (exercises a).
(** Whatever the program is doing when it is stopped, the next start finds the state from before or after. *)
Definition survives_stops : Prop := forall old new file, good old -> good new -> map fst (exercises old) = map fst (exercises new) ->
  interrupted (written old) (written new) file ->
  fst (load (map fst (exercises new)) file) = old \/ fst (load (map fst (exercises new)) file) = new.
(** ... or at least no exercise is taken for done that never was. *)
Definition invents_nothing : Prop := forall old new file i, good old -> good new -> map fst (exercises old) = map fst (exercises new) ->
  interrupted (written old) (written new) file ->
  is_done (fst (load (map fst (exercises new)) file)) i -> is_done old i \/ is_done new i.

(** ** Lines *)
Lemma split_line l r : ~ In newline l -> split_lines (l ++ newline :: r) = l :: split_lines r.
Proof.
  induction l as [|c l IH]; intros N; cbn [app split_lines].
  - destruct (ascii_dec newline newline) as [_|D]; [reflexivity|destruct (D eq_refl)].
  - destruct (ascii_dec c newline) as [->|D]; [destruct N; left; reflexivity|]. rewrite IH; [reflexivity|]. intros I. apply N. right. exact I.
Qed.
Lemma split_last l : ~ In newline l -> split_lines l = [l].
Proof.
  induction l as [|c l IH]; intros N; cbn [split_lines]; [reflexivity|].
  destruct (ascii_dec c newline) as [->|D]; [destruct N; left; reflexivity|]. rewrite IH; [reflexivity|]. intros I. apply N. right. exact I.
Qed.
Lemma split_done : forall es l, ~ In newline l -> Forall (fun n => n <> [] /\ ~ In newline n) (map fst es) ->
  split_lines (l ++ flat_map (fun e : exercise => if snd e then newline :: fst e else []) es) = l :: map fst (filter snd es).
Proof.
  induction es as [|[n d] es IH]; intros l N F; cbn [flat_map filter map fst snd].
  - rewrite app_nil_r. apply split_last. exact N.
  - inversion F as [|x y [_ Nn] F']; subst. destruct d; [|apply IH; assumption].
    cbn [app map fst]. rewrite split_line by exact N. rewrite IH by assumption. reflexivity.
Qed.
Lemma split_header x : split_lines (header ++ x) = list_ascii_of_string "DON'T EDIT THIS FILE!" :: [] :: split_lines x.
Proof. reflexivity. Qed.
Lemma until_full ls : Forall (fun n => n <> []) ls -> until_empty ls = ls.
Proof. induction 1 as [|l ls N _ IH]; [reflexivity|]. destruct l; [destruct (N eq_refl)|]. cbn [until_empty]. rewrite IH. reflexivity. Qed.
Lemma bytes_eqb_spec a b : bytes_eqb a b = true <-> a = b.
Proof. unfold bytes_eqb. destruct (list_eq_dec ascii_dec a b); split; intros H; congruence || discriminate. Qed.

(** ** The loop over the exercises *)
Definition flagged (done names : list bytes) : list exercise := map (fun n => (n, existsb (bytes_eqb n) done)) names.
Lemma mark_spec done cur : forall names ind c es k, let a := mark done cur ind names (App c es k) in
  exercises a = es ++ flagged done names /\ n_done a = k + List.length (filter snd (flagged done names)) /\
  (~ In cur names -> current a = c) /\ (forall j, NoDup names -> nth_error names j = Some cur -> current a = ind + j) /\
  (current a = c \/ ind <= current a < ind + List.length names).
Proof.
  induction names as [|n names IH]; intros ind c es k; cbv zeta; cbn [mark exercises n_done current].
  - cbn. rewrite app_nil_r. repeat split; try lia. intros [|j] _ H; discriminate H.
  - specialize (IH (S ind) (if bytes_eqb n cur then ind else c) (es ++ [(n, existsb (bytes_eqb n) done)])
      (if existsb (bytes_eqb n) done then S k else k)).
    cbv zeta in IH. destruct IH as (E & K & N & P & B). rewrite E, K. cbn [flagged map filter snd]. repeat split.
    + rewrite <- app_assoc. reflexivity.
    + unfold flagged. destruct (existsb (bytes_eqb n) done); cbn [List.length]; lia.
    + intros I. rewrite N; [|intros J; apply I; right; exact J]. destruct (bytes_eqb n cur) eqn:Q; [|reflexivity].
      apply bytes_eqb_spec in Q. destruct I. left. exact Q.
    + intros [|j] D H; inversion D as [|x y Nn D']; subst.
      * injection H as ->. rewrite N by exact Nn. rewrite (proj2 (bytes_eqb_spec cur cur) eq_refl). lia.
      * rewrite (P j D' H). lia.
    + cbn [List.length]. destruct (bytes_eqb n cur); lia.
Qed.
Lemma flagged_same es : NoDup (map fst es) -> flagged (map fst (filter snd es)) (map fst es) = es.
Proof.
  intros D. assert (U : forall n d d', In (n, d) es -> In (n, d') es -> d = d').
  { induction es as [|[m e] es IH]; intros n d d' I J; [destruct I|]. cbn in D. inversion D as [|x y Nn D']; subst.
    destruct I as [I|I], J as [J|J]; [congruence| | |exact (IH D' _ _ _ I J)]; destruct Nn; apply in_map_iff.
    - exists (n, d'). split; [cbn; congruence|exact J].
    - exists (n, d). split; [cbn; congruence|exact I]. }
  unfold flagged. rewrite map_map. transitivity (map (fun e : exercise => e) es); [|apply map_id]. apply map_ext_in. intros [n d] I. cbn [fst]. f_equal.
  destruct d.
  - apply existsb_exists. exists n. split; [|apply bytes_eqb_spec; reflexivity]. apply in_map_iff. exists (n, true). split; [reflexivity|].
    apply filter_In. split; [exact I|reflexivity].
  - destruct (existsb _ _) eqn:Q; [|reflexivity]. apply existsb_exists in Q. destruct Q as (m & J & Q). apply bytes_eqb_spec in Q. subst m.
    apply in_map_iff in J. destruct J as ([m e] & Q & J). cbn in Q. subst m. apply filter_In in J. destruct J as [J T]. cbn in T. subst e.
    exact (U _ _ _ J I).
Qed.

(** What was written is found again at the next start. *)
Theorem C88_restored : forall a, good a -> load (map fst (exercises a)) (written a) = (a, true).
Proof.
  intros a ((D & F) & C & K). unfold load, written. rewrite split_header. cbn [skipn].
  destruct (nth_error (exercises a) (current a)) as [[n d]|] eqn:E; [|apply nth_error_None in E; lia].
  rewrite (nth_error_nth _ _ _ E). cbn [fst app].
  assert (I : In n (map fst (exercises a))) by (apply in_map_iff; exists (n, d); split; [reflexivity|exact (nth_error_In _ _ E)]).
  rewrite Forall_forall in F. destruct (F n I) as [Ne Nl]. rewrite <- Forall_forall in F. rewrite split_line by exact Nl.
  change (flat_map ?f ?l) with ([] ++ flat_map f l). rewrite split_done by (exact F || intros []).
  assert (Fu : until_empty (map fst (filter snd (exercises a))) = map fst (filter snd (exercises a))).
  { apply until_full. apply Forall_forall. intros x J. apply in_map_iff in J. destruct J as (e & <- & J). apply filter_In in J.
    rewrite Forall_forall in F. apply (F (fst e)). apply in_map. apply J. }
  destruct n as [|ch n]; [destruct (Ne eq_refl)|]. cbv beta iota. f_equal.
  refine (eq_trans (f_equal (fun x => mark x (ch :: n) 0 (map fst (exercises a)) (App 0 [] 0)) Fu) _). cbv beta.
  pose proof (mark_spec (map fst (filter snd (exercises a))) (ch :: n) (map fst (exercises a)) 0 0 [] 0) as M. cbv zeta in M.
  destruct M as (M1 & M2 & _ & M3 & _). rewrite flagged_same in M1, M2 by exact D. cbn [app] in M1. rewrite <- K in M2.
  specialize (M3 (current a) D (map_nth_error fst _ _ E)). cbn [Nat.add] in M2, M3.
  destruct (mark _ _ _ _ _) as [c' es' k']. cbn in M1, M2, M3. subst. destruct a; reflexivity.
Qed.
Print Assumptions C88_restored.
(** Whatever the file holds, the exercises are those of the course, the current one is one of them, and the counter is right. *)
Theorem C88_any_file : forall names file, names <> [] -> let a := fst (load names file) in
  map fst (exercises a) = names /\ current a < List.length (exercises a) /\ counted a.
Proof.
  intros names file N. assert (P : 0 < List.length names) by (destruct names; [destruct (N eq_refl)|cbn; lia]).
  assert (Fr : map fst (exercises (fresh names)) = names /\ current (fresh names) < List.length (exercises (fresh names)) /\ counted (fresh names)).
  { cbn. rewrite map_map, map_length. cbn. rewrite map_id. repeat split; [exact P|]. unfold counted. cbn. clear. induction names; [reflexivity|exact IHnames]. }
  cbv zeta. unfold load. destruct (skipn 2 (split_lines file)) as [|cur [|x done]]; try exact Fr. destruct cur as [|ch cur]; [exact Fr|]. cbn [fst].
  pose proof (mark_spec (until_empty done) (ch :: cur) names 0 0 [] 0) as M. cbv zeta in M. destruct M as (M1 & M2 & _ & _ & B).
  unfold counted. rewrite M1, M2. cbn [app]. unfold flagged at 1 2. rewrite map_map, map_length. cbn. rewrite map_id. repeat split. lia.
Qed.
Print Assumptions C88_any_file.

(** ** Marking *)
Lemma set_nth_same d : forall l i n e, nth_error l i = Some (n, e) -> nth_error (set_nth i d l) i = Some (n, d).
Proof. induction l as [|[m f] l IH]; intros [|i] n e H; try discriminate H; cbn in *; [injection H as -> ->; reflexivity|exact (IH _ _ _ H)]. Qed.
Lemma set_nth_other d : forall l i j, i <> j -> nth_error (set_nth i d l) j = nth_error l j.
Proof. induction l as [|[m f] l IH]; intros [|i] [|j] H; cbn; try reflexivity; [destruct (H eq_refl)|]. apply IH. lia. Qed.
Lemma set_nth_names d : forall l i, map fst (set_nth i d l) = map fst l.
Proof. induction l as [|[m f] l IH]; intros [|i]; cbn; try reflexivity. rewrite IH. reflexivity. Qed.
Lemma set_nth_count d : forall l i n, nth_error l i = Some (n, negb d) ->
  List.length (filter snd (set_nth i d l)) + (if d then 0 else 1) = List.length (filter snd l) + (if d then 1 else 0).
Proof.
  induction l as [|[m f] l IH]; intros [|i] n H; try discriminate H; cbn in H.
  - injection H as -> ->. destruct d; cbn; lia.
  - specialize (IH _ _ H). cbn. destruct f; cbn; lia.
Qed.
(** Marking an exercise never fails, changes this exercise only, keeps the counter right, and tells whether to save. *)
Theorem C88_marked : forall a i d, good a -> i < List.length (exercises a) -> exists a' changed, set_status i d a = Some (a', changed) /\
  good a' /\ current a' = current a /\ map fst (exercises a') = map fst (exercises a) /\
  (if d then is_done a' i else is_pending a' i) /\ (forall j, j <> i -> nth_error (exercises a') j = nth_error (exercises a) j) /\
  (changed = false <-> a' = a).
Proof.
  intros a i d G L. unfold set_status. destruct (nth_error (exercises a) i) as [[n e]|] eqn:E; [|apply nth_error_None in E; lia]. cbn [snd].
  destruct (Bool.eqb e d) eqn:Q.
  - apply eqb_prop in Q. subst e. exists a, false. split; [reflexivity|]. split; [exact G|]. repeat split; auto. destruct d; exists n; exact E.
  - apply eqb_false_iff in Q. assert (e = negb d) by (destruct e, d; cbn; congruence). subst e. destruct G as (Gn & Gc & K). unfold counted in K.
    pose proof (set_nth_count d _ _ _ E) as Ct.
    assert (X : exists k, (if d then Some (App (current a) (set_nth i d (exercises a)) (S (n_done a)), true)
      else match n_done a with 0 => None | S k => Some (App (current a) (set_nth i d (exercises a)) k, true) end) =
      Some (App (current a) (set_nth i d (exercises a)) k, true) /\ k = List.length (filter snd (set_nth i d (exercises a)))).
    { destruct d; [eexists; split; [reflexivity|lia]|]. destruct (n_done a) as [|k]; [lia|]. exists k. split; [reflexivity|lia]. }
    destruct X as (k & -> & Kk). exists (App (current a) (set_nth i d (exercises a)) k), true. split; [reflexivity|]. unfold good, counted. cbn.
    pose proof (set_nth_names d (exercises a) i) as Nm. rewrite Nm. assert (Ln : List.length (set_nth i d (exercises a)) = List.length (exercises a)).
    { apply (f_equal (@List.length bytes)) in Nm. rewrite !map_length in Nm. exact Nm. }
    rewrite Ln. pose proof (set_nth_same d _ _ _ _ E) as S. repeat split; try assumption; try apply Gn.
    + destruct d; exists n; exact S.
    + intros j J. apply set_nth_other. lia.
    + discriminate.
    + intros Q'. rewrite <- Q' in E. cbn in E. rewrite S in E. destruct d; discriminate E.
Qed.
Print Assumptions C88_marked.

(** ** The next exercise *)
Lemma first_pending_spec : forall l, match first_pending l with
  | Some i => (exists n, nth_error l i = Some (n, false)) /\ forall j n, nth_error l j = Some (n, false) -> i <= j
  | None => forall j n, nth_error l j <> Some (n, false) end.
Proof.
  induction l as [|[m f] l IH]; cbn [first_pending]; [intros [|j] n H; discriminate H|]. destruct f.
  - destruct (first_pending l) as [i|]; cbn [option_map].
    + destruct IH as [A B]. split; [exact A|]. intros [|j] n H; [discriminate H|]. specialize (B j n H). lia.
    + intros [|j] n H; [discriminate H|exact (IH j n H)].
  - split; [exists m; reflexivity|intros; lia].
Qed.
Lemma nth_skip {A} : forall k (l : list A) i, nth_error (skipn k l) i = nth_error l (k + i).
Proof. induction k as [|k IH]; intros [|x l] i; cbn; try reflexivity; [destruct i; reflexivity|apply IH]. Qed.
Lemma nth_first {A} : forall k (l : list A) i, i < k -> nth_error (firstn k l) i = nth_error l i.
Proof. induction k as [|k IH]; intros [|x l] [|i] H; try reflexivity; try lia. cbn. apply IH. lia. Qed.
(** The next exercise is a pending one, not the current one, and the first such one in turn; there is none only if all others are done. *)
Theorem C88_next : forall a, current a < List.length (exercises a) -> match next_pending a with
  | Some i => is_pending a i /\ i <> current a /\ forall j, is_pending a j -> j <> current a -> turn a i <= turn a j
  | None => forall j, j < List.length (exercises a) -> j <> current a -> is_done a j end.
Proof.
  intros a C. unfold next_pending. pose proof (first_pending_spec (skipn (S (current a)) (exercises a))) as A.
  pose proof (first_pending_spec (firstn (current a) (exercises a))) as B.
  destruct (first_pending (skipn (S (current a)) (exercises a))) as [i|]; cbn [option_map].
  - destruct A as [[n A] M]. rewrite nth_skip in A. split; [exists n; exact A|]. split; [lia|]. intros j [m J] N. unfold turn.
    destruct (Nat.ltb_spec (current a) (S (current a) + i)) as [_|Z]; [|lia]. pose proof (proj1 (nth_error_Some (exercises a) (S (current a) + i))) as Q.
    rewrite A in Q. specialize (Q ltac:(discriminate)). destruct (Nat.ltb_spec (current a) j) as [H|H]; [|lia].
    specialize (M (j - S (current a)) m). rewrite nth_skip in M. replace (S (current a) + (j - S (current a))) with j in M by lia. specialize (M J). lia.
  - destruct (first_pending (firstn (current a) (exercises a))) as [i|].
    + destruct B as [[n B] M]. assert (L : i < current a).
      { pose proof (proj1 (nth_error_Some (firstn (current a) (exercises a)) i)) as Q. rewrite B in Q. specialize (Q ltac:(discriminate)).
        rewrite firstn_length in Q. lia. }
      rewrite nth_first in B by exact L. split; [exists n; exact B|]. split; [lia|]. intros j [m J] N. unfold turn.
      destruct (Nat.ltb_spec (current a) i) as [Z|_]; [lia|]. destruct (Nat.ltb_spec (current a) j) as [H|H].
      * specialize (A (j - S (current a)) m). rewrite nth_skip in A. replace (S (current a) + (j - S (current a))) with j in A by lia. destruct (A J).
      * specialize (M j m). rewrite nth_first in M by lia. specialize (M J). lia.
    + intros j L N. destruct (nth_error (exercises a) j) as [[m d]|] eqn:J; [|apply nth_error_None in J; lia]. exists m. rewrite J.
      destruct d; [reflexivity|]. exfalso. destruct (Nat.ltb_spec (current a) j) as [H|H].
      * apply (A (j - S (current a)) m). rewrite nth_skip. replace (S (current a) + (j - S (current a))) with j by lia. exact J.
      * apply (B j m). rewrite nth_first by lia. exact J.
Qed.
Print Assumptions C88_next.

(** ** Examples and stops *)
Definition name (s : string) : bytes := list_ascii_of_string s.
Definition sample (d : bool) : progress := App 0 [(name "a", false); (name "ab", d)] (if d then 1 else 0).
Lemma sample_good d : good (sample d).
Proof.
  unfold good, good_names, counted. destruct d; cbn; (split; [split|split; [lia|reflexivity]]);
    repeat constructor; cbn; try discriminate; intuition discriminate.
Qed.
Example C88_sample : good (sample true) /\ load [name "a"; name "ab"] (written (sample true)) = (sample true, true) /\
  next_pending (sample true) = None /\ next_pending (sample false) = Some 1 /\ set_status 1 true (sample false) = Some (sample true, true).
Proof. split; [apply sample_good|]. repeat split. Qed.
(** The file is emptied before it is written: a stop in between loses everything. *)
Theorem C88_stops_refuted : ~ survives_stops.
Proof.
  intros S. set (o := App 1 [(name "a", true); (name "ab", false)] 1).
  assert (G : good o).
  { unfold good, good_names, counted. cbn. split; [split|split; [lia|reflexivity]]; repeat constructor; cbn; try discriminate; intuition discriminate. }
  destruct (S o o (firstn 0 (written o)) G G eq_refl (Within _ _ 0)) as [H|H]; discriminate H.
Qed.
Print Assumptions C88_stops_refuted.
(** A name that is cut off can be the name of another exercise, which is then taken for done. *)
Theorem C88_invented_refuted : ~ invents_nothing.
Proof.
  intros S. destruct (S (sample false) (sample true) (firstn 27 (written (sample true))) 0 (sample_good _) (sample_good _) eq_refl (Within _ _ 27)) as [[n H]|[n H]].
  - exists (name "a"). reflexivity.
  - discriminate H.
  - discriminate H.
Qed.
Print Assumptions C88_invented_refuted.
