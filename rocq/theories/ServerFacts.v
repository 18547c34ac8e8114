(** The language server with one project. *)
From Coq Require Import Bool Arith String List Lia Permutation.
From Verif Require Import Server ServerSpec.
Import ListNotations.
Open Scope list_scope.

Lemma get_put {A} x y (a : A) l : get x (put y a l) = if String.eqb y x then Some a else get x l.
Proof.
  induction l as [| [z b] r IH]; cbn; [reflexivity|].
  destruct (String.eqb_spec z y) as [-> | D]; cbn.
  - destruct (String.eqb y x); reflexivity.
  - rewrite IH. destruct (String.eqb_spec z x) as [-> | ], (String.eqb_spec y x) as [-> | ]; congruence.
Qed.
Lemma get_in {A} x (l : list (string * A)) a : get x l = Some a -> In (x, a) l.
Proof.
  induction l as [| [y b] r IH]; cbn; [discriminate|].
  destruct (String.eqb_spec y x) as [-> | ]; [intros [= ->]; auto | auto].
Qed.
Lemma get_none {A} x (l : list (string * A)) : get x l = None <-> ~ In x (map fst l).
Proof.
  induction l as [| [y b] r IH]; cbn; [tauto|].
  destruct (String.eqb_spec y x) as [-> | D]; [split; [discriminate | tauto]|]. rewrite IH. tauto.
Qed.
Lemma in_get {A} x (l : list (string * A)) a : NoDup (map fst l) -> In (x, a) l -> get x l = Some a.
Proof.
  induction l as [| [y b] r IH]; cbn; [intros _ []|].
  intros ND [H | H]; inversion ND as [| ? ? N1 N2]; subst.
  - injection H as -> ->. now rewrite String.eqb_refl.
  - destruct (String.eqb_spec y x) as [-> | ]; [| auto].
    contradict N1. now apply (in_map fst) in H.
Qed.
Lemma put_new {A} x (a : A) l : ~ In x (map fst l) -> put x a l = l ++ [(x, a)].
Proof.
  induction l as [| [y b] r IH]; cbn; [reflexivity|]. intros N.
  destruct (String.eqb_spec y x) as [-> | ]; [tauto|]. rewrite IH; tauto.
Qed.
Lemma put_keys {A} x (a : A) l y : In y (map fst (put x a l)) <-> y = x \/ In y (map fst l).
Proof.
  induction l as [| [z b] r IH]; cbn; [intuition|].
  destruct (String.eqb_spec z x) as [-> | ]; cbn; [intuition|]. rewrite IH. intuition.
Qed.
Lemma put_nodup {A} x (a : A) l : NoDup (map fst l) -> NoDup (map fst (put x a l)).
Proof.
  induction l as [| [z b] r IH]; cbn; [repeat constructor; intros []|].
  intros H. inversion H as [| ? ? N1 N2]; subst. destruct (String.eqb_spec z x) as [-> | ]; cbn; [exact H|].
  constructor; [| auto]. rewrite put_keys. tauto.
Qed.

Lemma nth_update_same n t l : n < length l -> nth_error (update n t l) n = Some t.
Proof.
  revert l. induction n as [| n IH]; intros [| a r] H; cbn in *; try lia; [reflexivity|]. apply IH. lia.
Qed.
Lemma nth_update_other n m t l : n <> m -> nth_error (update n t l) m = nth_error l m.
Proof.
  revert m l. induction n as [| n IH]; intros m [| a r] H; cbn; try reflexivity.
  - destruct m; [congruence | reflexivity].
  - destruct m; [reflexivity|]. cbn. apply IH. congruence.
Qed.
Lemma update_length n t l : length (update n t l) = length l.
Proof. revert l. induction n as [| n IH]; intros [| a r]; cbn; auto. Qed.

(** ** Contents *)
Lemma contents_map ts files (f : string -> string) :
  (forall p i, In (p, i) files -> nth_error ts i = Some (f p)) ->
  contents ts files = Some (map (fun e => (fst e, f (fst e))) files).
Proof.
  induction files as [| [p i] r IH]; intros H; [reflexivity|]. cbn.
  rewrite (H p i (or_introl eq_refl)), IH; [reflexivity|]. intros q j I. apply H. now right.
Qed.
Lemma modules_map mname root l : NoDup (map (fun e => mname root (fst e)) l) ->
  modules mname root l = map (fun e => (mname root (fst e), e)) l.
Proof.
  unfold modules.
  assert (H : forall acc, NoDup (map fst acc ++ map (fun e : string * string => mname root (fst e)) l) ->
    fold_left (fun m pt => put (mname root (fst pt)) pt m) l acc = acc ++ map (fun e => (mname root (fst e), e)) l).
  { induction l as [| e r IH]; intros acc ND; cbn; [now rewrite app_nil_r|].
    rewrite put_new.
    - rewrite IH; [now rewrite <- app_assoc|]. rewrite map_app, <- app_assoc. exact ND.
    - intros I. cbn in ND. apply NoDup_remove_2 in ND. apply ND, in_or_app. now left. }
  intros ND. rewrite H; [reflexivity | exact ND].
Qed.

Section one.
Variable check : list (string * string) -> string -> list string.
Variable mname : string -> string -> string.
Variable root : string.
Variable paths : list string.
Hypothesis paths_once : NoDup paths.
Hypothesis names_differ : forall p q, In p paths -> In q paths -> mname root p = mname root q -> p = q.

(** The modules of the project when the text of [p] is [f p]; the map lists the files in the
    reverse order of their loading. *)
Definition listed (f : string -> string) : list (string * string) := map (fun p => (mname root p, f p)) (rev paths).
Definition fresh (f : string -> string) (p : string) : list string := check (listed f) (mname root p).

(** ** The tracker *)
(** It holds the diagnostics of the project at its last revision. *)
Definition cache_is (f : string -> string) (t : tracker) : Prop :=
  forall p, In p paths -> get (mname root p) (t_cache t) = Some (p, fresh f p).
Record tracks (r : nat) (f : string -> string) (t : tracker) : Prop := Tracks {
  k_keys : forall m, In m (map fst (t_cache t)) -> exists p, In p paths /\ m = mname root p;
  k_once : NoDup (map fst (t_cache t));
  k_revs : forall m n, get m (t_revs t) = Some n -> exists last, t_last t = Some last /\ n <= last;
  k_last : forall last, t_last t = Some last -> last <= r /\ (last = r -> cache_is f t) }.

Lemma rev_in p : In p (rev paths) <-> In p paths.
Proof. symmetry. apply in_rev. Qed.
Lemma names_nodup : forall l, NoDup l -> incl l paths -> NoDup (map (mname root) l).
Proof.
  induction l as [| p r IH]; intros ND I; cbn; [constructor|].
  inversion ND; subst. constructor; [| apply IH; [assumption | intros x H; apply I; now right]].
  intros H. apply in_map_iff in H. destruct H as (q & E & Hq).
  apply names_differ in E; [congruence | apply I; now right | apply I; now left].
Qed.

(** Files with the paths of the project. *)
Lemma project_modules f files : map fst files = rev paths ->
  modules mname root (map (fun e : string * nat => (fst e, f (fst e))) files) =
  map (fun p => (mname root p, (p, f p))) (rev paths).
Proof.
  intros E. rewrite modules_map.
  - rewrite <- E, !map_map. reflexivity.
  - rewrite map_map. cbn. rewrite <- (map_map fst (mname root) files), E.
    apply names_nodup; [now apply NoDup_rev | intros p; apply rev_in].
Qed.

Lemma each_module_all r f (L : list (string * (string * string))) :
  module_texts L = listed f ->
  forall l t, incl l paths -> NoDup l ->
  NoDup (map fst (t_cache t)) ->
  (forall m, In m (map fst (t_cache t)) -> exists p, In p paths /\ m = mname root p) ->
  (forall p n, In p l -> get (mname root p) (t_revs t) = Some n -> n < r) ->
  let (t', ds) := each_module check r L (map (fun p => (mname root p, (p, f p))) l) t in
  ds = map (fun p => (p, fresh f p)) l
  /\ t_last t' = t_last t
  /\ NoDup (map fst (t_cache t'))
  /\ (forall m, In m (map fst (t_cache t')) -> exists p, In p paths /\ m = mname root p)
  /\ (forall p, In p l -> get (mname root p) (t_cache t') = Some (p, fresh f p))
  /\ (forall m, ~ In m (map (mname root) l) -> get m (t_cache t') = get m (t_cache t))
  /\ (forall m n, get m (t_revs t') = Some n -> n = r \/ get m (t_revs t) = Some n).
Proof.
  intros HL. induction l as [| p rest IH]; intros t Il ND Nc Kc Rv; cbn [map each_module].
  - repeat (split; [first [reflexivity | assumption]|]). split; [intros p []|]. split; [reflexivity | auto].
  - assert (Hp : In p paths) by (apply Il; now left).
    assert (C : changed r t (mname root p) = true).
    { unfold changed. destruct (get (mname root p) (t_revs t)) as [n |] eqn:G; [| reflexivity].
      apply Nat.ltb_lt. exact (Rv p n (or_introl eq_refl) G). }
    unfold one_module. rewrite C. unfold recompute. rewrite HL. fold (fresh f p).
    set (t1 := Tracker (put (mname root p) r (t_revs t)) (put (mname root p) (p, fresh f p) (t_cache t)) (t_last t)).
    inversion ND as [| ? ? N1 N2]; subst.
    specialize (IH t1).
    assert (D : forall q, In q rest -> mname root q <> mname root p).
    { intros q Hq E. apply names_differ in E; [congruence | apply Il; now right | exact Hp]. }
    assert (I1 : incl rest paths) by (intros x H; apply Il; now right).
    specialize (IH I1 N2 (put_nodup _ _ _ Nc)).
    assert (K1 : forall m, In m (map fst (t_cache t1)) -> exists p, In p paths /\ m = mname root p).
    { intros m H. apply put_keys in H. destruct H as [-> | H]; eauto. }
    specialize (IH K1).
    assert (R1 : forall q n, In q rest -> get (mname root q) (t_revs t1) = Some n -> n < r).
    { intros q n Hq G. cbn in G. rewrite get_put in G.
      destruct (String.eqb_spec (mname root p) (mname root q)) as [E | ]; [symmetry in E; destruct (D q Hq E)|].
      apply (Rv q n); [now right | exact G]. }
    specialize (IH R1).
    destruct (each_module check r L (map (fun p => (mname root p, (p, f p))) rest) t1) as [t' ds].
    destruct IH as (-> & L' & Nc' & Kc' & G' & O' & Rv').
    split; [reflexivity|]. split; [exact L'|]. split; [exact Nc'|]. split; [exact Kc'|]. split; [| split].
    + intros q [<- | Hq]; [| auto]. rewrite O'.
      * cbn. rewrite get_put, String.eqb_refl. reflexivity.
      * intros H. apply in_map_iff in H. destruct H as (q & E & Hq). exact (D q Hq E).
    + intros m H. rewrite O'; [| intros X; apply H; now right]. cbn. rewrite get_put.
      destruct (String.eqb_spec (mname root p) m) as [<- | ]; [| reflexivity]. destruct H. now left.
    + intros m n G. destruct (Rv' m n G) as [-> | G1]; [auto|]. cbn in G1. rewrite get_put in G1.
      destruct (String.eqb (mname root p) m); [left; congruence | now right].
Qed.

Lemma of_path_in p d (l : list (string * list string)) : NoDup (map fst l) -> In (p, d) l -> of_path p l = d.
Proof.
  induction l as [| [q e] r IH]; cbn; [intros _ []|]. intros ND H. inversion ND as [| ? ? N1 N2]; subst.
  assert (Z : forall l', ~ In p (map fst l') -> flat_map (fun d : string * list string => if String.eqb (fst d) p then snd d else []) l' = []).
  { induction l' as [| [q' e'] r' IH']; cbn; [reflexivity|]. intros N. destruct (String.eqb_spec q' p) as [-> | ]; [tauto|]. apply IH'. tauto. }
  destruct H as [[= -> ->] | H].
  - rewrite String.eqb_refl. rewrite Z; [apply app_nil_r | exact N1].
  - destruct (String.eqb_spec q p) as [-> | ]; [destruct N1; now apply (in_map fst) in H|]. exact (IH N2 H).
Qed.

Lemma cache_paths f t : NoDup (map fst (t_cache t)) ->
  (forall m, In m (map fst (t_cache t)) -> exists p, In p paths /\ m = mname root p) ->
  cache_is f t -> forall p, In p paths -> of_path p (map snd (t_cache t)) = fresh f p.
Proof.
  intros N K C p Hp. apply of_path_in.
  - assert (H : forall l, NoDup (map fst l) -> (forall e, In e l -> fst (snd e) = fst (snd e) /\ exists q, In q paths /\ fst e = mname root q /\ snd e = (q, fresh f q)) ->
        NoDup (map fst (map snd l))).
    { induction l as [| e r IH]; cbn; [constructor|]. intros ND H. inversion ND as [| ? ? N1 N2]; subst.
      constructor; [| apply IH; auto]. intros I. rewrite map_map in I. apply in_map_iff in I. destruct I as (e' & E & I).
      destruct (H e (or_introl eq_refl)) as (_ & q & Hq & Eq & Sq). destruct (H e' (or_intror I)) as (_ & q' & Hq' & Eq' & Sq').
      rewrite Sq, Sq' in E. cbn in E. subst q'. apply N1. rewrite Eq, <- Eq'. now apply in_map. }
    apply H; [exact N|]. intros [m d] I. split; [reflexivity|].
    destruct (K m) as (q & Hq & ->); [now apply (in_map fst) in I|]. exists q. split; [exact Hq|]. split; [reflexivity|].
    pose proof (in_get _ _ _ N I) as G. rewrite (C q Hq) in G. injection G as <-. reflexivity.
  - pose proof (C p Hp) as G. apply get_in in G. now apply (in_map snd) in G.
Qed.

Lemma project_diagnostics_ok r f t : tracks r f t ->
  let (t', ds) := project_diagnostics check r (map (fun p => (mname root p, (p, f p))) (rev paths)) t in
  tracks r f t' /\ t_last t' = Some r /\ forall p, In p paths -> of_path p ds = fresh f p.
Proof.
  intros [K1 K2 K3 K4]. unfold project_diagnostics.
  destruct (match t_last t with Some last => Nat.ltb last r | None => true end) eqn:N.
  - assert (HL : module_texts (map (fun p => (mname root p, (p, f p))) (rev paths)) = listed f).
    { unfold module_texts, listed. rewrite map_map. reflexivity. }
    pose proof (each_module_all r f _ HL (rev paths) t (fun p => proj1 (rev_in p)) (NoDup_rev paths_once) K2 K1) as H.
    assert (R : forall p n, In p (rev paths) -> get (mname root p) (t_revs t) = Some n -> n < r).
    { intros p n _ G. destruct (K3 _ _ G) as (last & E & Le). rewrite E in N. apply Nat.ltb_lt in N. lia. }
    specialize (H R).
    destruct (each_module check r _ (map (fun p => (mname root p, (p, f p))) (rev paths)) t) as [t' ds].
    destruct H as (-> & L' & Nc' & Kc' & G' & O' & Rv').
    split; [| split].
    + constructor; cbn.
      * exact Kc'.
      * exact Nc'.
      * intros m n G. exists r. split; [reflexivity|]. destruct (Rv' m n G) as [-> | G1]; [lia|].
        destruct (K3 _ _ G1) as (last & E & Le). rewrite E in N. apply Nat.ltb_lt in N. lia.
      * intros last [= <-]. split; [lia|]. intros _ p Hp. apply G'. now apply rev_in.
    + reflexivity.
    + intros p Hp. apply of_path_in.
      * rewrite map_map. cbn. rewrite map_id. now apply NoDup_rev.
      * apply in_map_iff. exists p. split; [reflexivity | now apply rev_in].
  - destruct (t_last t) as [last |] eqn:Lt; [| discriminate]. apply Nat.ltb_ge in N.
    destruct (K4 last eq_refl) as [Le C]. assert (last = r) by lia. subst last.
    split; [constructor; rewrite ?Lt; auto|]. split; [reflexivity|].
    apply cache_paths; auto.
Qed.

Lemma publish_shown files ds sh p : get p (publish_files files ds sh) =
  if existsb (fun f => String.eqb (fst f) p) files then Some (of_path p ds) else get p sh.
Proof.
  unfold publish_files. revert sh. induction files as [| [q i] r IH]; intros sh; cbn; [reflexivity|].
  rewrite IH, get_put. destruct (String.eqb_spec q p) as [-> | ]; cbn; [destruct (existsb _ r); reflexivity | reflexivity].
Qed.

(** ** Preparing files *)
Lemma prepare_ok : forall disk ts src ts' src' files,
  prepare disk ts src = (ts', src', files) ->
  NoDup (map fst disk) -> (forall p d, In (p, d) disk -> d <> None) ->
  map fst files = rev (map fst disk)
  /\ (forall p i, In (p, i) files -> get p src' = Some i)
  /\ (exists more, ts' = ts ++ more)
  /\ (forall p, ~ In p (map fst disk) -> get p src' = get p src)
  /\ (forall p i, get p src = Some i -> get p src' = Some i)
  /\ (forall p i, get p src = None -> get p src' = Some i ->
        length ts <= i /\ exists t, In (p, Some t) disk /\ nth_error ts' i = Some t)
  /\ (forall p q i, get p src = None -> get q src = None -> get p src' = Some i -> get q src' = Some i -> p = q).
Proof.
  induction disk as [| [p d] r IH]; intros ts src ts' src' files E ND NN.
  - cbn in E. injection E as <- <- <-. cbn.
    split; [reflexivity|]. split; [intros ? ? []|]. split; [exists []; now rewrite app_nil_r|].
    split; [reflexivity|]. split; [auto|]. split; intros; congruence.
  - cbn [prepare map] in *. cbn [map fst] in ND. inversion ND as [| ? ? N1 N2]; subst.
    assert (NN' : forall q e, In (q, e) r -> e <> None) by (intros q e H; apply (NN q e); now right).
    destruct (get p src) as [i |] eqn:G.
    + destruct (prepare r ts src) as [[ts1 src1] fs] eqn:P. injection E as <- <- <-.
      destruct (IH _ _ _ _ _ P N2 NN') as (F & S & M & O & Kp & Nw & Inj).
      cbn [rev]. split; [| split; [| split; [| split; [| split; [| split]]]]].
      * rewrite put_new; [now rewrite map_app, F|]. rewrite F. rewrite <- in_rev. exact N1.
      * intros q j H. rewrite put_new in H by (rewrite F, <- in_rev; exact N1).
        apply in_app_iff in H. destruct H as [H | [[= <- <-] | []]]; [auto|]. auto.
      * exact M.
      * intros q Nq. apply O. intros H. apply Nq. now right.
      * exact Kp.
      * intros q j Gq Gq'. destruct (Nw q j Gq Gq') as (Le & t & It & Nt). split; [exact Le|]. exists t. split; [now right | exact Nt].
      * exact Inj.
    + destruct d as [t |]; [| destruct (NN p None (or_introl eq_refl) eq_refl)].
      destruct (prepare r (ts ++ [t]) (put p (length ts) src)) as [[ts1 src1] fs] eqn:P. injection E as <- <- <-.
      destruct (IH _ _ _ _ _ P N2 NN') as (F & S & (more & M) & O & Kp & Nw & Inj).
      assert (Gp : get p src1 = Some (length ts)) by (rewrite O by exact N1; now rewrite get_put, String.eqb_refl).
      cbn [rev]. split; [| split; [| split; [| split; [| split; [| split]]]]].
      * rewrite put_new; [now rewrite map_app, F|]. rewrite F. rewrite <- in_rev. exact N1.
      * intros q j H. rewrite put_new in H by (rewrite F, <- in_rev; exact N1).
        apply in_app_iff in H. destruct H as [H | [[= <- <-] | []]]; auto.
      * exists (t :: more). rewrite M, <- app_assoc. reflexivity.
      * intros q Nq. rewrite O by (intros H; apply Nq; now right). rewrite get_put.
        destruct (String.eqb_spec p q) as [-> | ]; [destruct Nq; now left | reflexivity].
      * intros q j Gq. apply Kp. rewrite get_put. destruct (String.eqb_spec p q) as [-> | ]; congruence.
      * intros q j Gq Gq'. destruct (String.eqb_spec p q) as [<- | D].
        -- rewrite Gp in Gq'. injection Gq' as <-. split; [lia|]. exists t. split; [now left|].
           rewrite M. rewrite <- app_assoc, nth_error_app2, Nat.sub_diag by lia. reflexivity.
        -- destruct (Nw q j) as (Le & t' & It & Nt); [| exact Gq'|].
           { rewrite get_put. destruct (String.eqb_spec p q); congruence. }
           rewrite app_length in Le. cbn in Le. split; [lia|]. exists t'. split; [now right | exact Nt].
      * intros q q' j Gq Gq' Hq Hq'.
        assert (Far : forall x, x <> p -> get x src = None -> get x src1 = Some j -> length ts < j).
        { intros x Dx Gx Hx. destruct (Nw x j) as (Le & _); [| exact Hx|].
          - rewrite get_put. destruct (String.eqb_spec p x); congruence.
          - rewrite app_length in Le. cbn in Le. lia. }
        destruct (String.eqb_spec p q) as [<- | D1], (String.eqb_spec p q') as [<- | D2]; try reflexivity.
        -- rewrite Gp in Hq. injection Hq as <-. specialize (Far q' (not_eq_sym D2) Gq' Hq'). lia.
        -- rewrite Gp in Hq'. injection Hq' as <-. specialize (Far q (not_eq_sym D1) Gq Hq). lia.
        -- apply (Inj q q' j); auto; rewrite get_put;
             [destruct (String.eqb_spec p q) | destruct (String.eqb_spec p q')]; congruence.
Qed.
End one.
