(** Histories of the language server with one project: what is shown at the end. *)
From Coq Require Import Bool Arith String List Lia Permutation.
From Verif Require Import Server ServerSpec ServerFacts.
Import ListNotations.
Open Scope list_scope.

Definition text_of (d : texts_known) (p : string) : string := match d p with Some t => t | None => ""%string end.

(** A project that is loaded, or that a request still refers to. *)
Definition live (root : string) (c : nat) (s : server) : Prop :=
  In (RProject c) (queue s) \/ get root (current s) = Some c.

(** What may happen in a calm history: one project with the same readable files whenever it
    is loaded; a file of it is opened again only with the text it has; it is changed only
    when the project, and every request still to be served, refers to its latest opening;
    the database is not swapped. *)
Definition calm_step (root : string) (paths : list string) (e : event) (s : server) : Prop :=
  match e with
  | EOpen p t =>
    In p paths -> get root (current s) <> None ->
    exists i, get p (sources s) = Some i /\ nth_error (texts s) i = Some t
  | EChange p t =>
    In p paths -> forall c r files, live root c s -> nth_error (crates s) c = Some (r, files) ->
    get p files = get p (sources s)
  | ELoad r disk => r = root /\ map fst disk = paths /\ forall p d, In (p, d) disk -> d <> None
  | ESnapshot | ESwap => False
  | ETimer _ | EServe => True
  end.

Section one.
Variable check : list (string * string) -> string -> list string.
Variable mname : string -> string -> string.
Variable root : string.
Variable paths : list string.
Hypothesis paths_once : NoDup paths.
Hypothesis names_differ : forall p q, In p paths -> In q paths -> mname root p = mname root q -> p = q.

Fixpoint calm (es : list event) (s : server) : Prop :=
  match es with
  | [] => True
  | e :: r => calm_step root paths e s /\ match step check mname e s with Some s' => calm r s' | None => True end
  end.

Definition owns (s : server) (p : string) (i : nat) : Prop :=
  get p (sources s) = Some i \/ exists c r files, nth_error (crates s) c = Some (r, files) /\ In (p, i) files.
Definition waiting (s : server) : Prop :=
  (exists p, In p paths /\ In p (timers s)) \/ (exists p, In p paths /\ In (RFile p) (queue s))
  \/ (exists c, In (RProject c) (queue s)).
Definition right (d : texts_known) (s : server) : Prop :=
  forall p, In p paths -> get p (shown s) = Some (fresh check mname root paths (text_of d) p).

Record ok (d : texts_known) (s : server) : Prop := Ok {
  o_valid : forall p i, owns s p i -> i < length (texts s);
  o_once : forall p q i, owns s p i -> owns s q i -> p = q;
  o_none : forall p, get p (sources s) = None -> d p = None;
  o_text : forall p i, get p (sources s) = Some i -> nth_error (texts s) i = d p;
  o_crates : forall c r files, nth_error (crates s) c = Some (r, files) -> r = root /\ map fst files = rev paths;
  o_roots : forall p r, get p (roots s) = Some r -> r = root;
  o_in : forall p r, get p (roots s) = Some r -> In p paths;
  o_current : forall c, get root (current s) = Some c -> c < length (crates s);
  o_queue : forall c, In (RProject c) (queue s) -> c < length (crates s);
  o_loaded : get root (current s) <> None -> forall p, In p paths -> get p (roots s) = Some root /\ get p (sources s) <> None;
  o_unloaded : get root (current s) = None -> crates s = [] /\ t_last (track s) = None;
  o_live : forall c r files, live root c s -> nth_error (crates s) c = Some (r, files) ->
           forall p i, In (p, i) files -> nth_error (texts s) i = d p;
  o_track : tracks check mname root paths (revision s) (text_of d) (track s);
  o_shown : get root (current s) <> None -> right d s \/ waiting s }.

Lemma fresh_ext f g p : (forall q, In q paths -> f q = g q) -> fresh check mname root paths f p = fresh check mname root paths g p.
Proof.
  intros H. unfold fresh, listed. f_equal. apply map_ext_in. intros q Hq. rewrite H; [reflexivity|]. now apply in_rev.
Qed.
Lemma tracks_ext r f g t : (forall q, In q paths -> f q = g q) ->
  tracks check mname root paths r f t -> tracks check mname root paths r g t.
Proof.
  intros H [K1 K2 K3 K4]. constructor; auto. intros last E. destruct (K4 last E) as [Le C]. split; [exact Le|].
  intros Q p Hp. rewrite (C Q p Hp). f_equal. f_equal. now apply fresh_ext.
Qed.
Lemma tracks_later r f g t : tracks check mname root paths r f t -> tracks check mname root paths (S r) g t.
Proof.
  intros [K1 K2 K3 K4]. constructor; auto. intros last E. destruct (K4 last E) as [Le C]. split; lia.
Qed.
Lemma tracks_none r f g t : t_last t = None -> tracks check mname root paths r f t -> tracks check mname root paths r g t.
Proof. intros N [K1 K2 K3 K4]. constructor; auto. intros last E. congruence. Qed.
Lemma right_ext d d' s : (forall p, In p paths -> d p = d' p) -> right d s -> right d' s.
Proof.
  intros H R p Hp. rewrite (R p Hp). f_equal. apply fresh_ext. intros q Hq. unfold text_of. now rewrite H.
Qed.

Lemma map_once (f : string -> string) l : (forall q q', In q l -> In q' l -> f q = f q' -> q = q') -> NoDup l -> NoDup (map f l).
Proof.
  induction l as [| q r IH]; intros H N; cbn; constructor; inversion N as [| ? ? N1 N2]; subst.
  - intros I. apply in_map_iff in I. destruct I as (q' & E & I). apply N1.
    rewrite (H q q'); [exact I | now left | now right | now symmetry].
  - apply IH; [| exact N2]. intros x y Hx Hy. apply H; now right.
Qed.

Lemma start_ok : ok (fun _ => None) start.
Proof.
  constructor; cbn; try discriminate; try tauto; auto.
  - intros p i [H | (c & r & fs & H & _)]; cbn in H; [discriminate | destruct c; discriminate].
  - intros p q i [H | (c & r & fs & H & _)]; cbn in H; [discriminate | destruct c; discriminate].
  - intros c r fs H. destruct c; discriminate.
  - intros c r fs [[] | H]. discriminate.
  - constructor; cbn; try tauto; try discriminate. constructor.
Qed.

(** A request for the project shows what it should. *)
Lemma publish_ok d s s' c rest : ok d s -> live root c s ->
  incl rest (queue s) -> publish check mname c (set_queue rest s) = Some s' \/ publish check mname c (set_queue rest s) = None ->
  publish check mname c (set_queue rest s) <> None /\ (publish check mname c (set_queue rest s) = Some s' -> ok d s').
Proof.
  intros O L Ir _. unfold publish. cbn [set_queue crates texts revision track].
  assert (Hc : c < length (crates s)) by (destruct L; [eapply o_queue | eapply o_current]; eauto).
  apply nth_error_Some in Hc. destruct (nth_error (crates s) c) as [[r files] |] eqn:N; [| congruence].
  destruct (o_crates _ _ O _ _ _ N) as [-> Fp].
  assert (T : forall p i, In (p, i) files -> nth_error (texts s) i = Some (text_of d p)).
  { intros p i I. pose proof (o_live _ _ O c root files L N p i I) as E. rewrite E. unfold text_of.
    destruct (d p) eqn:D; [reflexivity|]. exfalso.
    assert (Hi : i < length (texts s)) by (eapply o_valid; [exact O | right; eauto]).
    apply nth_error_Some in Hi. congruence. }
  rewrite (contents_map _ _ _ T).
  rewrite (project_modules mname root paths paths_once names_differ (text_of d) files Fp).
  pose proof (project_diagnostics_ok check mname root paths paths_once names_differ _ _ _ (o_track _ _ O)) as PD.
  destruct (project_diagnostics check (revision s) _ (track s)) as [t ds]. destruct PD as (PT & PL & PS).
  split; [discriminate|]. intros [= <-].
  destruct O as [O1 O2 O3 O4 O5 O6 O7 O8 O9 O10 O11 O12 O13 O14]. constructor; cbn [set_queue revision texts crates sources roots current track timers queue shown]; try first [exact O1 | exact O2 | exact O3 | exact O4 | exact O5 | exact O6 | exact O7 | exact O8 | exact O9 | exact O10 | exact O11 | exact O12 | exact O13 | exact O14 | assumption].
  - intros c' H. apply O9, Ir, H.
  - intros Nn. exfalso. destruct (O11 Nn) as [E _]. rewrite E in N. destruct c; discriminate.
  - intros c' r' fs' L' N'. apply (O12 c' r' fs'); [| exact N']. destruct L' as [L' | L']; [left; apply Ir, L' | now right].
  - intros _. left. intros p Hp. cbn. rewrite publish_shown.
    assert (E : existsb (fun f => String.eqb (fst f) p) files = true).
    { apply existsb_exists. assert (I : In p (map fst files)) by (rewrite Fp; now apply -> in_rev).
      apply in_map_iff in I. destruct I as (f & E & I). exists f. split; [exact I|]. rewrite E. apply String.eqb_refl. }
    rewrite E. f_equal. now apply PS.
Qed.

Lemma know_new_some : forall disk d p t, d p = Some t -> know_new disk d p = Some t.
Proof.
  induction disk as [| [q [u |]] r IH]; intros d p t H; cbn; auto. apply IH.
  destruct (d q) eqn:Dq; [exact H|]. unfold know. destruct (String.eqb_spec q p) as [-> | ]; congruence.
Qed.
Lemma know_new_none : forall disk d p, ~ In p (map fst disk) -> know_new disk d p = d p.
Proof.
  induction disk as [| [q [u |]] r IH]; intros d p H; cbn in *; [reflexivity | | apply IH; tauto].
  rewrite IH by tauto. destruct (d q); [reflexivity|]. unfold know. destruct (String.eqb_spec q p); [tauto | reflexivity].
Qed.
Lemma know_new_disk : forall disk d p t, NoDup (map fst disk) -> d p = None -> In (p, Some t) disk -> know_new disk d p = Some t.
Proof.
  induction disk as [| [q [u |]] r IH]; intros d p t ND H I; cbn in *; [destruct I | |].
  - inversion ND as [| ? ? N1 N2]; subst. destruct I as [[= -> ->] | I].
    + rewrite H. apply know_new_some. unfold know. now rewrite String.eqb_refl.
    + apply IH; auto. destruct (d q) eqn:Dq; [exact H|]. unfold know. destruct (String.eqb_spec q p) as [-> | ]; [| exact H].
      destruct N1. now apply (in_map fst) in I.
  - inversion ND; subst. destruct I as [[=] | I]. auto.
Qed.
Lemma fold_roots files m p : get p (fold_left (fun m (f : string * nat) => put (fst f) root m) files m) =
  if existsb (fun f => String.eqb (fst f) p) files then Some root else get p m.
Proof.
  revert m. induction files as [| [q i] r IH]; intros m; cbn; [reflexivity|].
  rewrite IH, get_put. destruct (String.eqb q p), (existsb _ r); reflexivity.
Qed.
Lemma in_without p q l : In p (without q l) <-> In p l /\ p <> q.
Proof.
  unfold without. rewrite filter_In, negb_true_iff. split; intros [H1 H2]; (split; [exact H1|]).
  - now apply String.eqb_neq.
  - now apply String.eqb_neq.
Qed.

Lemma step_ok d s e : ok d s -> calm_step root paths e s ->
  exists s', step check mname e s = Some s' /\ ok (seen e d) s'.
Proof.
  intros O C. destruct e as [p t | p t | p | r disk | | |]; cbn [calm_step] in C; try contradiction.
  - (* open *)
    eexists. split; [reflexivity|]. cbn [seen].
    assert (Same : get root (current s) <> None -> forall q, In q paths -> know p t d q = d q).
    { intros Ld q Hq. unfold know. destruct (String.eqb_spec p q) as [-> | ]; [| reflexivity].
      destruct (C Hq Ld) as (i & G & N). rewrite <- N. exact (o_text _ _ O _ _ G). }
    assert (V : forall q i, owns s q i -> i < length (texts s)) by apply (o_valid _ _ O).
    pose proof O as O'. destruct O' as [O1 O2 O3 O4 O5 O6 O7 O8 O9 O10 O11 O12 O13 O14].
    assert (Cases : forall q i, owns (Server (revision s) (texts s ++ [t]) (crates s) (put p (length (texts s)) (sources s))
              (roots s) (current s) (track s) (timers s) (queue s ++ [RFile p]) (shown s) (snapshot s)) q i ->
              (q = p /\ i = length (texts s)) \/ owns s q i).
    { intros q i [H | H]; [| right; right; exact H]. cbn in H. rewrite get_put in H.
      destruct (String.eqb_spec p q) as [-> | ]; [left; split; congruence | right; now left]. }
    constructor; cbn [revision texts crates sources roots current track timers queue shown]; try first [exact O1 | exact O2 | exact O3 | exact O4 | exact O5 | exact O6 | exact O7 | exact O8 | exact O9 | exact O10 | exact O11 | exact O12 | exact O13 | exact O14 | assumption].
    + intros q i H. rewrite app_length. cbn. destruct (Cases q i H) as [[-> ->] | H']; [lia|]. specialize (V q i H'). lia.
    + intros q q' i H H'. destruct (Cases q i H) as [[-> E] | H1]; destruct (Cases q' i H') as [[-> E'] | H2]; auto.
      * specialize (V _ _ H2). lia.
      * specialize (V _ _ H1). lia.
      * eauto.
    + intros q. rewrite get_put. unfold know. destruct (String.eqb_spec p q); [discriminate | auto].
    + intros q i. rewrite get_put. unfold know. destruct (String.eqb_spec p q) as [-> | D].
      * intros [= <-]. rewrite nth_error_app2, Nat.sub_diag by lia. reflexivity.
      * intros G. rewrite nth_error_app1 by (apply (V q); now left). auto.
    + intros c H. apply in_app_iff in H. destruct H as [H | [[=] | []]]. auto.
    + intros Ld q Hq. destruct (O10 Ld q Hq) as [H1 H2]. split; [exact H1|]. rewrite get_put. destruct (String.eqb p q); [discriminate | exact H2].
    + intros c r fs L N q i I. assert (Lv : live root c s).
      { destruct L as [L | L]; [| now right]. cbn in L. apply in_app_iff in L. destruct L as [L | [[=] | []]]. now left. }
      assert (Ld : get root (current s) <> None).
      { destruct L as [L | L]; [| cbn in L; congruence]. intros Nn. destruct (O11 Nn) as [E _]. rewrite E in N. destruct c; discriminate. }
      rewrite nth_error_app1 by (apply (V q); right; eauto). rewrite Same; [eapply O12; eauto | exact Ld|].
      destruct (O5 _ _ _ N) as [_ F]. apply in_rev. rewrite <- F. now apply (in_map fst) in I.
    + destruct (get root (current s)) as [c |] eqn:Cu.
      * apply (tracks_ext _ (text_of d)); [| exact O13]. intros q Hq. unfold text_of. rewrite Same; [reflexivity | discriminate | exact Hq].
      * apply (tracks_none _ (text_of d)); [| exact O13]. apply O11. reflexivity.
    + intros Ld. destruct (O14 Ld) as [R | W].
      * left. apply (right_ext d); [| exact R]. intros q Hq. symmetry. auto.
      * right. destruct W as [W | [(q & Hq & W) | (c & W)]]; [now left | right; left | right; right].
        -- exists q. split; [exact Hq|]. apply in_or_app. now left.
        -- exists c. apply in_or_app. now left.
  - (* change *)
    cbn [step seen]. destruct (get p (sources s)) as [i |] eqn:G.
    2: { rewrite (o_none _ _ O _ G). eexists. split; [reflexivity | exact O]. }
    assert (Hi : i < length (texts s)) by (apply (o_valid _ _ O p); now left).
    rewrite (proj2 (Nat.ltb_lt _ _) Hi). eexists. split; [reflexivity|].
    assert (Dp : d p <> None) by (rewrite <- (o_text _ _ O _ _ G); now apply nth_error_Some).
    destruct (d p) as [t0 |] eqn:Dp'; [| congruence].
    pose proof O as O'. destruct O' as [O1 O2 O3 O4 O5 O6 O7 O8 O9 O10 O11 O12 O13 O14].
    assert (Other : forall q j, owns s q j -> q <> p -> i <> j).
    { intros q j H D E. subst j. apply D. apply (O2 q p i H). now left. }
    constructor; cbn [revision texts crates sources roots current track timers queue shown]; try first [exact O1 | exact O2 | exact O3 | exact O4 | exact O5 | exact O6 | exact O7 | exact O8 | exact O9 | exact O10 | exact O11 | exact O12 | exact O13 | exact O14 | assumption].
    + intros q j H. rewrite update_length. apply (O1 q j H).
    + intros q Gq. unfold know. destruct (String.eqb_spec p q) as [-> | ]; [congruence | auto].
    + intros q j Gq. unfold know. destruct (String.eqb_spec p q) as [-> | D].
      * rewrite G in Gq. injection Gq as <-. now apply nth_update_same.
      * rewrite nth_update_other; [auto|]. apply (Other q); [now left | congruence].
    + intros c r fs L N q j I. unfold know. destruct (String.eqb_spec p q) as [-> | D].
      * assert (Hq : In q paths).
        { destruct (O5 _ _ _ N) as [_ F]. apply in_rev. rewrite <- F. now apply (in_map fst) in I. }
        pose proof (C Hq c r fs L N) as E. destruct (O5 _ _ _ N) as [_ F].
        assert (ND : NoDup (map fst fs)) by (rewrite F; now apply NoDup_rev).
        rewrite (in_get _ _ _ ND I) in E. injection E as ->. now apply nth_update_same.
      * rewrite nth_update_other; [eapply O12; eauto|]. apply (Other q); [right; eauto | congruence].
    + apply (tracks_later _ (text_of d)). exact O13.
    + intros Ld. destruct (in_dec string_dec p paths) as [Hp | Hp].
      * right. left. exists p. split; [exact Hp | now left].
      * destruct (O14 Ld) as [R | W].
        -- left. intros q Hq. cbn. rewrite (R q Hq). f_equal. apply fresh_ext. intros x Hx. unfold text_of, know.
           destruct (String.eqb_spec p x) as [-> | ]; [contradiction | reflexivity].
        -- right. destruct W as [(q & Hq & W) | W]; [left | now right].
           exists q. split; [exact Hq|]. right. apply in_without. split; [exact W|]. congruence.
  - (* timer *)
    cbn [step seen]. destruct (existsb (String.eqb p) (timers s)); [| eauto].
    eexists. split; [reflexivity|].
    pose proof O as O'. destruct O' as [O1 O2 O3 O4 O5 O6 O7 O8 O9 O10 O11 O12 O13 O14].
    constructor; cbn [revision texts crates sources roots current track timers queue shown]; try first [exact O1 | exact O2 | exact O3 | exact O4 | exact O5 | exact O6 | exact O7 | exact O8 | exact O9 | exact O10 | exact O11 | exact O12 | exact O13 | exact O14 | assumption].
    + intros c H. apply in_app_iff in H. destruct H as [H | [[=] | []]]. auto.
    + intros c r fs L. apply O12. destruct L as [L | L]; [| now right]. cbn in L. apply in_app_iff in L. destruct L as [L | [[=] | []]]. now left.
    + intros Ld. destruct (O14 Ld) as [R | W]; [now left|]. right.
      destruct W as [(q & Hq & W) | [(q & Hq & W) | (c & W)]].
      * destruct (string_dec q p) as [-> | D].
        -- right. left. exists p. split; [exact Hq|]. apply in_or_app. right. now left.
        -- left. exists q. split; [exact Hq|]. apply in_without. auto.
      * right. left. exists q. split; [exact Hq|]. apply in_or_app. now left.
      * right. right. exists c. apply in_or_app. now left.
  - (* load *)
    destruct C as (-> & Dp & Dn). cbn [step].
    destruct (prepare disk (texts s) (sources s)) as [[ts src] files] eqn:P.
    eexists. split; [reflexivity|]. cbn [seen].
    assert (NDd : NoDup (map fst disk)) by now rewrite Dp.
    destruct (prepare_ok _ _ _ _ _ _ P NDd Dn) as (F & S & (more & M) & Oth & Kp & Nw & Inj).
    rewrite Dp in F.
    pose proof O as O'. destruct O' as [O1 O2 O3 O4 O5 O6 O7 O8 O9 O10 O11 O12 O13 O14].
    set (s' := Server _ _ _ _ _ _ _ _ _ _ _).
    assert (Fsrc : forall q i, owns s' q i -> get q src = Some i \/ owns s q i).
    { intros q i [H | (c & r & fs & N & I)]; [now left|]. cbn in N.
      destruct (lt_dec c (length (crates s))) as [Lc | Lc].
      - rewrite nth_error_app1 in N by exact Lc. right. right. eauto.
      - rewrite nth_error_app2 in N by lia. destruct (c - length (crates s)) as [| x]; cbn in N.
        + injection N as <- <-. left. auto.
        + destruct x; discriminate. }
    assert (Cases : forall q i, owns s' q i -> owns s q i \/ (get q (sources s) = None /\ get q src = Some i /\ length (texts s) <= i /\ i < length ts)).
    { intros q i H. destruct (Fsrc q i H) as [G | H']; [| now left].
      destruct (get q (sources s)) as [j |] eqn:Gq.
      - rewrite (Kp _ _ Gq) in G. injection G as ->. left. now left.
      - right. destruct (Nw q i Gq G) as (Le & t & _ & Nt). repeat split; auto. apply nth_error_Some. congruence. }
    assert (Text : forall q i, get q src = Some i -> nth_error ts i = know_new disk d q).
    { intros q i G. destruct (get q (sources s)) as [j |] eqn:Gq.
      - rewrite (Kp _ _ Gq) in G. injection G as ->. pose proof (O4 _ _ Gq) as E.
        assert (Hi : i < length (texts s)) by (apply (O1 q); now left).
        rewrite M, nth_error_app1 by exact Hi. rewrite E. apply nth_error_Some in Hi.
        destruct (d q) eqn:Dq; [symmetry; now apply know_new_some | congruence].
      - destruct (Nw q i Gq G) as (_ & t & It & Nt). rewrite Nt. symmetry. apply know_new_disk; auto. }
    assert (Fin : forall q, In q paths -> get q src <> None).
    { intros q Hq. assert (I : In q (map fst files)) by (rewrite F; now apply -> in_rev).
      apply in_map_iff in I. destruct I as ([q' i] & E & I). cbn in E. subst q'. rewrite (S _ _ I). discriminate. }
    assert (Same : get root (current s) <> None -> forall q, In q paths -> know_new disk d q = d q).
    { intros Ld q Hq. destruct (O10 Ld q Hq) as [_ Sq]. destruct (get q (sources s)) as [i |] eqn:Gq; [| congruence].
      pose proof (O4 _ _ Gq) as E. assert (Hi : i < length (texts s)) by (apply (O1 q); now left).
      apply nth_error_Some in Hi. destruct (d q) eqn:Dq; [now apply know_new_some | congruence]. }
    assert (Cur : get root (put root (length (crates s)) (current s)) = Some (length (crates s)))
      by (rewrite get_put, String.eqb_refl; reflexivity).
    constructor; cbn [s' revision texts crates sources roots current track timers queue shown].
    + intros q i H. destruct (Cases q i H) as [H' | (_ & _ & _ & H')]; [| exact H'].
      specialize (O1 q i H'). rewrite M, app_length. lia.
    + intros q q' i H H'. destruct (Cases q i H) as [H1 | (G1 & S1 & L1 & _)], (Cases q' i H') as [H2 | (G2 & S2 & L2 & _)].
      * eauto.
      * specialize (O1 _ _ H1). lia.
      * specialize (O1 _ _ H2). lia.
      * eauto.
    + intros q G. assert (Nq : ~ In q (map fst disk)) by (intros I; rewrite Dp in I; apply (Fin q I G)).
      rewrite know_new_none by exact Nq. apply O3. rewrite <- (Oth q Nq). exact G.
    + exact Text.
    + intros c r fs N. destruct (lt_dec c (length (crates s))) as [Lc | Lc].
      * rewrite nth_error_app1 in N by exact Lc. eauto.
      * rewrite nth_error_app2 in N by lia. destruct (c - length (crates s)) as [| x]; cbn in N.
        -- injection N as <- <-. auto.
        -- destruct x; discriminate.
    + intros q r. rewrite fold_roots. destruct (existsb _ files); [congruence | apply O6].
    + intros q r. rewrite fold_roots. destruct (existsb (fun f => String.eqb (fst f) q) files) eqn:X; [| apply O7].
      intros _. apply existsb_exists in X. destruct X as ([q' i] & I & E). apply String.eqb_eq in E. cbn in E. subst q'.
      apply in_rev. rewrite <- F. now apply (in_map fst) in I.
    + intros c. rewrite Cur. intros [= <-]. rewrite app_length. cbn. lia.
    + intros c H. rewrite app_length. cbn. apply in_app_iff in H. destruct H as [H | [[= <-] | []]]; [specialize (O9 c H)|]; lia.
    + intros _ q Hq. split; [| auto]. rewrite fold_roots.
      assert (X : existsb (fun f => String.eqb (fst f) q) files = true).
      { apply existsb_exists. assert (I : In q (map fst files)) by (rewrite F; now apply -> in_rev).
        apply in_map_iff in I. destruct I as (f & E & I). exists f. split; [exact I|]. rewrite E. apply String.eqb_refl. }
      now rewrite X.
    + rewrite Cur. discriminate.
    + intros c r fs L N q i I. destruct (lt_dec c (length (crates s))) as [Lc | Lc].
      * rewrite nth_error_app1 in N by exact Lc.
        assert (Ld : get root (current s) <> None).
        { intros Nn. destruct (O11 Nn) as [E _]. rewrite E in Lc. cbn in Lc. lia. }
        assert (Lv : live root c s).
        { destruct L as [L | L]; cbn in L.
          - apply in_app_iff in L. destruct L as [L | [[= <-] | []]]; [now left | lia].
          - rewrite Cur in L. injection L as <-. lia. }
        assert (Hi : i < length (texts s)) by (apply (O1 q); right; eauto).
        rewrite M, nth_error_app1 by exact Hi. rewrite Same; [eapply O12; eauto | exact Ld|].
        destruct (O5 _ _ _ N) as [_ F']. apply in_rev. rewrite <- F'. now apply (in_map fst) in I.
      * rewrite nth_error_app2 in N by lia. destruct (c - length (crates s)) as [| x]; cbn in N; [| destruct x; discriminate].
        injection N as <- <-. auto.
    + destruct (get root (current s)) as [c |] eqn:Cu.
      * apply (tracks_ext _ (text_of d)); [| exact O13]. intros q Hq. unfold text_of. rewrite Same; [reflexivity | discriminate | exact Hq].
      * apply (tracks_none _ (text_of d)); [| exact O13]. apply O11. reflexivity.
    + intros _. right. right. right. exists (length (crates s)). cbn. apply in_or_app. right. now left.
  - (* serve *)
    cbn [step seen]. destruct (queue s) as [| q rest] eqn:Q; [eauto|].
    assert (Ir : incl rest (queue s)) by (rewrite Q; intros x H; now right).
    assert (Clear : forall p, In (RFile p) (queue s) -> q = RFile p -> (get root (current s) <> None -> ~ In p paths) ->
              ok d (clear p (set_queue rest s))).
    { intros p _ Eq Np. pose proof O as O'. destruct O' as [O1 O2 O3 O4 O5 O6 O7 O8 O9 O10 O11 O12 O13 O14].
      constructor; cbn [clear set_queue revision texts crates sources roots current track timers queue shown]; try first [exact O1 | exact O2 | exact O3 | exact O4 | exact O5 | exact O6 | exact O7 | exact O8 | exact O9 | exact O10 | exact O11 | exact O12 | exact O13 | exact O14 | assumption].
      - intros c H. apply O9, Ir, H.
      - intros c r fs L. apply O12. destruct L as [L | L]; [left; apply Ir, L | now right].
      - intros Ld. destruct (O14 Ld) as [R | W].
        + left. intros x Hx. cbn. rewrite get_put. destruct (String.eqb_spec p x) as [-> | ]; [destruct (Np Ld Hx) | auto].
        + right. destruct W as [W | [(x & Hx & W) | (c & W)]]; [now left | right; left | right; right].
          * exists x. split; [exact Hx|]. cbn. rewrite Q in W. destruct W as [W | W]; [| exact W].
            rewrite Eq in W. injection W as ->. destruct (Np Ld Hx).
          * exists c. cbn. rewrite Q in W. destruct W as [W | W]; [congruence | exact W]. }
    assert (Pub : forall c, live root c s -> exists s', publish check mname c (set_queue rest s) = Some s' /\ ok d s').
    { intros c L. destruct (publish check mname c (set_queue rest s)) as [s' |] eqn:E.
      - exists s'. split; [reflexivity|].
        destruct (publish_ok d s s' c rest O L Ir (or_introl E)) as [_ H]. auto.
      - destruct (publish_ok d s s c rest O L Ir (or_intror E)) as [H _]. congruence. }
    destruct q as [p | c]; cbn [serve set_queue roots current].
    + destruct (get p (roots s)) as [r |] eqn:Rp.
      * pose proof (o_roots _ _ O _ _ Rp) as ->. destruct (get root (current s)) as [c |] eqn:Cu.
        -- apply Pub. now right.
        -- eexists. split; [reflexivity|]. apply Clear; [rewrite Q; now left | reflexivity | congruence].
      * eexists. split; [reflexivity|]. apply Clear; [rewrite Q; now left | reflexivity|].
        intros Ld Hp. destruct (o_loaded _ _ O Ld p Hp) as [E _]. congruence.
    + apply Pub. left. rewrite Q. now left.
Qed.

Lemma history_ok : forall es d s, ok d s -> calm es s ->
  exists s', history check mname es s = Some s' /\ ok (fold_left (fun d e => seen e d) es d) s'.
Proof.
  induction es as [| e r IH]; intros d s O C; [cbn; eauto|].
  destruct C as [C1 C2]. destruct (step_ok d s e O C1) as (s1 & E & O1).
  rewrite E in C2. cbn [history fold_left]. rewrite E. exact (IH _ _ O1 C2).
Qed.

Lemma loaded_stays : forall es s s', history check mname es s = Some s' -> calm es s ->
  get root (current s) <> None \/ (exists disk, In (ELoad root disk) es) -> get root (current s') <> None.
Proof.
  induction es as [| e r IH]; intros s s' H C L; cbn in H.
  - injection H as <-. destruct L as [L | (disk & [])]. exact L.
  - destruct C as [C1 C2]. destruct (step check mname e s) as [s1 |] eqn:E; [| discriminate].
    apply (IH s1 s' H C2).
    destruct L as [L | (disk & [-> | I])]; [left | left | right; eauto].
    + destruct e as [p t | p t | p | r0 disk | | |]; cbn in C1; try contradiction; cbn [step] in E.
      * injection E as <-. exact L.
      * destruct (get p (sources s)) as [i |]; [| injection E as <-; exact L].
        destruct (Nat.ltb i (length (texts s))); [injection E as <-; exact L | injection E as <-; exact L].
      * destruct (existsb (String.eqb p) (timers s)); injection E as <-; exact L.
      * destruct (prepare disk (texts s) (sources s)) as [[ts src] files]. injection E as <-. cbn. rewrite get_put.
        destruct (String.eqb r0 root); [discriminate | exact L].
      * assert (Pc : forall c x y, publish check mname c x = Some y -> current y = current x).
        { intros c x y. unfold publish. destruct (nth_error (crates x) c) as [[r1 fs] |]; [| discriminate].
          destruct (contents (texts x) fs); [| discriminate].
          destruct (project_diagnostics check (revision x) (modules mname r1 l) (track x)). intros [= <-]. reflexivity. }
        destruct (queue s) as [| [p | c] rest]; [injection E as <-; exact L | |].
        -- cbn in E. destruct (get p (roots s)) as [r1 |]; [destruct (get r1 (current s)) as [c |]|].
           ++ rewrite (Pc _ _ _ E). exact L.
           ++ injection E as <-. exact L.
           ++ injection E as <-. exact L.
        -- cbn in E. rewrite (Pc _ _ _ E). exact L.
    + cbn in E. destruct (prepare disk (texts s) (sources s)) as [[ts src] files]. injection E as <-. cbn. rewrite get_put.
      rewrite String.eqb_refl. discriminate.
Qed.

(** In a calm history the server never panics, and when nothing is left to do it shows what
    the compiler reports for the texts as they are. *)
Theorem shows_current : (forall l l' m, NoDup (map fst l) -> Permutation l l' -> check l m = check l' m) ->
  forall es, calm es start -> exists s, history check mname es start = Some s /\
  ((exists disk, In (ELoad root disk) es) -> idle s ->
   forall p, In p paths -> exists r, get p (shown s) = Some r /\ reports check mname root paths (documents es) p r).
Proof.
  intros Inv es C. destruct (history_ok es _ _ start_ok C) as (s & H & O). exists s. split; [exact H|].
  intros L [Q T] p Hp.
  pose proof (loaded_stays es start s H C (or_intror L)) as Ld.
  assert (R : right (documents es) s).
  { destruct (o_shown _ _ O Ld) as [R | W]; [exact R|]. exfalso.
    destruct W as [(q & _ & W) | [(q & _ & W) | (c & W)]]; rewrite ?Q, ?T in W; destruct W. }
  exists (fresh check mname root paths (text_of (documents es)) p). split; [apply (R p Hp)|].
  exists (map (fun q => (mname root q, text_of (documents es) q)) paths). split.
  - assert (K : forall l, incl l paths -> Forall2 (fun q e => fst e = mname root q /\ documents es q = Some (snd e)) l
               (map (fun q => (mname root q, text_of (documents es) q)) l)).
    { induction l as [| q r IH]; intros I; constructor; [| apply IH; intros x Hx; apply I; now right].
      cbn. split; [reflexivity|]. unfold text_of.
      destruct (o_loaded _ _ O Ld q (I q (or_introl eq_refl))) as [_ Sq].
      destruct (get q (sources s)) as [i |] eqn:G; [| congruence].
      pose proof (o_text _ _ O _ _ G) as E. assert (Hi : i < length (texts s)) by (apply (o_valid _ _ O q); now left).
      apply nth_error_Some in Hi. fold (documents es) in E.
      destruct (documents es q); congruence. }
    apply K, incl_refl.
  - unfold fresh, listed. apply Inv; [| apply Permutation_map; symmetry; apply Permutation_rev].
    rewrite map_map. cbn. apply map_once; [| now apply NoDup_rev].
    intros q q' Hq Hq'. apply names_differ; now apply in_rev.
Qed.
End one.
