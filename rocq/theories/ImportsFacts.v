(** The search for cycles and the sorting of modules. *)
From Coq Require Import Bool String List Lia Permutation Arith.
From Verif Require Import Syn Imports.
Import ListNotations.
Open Scope list_scope.

Definition edge (g : graph) (a b : string) : Prop := exists ns, get a g = Some ns /\ In b ns.
Inductive reach (g : graph) : string -> string -> Prop :=
| r_one a b : edge g a b -> reach g a b
| r_more a b d : edge g a b -> reach g b d -> reach g a d.

Lemma reach_app g a b d : reach g a b -> reach g b d -> reach g a d.
Proof. induction 1; intros; econstructor 2; eauto. Qed.

Definition targets (g : graph) (a : string) : list string := match get a g with Some ns => ns | None => [] end.
Lemma edge_targets g a b : edge g a b <-> In b (targets g a).
Proof.
  unfold edge, targets. split.
  - intros (ns & -> & H). exact H.
  - destruct (get a g); [eauto | intros []].
Qed.

Lemma get_in {A} x (l : list (string * A)) a : get x l = Some a -> In (x, a) l.
Proof.
  induction l as [| [y b] r IH]; cbn; [discriminate|].
  destruct (String.eqb_spec y x) as [-> | ]; [intros [= ->]; auto | auto].
Qed.
Lemma in_get {A} x (l : list (string * A)) a : NoDup (map fst l) -> In (x, a) l -> get x l = Some a.
Proof.
  induction l as [| [y b] r IH]; cbn; [intros _ []|].
  intros ND [H | H]; inversion ND as [| ? ? N1 N2]; subst.
  - injection H as -> ->. now rewrite String.eqb_refl.
  - destruct (String.eqb_spec y x) as [-> | ]; [| auto].
    contradict N1. now apply (in_map fst) in H.
Qed.
Lemma get_key {A} x (l : list (string * A)) : In x (map fst l) -> get x l <> None.
Proof.
  induction l as [| [y b] r IH]; cbn; [intros []|].
  intros [-> | H]; [rewrite String.eqb_refl; discriminate|].
  destruct (String.eqb_spec y x); [discriminate | auto].
Qed.
Lemma get_insert {A} x y (a : A) l : get x (insert y a l) = if String.eqb y x then Some a else get x l.
Proof. reflexivity. Qed.

Lemma targets_names g a b : In b (targets g a) -> In b (names g).
Proof.
  unfold targets, names. destruct (get a g) as [ns |] eqn:G; [| intros []].
  intros H. apply in_or_app. right. apply in_flat_map. exists (a, ns). split; [now apply get_in | exact H].
Qed.

(** ** The number of names not seen yet. *)
Definition white (g : graph) (v : list (string * nat)) : nat :=
  length (filter (fun x => match get x v with None => true | _ => false end) (names g)).

Lemma filter_le {A} (f h : A -> bool) l : (forall x, f x = true -> h x = true) ->
  length (filter f l) <= length (filter h l).
Proof.
  intros H. induction l as [| a r IH]; cbn; [lia|].
  destruct (f a) eqn:F; [rewrite (H _ F); cbn; lia|]. destruct (h a); cbn; lia.
Qed.
Lemma filter_lt {A} (f h : A -> bool) l a : (forall x, f x = true -> h x = true) ->
  In a l -> h a = true -> f a = false -> length (filter f l) < length (filter h l).
Proof.
  intros H I Ha Fa. induction l as [| b r IH]; [destruct I|]. destruct I as [-> | I]; cbn.
  - rewrite Ha, Fa. cbn. pose proof (filter_le f h r H). lia.
  - specialize (IH I). destruct (f b) eqn:F; [rewrite (H _ F); cbn; lia|]. destruct (h b); cbn; lia.
Qed.
Lemma filter_length_le {A} (f : A -> bool) l : length (filter f l) <= length l.
Proof. induction l as [| a r IH]; cbn; [lia|]. destruct (f a); cbn; lia. Qed.
Definition grows (v w : list (string * nat)) : Prop := forall x, get x v <> None -> get x w <> None.
Lemma white_grows g v w : grows v w -> white g w <= white g v.
Proof.
  intros G. apply filter_le. intros x. destruct (get x w) eqn:W; [discriminate|].
  destruct (get x v) eqn:V; [| auto]. exfalso. apply (G x); [congruence | exact W].
Qed.
Lemma grows_insert v x n : grows v (insert x n v).
Proof. intros y H. rewrite get_insert. destruct (String.eqb x y); [discriminate | exact H]. Qed.
Lemma grows_trans u v w : grows u v -> grows v w -> grows u w.
Proof. unfold grows. auto. Qed.
Lemma white_insert g v x n : In x (names g) -> get x v = None -> white g (insert x n v) < white g v.
Proof.
  intros I N. apply (filter_lt _ _ _ x).
  - intros y. rewrite get_insert. destruct (String.eqb x y); [discriminate | auto].
  - exact I.
  - now rewrite N.
  - now rewrite get_insert, String.eqb_refl.
Qed.

(** ** The invariant of the search for cycles. *)
Fixpoint walk (g : graph) (l : list string) : Prop :=
  match l with
  | a :: ((b :: _) as r) => edge g a b /\ walk g r
  | _ => True
  end.
Lemma walk_snoc g l a b : walk g (l ++ [a]) -> edge g a b -> walk g ((l ++ [a]) ++ [b]).
Proof.
  induction l as [| x r IH]; cbn; [auto|].
  destruct r as [| y r]; cbn in *; [tauto|]. intros [H1 H2] E. split; [exact H1 | exact (IH H2 E)].
Qed.
Lemma walk_skip g i l : walk g l -> walk g (skipn i l).
Proof.
  revert l. induction i as [| i IH]; [auto|]. intros [| a l]; [auto|]. cbn [skipn].
  intros W. apply IH. destruct l; [exact I | exact (proj2 W)].
Qed.
Definition closed_walk (g : graph) (l : list string) : Prop :=
  exists a mid, l = a :: mid ++ [a] /\ walk g l /\ NoDup (a :: mid).

Lemma position_some x l i : position x l = Some i -> exists r, skipn i l = x :: r.
Proof.
  revert i. induction l as [| y r IH]; cbn; [discriminate|]. intros i.
  destruct (String.eqb_spec y x) as [-> | ].
  - intros [= <-]. now exists r.
  - destruct (position x r) as [j |]; [| discriminate]. cbn. intros [= <-]. exact (IH j eq_refl).
Qed.
Lemma position_in x l : In x l -> position x l <> None.
Proof.
  induction l as [| y r IH]; cbn; [intros []|]. intros [-> | H].
  - rewrite String.eqb_refl. discriminate.
  - destruct (String.eqb y x); [discriminate|]. specialize (IH H). destruct (position x r); [discriminate | congruence].
Qed.
Lemma nodup_skipn {A} i (l : list A) : NoDup l -> NoDup (skipn i l).
Proof.
  revert l. induction i as [| i IH]; [auto|]. intros [| a l]; [auto|]. cbn. intros H. inversion H. auto.
Qed.

Record inv (g : graph) (v : list (string * nat)) (p : list string) : Prop := Inv {
  i_nodup : NoDup p;
  i_grey : forall x, get x v = Some 1 <-> In x p;
  i_black : forall x, get x v = Some 2 -> (forall y, edge g x y -> get y v = Some 2) /\ ~ reach g x x;
  i_walk : walk g p }.
(** A name is marked 1 or 2 (0 only just before its visit). *)
Definition settled (v : list (string * nat)) : Prop := forall x n, get x v = Some n -> n = 1 \/ n = 2.
Definition keeps (v w : list (string * nat)) : Prop := forall x, get x v = Some 2 -> get x w = Some 2.

Lemma black_reach g v p : inv g v p -> forall x y, reach g x y -> get x v = Some 2 -> get y v = Some 2.
Proof.
  intros I x y R. induction R as [x y E | x y z E R IH]; intros B.
  - exact (proj1 (i_black _ _ _ I _ B) _ E).
  - apply IH. exact (proj1 (i_black _ _ _ I _ B) _ E).
Qed.

(** What a visit promises. *)
Definition visit_ok (g : graph) (node : string) (v : list (string * nat)) (p : list string) (r : visit_result) : Prop :=
  match r with
  | Done ((v', p'), None) =>
    p' = p /\ inv g v' p /\ settled v' /\ get node v' = Some 2 /\ keeps v v' /\ grows v v'
  | Done (_, Some c) => closed_walk g c
  | _ => False
  end.
(** Before a visit: the path can be extended by [node], which is not on it. *)
Definition can_visit (g : graph) (node : string) (v : list (string * nat)) (p : list string) : Prop :=
  inv g v p /\ (get node v = None \/ get node v = Some 0) /\ (forall x n, get x v = Some n -> x <> node -> n = 1 \/ n = 2)
  /\ walk g (p ++ [node]).

Lemma enter g node v p : can_visit g node v p ->
  inv g (insert node 1 v) (p ++ [node]) /\ settled (insert node 1 v).
Proof.
  intros (I & N & S & W).
  assert (NI : ~ In node p) by (intros H; apply (i_grey _ _ _ I) in H; destruct N; congruence).
  split.
  - constructor.
    + apply (NoDup_Add (Add_app node p [])). rewrite app_nil_r. split; [exact (i_nodup _ _ _ I) | exact NI].
    + intros x. rewrite get_insert, in_app_iff. cbn [In]. destruct (String.eqb_spec node x) as [-> | D].
      * tauto.
      * rewrite (i_grey _ _ _ I). intuition.
    + intros x. rewrite get_insert. destruct (String.eqb_spec node x) as [-> | D]; [discriminate|].
      intros B. destruct (i_black _ _ _ I _ B) as [B1 B2]. split; [| exact B2].
      intros y E. rewrite get_insert. destruct (String.eqb_spec node y) as [-> | ]; [| auto].
      specialize (B1 _ E). destruct N; congruence.
    + exact W.
  - intros x n. rewrite get_insert. destruct (String.eqb_spec node x) as [-> | D]; [intros [= <-]; auto|].
    intros G. apply (S _ _ G). congruence.
Qed.

Lemma neighbours_ok g rec node (n : nat) :
  (forall b v p, can_visit g b v p -> white g (insert b 1 v) < n -> visit_ok g b v p (rec b v p)) ->
  forall ns v p,
  (forall b, In b ns -> edge g node b) ->
  inv g v (p ++ [node]) -> settled v -> white g v <= n ->
  match neighbours rec ns v (p ++ [node]) with
  | Done ((v', p'), None) =>
    p' = p ++ [node] /\ inv g v' (p ++ [node]) /\ settled v' /\ keeps v v' /\ grows v v'
    /\ forall b, In b ns -> get b v' = Some 2
  | Done (_, Some c) => closed_walk g c
  | _ => False
  end.
Proof.
  intros R. induction ns as [| b r IH]; intros v p E I S Wn.
  - cbn. repeat (split; [first [reflexivity | assumption | unfold keeps, grows; auto]|]). intros b [].
  - cbn [neighbours].
    assert (Er : forall b, In b r -> edge g node b) by (intros; apply E; now right).
    pose proof (E b (or_introl eq_refl)) as Eb.
    destruct (get b v) as [c |] eqn:G.
    + destruct (S _ _ G) as [-> | ->].
      * destruct (position b (p ++ [node])) as [i |] eqn:Q.
        -- destruct (position_some _ _ _ Q) as [r' Hr].
           rewrite Hr. exists b, r'. split; [reflexivity|].
           pose proof (walk_skip g i _ (i_walk _ _ _ I)) as W. rewrite Hr in W.
           pose proof (nodup_skipn i _ (i_nodup _ _ _ I)) as ND. rewrite Hr in ND.
           split; [| exact ND].
           assert (L : exists l, b :: r' = l ++ [node]).
           { rewrite <- Hr. exists (skipn i p). rewrite skipn_app.
             assert (Hi : i <= length p).
             { destruct (le_lt_dec i (length p)) as [L | L]; [exact L|]. exfalso.
               rewrite skipn_all2 in Hr; [discriminate|]. rewrite app_length. cbn. lia. }
             replace (i - length p) with 0 by lia. reflexivity. }
           destruct L as [l L]. rewrite L in *. now apply walk_snoc.
        -- apply (position_in b (p ++ [node])); [| exact Q]. now apply (i_grey _ _ _ I).
      * specialize (IH v p Er I S Wn).
        destruct (neighbours rec r v (p ++ [node])) as [[[v' p'] [c |]] | |]; auto.
        destruct IH as (-> & I' & S' & K & Gr & B). repeat (split; [assumption || reflexivity|]).
        intros x [<- | H]; auto.
    + assert (CV : can_visit g b (insert b 0 v) (p ++ [node])).
      { split; [| split; [| split]].
        - destruct I as [I1 I2 I3 I4]. constructor; [exact I1 | | | exact I4].
          + intros x. rewrite get_insert. destruct (String.eqb_spec b x) as [-> | D]; [| apply I2].
            rewrite <- I2, G. split; discriminate.
          + intros x. rewrite get_insert. destruct (String.eqb_spec b x) as [-> | D]; [discriminate|].
            intros B. destruct (I3 _ B) as [B1 B2]. split; [| exact B2]. intros y Ey.
            rewrite get_insert. destruct (String.eqb_spec b y) as [-> | ]; [| auto]. specialize (B1 _ Ey). congruence.
        - right. now rewrite get_insert, String.eqb_refl.
        - intros x m. rewrite get_insert. destruct (String.eqb_spec b x) as [-> | D]; [congruence|]. intros H _. exact (S _ _ H).
        - apply walk_snoc; [exact (i_walk _ _ _ I) | exact Eb]. }
      assert (Ib : In b (names g)) by (apply (targets_names g node); now apply edge_targets).
      specialize (R b (insert b 0 v) (p ++ [node]) CV).
      assert (Wb : white g (insert b 1 (insert b 0 v)) < n).
      { pose proof (white_insert g v b 0 Ib G).
        pose proof (white_grows g _ _ (grows_insert (insert b 0 v) b 1)). lia. }
      specialize (R Wb). unfold visit_ok in R.
      destruct (rec b (insert b 0 v) (p ++ [node])) as [[[v' p'] [c |]] | |]; auto.
      destruct R as (-> & I' & S' & Bb & K & Gr).
      assert (K0 : keeps v v').
      { intros x Bx. apply K. rewrite get_insert. destruct (String.eqb_spec b x) as [-> | ]; congruence. }
      assert (G0 : grows v v') by (eapply grows_trans; [apply grows_insert | exact Gr]).
      specialize (IH v' p Er I' S').
      assert (Wv' : white g v' <= n) by (pose proof (white_grows g _ _ G0); lia).
      specialize (IH Wv').
      destruct (neighbours rec r v' (p ++ [node])) as [[[v2 p2] [c |]] | |]; auto.
      destruct IH as (-> & I2 & S2 & K2 & Gr2 & B2).
      split; [reflexivity|]. split; [exact I2|]. split; [exact S2|].
      split; [intros x Bx; auto|]. split; [eapply grows_trans; eauto|].
      intros x [<- | H]; auto.
Qed.

Lemma dfs_ok g : forall fuel node v p, can_visit g node v p -> white g (insert node 1 v) < fuel ->
  visit_ok g node v p (dfs fuel g node v p).
Proof.
  induction fuel as [| k IH]; intros node v p CV Wf; [lia|].
  cbn [dfs]. fold (targets g node).
  destruct (enter g node v p CV) as [I S].
  pose proof (neighbours_ok g (dfs k g) node k IH (targets g node) (insert node 1 v) p) as Nb.
  specialize (Nb (fun b H => proj2 (edge_targets g node b) H) I S ltac:(lia)).
  destruct (neighbours (dfs k g) (targets g node) (insert node 1 v) (p ++ [node])) as [[[v' p'] [c |]] | |]; auto.
  destruct Nb as (-> & I' & S' & K & Gr & B).
  unfold visit_ok. rewrite removelast_last. split; [reflexivity|].
  destruct CV as (I0 & N & S0 & W).
  assert (NI : ~ In node p) by (intros H; apply (i_grey _ _ _ I0) in H; destruct N; congruence).
  assert (Gn : get node v' = Some 1) by (apply (i_grey _ _ _ I'); apply in_or_app; right; now left).
  split; [| split; [| split; [| split]]].
  - constructor.
    + exact (i_nodup _ _ _ I0).
    + intros x. rewrite get_insert. destruct (String.eqb_spec node x) as [-> | D].
      * split; [discriminate | tauto].
      * rewrite (i_grey _ _ _ I'), in_app_iff. cbn [In]. intuition.
    + intros x. rewrite get_insert. destruct (String.eqb_spec node x) as [-> | D].
      * intros _. split.
        -- intros y E. rewrite get_insert. destruct (String.eqb_spec x y); [reflexivity|]. apply B. now apply edge_targets.
        -- intros R. inversion R as [? ? E | ? y ? E R']; subst.
           ++ apply edge_targets in E. specialize (B _ E). congruence.
           ++ apply edge_targets in E. specialize (B _ E). pose proof (black_reach _ _ _ I' _ _ R' B). congruence.
      * intros Bx. destruct (i_black _ _ _ I' _ Bx) as [B1 B2]. split; [| exact B2].
        intros y E. rewrite get_insert. destruct (String.eqb node y); [reflexivity | auto].
    + exact (i_walk _ _ _ I0).
  - intros x n. rewrite get_insert. destruct (String.eqb node x); [intros [= <-]; auto | apply S'].
  - now rewrite get_insert, String.eqb_refl.
  - intros x Bx. rewrite get_insert. destruct (String.eqb_spec node x) as [-> | D]; [reflexivity|].
    apply K. rewrite get_insert. destruct (String.eqb_spec node x); congruence.
  - eapply grows_trans; [apply grows_insert|]. eapply grows_trans; [exact Gr | apply grows_insert].
Qed.

Lemma search_ok g : forall keys v,
  inv g v [] -> settled v ->
  match search (S (length (names g))) g keys v [] with
  | Done (Some c) => closed_walk g c
  | Done None => exists v', inv g v' [] /\ keeps v v' /\ forall x, In x keys -> get x v' = Some 2
  | _ => False
  end.
Proof.
  induction keys as [| n r IH]; intros v I S; cbn [search].
  - exists v. split; [exact I|]. split; [unfold keeps; auto | intros x []].
  - destruct (get n v) as [c |] eqn:G.
    + specialize (IH v I S). destruct (search _ g r v []) as [[c' |] | |]; auto.
      destruct IH as (v' & I' & K & B). exists v'. split; [exact I'|]. split; [exact K|].
      intros x [<- | H]; [| auto]. apply K. destruct (S _ _ G) as [-> | ->]; [| exact G].
      apply (i_grey _ _ _ I) in G. destruct G.
    + assert (CV : can_visit g n v []).
      { split; [exact I|]. split; [now left|]. split; [intros x m H _; exact (S _ _ H) | exact Logic.I]. }
      assert (Wl : white g (insert n 1 v) < Datatypes.S (length (names g))).
      { unfold white. pose proof (filter_length_le (fun x => match get x (insert n 1 v) with None => true | _ => false end) (names g)). lia. }
      pose proof (dfs_ok g _ n v [] CV Wl) as D. unfold visit_ok in D.
      destruct (dfs _ g n v []) as [[[v' p'] [c |]] | |]; auto.
      destruct D as (-> & I' & S' & B & K & Gr).
      specialize (IH v' I' S'). destruct (search _ g r v' []) as [[c' |] | |]; auto.
      destruct IH as (v2 & I2 & K2 & B2). exists v2. split; [exact I2|]. split; [intros x H; auto|].
      intros x [<- | H]; auto.
Qed.

Lemma in_place x y l : In x (place y l) <-> x = y \/ In x l.
Proof.
  induction l as [| z r IH]; cbn; [intuition|]. destruct (String.leb y z); cbn; [intuition|]. rewrite IH. intuition.
Qed.
Lemma in_sorted x l : In x (sorted l) <-> In x l.
Proof. induction l as [| y r IH]; cbn; [tauto|]. rewrite in_place, IH. intuition. Qed.

Theorem detect_ok g :
  match detect_import_cycle g with
  | Done (Some c) => closed_walk g c
  | Done None => forall x, ~ reach g x x
  | _ => False
  end.
Proof.
  unfold detect_import_cycle.
  assert (I : inv g [] []).
  { constructor; [constructor | intros x; cbn; split; [discriminate | tauto] | discriminate | exact Logic.I]. }
  pose proof (search_ok g (sorted (map fst g)) [] I) as H.
  specialize (H (fun x n E => ltac:(discriminate E))).
  destruct (search _ g _ [] []) as [[c |] | |]; auto.
  destruct H as (v & Iv & _ & B). intros x R.
  assert (Kx : In x (map fst g)).
  { assert (exists y, edge g x y) as (y & ns & Gx & _) by (inversion R; eauto).
    apply get_in in Gx. now apply (in_map fst) in Gx. }
  exact (proj2 (i_black _ _ _ Iv x (B x (proj2 (in_sorted _ _) Kx))) R).
Qed.

(** A closed walk is a cycle. *)
Lemma walk_reach g a l b : walk g (a :: l ++ [b]) -> reach g a b.
Proof.
  revert a. induction l as [| x r IH]; intros a; cbn [app].
  - intros [E _]. now constructor.
  - intros [E W]. econstructor 2; [exact E | exact (IH x W)].
Qed.
Lemma closed_walk_reach g c : closed_walk g c -> exists a, In a c /\ reach g a a.
Proof.
  intros (a & mid & -> & W & _). exists a. split; [now left | exact (walk_reach g a mid a W)].
Qed.

(** ** Sorting. *)
Definition twhite (g : graph) (v : list string) : nat :=
  length (filter (fun x => negb (mem x v)) (names g)).
Lemma mem_in x l : mem x l = true <-> In x l.
Proof.
  unfold mem. rewrite existsb_exists. split.
  - intros (y & H & E). apply String.eqb_eq in E. now subst.
  - intros H. exists x. split; [exact H | apply String.eqb_refl].
Qed.
Lemma twhite_incl g v w : incl v w -> twhite g w <= twhite g v.
Proof.
  intros G. apply filter_le. intros x H. apply negb_true_iff in H. apply negb_true_iff.
  destruct (mem x v) eqn:M; [| reflexivity]. apply mem_in, G, mem_in in M. congruence.
Qed.
Lemma twhite_cons g v x : In x (names g) -> mem x v = false -> twhite g (x :: v) < twhite g v.
Proof.
  intros I N. apply (filter_lt _ _ _ x).
  - intros y H. apply negb_true_iff in H. apply negb_true_iff. cbn in H. apply orb_false_iff in H. tauto.
  - exact I.
  - now rewrite N.
  - cbn. now rewrite String.eqb_refl.
Qed.

Definition placed (g : graph) (t : list string) : Prop :=
  forall l1 x l2, t = l1 ++ x :: l2 -> forall y, edge g x y -> In y l1.
(** [stack]: the names being visited; each leads to the next one to visit. *)
Record tinv (g : graph) (stack v t : list string) : Prop := TInv {
  t_set : forall x, In x v <-> In x t \/ In x stack;
  t_nodup : NoDup (t ++ stack);
  t_placed : placed g t }.

Lemma placed_snoc g t x : placed g t -> (forall y, edge g x y -> In y t) -> placed g (t ++ [x]).
Proof.
  intros Pt Hx l1 z l2 E y Ey.
  destruct l2 as [| w l2] using rev_ind.
  - apply app_inj_tail in E. destruct E as [-> ->]. auto.
  - clear IHl2. rewrite app_comm_cons, app_assoc in E. apply app_inj_tail in E. destruct E as [E _]. eauto.
Qed.

Definition topo_ok (g : graph) (stack : list string) (s : list string * list string) (done_ : list string)
  (r : run (list string * list string)) : Prop :=
  match r with
  | Done (v', t') => tinv g stack v' t' /\ incl (fst s) v' /\ incl (snd s) t'
      /\ (forall b, In b done_ -> In b v' )
  | _ => False
  end.

Lemma topo_loop_ok g rec stack n :
  (forall b s, tinv g stack (fst s) (snd s) -> mem b (fst s) = false -> (In b (names g)) ->
     (forall x, In x stack -> reach g x b) ->
     twhite g (b :: fst s) < n -> topo_ok g stack s [b] (rec b s)) ->
  forall ns s, (forall b, In b ns -> In b (names g)) ->
  (forall b, In b ns -> forall x, In x stack -> reach g x b) ->
  tinv g stack (fst s) (snd s) -> twhite g (fst s) <= n ->
  topo_ok g stack s ns (topo_loop rec ns s).
Proof.
  intros R. induction ns as [| b r IH]; intros [v t] N E I W; cbn [topo_loop fst snd].
  - cbn. split; [exact I|]. split; [apply incl_refl|]. split; [apply incl_refl|]. intros b [].
  - cbn [fst snd] in *.
    assert (Nr : forall b, In b r -> In b (names g)) by (intros; apply N; now right).
    assert (Er : forall b, In b r -> forall x, In x stack -> reach g x b) by (intros b' H; apply E; now right).
    destruct (mem b v) eqn:M.
    + specialize (IH (v, t) Nr Er I W). unfold topo_ok in *. cbn [fst snd] in *.
      destruct (topo_loop rec r (v, t)) as [[v' t'] | |]; auto. destruct IH as (I' & V & T & D).
      split; [exact I'|]. split; [exact V|]. split; [exact T|].
      intros x [<- | H]; [apply V, mem_in, M | auto].
    + pose proof (twhite_cons g v b (N b (or_introl eq_refl)) M) as Wb.
      specialize (R b (v, t) I M (N b (or_introl eq_refl)) (E b (or_introl eq_refl)) ltac:(cbn; lia)).
      unfold topo_ok in R. cbn [fst snd] in R.
      destruct (rec b (v, t)) as [[v' t'] | |]; auto. destruct R as (I' & V & T & D).
      specialize (IH (v', t') Nr Er I'). cbn [fst] in IH.
      specialize (IH ltac:(pose proof (twhite_incl g _ _ V); lia)).
      unfold topo_ok in *. cbn [fst snd] in *.
      destruct (topo_loop rec r (v', t')) as [[v2 t2] | |]; auto. destruct IH as (I2 & V2 & T2 & D2).
      split; [exact I2|]. split; [intros x H; auto|]. split; [intros x H; auto|].
      intros x [<- | H]; [apply V2, D; now left | auto].
Qed.

Lemma dfs_topo_ok g (A : forall x, ~ reach g x x) : forall fuel stack node s,
  tinv g stack (fst s) (snd s) -> mem node (fst s) = false -> In node (names g) ->
  (forall x, In x stack -> reach g x node) ->
  twhite g (node :: fst s) < fuel -> topo_ok g stack s [node] (dfs_topo fuel g node s).
Proof.
  induction fuel as [| k IH]; intros stack node [v t] I M N R W; [lia|].
  cbn [dfs_topo fst snd] in *. fold (targets g node).
  assert (Nv : ~ In node v) by (intros H; apply mem_in in H; congruence).
  assert (I1 : tinv g (node :: stack) (node :: v) t).
  { destruct I as [I1 I2 I3]. constructor; [| | exact I3].
    - intros x. cbn [In]. rewrite I1. tauto.
    - apply (NoDup_Add (Add_app node t stack)). split; [exact I2|].
      rewrite in_app_iff, <- I1. exact Nv. }
  assert (E1 : forall b, In b (targets g node) -> forall x, In x (node :: stack) -> reach g x b).
  { intros b Hb x [<- | Hx]; [now apply r_one, edge_targets|].
    eapply reach_app; [apply R, Hx | now apply r_one, edge_targets]. }
  pose proof (topo_loop_ok g (dfs_topo k g) (node :: stack) k) as L.
  specialize (L (fun b s H1 H2 H3 H4 H5 => IH (node :: stack) b s H1 H2 H3 H4 H5)).
  specialize (L (targets g node) (node :: v, t) (fun b H => targets_names g node b H) E1 I1).
  cbn [fst snd] in L. specialize (L ltac:(lia)).
  unfold topo_ok in *. cbn [fst snd] in *.
  destruct (topo_loop (dfs_topo k g) (targets g node) (node :: v, t)) as [[v' t'] | |]; auto.
  destruct L as ([T1 T2 T3] & V & T & D).
  split; [| split; [| split]].
  - constructor.
    + intros x. rewrite T1, in_app_iff. cbn [In]. intuition.
    + rewrite <- app_assoc. exact T2.
    + apply placed_snoc; [exact T3|]. intros y Ey. apply edge_targets in Ey.
      pose proof (D _ Ey) as Hy. apply T1 in Hy. destruct Hy as [Hy | Hy]; [exact Hy|]. exfalso.
      exact (A y (E1 y Ey y Hy)).
  - intros x H. apply V. now right.
  - intros x H. apply in_or_app. left. auto.
  - intros x [<- | []]. apply V. now left.
Qed.

Theorem topo_sorted g : (forall x, ~ reach g x x) ->
  exists t, topological_sort g = Done t /\ NoDup t /\ placed g t /\ incl (map fst g) t.
Proof.
  intros A. unfold topological_sort.
  pose proof (topo_loop_ok g (dfs_topo (S (length (names g))) g) [] (length (names g))) as L.
  assert (R : forall b s, tinv g [] (fst s) (snd s) -> mem b (fst s) = false -> In b (names g) ->
    (forall x, In x [] -> reach g x b) -> twhite g (b :: fst s) < length (names g) ->
    topo_ok g [] s [b] (dfs_topo (S (length (names g))) g b s)).
  { intros b s H1 H2 H3 H4 H5. apply dfs_topo_ok; auto. }
  specialize (L R (map fst g) ([], [])). cbn [fst snd] in L.
  assert (I : tinv g [] [] []).
  { constructor; [intros x; cbn; tauto | constructor | intros [| ? ?] ? ?; discriminate]. }
  specialize (L (fun b H => in_or_app _ _ _ (or_introl H)) (fun b _ x (H : In x []) => match H with end) I).
  specialize (L (filter_length_le _ _)).
  unfold topo_ok in L. destruct (topo_loop _ (map fst g) ([], [])) as [[v t] | |]; try contradiction.
  destruct L as ([T1 T2 T3] & _ & _ & D). exists t.
  split; [reflexivity|]. split; [now rewrite app_nil_r in T2|]. split; [exact T3|].
  intros x H. specialize (D x H). apply T1 in D. destruct D as [D | []]. exact D.
Qed.
