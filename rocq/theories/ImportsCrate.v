(** Projects: imported names and called functions. *)
From Coq Require Import Bool String List Lia Permutation Arith.
From Verif Require Import Syn Imports ImportsSpec ImportsFacts.
Import ListNotations.
Open Scope list_scope.

Lemma graph_keys c : map fst (import_graph c) = map fst c.
Proof. unfold import_graph. rewrite map_map. apply map_ext. reflexivity. Qed.
Lemma get_graph c a : get a (import_graph c) = option_map (flat_map use_targets) (get a c).
Proof.
  induction c as [| [x m] r IH]; [reflexivity|]. cbn. destruct (String.eqb x a); [reflexivity | exact IH].
Qed.
Lemma in_targets m b : In b (flat_map use_targets m) <->
  exists u, In (IUse u) m /\ u_path u <> [] /\ b = String.concat "::" (u_path u).
Proof.
  rewrite in_flat_map. split.
  - intros ([f | s | k | u] & I & H); try destruct H.
    exists u. cbn in H. destruct (u_path u) eqn:U; [destruct H|]. destruct H as [<- | []].
    split; [exact I|]. split; [discriminate | reflexivity].
  - intros (u & I & N & ->). exists (IUse u). split; [exact I|]. cbn. destruct (u_path u); [congruence | now left].
Qed.
Lemma edge_imports c a b : NoDup (map fst c) -> (edge (import_graph c) a b <-> imports c a b).
Proof.
  intros ND. unfold edge, imports. rewrite get_graph. split.
  - intros (ns & H & I). destruct (get a c) as [m |] eqn:G; [| discriminate]. injection H as <-.
    apply in_targets in I. destruct I as (u & I). exists m, u. split; [now apply get_in | exact I].
  - intros (m & u & I & Iu). rewrite (in_get _ _ _ ND I). cbn. eexists. split; [reflexivity|].
    apply in_targets. eauto.
Qed.
Lemma reach_depends c a b : NoDup (map fst c) -> (reach (import_graph c) a b <-> depends c a b).
Proof.
  intros ND. split; induction 1; try (constructor; apply (edge_imports c _ _ ND); assumption).
  - econstructor 2; [apply (edge_imports c _ _ ND); eassumption | assumption].
  - econstructor 2; [apply (edge_imports c _ _ ND); eassumption | assumption].
Qed.
Lemma walk_chain c l : NoDup (map fst c) -> (walk (import_graph c) l <-> chain c l).
Proof.
  intros ND. induction l as [| a r IH]; [reflexivity|]. cbn. destruct r as [| b r]; [reflexivity|].
  rewrite (edge_imports c _ _ ND), IH. reflexivity.
Qed.

(** ** The order of a hash map does not matter to the search for cycles. *)
Lemma get_perm {A} (l l' : list (string * A)) : Permutation l l' -> NoDup (map fst l) -> forall x, get x l = get x l'.
Proof.
  intros P ND x.
  assert (ND' : NoDup (map fst l')) by (eapply Permutation_NoDup; [apply Permutation_map, P | exact ND]).
  destruct (get x l) as [a |] eqn:G.
  - symmetry. apply in_get; [exact ND'|]. eapply Permutation_in; [exact P|]. now apply get_in.
  - destruct (get x l') as [a |] eqn:G'; [| reflexivity].
    apply get_in in G'. apply Permutation_sym in P. apply (Permutation_in _ P) in G'.
    rewrite (in_get _ _ _ ND G') in G. discriminate.
Qed.

Lemma ascii_compare_lt_trans a b c : Ascii.compare a b = Lt -> Ascii.compare b c = Lt -> Ascii.compare a c = Lt.
Proof. unfold Ascii.compare. rewrite !BinNat.N.compare_lt_iff. apply BinNat.N.lt_trans. Qed.
Lemma ascii_compare_eq a b : Ascii.compare a b = Eq <-> a = b.
Proof.
  split; [apply Ascii.compare_eq_iff|]. intros ->. unfold Ascii.compare. apply BinNat.N.compare_refl.
Qed.
Lemma compare_eq a b : String.compare a b = Eq <-> a = b.
Proof. apply String.compare_eq_iff || (split; [apply String.compare_eq_iff | intros ->; induction b; cbn; [reflexivity|]; rewrite (proj2 (ascii_compare_eq a a) eq_refl); assumption]). Qed.
Lemma compare_lt_trans : forall a b c, String.compare a b = Lt -> String.compare b c = Lt -> String.compare a c = Lt.
Proof.
  induction a as [| x a IH]; intros [| y b] [| z c]; cbn; try discriminate; auto.
  destruct (Ascii.compare x y) eqn:XY; try discriminate.
  - apply ascii_compare_eq in XY as ->. destruct (Ascii.compare y z) eqn:YZ; try discriminate; auto.
    intros H1 H2. eauto.
  - intros _. destruct (Ascii.compare y z) eqn:YZ; try discriminate.
    + apply ascii_compare_eq in YZ as ->. now rewrite XY.
    + intros _. now rewrite (ascii_compare_lt_trans _ _ _ XY YZ).
Qed.
Lemma leb_lt a b : String.leb a b = true <-> String.compare a b = Lt \/ a = b.
Proof.
  unfold String.leb. destruct (String.compare a b) eqn:C.
  - apply compare_eq in C. tauto.
  - tauto.
  - split; [discriminate|]. intros [H | ->]; [discriminate|]. now rewrite (proj2 (compare_eq b b) eq_refl) in C.
Qed.
Lemma leb_trans a b c : String.leb a b = true -> String.leb b c = true -> String.leb a c = true.
Proof.
  rewrite !leb_lt. intros [H | ->] [H' | ->]; auto. left. eapply compare_lt_trans; eauto.
Qed.
Lemma leb_total a b : String.leb a b = false -> String.leb b a = true.
Proof. intros H. destruct (String.leb_total a b); [congruence | assumption]. Qed.
Lemma place_place x y l : place x (place y l) = place y (place x l).
Proof.
  induction l as [| z r IH]; cbn.
  - destruct (String.leb x y) eqn:XY, (String.leb y x) eqn:YX; try reflexivity.
    + now rewrite (String.leb_antisym _ _ XY YX).
    + apply leb_total in XY. congruence.
  - destruct (String.leb y z) eqn:YZ, (String.leb x z) eqn:XZ; cbn.
    + rewrite YZ, XZ. destruct (String.leb x y) eqn:XY, (String.leb y x) eqn:YX; try reflexivity.
      * now rewrite (String.leb_antisym _ _ XY YX).
      * apply leb_total in XY. congruence.
    + rewrite XZ. destruct (String.leb x y) eqn:XY; [| now rewrite YZ].
      rewrite (leb_trans _ _ _ XY YZ) in XZ. discriminate.
    + rewrite YZ. destruct (String.leb y x) eqn:YX; [| now rewrite XZ].
      rewrite (leb_trans _ _ _ YX XZ) in YZ. discriminate.
    + rewrite XZ, YZ. now rewrite IH.
Qed.
Lemma sorted_perm l l' : Permutation l l' -> sorted l = sorted l'.
Proof.
  induction 1 as [| x l l' P IH | x y l | l1 l2 l3 P1 IH1 P2 IH2]; cbn; try congruence.
  apply place_place.
Qed.

Lemma neighbours_ext rec rec' ns : (forall b v p, rec b v p = rec' b v p) ->
  forall v p, neighbours rec ns v p = neighbours rec' ns v p.
Proof.
  intros H. induction ns as [| b r IH]; intros v p; [reflexivity|]. cbn [neighbours].
  destruct (get b v) as [[| [| n]] |]; try reflexivity; try apply IH.
  rewrite H. destruct (rec' b (insert b 0 v) p) as [[[v' p'] [c |]] | |]; try reflexivity. apply IH.
Qed.
Lemma dfs_ext g g' : (forall x, get x g = get x g') -> forall k n v p, dfs k g n v p = dfs k g' n v p.
Proof.
  intros H. induction k as [| k IH]; intros n v p; [reflexivity|]. cbn [dfs].
  rewrite H. rewrite (neighbours_ext _ _ _ IH). reflexivity.
Qed.
Lemma search_ext g g' k : (forall x, get x g = get x g') -> forall ks v p, search k g ks v p = search k g' ks v p.
Proof.
  intros H. induction ks as [| n r IH]; intros v p; [reflexivity|]. cbn [search].
  destruct (get n v); [apply IH|]. rewrite (dfs_ext g g' H).
  destruct (dfs k g' n v p) as [[[v' p'] [c |]] | |]; try reflexivity. apply IH.
Qed.
Lemma names_perm g g' : Permutation g g' -> length (names g) = length (names g').
Proof.
  intros P. unfold names. rewrite !app_length. f_equal.
  - now rewrite !map_length, (Permutation_length P).
  - apply Permutation_length. now apply Permutation_flat_map.
Qed.
Theorem detect_perm c c' : Permutation c c' -> NoDup (map fst c) ->
  detect_import_cycle (import_graph c) = detect_import_cycle (import_graph c').
Proof.
  intros P ND. unfold detect_import_cycle.
  assert (Pg : Permutation (import_graph c) (import_graph c')) by apply Permutation_map, P.
  rewrite (names_perm _ _ Pg). rewrite (sorted_perm _ (map fst (import_graph c')) (Permutation_map _ Pg)).
  apply search_ext. apply get_perm; [exact Pg|]. now rewrite graph_keys.
Qed.

(** ** Names. *)
Lemma latest_from_spec x l : forall i j d, latest_from i x l = Some (j, d) ->
  i <= j /\ nth_error l (j - i) = Some (x, d).
Proof.
  induction l as [| [y d'] r IH]; cbn; [discriminate|]. intros i j d.
  destruct (latest_from (S i) x r) as [[j' d''] |] eqn:L.
  - intros [= <- <-]. destruct (IH _ _ _ L) as [Le N]. split; [lia|].
    replace (j' - i) with (S (j' - S i)) by lia. exact N.
  - destruct (String.eqb_spec y x) as [-> | ]; [| discriminate]. intros [= <- <-].
    split; [lia|]. now rewrite Nat.sub_diag.
Qed.
Lemma latest_nth m x j d : latest m x = Some (j, d) -> nth_error (root_defs m) j = Some (x, d).
Proof. intros H. apply latest_from_spec in H. destruct H as [_ H]. now rewrite Nat.sub_0_r in H. Qed.
Lemma latest_in m x j d : latest m x = Some (j, d) -> In (x, d) (root_defs m).
Proof. intros H. eapply nth_error_In, latest_nth, H. Qed.
Lemma latest_from_some x d l : forall i, In (x, d) l -> latest_from i x l <> None.
Proof.
  induction l as [| [y d'] r IH]; intros i; cbn; [intros []|]. intros [[= -> ->] | H].
  - rewrite String.eqb_refl. destruct (latest_from (S i) x r); discriminate.
  - specialize (IH (S i) H). destruct (latest_from (S i) x r); [discriminate | congruence].
Qed.

(** The item of a definition. *)
Definition item_of (d : rdef) : option item :=
  match d with RFun f => Some (IFn f) | RStruct s => Some (IStruct s) | RConst k => Some (IConst k) | RUse _ => None end.
Lemma root_item m x d i : In (x, d) (root_defs m) -> item_of d = Some i ->
  In i m /\ (forall u, i <> IUse u) /\ In x (introduces i).
Proof.
  unfold root_defs. rewrite in_app_iff, !in_flat_map.
  intros [([f | s | k | u] & I & H) | ([f | s | k | u] & I & H)]; cbn in H; try contradiction.
  - destruct H as [[= <- <-] | []]. intros [= <-]. split; [exact I|]. split; [discriminate | now left].
  - destruct H as [[= <- <-] | []]. intros [= <-]. split; [exact I|]. split; [discriminate | now left].
  - destruct (u_path u); [destruct H|]. apply in_map_iff in H. destruct H as (y & [= <- <-] & _). discriminate.
  - destruct H as [[= <- <-] | []]. intros [= <-]. split; [exact I|]. split; [discriminate | now left].
Qed.
Lemma root_use m x from : In (x, RUse from) (root_defs m) <->
  exists u, In (IUse u) m /\ u_path u <> [] /\ from = String.concat "::" (u_path u) /\ In x (introduces (IUse u)).
Proof.
  unfold root_defs. rewrite in_app_iff, !in_flat_map. split.
  - intros [([f | s | k | u] & I & H) | ([f | s | k | u] & I & H)]; cbn in H; try contradiction;
      try (destruct H as [[=] | []]).
    destruct (u_path u) eqn:U; [destruct H|]. apply in_map_iff in H. destruct H as (y & [= <- <-] & Iy).
    exists u. rewrite U. split; [exact I|]. split; [discriminate|]. split; [reflexivity | exact Iy].
  - intros (u & I & N & -> & Iy). left. exists (IUse u). split; [exact I|]. cbn.
    destruct (u_path u) eqn:U; [congruence|]. apply in_map_iff. exists x. split; [reflexivity | exact Iy].
Qed.
Lemma root_has m x i : In i m -> (forall u, i <> IUse u) -> In x (introduces i) ->
  exists d, item_of d = Some i /\ In (x, d) (root_defs m).
Proof.
  intros I N H. destruct i as [f | s | k | u]; cbn in H; [| | | destruct (N u eq_refl)]; destruct H as [<- | []].
  - exists (RFun f). split; [reflexivity|]. apply in_or_app. left. apply in_flat_map. exists (IFn f). split; [exact I | now left].
  - exists (RStruct s). split; [reflexivity|]. apply in_or_app. left. apply in_flat_map. exists (IStruct s). split; [exact I | now left].
  - exists (RConst k). split; [reflexivity|]. apply in_or_app. right. apply in_flat_map. exists (IConst k). split; [exact I | now left].
Qed.

(** The type checker follows an import to an item the name stands for. *)
Lemma type_source_sound c : forall k at_ m x i d b j e,
  In (at_, m) c -> nth_error (root_defs m) i = Some (x, d) -> type_source k c at_ x i d = Done (Some (b, j, e)) ->
  exists mb it, In (b, mb) c /\ nth_error (root_defs mb) j = Some (x, e) /\ item_of e = Some it /\ stands_for c at_ x b it.
Proof.
  induction k as [| k IH]; [discriminate|]. intros at_ m x i d b j e Im Nd. cbn [type_source].
  destruct d as [f | s | q | from].
  1-3: intros [= <- <- <-]; eexists m, _; split; [exact Im|]; split; [exact Nd|]; split; [reflexivity|];
       destruct (root_item _ _ _ _ (nth_error_In _ _ Nd) eq_refl) as (A & B & D); econstructor; eauto.
  destruct (get from c) as [mf |] eqn:G; [| discriminate].
  destruct (latest mf x) as [[j' d'] |] eqn:L; [| discriminate].
  intros T. destruct (IH from mf x j' d' b j e (get_in _ _ _ G) (latest_nth _ _ _ _ L) T) as (mb & it & A & B & E & F).
  exists mb, it. split; [exact A|]. split; [exact B|]. split; [exact E|].
  apply nth_error_In, root_use in Nd. destruct Nd as (u & Iu & U & -> & Ix).
  eapply sf_use; eauto.
Qed.

Definition imports_checked (c : crate) : Prop := forall a m, In (a, m) c -> check_imports c m = [].

Lemma flat_map_nil {A B} (f : A -> list B) l : flat_map f l = [] -> forall x, In x l -> f x = [].
Proof.
  induction l as [| a r IH]; cbn; [intros _ x []|]. intros H x [<- | I];
    apply app_eq_nil in H; destruct H as [H1 H2]; auto.
Qed.

Lemma type_source_total c (ND : NoDup (map fst c)) t :
  placed (import_graph c) t -> imports_checked c ->
  forall k l1 at_ l2 m x i d, length l1 < k -> t = l1 ++ at_ :: l2 -> In (at_, m) c ->
  nth_error (root_defs m) i = Some (x, d) ->
  exists b j e, type_source k c at_ x i d = Done (Some (b, j, e)).
Proof.
  intros Pl Ck. induction k as [| k IH]; intros l1 at_ l2 m x i d Lt Et Im Nd; [lia|].
  cbn [type_source]. destruct d as [f | s | q | from]; try (do 3 eexists; reflexivity).
  pose proof (nth_error_In _ _ Nd) as Id.
  assert (E : edge (import_graph c) at_ from).
  { apply (edge_imports c _ _ ND). apply root_use in Id. destruct Id as (u & A & B & D & _). exists m, u. auto. }
  pose proof (flat_map_nil _ _ (Ck _ _ Im) _ Id) as K. cbn in K.
  destruct (get from c) as [mf |] eqn:G; [| discriminate].
  destruct (latest mf x) as [[j' d'] |] eqn:L; [| discriminate].
  pose proof (Pl _ _ _ Et _ E) as If. apply in_split in If. destruct If as (a1 & a2 & ->).
  apply (IH a1 from (a2 ++ at_ :: l2) mf x j' d').
  - rewrite app_length in Lt. cbn in Lt. lia.
  - rewrite Et, <- app_assoc. reflexivity.
  - now apply get_in.
  - now apply latest_nth.
Qed.

(** ** With every name introduced once, a name stands for one item. *)
Lemma nodup_flat {A B} (f : A -> list B) l : NoDup (flat_map f l) ->
  forall a b x, In a l -> In b l -> In x (f a) -> In x (f b) -> a = b.
Proof.
  induction l as [| h r IH]; [intros _ a b x []|]. cbn. intros ND a b x.
  assert (D : forall y, In y (f h) -> In y (flat_map f r) -> False).
  { clear - ND. induction (f h) as [| z q IHq]; [intros y []|]. cbn in ND. inversion ND; subst.
    intros y [<- | Hy] Hr; [apply H1, in_or_app; now right | eauto]. }
  assert (ND2 : NoDup (flat_map f r)).
  { clear - ND. induction (f h) as [| z q IHq]; [exact ND|]. cbn in ND. inversion ND; subst. auto. }
  intros [<- | Ia] [<- | Ib] Xa Xb; auto.
  - exfalso. apply (D x Xa). apply in_flat_map. eauto.
  - exfalso. apply (D x Xb). apply in_flat_map. eauto.
  - eauto.
Qed.

Lemma stands_for_det c (ND : NoDup (map fst c)) (N1 : forall a m, In (a, m) c -> names_once m) :
  forall a x b d, stands_for c a x b d -> forall b' d', stands_for c a x b' d' -> b' = b /\ d' = d.
Proof.
  induction 1 as [a m d x Im Id Nu Ix | a m u x b d Im Iu U Ix St IH]; intros b' d' S';
    inversion S' as [a' m' d2 x' Im' Id' Nu' Ix' | a' m' u' x' b2 d2 Im' Iu' U' Ix' St']; subst;
    pose proof (eq_trans (eq_sym (in_get _ _ _ ND Im)) (in_get _ _ _ ND Im')) as [= <-].
  - split; [reflexivity|]. exact (nodup_flat _ _ (N1 _ _ Im) _ _ x Id' Id Ix' Ix).
  - exfalso. apply (Nu u'). symmetry. exact (nodup_flat _ _ (N1 _ _ Im) _ _ x Iu' Id Ix' Ix).
  - exfalso. apply (Nu' u). symmetry. exact (nodup_flat _ _ (N1 _ _ Im) _ _ x Iu Id' Ix Ix').
  - pose proof (nodup_flat _ _ (N1 _ _ Im) _ _ x Iu' Iu Ix' Ix) as [= ->]. auto.
Qed.

(** ** Functions. *)
Lemma find_function_once m f : names_once m -> In (IFn f) m -> find_function_ast m (f_name f) = Some f.
Proof.
  intros N I.
  assert (H : forall m' , incl m' m -> In (IFn f) m' -> find_function_ast m' (f_name f) = Some f).
  { induction m' as [| h r IH]; [intros _ []|]. intros In_ Hf.
    assert (Ir : incl r m) by (intros y Hy; apply In_; now right).
    destruct h as [f' | s | k | u]; cbn [find_function_ast];
      try (destruct Hf as [[=] | Hf]; auto).
    - subst f'. now rewrite String.eqb_refl.
    - destruct (String.eqb_spec (f_name f') (f_name f)) as [Q | ]; [| auto].
      pose proof (nodup_flat _ _ N (IFn f') (IFn f) (f_name f) (In_ _ (or_introl eq_refl)) I (or_introl Q) (or_introl eq_refl)) as [= ->].
      reflexivity. }
  apply H; [apply incl_refl | exact I].
Qed.

Lemma root_fun m x f : In (x, RFun f) (root_defs m) -> x = f_name f /\ In (IFn f) m.
Proof.
  intros H. destruct (root_item _ _ _ _ H eq_refl) as (A & _ & B). cbn in B. destruct B as [<- | []]. auto.
Qed.

Lemma functions_of_in name m l : forall i n j x, In (n, j, x) (functions_of name m i l) ->
  n = name /\ i <= j /\ exists f, nth_error l (j - i) = Some (x, RFun f).
Proof.
  induction l as [| [y d] r IH]; intros i n j x; [intros []|].
  assert (Next : In (n, j, x) (functions_of name m (S i) r) ->
    n = name /\ i <= j /\ exists f, nth_error ((y, d) :: r) (j - i) = Some (x, RFun f)).
  { intros H. destruct (IH _ _ _ _ H) as (-> & L & f & N). split; [reflexivity|]. split; [lia|]. exists f.
    replace (j - i) with (S (j - S i)) by lia. exact N. }
  cbn [functions_of]. destruct d as [f | s | k | u]; auto.
  destruct (find_function_ast m y); auto. intros [[= <- <- <-] | H]; auto.
  split; [reflexivity|]. split; [lia|]. exists f. now rewrite Nat.sub_diag.
Qed.
Lemma functions_of_has name m l : forall i j x f, i <= j -> nth_error l (j - i) = Some (x, RFun f) ->
  find_function_ast m x <> None -> In (name, j, x) (functions_of name m i l).
Proof.
  induction l as [| [y d] r IH]; intros i j x f L N F; [destruct (j - i); discriminate|].
  assert (D : j = i \/ S i <= j) by lia. destruct D as [-> | L'].
  - rewrite Nat.sub_diag in N. injection N as -> ->. cbn. destruct (find_function_ast m x); [now left | congruence].
  - replace (j - i) with (S (j - S i)) in N by lia. cbn in N. specialize (IH (S i) j x f L' N F).
    cbn [functions_of]. destruct d as [f' | s | k | u]; auto. destruct (find_function_ast m y); [now right | exact IH].
Qed.

Lemma function_id_nth n i l : forall k, function_id n i l = Some k -> exists x, nth_error l k = Some (n, i, x).
Proof.
  induction l as [| [[m j] x] r IH]; cbn; [discriminate|]. intros k.
  destruct (String.eqb_spec m n) as [-> | ]; cbn.
  - destruct (Nat.eqb_spec j i) as [-> | ].
    + intros [= <-]. now exists x.
    + destruct (function_id n i r) as [q |]; [| discriminate]. cbn. intros [= <-]. exact (IH q eq_refl).
  - destruct (function_id n i r) as [q |]; [| discriminate]. cbn. intros [= <-]. exact (IH q eq_refl).
Qed.
Lemma function_id_has n i x l : In (n, i, x) l -> function_id n i l <> None.
Proof.
  induction l as [| [[m j] y] r IH]; cbn; [intros []|]. intros [[= -> -> ->] | H].
  - rewrite String.eqb_refl, Nat.eqb_refl. discriminate.
  - destruct (String.eqb m n && Nat.eqb j i); [discriminate|]. specialize (IH H).
    destruct (function_id n i r); [discriminate | congruence].
Qed.

(** The function lowered under the identifier of a definition. *)
Lemma lowered_id c order (P : Permutation order c) (ND : NoDup (map fst c)) n m i x f k :
  In (n, m) c -> names_once m -> nth_error (root_defs m) i = Some (x, RFun f) ->
  function_id n i (function_mapping order) = Some k ->
  nth_error (lowered order) k = Some (Some (n, f)).
Proof.
  intros Im N1 Nd Fk. apply function_id_nth in Fk. destruct Fk as (x' & Nk).
  unfold lowered. rewrite nth_error_map, Nk. cbn.
  assert (NDo : NoDup (map fst order)) by (eapply Permutation_NoDup; [apply Permutation_map, Permutation_sym, P | exact ND]).
  assert (Io : In (n, m) order) by (eapply Permutation_in; [apply Permutation_sym, P | exact Im]).
  rewrite (in_get _ _ _ NDo Io).
  apply nth_error_In in Nk. unfold function_mapping in Nk. apply in_flat_map in Nk.
  destruct Nk as ([n2 m2] & I2 & H). cbn in H. apply functions_of_in in H. destruct H as (<- & _ & f' & H).
  pose proof (eq_trans (eq_sym (in_get _ _ _ NDo Io)) (in_get _ _ _ NDo I2)) as [= <-].
  fold (root_defs m) in H. rewrite Nat.sub_0_r, Nd in H. injection H as <- <-.
  destruct (root_fun _ _ _ (nth_error_In _ _ Nd)) as [-> If]. rewrite (find_function_once _ _ N1 If). reflexivity.
Qed.
Lemma has_id c order (P : Permutation order c) n m i x f :
  In (n, m) c -> names_once m -> nth_error (root_defs m) i = Some (x, RFun f) ->
  exists k, function_id n i (function_mapping order) = Some k.
Proof.
  intros Im N1 Nd.
  destruct (function_id n i (function_mapping order)) as [k |] eqn:F; [eauto|]. exfalso.
  apply (function_id_has n i x (function_mapping order)); [| exact F].
  unfold function_mapping. apply in_flat_map. exists (n, m). split; [eapply Permutation_in; [apply Permutation_sym, P | exact Im]|].
  cbn. apply (functions_of_has n m _ 0 i x f); [lia | now rewrite Nat.sub_0_r|].
  destruct (root_fun _ _ _ (nth_error_In _ _ Nd)) as [-> If]. rewrite (find_function_once _ _ N1 If). discriminate.
Qed.

(** A call that is lowered calls the function the name stands for. *)
Lemma callee_sound c order (P : Permutation order c) (ND : NoDup (map fst c))
  (N1 : forall a m, In (a, m) c -> names_once m) a m x i d k :
  In (a, m) c -> nth_error (root_defs m) i = Some (x, d) -> resolve_callee c order a x i d = Some k ->
  exists b f, stands_for c a x b (IFn f) /\ nth_error (lowered order) k = Some (Some (b, f)).
Proof.
  intros Im Nd. destruct d as [f | s | q | from]; cbn [resolve_callee]; try discriminate.
  - intros F. exists a, f. split; [| eapply lowered_id; eauto].
    destruct (root_item _ _ _ _ (nth_error_In _ _ Nd) eq_refl) as (A & B & D). econstructor; eauto.
  - unfold resolve_imported_function.
    destruct (get from c) as [mf |] eqn:G; [| discriminate].
    destruct (latest mf x) as [[j [f | s | q | u]] |] eqn:L; try discriminate.
    intros F. pose proof (get_in _ _ _ G) as If. pose proof (latest_nth _ _ _ _ L) as Nf.
    exists from, f. split; [| eapply lowered_id; eauto].
    apply nth_error_In, root_use in Nd. destruct Nd as (u & Iu & U & -> & Ix).
    eapply sf_use; eauto.
    destruct (root_item _ _ _ _ (nth_error_In _ _ Nf) eq_refl) as (A & B & D). econstructor; eauto.
Qed.

(** With every name introduced once, the latest definition of a name is its only one. *)
Lemma latest_only (c : crate) (ND : NoDup (map fst c)) (N1 : forall a m, In (a, m) c -> names_once m) a m x f :
  In (a, m) c -> In (IFn f) m -> f_name f = x -> exists j, latest m x = Some (j, RFun f).
Proof.
  intros Im If Fx.
  destruct (root_has m x (IFn f) If ltac:(discriminate) (or_introl Fx)) as (d & Hd & Id).
  destruct d; try discriminate. injection Hd as ->.
  destruct (latest m x) as [[j d] |] eqn:L.
  2: { exfalso. exact (latest_from_some _ _ _ 0 Id L). }
  exists j. f_equal. f_equal. pose proof (latest_in _ _ _ _ L) as Il.
  destruct d as [f' | s | q | from].
  - destruct (root_fun _ _ _ Il) as [E If'].
    now pose proof (nodup_flat _ _ (N1 _ _ Im) (IFn f') (IFn f) x If' If (or_introl (eq_sym E)) (or_introl Fx)) as [= ->].
  - destruct (root_item _ _ _ _ Il eq_refl) as (A & _ & B).
    pose proof (nodup_flat _ _ (N1 _ _ Im) (IStruct s) (IFn f) x A If B (or_introl Fx)) as [=].
  - destruct (root_item _ _ _ _ Il eq_refl) as (A & _ & B).
    pose proof (nodup_flat _ _ (N1 _ _ Im) (IConst q) (IFn f) x A If B (or_introl Fx)) as [=].
  - apply root_use in Il. destruct Il as (u & A & _ & _ & B).
    pose proof (nodup_flat _ _ (N1 _ _ Im) (IUse u) (IFn f) x A If B (or_introl Fx)) as [=].
Qed.

(** A function of the module itself, or of a module from which it is imported, can be called. *)
Lemma callee_complete (c order : crate) (P : Permutation order c) (ND : NoDup (map fst c))
  (N1 : forall a m, In (a, m) c -> names_once m) a m x i d b mb f :
  In (a, m) c -> nth_error (root_defs m) i = Some (x, d) ->
  In (b, mb) c -> In (IFn f) mb -> f_name f = x -> stands_for c a x b (IFn f) ->
  a = b \/ d = RUse b ->
  exists k, resolve_callee c order a x i d = Some k.
Proof.
  intros Im Nd Ib If Fx St Dir. destruct d as [f' | s | q | from].
  - cbn. eapply has_id; eauto.
  - exfalso. destruct (root_item _ _ _ _ (nth_error_In _ _ Nd) eq_refl) as (A & B & E).
    destruct (stands_for_det c ND N1 _ _ _ _ (sf_item c a m (IStruct s) x Im A B E) _ _ St) as [_ [=]].
  - exfalso. destruct (root_item _ _ _ _ (nth_error_In _ _ Nd) eq_refl) as (A & B & E).
    destruct (stands_for_det c ND N1 _ _ _ _ (sf_item c a m (IConst q) x Im A B E) _ _ St) as [_ [=]].
  - cbn. unfold resolve_imported_function.
    assert (from = b) as ->.
    { destruct Dir as [<- | [= ->]]; [| reflexivity]. exfalso.
      pose proof (eq_trans (eq_sym (in_get _ _ _ ND Im)) (in_get _ _ _ ND Ib)) as [= <-].
      apply nth_error_In, root_use in Nd. destruct Nd as (u & A & _ & _ & B).
      pose proof (nodup_flat _ _ (N1 _ _ Im) (IUse u) (IFn f) x A If B (or_introl Fx)) as [=]. }
    rewrite (in_get _ _ _ ND Ib).
    destruct (latest_only c ND N1 b mb x f Ib If Fx) as [j L]. rewrite L.
    eapply has_id; [exact P | exact Ib | eapply N1, Ib | eapply latest_nth, L].
Qed.

Lemma type_source_more c : forall k at_ x i d r, type_source k c at_ x i d = Done r ->
  forall k', k <= k' -> type_source k' c at_ x i d = Done r.
Proof.
  induction k as [| k IH]; [discriminate|]. intros at_ x i d r H [| k'] L; [lia|].
  cbn [type_source] in *. destruct d; auto. destruct (get from c) as [m |]; auto.
  destruct (latest m x) as [[j d'] |]; auto. eapply IH; [exact H | lia].
Qed.
Lemma latest_introduced m x it : In it m -> In x (introduces it) -> (forall u, it = IUse u -> u_path u <> []) ->
  exists i d, latest m x = Some (i, d).
Proof.
  intros I X U.
  assert (exists d, In (x, d) (root_defs m)) as [d Id].
  { destruct it as [f | s | k | u].
    - destruct (root_has m x (IFn f) I ltac:(discriminate) X) as (d & _ & H). now exists d.
    - destruct (root_has m x (IStruct s) I ltac:(discriminate) X) as (d & _ & H). now exists d.
    - destruct (root_has m x (IConst k) I ltac:(discriminate) X) as (d & _ & H). now exists d.
    - exists (RUse (String.concat "::" (u_path u))). apply root_use. exists u. repeat split; auto. }
  destruct (latest m x) as [[i d'] |] eqn:L; [eauto|]. destruct (latest_from_some _ _ _ 0 Id L).
Qed.

Theorem resolves c : NoDup (map fst c) -> (forall a, ~ depends c a a) -> imports_checked c ->
  forall a m it x, In (a, m) c -> In it m -> In x (introduces it) -> (forall u, it = IUse u -> u_path u <> []) ->
  exists i d n b j e target, latest m x = Some (i, d)
    /\ (forall k, n <= k -> type_source k c a x i d = Done (Some (b, j, e)))
    /\ item_of e = Some target /\ stands_for c a x b target.
Proof.
  intros ND A Ck a m it x Im Iit Ix U.
  destruct (topo_sorted (import_graph c)) as (t & _ & _ & Pl & K).
  { intros y R. apply (A y). now apply reach_depends. }
  destruct (latest_introduced _ _ _ Iit Ix U) as (i & d & L).
  assert (It : In a t) by (apply K; rewrite graph_keys; now apply (in_map fst) in Im).
  apply in_split in It. destruct It as (l1 & l2 & Et).
  destruct (type_source_total c ND t Pl Ck (Datatypes.S (length l1)) l1 a l2 m x i d
              (Nat.lt_succ_diag_r _) Et Im (latest_nth _ _ _ _ L)) as (b & j & e & T).
  destruct (type_source_sound c _ _ _ _ _ _ _ _ _ Im (latest_nth _ _ _ _ L) T) as (mb & target & _ & _ & It & St).
  exists i, d, (Datatypes.S (length l1)), b, j, e, target. split; [exact L|].
  split; [| auto]. intros k Lk. eapply type_source_more; eauto.
Qed.
