(** Proofs for C68: projects of several files. *)
From Coq Require Import ZArith NArith Bool String List Lia Arith Permutation.
From Verif Require Import Mir MirSem Src SrcSem SrcCheck SrcFacts Syn Sema SemaSpec Imports ImportsSpec ImportsFacts ImportsCrate
  Typing Elab Named ElabFacts ElabFile ElabCrate NamedCrate Prop_Sema.
Import ListNotations.
Open Scope list_scope.
Open Scope nat_scope.

(** The names of a module and its first definitions. *)
Lemma declared_names m : map fst (flat_map Imports.declared m) = flat_map global_names m.
Proof.
  induction m as [|i m IH]; [reflexivity|]. cbn [flat_map]. rewrite map_app, IH. f_equal. destruct i as [f|s|k|u]; try reflexivity.
  cbn. destruct (u_path u); [reflexivity|]. rewrite map_map. cbn. apply map_id.
Qed.
Lemma tops_once m : distinct (flat_map top_names m) = true -> names_once m.
Proof. intro H. apply distinct_nodup in H. unfold names_once. replace (flat_map introduces m) with (flat_map top_names m); [exact H|]. apply flat_map_ext. now intros []. Qed.
Lemma file_get c a : file_of c a = get a c.
Proof. induction c as [|(b & m) c IH]; cbn; [reflexivity|]. now rewrite IH. Qed.

(** The functions of a project in the order of their identifiers. *)
Definition all_functions (order : crate) : list (string * fdef) := flat_map (fun p => map (pair (fst p)) (fns_of (snd p))) order.
Definition funs (l : list (string * rdef)) : list fdef := flat_map (fun p => match snd p with RFun f => [f] | _ => [] end) l.
Lemma funs_root m : funs (root_defs m) = fns_of m.
Proof.
  unfold funs, root_defs. rewrite flat_map_app.
  assert (A : forall m, flat_map (fun p : string * rdef => match snd p with RFun f => [f] | _ => [] end) (flat_map Imports.constant m) = []).
  { clear. induction m as [|[f|s|k|u] m IH]; cbn; auto. }
  rewrite A, app_nil_r. clear A. induction m as [|i m IH]; [reflexivity|]. cbn [flat_map fns_of]. rewrite flat_map_app, IH.
  destruct i as [f|s|k|u]; cbn; try reflexivity. destruct (u_path u) as [|z pl]; [reflexivity|]. induction (Imports.use_names u) as [|y ys IHl]; [reflexivity|exact IHl].
Qed.
Lemma fns_in m d : In d (fns_of m) <-> In (IFn d) m.
Proof.
  induction m as [|i m IH]; [reflexivity|]. destruct i as [f|s|k|u]; cbn; rewrite IH; split; try (intro; now right); intros [E|I]; try discriminate E; auto.
  - subst f. now left.
  - injection E as ->. now left.
Qed.
Lemma function_mapping_lowered order0 name m : get name order0 = Some m -> forall l i, (forall x f, In (x, RFun f) l -> x = f_name f /\ find_function_ast m x = Some f) ->
  map (fun e => match e with (n, _, x) => match get n order0 with Some m => option_map (pair n) (find_function_ast m x) | None => None end end) (functions_of name m i l)
  = map Some (map (pair name) (funs l)) /\
  map (fun e => match e with (_, _, x) => x end) (functions_of name m i l) = map f_name (funs l).
Proof.
  intros G l. induction l as [|(x & d) l IH]; intros i H; [split; reflexivity|].
  assert (H' : forall y f, In (y, RFun f) l -> y = f_name f /\ find_function_ast m y = Some f) by (intros y f I; apply H; now right).
  destruct d as [f|s|k|u]; cbn [functions_of]; try exact (IH (S i) H').
  destruct (H x f (or_introl eq_refl)) as (-> & E). rewrite E. destruct (IH (S i) H') as (A & B). cbn [map funs flat_map snd app]. rewrite G, E. cbn [option_map]. split; f_equal; [exact A|exact B].
Qed.
Lemma lowered_all order : NoDup (map fst order) -> (forall a m, In (a, m) order -> names_once m) ->
  lowered order = map Some (all_functions order) /\ lowered_names order = map (fun p => f_name (snd p)) (all_functions order).
Proof.
  intros Nd N1. unfold lowered, lowered_names, function_mapping, all_functions.
  assert (K : forall l, incl l order ->
    map (fun e => match e with (n, _, x) => match get n order with Some m => option_map (pair n) (find_function_ast m x) | None => None end end)
      (flat_map (fun p => functions_of (fst p) (snd p) 0 (root_defs (snd p))) l) = map Some (flat_map (fun p => map (pair (fst p)) (fns_of (snd p))) l) /\
    map (fun e => match e with (_, _, x) => x end) (flat_map (fun p => functions_of (fst p) (snd p) 0 (root_defs (snd p))) l) =
      map (fun p => f_name (snd p)) (flat_map (fun p => map (pair (fst p)) (fns_of (snd p))) l)).
  { induction l as [|(a & m) l IH]; intro Il; [split; reflexivity|]. cbn [flat_map]. rewrite !map_app. destruct IH as (IH1 & IH2); [intros p Ip; apply Il; now right|].
    rewrite IH1, IH2. cbn [fst snd].
    assert (Im : In (a, m) order) by (apply Il; now left).
    destruct (function_mapping_lowered order a m (in_get _ _ _ Nd Im) (root_defs m) 0) as (A & B).
    { intros x f I. destruct (root_fun _ _ _ I) as (-> & If). split; [reflexivity|]. apply find_function_once; [exact (N1 _ _ Im)|exact If]. }
    rewrite A, B, funs_root. split; [reflexivity|]. f_equal. now rewrite map_map. }
  exact (K order (incl_refl _)).
Qed.
Lemma all_functions_in order b d : In (b, d) (all_functions order) <-> exists m, In (b, m) order /\ In (IFn d) m.
Proof.
  unfold all_functions. rewrite in_flat_map. split.
  - intros ((a & m) & I & H). cbn in H. apply in_map_iff in H as (g & [= -> ->] & H). exists m. split; [exact I|now apply fns_in].
  - intros (m & I & H). exists (b, m). split; [exact I|]. apply in_map. now apply fns_in.
Qed.
Lemma all_related (R : string -> fdef -> sfun -> Prop) : forall order l,
  Forall2 (fun p lm => Forall2 (R (fst p)) (fns_of (snd p)) lm) order l -> Forall2 (fun p f => R (fst p) (snd p) f) (all_functions order) (concat l).
Proof.
  induction 1 as [|(a & m) lm order l H _ IH]; [constructor|]. cbn [all_functions flat_map concat]. apply Forall2_app; [|exact IH].
  cbn [fst snd] in *. clear IH. induction H; cbn; constructor; auto.
Qed.

Lemma forall2_in {A B} (R S : A -> B -> Prop) l l' : Forall2 R l l' -> (forall a b, In a l -> R a b -> S a b) -> Forall2 S l l'.
Proof. induction 1; intro H'; constructor; [apply H'; [now left|assumption]|]. apply IHForall2. intros a b I. apply H'. now right. Qed.
Lemma stands_written c a x b d : stands_for c a x b (IFn d) -> x = f_name d /\ exists m, In (b, m) c /\ In (IFn d) m.
Proof.
  remember (IFn d) as i eqn:E. induction 1 as [a m i x Im Id Nu Ix | a m u x b i Im Iu U Ix St IH].
  - subst i. cbn in Ix. destruct Ix as [<-|[]]. split; [reflexivity|]. eauto.
  - auto.
Qed.

(** Reading one module. *)
Lemma module_read c order sg a m fs : elab_module c order sg (a, m) = Some fs ->
  NoDup (flat_map top_names m) /\ names_once m /\
  items (module_fn c order a m) sg (length (flat_map global_names m)) [] (numbered (flat_map global_names m) 0 ++ []) m fs.
Proof.
  unfold elab_module. cbn [fst snd]. destruct (distinct _) eqn:Di; [|discriminate]. intro E. split; [now apply distinct_nodup|]. split; [now apply tops_once|].
  assert (Len : length (flat_map Imports.declared m) = length (flat_map global_names m)) by (rewrite <- declared_names; now rewrite map_length). rewrite Len in E.
  rewrite C58_names_are_lexical in E. unfold names_in_file, walk_file in E. destruct (all_globals m [] 0) as (fd & Eg & Zg). unfold next in E. rewrite Eg in E. cbn [plus Nat.add] in E.
  pose proof (elab_items_read (module_fn c order a m) sg m (length (flat_map global_names m)) [] (numbered (flat_map global_names m) 0 ++ []) fs []) as K.
  destruct (all walk_item m _ _) as ((f2 & r2) & n2). cbn [both in_exprs] in E. rewrite Zg in E. rewrite app_nil_r in K. exact (K E).
Qed.

Section Crate.
Variables (c order : crate) (fs : list sfun) (means : meanings).
Hypothesis Perm : Permutation order c.
Hypothesis ND : NoDup (map fst c).
Hypothesis El : elab_crate c order = Some fs.
Hypothesis Kn : knows c means.

Lemma crate_read : exists sg l, fs = concat l /\ (forall a m, In (a, m) c -> names_once m) /\ NoDup (map fst order) /\
  lowered order = map Some (all_functions order) /\ lowered_names order = map (fun p => f_name (snd p)) (all_functions order) /\
  Forall2 (fun p s => signature (snd p) = Some s) (all_functions order) sg /\ map sig_of fs = sg /\
  Forall2 (fun p lm => elab_module c order sg p = Some lm) order l.
Proof using Perm ND El.
  clear Kn. unfold elab_crate in El. destruct (omap lowered_signature (lowered order)) as [sg|] eqn:Sg; [|discriminate El].
  destruct (omap (elab_module c order sg) order) as [l|] eqn:L; [|discriminate El]. injection El as <-.
  apply omap_forall2 in L. apply omap_forall2 in Sg. exists sg, l. split; [reflexivity|].
  assert (No : NoDup (map fst order)) by (eapply Permutation_NoDup; [apply Permutation_map, Permutation_sym, Perm|exact ND]).
  assert (N1 : forall a m, In (a, m) order -> names_once m).
  { intros a m I. apply In_nth_error in I as (k & I). destruct (forall2_nth _ _ _ L _ _ I) as (lm & _ & E). exact (proj1 (proj2 (module_read _ _ _ _ _ _ E))). }
  destruct (lowered_all order No N1) as (A & B).
  split; [intros a m I; apply (N1 a); eapply Permutation_in; [apply Permutation_sym, Perm|exact I]|]. split; [exact No|]. split; [exact A|]. split; [exact B|].
  assert (Sg' : Forall2 (fun p s => signature (snd p) = Some s) (all_functions order) sg).
  { rewrite A in Sg. clear - Sg. revert sg Sg. induction (all_functions order) as [|(a & d) r IH]; intros sg Sg; inversion Sg; subst; constructor; auto. }
  split; [exact Sg'|]. split; [|exact L].
  assert (X : Forall2 (fun p f => signature (snd p) = Some (sig_of f)) (all_functions order) (concat l)).
  { apply (all_related (fun _ d f => signature d = Some (sig_of f))). apply (forall2_in _ _ _ _ L). intros (a & m) lm _ E. cbn [snd].
    eapply items_signatures. exact (proj2 (proj2 (module_read _ _ _ _ _ _ E))). }
  clear - Sg' X. revert sg Sg'. induction X as [|p f r l' E _ IH]; intros sg Sg'; inversion Sg' as [|? s ? ? E' S']; subst; [reflexivity|]. cbn. rewrite E in E'. injection E' as <-. f_equal. auto.
Qed.

Lemma crate_means : module_ok fs = true -> forall F n k b d ps args a x,
  nth_error (all_functions order) k = Some (b, d) -> types_named (f_params d) = Some ps -> Forall2 fits ps args -> means a x = Some (b, d) ->
  project_call c means F n a x args = src_call fs F n k args /\
  (forall o, src_call fs F n k args = ROk o -> fit_ret (type_named (f_ret d)) o).
Proof using Perm ND El Kn.
  intros Ok F. destruct crate_read as (sg & l & -> & N1 & No & Lo & _ & Sg & Sgs & L).
  assert (Find : forall a m d k x, In (a, m) order -> refers (numbered (flat_map global_names m) 0 ++ []) x = Some d -> module_fn c order a m d = Some k ->
    exists b g, means a x = Some (b, g) /\ nth_error (all_functions order) k = Some (b, g)).
  { intros a m d k x Im Rx Fk. rewrite app_nil_r in Rx. apply refers_numbered in Rx as (_ & Rx). rewrite Nat.sub_0_r, <- declared_names, nth_error_map in Rx.
    unfold module_fn in Fk. destruct (nth_error (flat_map Imports.declared m) d) as [(y & def)|] eqn:Nd; [|discriminate Fk]. injection Rx as ->.
    assert (Nr : nth_error (root_defs m) d = Some (x, def)) by (unfold root_defs; rewrite nth_error_app1; [exact Nd|apply nth_error_Some; congruence]).
    destruct (callee_sound c order Perm ND N1 a m x d def k (Permutation_in _ Perm Im) Nr Fk) as (b & g & St & Ng).
    rewrite Lo, nth_error_map in Ng. destruct (nth_error (all_functions order) k) as [q|]; [|discriminate Ng]. injection Ng as ->.
    exists b, g. split; [now apply Kn|reflexivity]. }
  induction n as [|n IH]; intros k b d ps args a x Hk Ht Hf Hm; [split; [reflexivity|discriminate]|].
  assert (G : Forall2 (fun (p : string * fdef) (f : sfun) => exists m : module, In (fst p, m) order /\
     ElabFile.good sg F (src_call (concat l) F n) (project_call c means F n (fst p)) (params_in means (fst p))
       (constants (params_in means (fst p)) (project_call c means F n (fst p)) m (fun _ => None)) (snd p) f) (all_functions order) (concat l)).
  { refine (all_related (fun a d f => exists m, In (a, m) order /\ ElabFile.good sg F (src_call (concat l) F n) (project_call c means F n a) (params_in means a)
       (constants (params_in means a) (project_call c means F n a) m (fun _ => None)) d f) order l _).
    assert (K : forall p lm, In p order -> elab_module c order sg p = Some lm -> Forall2 (fun d f => exists m, In (fst p, m) order /\
       ElabFile.good sg F (src_call (concat l) F n) (project_call c means F n (fst p)) (params_in means (fst p))
       (constants (params_in means (fst p)) (project_call c means F n (fst p)) m (fun _ => None)) d f) (fns_of (snd p)) lm).
    { intros (a' & m) lm Im E. cbn [fst snd]. destruct (module_read _ _ _ _ _ _ E) as (Nd & _ & It).
      eapply forall2_in; [|intros d' f' _ X; exists m; split; [exact Im|exact X]].
      apply (items_good (module_fn c order a' m) sg F (numbered (flat_map global_names m) 0 ++ []) (length (flat_map global_names m))
               (src_call (concat l) F n) (project_call c means F n a') (params_in means a')) with (base := length (flat_map global_names m)) (ks := []) (rg := numbered (flat_map global_names m) 0 ++ []) (seen := []).
      - intros d' k' H. unfold module_fn in H. rewrite <- declared_names, map_length. apply nth_error_Some. destruct (nth_error _ d'); [discriminate|discriminate H].
      - intros y d' H. rewrite app_nil_r in H. apply refers_numbered in H as (_ & H). rewrite Nat.sub_0_r in H. apply nth_error_Some. congruence.
      - intros d' k' ps' t f vs E1 E2 E3 E4. destruct (Find _ _ _ _ _ Im E2 E3) as (b' & g & M & Eg). destruct (forall2_nth _ _ _ Sg _ _ Eg) as (q & Eq1 & Eq2). rewrite E1 in Eq1. injection Eq1 as <-.
        destruct (types_signature _ _ _ Eq2) as (X1 & X2). rewrite <- X2. exact (IH k' b' g ps' vs a' f Eg X1 E4 M).
      - intros d' k' ps' t f E1 E2 E3. destruct (Find _ _ _ _ _ Im E2 E3) as (b' & g & M & Eg). destruct (forall2_nth _ _ _ Sg _ _ Eg) as (q & Eq1 & Eq2). rewrite E1 in Eq1. injection Eq1 as <-.
        unfold params_in. rewrite M. exact (proj1 (types_signature _ _ _ Eq2)).
      - exact It.
      - split; [lia|]. split; [exists []; split; [reflexivity|constructor]|discriminate].
      - intros ? ? ? _ X. discriminate X.
      - intros y [].
      - exact (tops_consts m Nd). }
    exact (forall2_in _ _ _ _ L K). }
  destruct (forall2_nth _ _ _ G _ _ Hk) as (f & Ef & m & Im & S1 & Gf). cbn [fst snd] in *.
  destruct (types_signature _ _ _ S1) as (T1 & T2). rewrite T1 in Ht. injection Ht as <-.
  cbn [project_call src_call]. rewrite Hm, file_get, (in_get _ _ _ ND (Permutation_in _ Perm Im)), Ef, T2. unfold run_function. rewrite (signature_length _ _ _ S1), (Forall2_len Hf), Nat.eqb_refl.
  apply Gf; [exact Hf|]. rewrite <- Sgs. exact (module_typed _ _ _ Ok Ef).
Qed.
Lemma crate_signature : forall k b d, nth_error (all_functions order) k = Some (b, d) -> exists f, nth_error fs k = Some f /\ signature d = Some (s_params f, s_ret f).
Proof using Perm ND El.
  clear Kn. destruct crate_read as (sg & l & E & _ & _ & _ & _ & Sg & Sgs & _). intros k b d Hk. destruct (forall2_nth _ _ _ Sg _ _ Hk) as (s & Es & Eq).
  rewrite <- Sgs, nth_error_map in Es. destruct (nth_error fs k) as [f|]; [|discriminate Es]. injection Es as <-. exists f. split; [reflexivity|exact Eq].
Qed.
End Crate.

(** Following imports finds what a name stands for. *)
Lemma function_in m x d : function m x = Some d -> In (IFn d) m /\ x = f_name d.
Proof.
  induction m as [|i m IH]; [discriminate|]. destruct i as [f|s|k|u]; cbn [function]; try (intro H; destruct (IH H); split; [now right|assumption]).
  destruct (String.eqb_spec (f_name f) x) as [E|]; [intros [= <-]; split; [now left|now symmetry]|]. intro H; destruct (IH H); split; [now right|assumption].
Qed.
Lemma imported_in m x b : imported_from m x = Some b -> exists u, In (IUse u) m /\ u_path u <> [] /\ In x (introduces (IUse u)) /\ b = String.concat "::" (u_path u).
Proof.
  induction m as [|i m IH]; [discriminate|].
  assert (N : imported_from m x = Some b -> exists u, In (IUse u) (i :: m) /\ u_path u <> [] /\ In x (introduces (IUse u)) /\ b = String.concat "::" (u_path u)).
  { intro H. destruct (IH H) as (u & A & B). exists u. split; [now right|exact B]. }
  destruct i as [f|s|k|u]; cbn [imported_from]; try exact N.
  destruct (existsb _ _) eqn:E; [|exact N]. destruct (u_path u) as [|q r] eqn:U; [exact N|]. intros [= <-]. exists u. rewrite U. split; [now left|]. split; [discriminate|]. split; [|reflexivity].
  apply existsb_exists in E as (y & I & E). apply String.eqb_eq in E. now subst y.
Qed.
Lemma function_none m x : (forall d, In (IFn d) m -> f_name d <> x) -> function m x = None.
Proof.
  induction m as [|i m IH]; intro H; [reflexivity|]. assert (N : function m x = None) by (apply IH; intros d I; apply H; now right).
  destruct i as [f|s|k|u]; cbn [function]; try exact N. destruct (String.eqb_spec (f_name f) x) as [E|]; [|exact N]. destruct (H f (or_introl eq_refl) E).
Qed.
Lemma imported_once m x u : (forall v, In (IUse v) m -> In x (introduces (IUse v)) -> v = u) -> In (IUse u) m -> In x (introduces (IUse u)) -> u_path u <> [] ->
  imported_from m x = Some (String.concat "::" (u_path u)).
Proof.
  induction m as [|i m IH]; intros H I Ix U; [destruct I|].
  assert (N : In (IUse u) m -> imported_from m x = Some (String.concat "::" (u_path u))) by (intro I'; apply IH; try assumption; intros v J; apply H; now right).
  destruct i as [f|s|k|v]; try (apply N; destruct I as [E|I]; [discriminate E|exact I]). cbn [imported_from].
  destruct (existsb (String.eqb x) (introduces (IUse v))) eqn:E.
  - apply existsb_exists in E as (y & Iy & E). apply String.eqb_eq in E. subst y. rewrite (H v (or_introl eq_refl) Iy). destruct (u_path u); [congruence|reflexivity].
  - apply N. destruct I as [Q|I]; [|exact I]. injection Q as ->. exfalso. enough (X : existsb (String.eqb x) (introduces (IUse u)) = true) by congruence.
    apply existsb_exists. exists x. split; [exact Ix|apply String.eqb_refl].
Qed.
Lemma follow_sound c k : forall a x b d, follow c k a x = Some (b, d) -> stands_for c a x b (IFn d).
Proof.
  induction k as [|k IH]; intros a x b d; cbn [follow]; [discriminate|]. rewrite file_get. destruct (get a c) as [m|] eqn:G; [|discriminate]. apply get_in in G.
  destruct (function m x) as [g|] eqn:Fx.
  - intros [= <- <-]. apply function_in in Fx as (I & ->). eapply sf_item; [exact G|exact I|discriminate|now left].
  - destruct (imported_from m x) as [q|] eqn:Im; [|discriminate]. intro H. apply imported_in in Im as (u & Iu & U & Ix & ->). eapply sf_use; eauto.
Qed.
Lemma follow_complete c t : NoDup (map fst c) -> (forall a m, In (a, m) c -> names_once m) -> imports_first c t -> (forall a, In a (map fst c) -> In a t) ->
  forall a x b i, stands_for c a x b i -> forall d, i = IFn d -> forall before after k, t = before ++ a :: after -> length before < k -> follow c k a x = Some (b, d).
Proof.
  intros ND N1 First Ct. induction 1 as [a m i x Im Id Nu Ix | a m u x b i Im Iu U Ix St IH]; intros d E before after k Et Lk; (destruct k as [|k]; [lia|]); cbn [follow]; rewrite file_get, (in_get _ _ _ ND Im).
  - subst i. cbn in Ix. destruct Ix as [<-|[]].
    rewrite (distinct_function m d); [reflexivity| |now apply fns_in]. apply tops_fns. pose proof (N1 _ _ Im) as N. unfold names_once in N.
    replace (flat_map top_names m) with (flat_map introduces m); [exact N|]. apply flat_map_ext. now intros [].
  - rewrite function_none.
    2:{ intros g Ig Q. subst x. pose proof (nodup_flat _ _ (N1 _ _ Im) (IUse u) (IFn g) (f_name g) Iu Ig Ix (or_introl eq_refl)) as Q. discriminate Q. }
    rewrite (imported_once m x u); [| |assumption..].
    2:{ intros v Iv Jv. pose proof (nodup_flat _ _ (N1 _ _ Im) (IUse v) (IUse u) x Iv Iu Jv Ix) as Q. now injection Q. }
    assert (Ib : In (String.concat "::" (u_path u)) before). { apply (First before a after Et). exists m, u. auto. }
    apply in_split in Ib as (l1 & l2 & ->). apply (IH d E l1 (l2 ++ a :: after) k).
    + rewrite Et, <- app_assoc. reflexivity.
    + rewrite app_length in Lk. cbn in Lk. lia.
Qed.
Lemma follow_knows c t : NoDup (map fst c) -> (forall a m, In (a, m) c -> names_once m) -> imports_first c t -> (forall a, In a (map fst c) -> In a t) ->
  knows c (follow c (length t)).
Proof.
  intros ND N1 First Ct a x b d. split; [apply follow_sound|]. intro St.
  assert (Ia : In a t) by (apply Ct; inversion St; subst; apply in_map_iff; [exists (b, m)|exists (a, m)]; auto).
  apply in_split in Ia as (l1 & l2 & Et). apply (follow_complete c t ND N1 First Ct a x b _ St d eq_refl l1 l2); [exact Et|]. rewrite Et, app_length. cbn. lia.
Qed.
