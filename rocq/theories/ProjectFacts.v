(** Projects on disk: lemmas. *)
From Coq Require Import Bool Ascii String List Lia.
From Verif Require Import Imports ImportsFacts Project ProjectSpec.
Import ListNotations.
Open Scope string_scope.

Lemma app_nil_s s : s ++ "" = s.
Proof. induction s as [| c r IH]; cbn; [reflexivity | now f_equal]. Qed.
Lemma app_assoc_s a b c : (a ++ b) ++ c = a ++ (b ++ c).
Proof. induction a as [| x r IH]; cbn; [reflexivity | now f_equal]. Qed.
Lemma app_inj_s a b c : a ++ c = b ++ c -> a = b.
Proof.
  assert (L : forall x y, String.length (x ++ y) = String.length x + String.length y)
    by (induction x as [| k r IH]; intros y; cbn; [reflexivity | now rewrite IH]).
  revert b. induction a as [| x r IH]; intros b H; destruct b as [| y b]; cbn in H; [reflexivity | | |].
  - exfalso. apply (f_equal String.length) in H. cbn in H. rewrite L in H. lia.
  - exfalso. apply (f_equal String.length) in H. cbn in H. rewrite L in H. lia.
  - injection H as -> H. f_equal. now apply IH.
Qed.

(** ** Names of files *)
Lemma last_dot_some s b a : last_dot s = Some (b, a) -> s = b ++ "." ++ a.
Proof.
  revert b a. induction s as [| c r IH]; intros b a; cbn; [discriminate|].
  destruct (last_dot r) as [[b' a'] |].
  - intros [= <- <-]. cbn. f_equal. now apply IH.
  - destruct (Ascii.eqb_spec c dot) as [-> | ]; [| discriminate]. intros [= <- <-]. reflexivity.
Qed.
Lemma last_dot_cm x : last_dot (x ++ ".cm") = Some (x, "cm").
Proof. induction x as [| c r IH]; [reflexivity|]. cbn [String.append last_dot]. now rewrite IH. Qed.
Lemma cm_name n : extension n = Some "cm" -> n = file_stem n ++ ".cm" /\ file_stem n <> "".
Proof.
  unfold extension, file_stem, split_name. destruct (String.eqb n ".."); [discriminate|].
  destruct (last_dot n) as [[b a] |] eqn:E; [| discriminate]. destruct b as [| c b]; [discriminate|].
  cbn [fst snd]. intros [= ->]. split; [| discriminate]. apply (last_dot_some _ _ _ E).
Qed.
Lemma cm_stem x : x <> "" -> file_stem (x ++ ".cm") = x /\ extension (x ++ ".cm") = Some "cm".
Proof.
  intros H. unfold extension, file_stem, split_name. destruct (String.eqb_spec (x ++ ".cm") "..") as [E | _].
  - exfalso. destruct x as [| c x]; [congruence|]. injection E as -> E. destruct x as [| d x]; [discriminate|].
    injection E as _ E. destruct x; discriminate.
  - rewrite last_dot_cm. destruct x; [congruence|]. split; reflexivity.
Qed.

(** ** Joined names *)
Lemma has_char_app c a b : has_char c (a ++ b) <-> has_char c a \/ has_char c b.
Proof. induction a as [| d r IH]; cbn; [tauto|]. rewrite IH. tauto. Qed.
Lemma colon_inj a : ~ has_char ":"%char a -> forall b x y, ~ has_char ":"%char b ->
  a ++ String ":" x = b ++ String ":" y -> a = b /\ x = y.
Proof.
  induction a as [| c r IH]; intros Ha b x y Hb E; destruct b as [| d s]; cbn in *.
  - injection E as ->. auto.
  - injection E as <- E. tauto.
  - injection E as -> E. tauto.
  - injection E as <- E. destruct (IH (fun H => Ha (or_intror H)) s x y (fun H => Hb (or_intror H)) E) as [-> ->]. auto.
Qed.
Lemma joined_cons a b r : joined (a :: b :: r) = a ++ String ":" (String ":" (joined (b :: r))).
Proof. reflexivity. Qed.
Lemma joined_inj : forall l l', l <> [] -> l' <> [] -> Forall (fun s => ~ has_char ":"%char s) l ->
  Forall (fun s => ~ has_char ":"%char s) l' -> joined l = joined l' -> l = l'.
Proof.
  induction l as [| a r IH]; intros l' N N' H H' E; [congruence|]. destruct l' as [| a' r']; [congruence|].
  inversion H as [| ? ? Ha Hr]; subst. inversion H' as [| ? ? Ha' Hr']; subst.
  destruct r as [| b r], r' as [| b' r'].
  - unfold joined in E. cbn in E. now subst.
  - exfalso. rewrite joined_cons in E. unfold joined in E at 1. cbn in E. apply Ha. rewrite E, has_char_app. right. now left.
  - exfalso. rewrite joined_cons in E. unfold joined in E at 2. cbn in E. apply Ha'. rewrite <- E, has_char_app. right. now left.
  - rewrite !joined_cons in E. destruct (colon_inj a Ha a' _ _ Ha' E) as [-> E']. injection E' as E'. f_equal.
    apply IH; auto; discriminate.
Qed.
Lemma joined_snoc l x : l <> [] -> joined (l ++ [x])%list = joined l ++ "::" ++ x.
Proof.
  induction l as [| a r IH]; intros N; [congruence|]. destruct r as [| b r]; [reflexivity|].
  change ((a :: b :: r) ++ [x])%list with (a :: b :: r ++ [x])%list. rewrite !joined_cons.
  change (b :: r ++ [x])%list with ((b :: r) ++ [x])%list. rewrite IH by discriminate. now rewrite app_assoc_s.
Qed.

(** ** Paths *)
Lemma strip_prefix_app p q : strip_prefix p (p ++ q)%list = Some q.
Proof. induction p as [| a r IH]; cbn; [reflexivity | now rewrite String.eqb_refl]. Qed.
Lemma name_of root src dirs name : source_directory root = src ->
  module_name_from_path root (src ++ dirs ++ [name])%list = Some (joined (dirs ++ [file_stem name])%list).
Proof.
  intros <-. unfold module_name_from_path. rewrite strip_prefix_app, rev_app_distr. cbn [rev app].
  destruct dirs as [| d r] eqn:E; [reflexivity|]. rewrite <- E.
  destruct (rev dirs) as [| x y] eqn:R.
  { exfalso. apply (f_equal (@rev string)) in R. rewrite rev_involutive, E in R. discriminate. }
  rewrite <- R, rev_involutive. change (String.concat "::" dirs) with (joined dirs). rewrite joined_snoc; [reflexivity|].
  rewrite E. discriminate.
Qed.
Lemma file_of_snoc d x : file_of (d ++ [x])%list = (d ++ [(x ++ ".cm")%string])%list.
Proof.
  induction d as [| a r IH]; [reflexivity|]. cbn. rewrite <- IH. destruct (r ++ [x])%list eqn:E; [| reflexivity].
  destruct r; discriminate.
Qed.

Lemma load_get root read : forall files m m', load_modules root read files m = Some m' ->
  (forall p q, In p files -> In q files -> module_name_from_path root p = module_name_from_path root q -> p = q) ->
  forall k, (exists p, In p files /\ module_name_from_path root p = Some k /\ get k m' = read p)
         \/ ((forall p, In p files -> module_name_from_path root p <> Some k) /\ get k m' = get k m).
Proof.
  induction files as [| p r IH]; intros m m' E U k; cbn in E.
  - injection E as <-. right. split; [intros q [] | reflexivity].
  - destruct (module_name_from_path root p) as [n |] eqn:Np; [| discriminate].
    destruct (read p) as [t |] eqn:Rp; [| discriminate].
    destruct (IH _ _ E (fun a b Ha Hb => U a b (or_intror Ha) (or_intror Hb)) k) as [(q & Iq & Nq & G) | [No G]].
    + left. exists q. split; [now right | auto].
    + rewrite get_insert in G. destruct (String.eqb_spec n k) as [-> | D].
      * left. exists p. split; [now left|]. split; [exact Np|]. congruence.
      * right. split; [| exact G]. intros q [<- | I]; [congruence | auto].
Qed.
Lemma load_total root read : forall files m, (forall p, In p files -> module_name_from_path root p <> None /\ read p <> None) ->
  exists m', load_modules root read files m = Some m'.
Proof.
  induction files as [| p r IH]; intros m H; cbn; [eauto|].
  destruct (H p (or_introl eq_refl)) as [H1 H2]. destruct (module_name_from_path root p); [| congruence].
  destruct (read p); [| congruence]. apply IH. intros q I. apply H. now right.
Qed.

Lemma snoc {A} (l : list A) : l <> [] -> exists d x, l = (d ++ [x])%list.
Proof. intros N. destruct (exists_last N) as (d & x & E). eauto. Qed.

Section one.
Variables (folder : path) (e : string) (walk : list path).
Let src : path := (folder ++ ["src"])%list.
Let root : path := (src ++ [(e ++ ".cm")%string])%list.
Hypothesis below : forall p, In p walk -> exists rel, p = (src ++ rel)%list /\ rel <> [] /\ Forall (fun s => ~ has_char ":"%char s) rel.

Lemma root_dir : source_directory root = src.
Proof. unfold source_directory, parent, root. apply removelast_last. Qed.
Lemma root_entry entry : entry = [e ++ ".cm"] \/ entry = ["src"; e ++ ".cm"] -> entry_point folder entry = root.
Proof.
  unfold root, src. intros [-> | ->]; cbn [entry_point].
  - destruct (String.eqb_spec (e ++ ".cm") "src") as [E | _]; [exfalso | now rewrite <- app_assoc].
    destruct e as [| c1 [| c2 [| c3 r]]]; try discriminate. injection E as _ _ _ E. destruct r; discriminate.
  - cbn. now rewrite <- app_assoc.
Qed.
Lemma source_list : In root walk -> e <> "" -> source_files root walk = filter is_source walk /\ In root (filter is_source walk).
Proof.
  intros I N. assert (S : is_source root = true).
  { unfold is_source, root. rewrite rev_app_distr. cbn. destruct (cm_stem e N) as [_ E]. now rewrite E. }
  assert (J : In root (filter is_source walk)) by (apply filter_In; auto). split; [| exact J].
  unfold source_files. rewrite root_dir. unfold src. rewrite last_last. cbn.
  destruct (filter is_source walk); [destruct J | reflexivity].
Qed.
(** A source file is the file of its module. *)
Lemma source_file p : In p (filter is_source walk) ->
  exists dirs x, p = (src ++ dirs ++ [(x ++ ".cm")%string])%list /\ x <> "" /\ Forall (fun s => ~ has_char ":"%char s) (dirs ++ [x])%list
    /\ module_name_from_path root p = Some (joined (dirs ++ [x])%list).
Proof.
  intros I. apply filter_In in I. destruct I as [I S]. destruct (below p I) as (rel & -> & N & C).
  destruct (snoc rel N) as (dirs & n & ->). exists dirs, (file_stem n).
  unfold is_source in S. rewrite rev_app_distr, rev_app_distr in S. cbn in S.
  destruct (extension n) as [x |] eqn:En; [| discriminate]. apply String.eqb_eq in S. subst x.
  destruct (cm_name n En) as [E Ne]. rewrite <- E. split; [reflexivity|]. split; [exact Ne|]. split.
  - apply Forall_app in C. destruct C as [C1 C2]. apply Forall_app. split; [exact C1|]. constructor; [| constructor].
    inversion C2 as [| ? ? C3 _]; subst. intros H. apply C3. rewrite E, has_char_app. now left.
  - apply name_of. exact root_dir.
Qed.
Lemma source_once p q : In p (filter is_source walk) -> In q (filter is_source walk) ->
  module_name_from_path root p = module_name_from_path root q -> p = q.
Proof.
  intros Ip Iq E. destruct (source_file p Ip) as (d & x & -> & _ & C & Np). destruct (source_file q Iq) as (d' & x' & -> & _ & C' & Nq).
  rewrite Np, Nq in E. injection E as E.
  assert (L : (d ++ [x])%list = (d' ++ [x'])%list).
  { apply joined_inj; auto; intros X; [destruct d | destruct d']; discriminate. }
  apply app_inj_tail in L. destruct L as [-> ->]. reflexivity.
Qed.

Lemma modules_found read : (forall p, In p walk -> read p <> None) -> In root walk -> e <> "" ->
  exists mods, crate_from_project root read walk = Some (mods, e)
    /\ forall m, m <> [] -> Forall plain m ->
       (In (module_file folder m) walk -> get (joined m) mods = read (module_file folder m))
       /\ (~ In (module_file folder m) walk -> get (joined m) mods = None).
Proof.
  intros R I N. destruct (source_list I N) as [E _]. unfold crate_from_project. rewrite E.
  destruct (load_total root read (filter is_source walk) []) as (mods & L).
  { intros p Ip. destruct (source_file p Ip) as (d & x & _ & _ & _ & Np). split; [congruence|].
    apply R. apply filter_In in Ip. apply Ip. }
  rewrite L. exists mods. split.
  - f_equal. f_equal. unfold root. rewrite last_last. apply cm_stem, N.
  - intros m Nm Pm.
    assert (Sh : forall d x, m = (d ++ [x])%list -> x <> "" -> module_file folder m = (src ++ d ++ [(x ++ ".cm")%string])%list).
    { intros d x -> Nx. unfold module_file, src. rewrite file_of_snoc, <- app_assoc. reflexivity. }
    assert (Cm : Forall (fun s => ~ has_char ":"%char s) m).
    { eapply Forall_impl; [| exact Pm]. intros s (_ & H & _). exact H. }
    destruct (snoc m Nm) as (d0 & x0 & Em).
    assert (Nx : x0 <> "").
    { rewrite Em in Pm. apply Forall_app in Pm. destruct Pm as [_ P2]. inversion P2 as [| ? ? (H & _) _]; subst. exact H. }
    pose proof (Sh d0 x0 Em Nx) as Fm.
    destruct (load_get root read _ _ _ L source_once (joined m)) as [(p & Ip & Np & G) | [No G]].
    + destruct (source_file p Ip) as (d & x & Ep & Nx' & C & Np').
      rewrite Np in Np'. injection Np' as J.
      assert (M : m = (d ++ [x])%list) by (apply joined_inj; auto; destruct d; discriminate).
      rewrite (Sh d x M Nx'), <- Ep. split; [intros _; exact G|]. intros X. exfalso. apply X. apply filter_In in Ip. apply Ip.
    + split; [| intros _; exact G]. intros Im. exfalso. apply (No (module_file folder m)).
      * apply filter_In. split; [exact Im|]. rewrite Fm. unfold is_source. rewrite !rev_app_distr. cbn.
        destruct (cm_stem x0 Nx) as [_ X]. now rewrite X.
      * rewrite Fm, (name_of root src d0 _ root_dir). do 2 f_equal. rewrite (proj1 (cm_stem x0 Nx)). now symmetry.
Qed.
End one.
