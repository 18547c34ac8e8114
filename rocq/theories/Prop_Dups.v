(** Property C75: names declared twice are reported. *)
From Coq Require Import NArith String List Bool Arith Lia.
From Verif Require Import Syn Dups.
Import ListNotations.
Open Scope nat_scope.

(** ** Specification *)
Definition twice (x : string) (l : list string) : Prop := exists a b c, l = a ++ x :: b ++ x :: c.
(** The names that an item brings into the module. *)
Inductive declares : item -> list string -> Prop :=
| d_function f : declares (IFn f) [f_name f]
| d_struct s : declares (IStruct s) [s_name s]
| d_const c : declares (IConst c) [c_name c]
| d_use path x : declares (IUse (Use path (USingle x))) [x]
| d_use_list path xs : declares (IUse (Use path (UList xs))) xs.
Definition names_of (m : module) (names : list string) : Prop := exists ls, Forall2 declares m ls /\ names = concat ls.
(** The names that a pattern binds. *)
Inductive binds : pat -> list string -> Prop :=
| b_id x : binds (PId x) [x]
| b_tuple ps ls : Forall2 binds ps ls -> binds (PTuple ps) (concat ls).
(** [within s t]: statement [t] stands in [s], at any depth. *)
Inductive within : stmt -> stmt -> Prop :=
| w_here s : within s s
| w_block l s t : In s l -> within s t -> within (SBlock l) t
| w_then c a b t : within a t -> within (SIf c a b) t
| w_else c a b t : within b t -> within (SIf c a (Some b)) t
| w_loop b t : within b t -> within (SLoop b) t
| w_while c b t : within b t -> within (SWhile c b) t
| w_init i c s b t : within i t -> within (SFor i c s b) t
| w_step i c s b t : within s t -> within (SFor i c s b) t
| w_body i c s b t : within b t -> within (SFor i c s b) t.
Definition for_free (f : fdef) : Prop := forall s i c st b, In s (f_body f) -> ~ within s (SFor i c st b).

(** ** Lemmas *)
Lemma seen_in x l : existsb (String.eqb x) l = true <-> In x l.
Proof. rewrite existsb_exists. split; [intros (y & Y & E); apply String.eqb_eq in E; subst; exact Y|intros H; exists x; split; [exact H|apply String.eqb_refl]]. Qed.
Lemma dups_spec x : forall l seen, In x (dups l seen) <-> (In x seen /\ In x l) \/ twice x l.
Proof.
  induction l as [|y l IH]; intros seen.
  - split; [intros []|intros [[_ []]|(a & b & c & E)]; destruct a; discriminate E].
  - assert (T : twice x (y :: l) <-> (y = x /\ In x l) \/ twice x l).
    { split.
      - intros ([|z a] & b & c & E); cbn in E; injection E as -> ->; [left; split; [reflexivity|apply in_or_app; right; left; reflexivity]|right; exists a, b, c; reflexivity].
      - intros [[-> H]|(a & b & c & ->)]; [apply in_split in H; destruct H as (b & c & ->); exists [], b, c; reflexivity|exists (y :: a), b, c; reflexivity]. }
    rewrite T. cbn [dups]. destruct (existsb (String.eqb y) seen) eqn:E.
    + apply seen_in in E. cbn [In]. rewrite IH. split; [intros [->|[[A B]|H]]; tauto|]. intros [[A [->|B]]|[[-> B]|H]]; auto.
    + assert (N : ~ In y seen) by (rewrite <- seen_in, E; discriminate). rewrite IH. cbn [In]. split; [intros [[[->|A] B]|H]; tauto|]. intros [[A [->|B]]|[[-> B]|H]]; try tauto.
Qed.
Lemma dups_twice x l : In x (dups l []) <-> twice x l.
Proof. rewrite dups_spec. cbn. tauto. Qed.
Lemma nodup_twice l : NoDup l <-> forall x, ~ twice x l.
Proof.
  split.
  - intros H x (a & b & c & ->). apply NoDup_remove_2 in H. apply H. apply in_or_app. right. apply in_or_app. right. left. reflexivity.
  - induction l as [|y l IH]; intros H; [constructor|]. constructor.
    + intro I. apply in_split in I. destruct I as (b & c & ->). apply (H y). exists [], b, c. reflexivity.
    + apply IH. intros x (a & b & c & ->). apply (H x). exists (y :: a), b, c. reflexivity.
Qed.
Lemma binds_collect : forall p, binds p (collect_identifiers p).
Proof.
  fix IH 1. intros [x|ps]; [apply b_id|]. cbn [collect_identifiers]. rewrite flat_map_concat_map. apply b_tuple. induction ps as [|p ps IHl]; cbn [map]; constructor; [apply IH|exact IHl].
Qed.
Lemma binds_fun : forall p l, binds p l -> l = collect_identifiers p.
Proof.
  fix IH 1. intros [x|ps] l H; inversion H as [|? ls F]; subst; [reflexivity|]. cbn [collect_identifiers]. rewrite flat_map_concat_map. f_equal. clear H. revert ls F.
  induction ps as [|p ps IHl]; intros ls F; inversion F as [|? l0 ? ls0 F1 F2]; subst; [reflexivity|]. cbn [map]. f_equal; [apply IH, F1|apply IHl, F2].
Qed.
Lemma patterns_sound : forall s x, In x (patterns s) -> exists p t e, within s (SLet p t e) /\ twice x (collect_identifiers p).
Proof.
  fix IH 1. intros s x H. destruct s as [p t e| | | |c a b| |l|b|c b|i c st b| |]; cbn [patterns] in H; try destruct H.
  - exists p, t, e. split; [apply w_here|apply dups_twice, H].
  - apply in_app_or in H. destruct H as [H|H].
    + destruct (IH _ _ H) as (p & t & e & W & T). exists p, t, e. split; [apply w_then, W|exact T].
    + destruct b as [b|]; [|destruct H]. destruct (IH _ _ H) as (p & t & e & W & T). exists p, t, e. split; [apply w_else, W|exact T].
  - assert (G : exists s, In s l /\ exists p t e, within s (SLet p t e) /\ twice x (collect_identifiers p)).
    { induction l as [|s l IHl]; [destruct H|]. cbn [flat_map] in H. apply in_app_or in H. destruct H as [H|H]; [exists s; split; [left; reflexivity|apply IH, H]|].
      destruct (IHl H) as (s' & I & G). exists s'. split; [right; exact I|exact G]. }
    destruct G as (s & I & p & t & e & W & T). exists p, t, e. split; [apply (w_block _ _ _ I W)|exact T].
  - destruct (IH _ _ H) as (p & t & e & W & T). exists p, t, e. split; [apply w_loop, W|exact T].
  - destruct (IH _ _ H) as (p & t & e & W & T). exists p, t, e. split; [apply w_while, W|exact T].
Qed.
Lemma patterns_complete s u : within s u -> forall p t e x, u = SLet p t e -> (forall i c st b, ~ within s (SFor i c st b)) -> twice x (collect_identifiers p) -> In x (patterns s).
Proof.
  induction 1 as [s|l s u I W IH|c a b u W IH|c a b u W IH|b u W IH|c b u W IH|i c s b u W IH|i c s b u W IH|i c s b u W IH]; intros p t e x -> N T; cbn [patterns].
  - apply dups_twice, T.
  - apply in_flat_map. exists s. split; [exact I|]. apply (IH p t e x eq_refl); [|exact T]. intros i c st b X. apply (N i c st b). apply (w_block _ _ _ I X).
  - apply in_or_app. left. apply (IH p t e x eq_refl); [|exact T]. intros i c' st b' X. apply (N i c' st b'). apply w_then, X.
  - apply in_or_app. right. apply (IH p t e x eq_refl); [|exact T]. intros i c' st b' X. apply (N i c' st b'). apply w_else, X.
  - apply (IH p t e x eq_refl); [|exact T]. intros i c' st b' X. apply (N i c' st b'). apply w_loop, X.
  - apply (IH p t e x eq_refl); [|exact T]. intros i c' st b' X. apply (N i c' st b'). apply w_while, X.
  - exfalso. apply (N i c s b), w_here.
  - exfalso. apply (N i c s b), w_here.
  - exfalso. apply (N i c s b), w_here.
Qed.

Lemma in_top m x : In (DuplicateDefinition x) (check m) <-> twice x (flat_map item_names m).
Proof.
  unfold check, duplicate_top_level_items. rewrite !in_app_iff, in_map_iff. split.
  - intros [(y & E & H)|[H|H]]; [injection E as <-; apply dups_twice, H| |]; exfalso; apply in_flat_map in H; destruct H as ([f|s|c|u] & _ & H); cbn in H.
    + destruct (find_function m (f_name f)); [|exact H]. unfold check_duplicate_parameter_names in H. destruct (_ <? 2); [exact H|]. apply in_map_iff in H. destruct H as (y & E & _). discriminate E.
    + destruct (find_struct m (s_name s)); [|exact H]. apply in_map_iff in H. destruct H as (y & E & _). discriminate E.
    + exact H. + exact H.
    + apply in_map_iff in H. destruct H as (y & E & _). discriminate E.
    + exact H. + exact H. + exact H.
  - intros H. left. exists x. split; [reflexivity|apply dups_twice, H].
Qed.
Lemma nodup_names : forall m i j x, NoDup (flat_map item_names m) -> In i m -> In j m -> In x (item_names i) -> In x (item_names j) -> i = j.
Proof.
  induction m as [|k m IH]; intros i j x N I J X Y; [destruct I|]. cbn [flat_map] in N.
  assert (D : forall i, In i m -> In x (item_names k) -> In x (item_names i) -> False).
  { intros i' I' K X'. clear -N I' K X'. induction (item_names k) as [|y l IHl]; [destruct K|]. cbn in N. inversion N as [|? ? N1 N2]; subst. destruct K as [->|K]; [|apply IHl; assumption].
    apply N1. apply in_or_app. right. apply in_flat_map. exists i'. split; assumption. }
  destruct I as [<-|I], J as [<-|J]; [reflexivity|exfalso; apply (D j J X Y)|exfalso; apply (D i I Y X)|].
  apply (IH i j x); try assumption. clear -N. induction (item_names k) as [|y l IHl]; [exact N|]. apply IHl. cbn in N. inversion N. assumption.
Qed.
Lemma find_function_self m f : NoDup (flat_map item_names m) -> In (IFn f) m -> find_function m (f_name f) = Some f.
Proof.
  intros N I. unfold find_function. destruct (find _ m) as [i|] eqn:E.
  - apply find_some in E. destruct E as [J E]. destruct i as [g|s|c|u]; try discriminate E. apply String.eqb_eq in E.
    assert (X : IFn f = IFn g) by (apply (nodup_names m _ _ (f_name f) N I J); [left; reflexivity|left; exact E]). injection X as <-. reflexivity.
  - exfalso. apply (find_none _ _ E) in I. cbn in I. rewrite String.eqb_refl in I. discriminate I.
Qed.
Lemma find_struct_self m f : NoDup (flat_map item_names m) -> In (IStruct f) m -> find_struct m (s_name f) = Some f.
Proof.
  intros N I. unfold find_struct. destruct (find _ m) as [i|] eqn:E.
  - apply find_some in E. destruct E as [J E]. destruct i as [s|g|c|u]; try discriminate E. apply String.eqb_eq in E.
    assert (X : IStruct f = IStruct g) by (apply (nodup_names m _ _ (s_name f) N I J); [left; reflexivity|left; exact E]). injection X as <-. reflexivity.
  - exfalso. apply (find_none _ _ E) in I. cbn in I. rewrite String.eqb_refl in I. discriminate I.
Qed.
Lemma params_spec f x : In x (if length (f_params f) <? 2 then [] else dups (map fst (f_params f)) []) <-> twice x (map fst (f_params f)).
Proof.
  destruct (Nat.ltb_spec (length (f_params f)) 2) as [L|L]; [|apply dups_twice]. split; [intros []|]. intros (a & b & c & E). apply (f_equal (@length _)) in E. rewrite map_length, app_length in E. cbn in E. rewrite app_length in E. cbn in E. lia.
Qed.

Lemma names_unique : forall m names, names_of m names <-> names = flat_map item_names m.
Proof.
  assert (A : forall i, declares i (item_names i)) by (intros [f|s|c|[path [x|xs]]]; constructor).
  assert (B : forall i l, declares i l -> l = item_names i) by (intros i l []; reflexivity).
  intros m names. rewrite flat_map_concat_map. split.
  - intros (ls & F & ->). f_equal. induction F as [|i l m ls D F IH]; [reflexivity|]. cbn [map]. f_equal; [apply B, D|exact IH].
  - intros ->. exists (map item_names m). split; [|reflexivity]. induction m as [|i m IH]; constructor; [apply A|exact IH].
Qed.

(** ** C75: names declared twice are reported *)
(** Items: exactly the names that are declared or imported twice are reported. *)
Theorem C75_items : forall m x, In (DuplicateDefinition x) (check m) <-> exists names, names_of m names /\ twice x names.
Proof.
  intros m x. rewrite in_top. split; [intros T; exists (flat_map item_names m); split; [apply names_unique; reflexivity|exact T]|].
  intros (names & N & T). apply names_unique in N. subst. exact T.
Qed.
Print Assumptions C75_items.

(** Parameters, fields and patterns of a module whose items have different names: exactly the names that
    occur twice are reported; for patterns if the function has no [for] statement. *)
Theorem C75_parts_partial : forall m names, names_of m names -> NoDup names ->
  (forall f x, In (DuplicateParameter f x) (check m) <-> exists d, In (IFn d) m /\ f_name d = f /\ twice x (map fst (f_params d))) /\
  (forall s x, In (DuplicateStructField s x) (check m) <-> exists d, In (IStruct d) m /\ s_name d = s /\ twice x (map fst (s_fields d))) /\
  (forall d x, In (IFn d) m -> for_free d ->
    (In (DuplicatePatternIdentifier (f_name d) x) (check m) <->
     exists s p t e l, In s (f_body d) /\ within s (SLet p t e) /\ binds p l /\ twice x l)).
Proof.
  intros m names En N. apply names_unique in En. subst names. unfold check, duplicate_top_level_items. split; [|split].
  - intros f x. rewrite !in_app_iff. split.
    + intros [H|[H|H]]; [apply in_map_iff in H; destruct H as (y & E & _); discriminate E| |].
      * apply in_flat_map in H. destruct H as ([g|s|c|u] & I & H); cbn in H; try destruct H.
        -- rewrite (find_function_self m g N I) in H. exists g. unfold check_duplicate_parameter_names in H. pose proof (params_spec g x) as S. destruct (_ <? 2); [destruct H|].
           apply in_map_iff in H. destruct H as (y & E & H). injection E as <- <-. split; [exact I|]. split; [reflexivity|apply S, H].
        -- destruct (find_struct m (s_name s)); [|destruct H]. apply in_map_iff in H. destruct H as (y & E & _). discriminate E.
      * apply in_flat_map in H. destruct H as ([g|s|c|u] & I & H); cbn in H; try destruct H. apply in_map_iff in H. destruct H as (y & E & _). discriminate E.
    + intros (d & I & <- & T). right. left. apply in_flat_map. exists (IFn d). split; [exact I|]. cbn. rewrite (find_function_self m d N I). unfold check_duplicate_parameter_names.
      pose proof (proj2 (params_spec d x) T) as S. destruct (_ <? 2); [destruct S|]. apply in_map, S.
  - intros f x. rewrite !in_app_iff. split.
    + intros [H|[H|H]]; [apply in_map_iff in H; destruct H as (y & E & _); discriminate E| |].
      * apply in_flat_map in H. destruct H as ([g|s|c|u] & I & H); cbn in H; try destruct H.
        -- destruct (find_function m (f_name g)); [|destruct H]. unfold check_duplicate_parameter_names in H. destruct (_ <? 2); [destruct H|]. apply in_map_iff in H. destruct H as (y & E & _). discriminate E.
        -- rewrite (find_struct_self m s N I) in H. exists s. apply in_map_iff in H. destruct H as (y & E & H). injection E as <- <-. split; [exact I|]. split; [reflexivity|apply dups_twice, H].
      * apply in_flat_map in H. destruct H as ([g|s|c|u] & I & H); cbn in H; try destruct H. apply in_map_iff in H. destruct H as (y & E & _). discriminate E.
    + intros (d & I & <- & T). right. left. apply in_flat_map. exists (IStruct d). split; [exact I|]. cbn. rewrite (find_struct_self m d N I). apply in_map, dups_twice, T.
  - intros d x Id Free. rewrite !in_app_iff. split.
    + intros [H|[H|H]]; [apply in_map_iff in H; destruct H as (y & E & _); discriminate E| |].
      * apply in_flat_map in H. destruct H as ([g|s|c|u] & I & H); cbn in H; try destruct H.
        -- destruct (find_function m (f_name g)); [|destruct H]. unfold check_duplicate_parameter_names in H. destruct (_ <? 2); [destruct H|]. apply in_map_iff in H. destruct H as (y & E & _). discriminate E.
        -- destruct (find_struct m (s_name s)); [|destruct H]. apply in_map_iff in H. destruct H as (y & E & _). discriminate E.
      * apply in_flat_map in H. destruct H as ([g|s|c|u] & I & H); cbn in H; try destruct H. apply in_map_iff in H. destruct H as (y & E & H). injection E as E <-.
        assert (X : IFn d = IFn g) by (apply (nodup_names m _ _ (f_name d) N Id I); [left; reflexivity|left; exact E]). injection X as <-.
        apply in_flat_map in H. destruct H as (s & S & H). destruct (patterns_sound s y H) as (p & t & e & W & T). exists s, p, t, e, (collect_identifiers p). split; [exact S|]. split; [exact W|]. split; [apply binds_collect|exact T].
    + intros (s & p & t & e & l & S & W & B & T). right. right. apply in_flat_map. exists (IFn d). split; [exact Id|]. cbn. apply in_map. apply in_flat_map. exists s. split; [exact S|].
      apply binds_fun in B. subst l. apply (patterns_complete s _ W p t e x eq_refl); [|exact T]. intros i c st b X. apply (Free s i c st b S X).
Qed.
Print Assumptions C75_parts_partial.

(** If nothing is reported, then items have different names, and so have the parameters of each function and the fields of each struct. *)
Theorem C75_accepted : forall m, check m = [] ->
  (forall names, names_of m names -> NoDup names) /\ (forall d, In (IFn d) m -> NoDup (map fst (f_params d))) /\ (forall d, In (IStruct d) m -> NoDup (map fst (s_fields d))).
Proof.
  intros m H. assert (N : NoDup (flat_map item_names m)). { apply nodup_twice. intros x T. apply in_top in T. rewrite H in T. destruct T. }
  destruct (C75_parts_partial m _ (proj2 (names_unique m _) eq_refl) N) as (A & B & _). split; [intros names En; apply names_unique in En; subst; exact N|]. split; intros d I; apply nodup_twice; intros x T.
  - assert (X : In (DuplicateParameter (f_name d) x) (check m)) by (apply A; exists d; split; [exact I|]; split; [reflexivity|exact T]). rewrite H in X. destruct X.
  - assert (X : In (DuplicateStructField (s_name d) x) (check m)) by (apply B; exists d; split; [exact I|]; split; [reflexivity|exact T]). rewrite H in X. destruct X.
Qed.
Print Assumptions C75_accepted.

Open Scope string_scope.
Open Scope list_scope.
(** ** C75: refutation *)
(** Patterns in the body of a [for] statement are not looked at:
    fn f() { for let i = 0; i < 3; i = i + 1 { let (a, a) = (1, 2); } } *)
Definition in_for : module := [IFn (Fdef "f" [] (TyTuple []) [SFor (SLet (PId "i") None (ELit 0%N None)) (EBin BLt (EId "i") (ELit 3%N None)) (SAssign (EId "i") (EBin BAdd (EId "i") (ELit 1%N None)))
  (SBlock [SLet (PTuple [PId "a"; PId "a"]) None (ETuple [ELit 1%N None; ELit 2%N None])])])].
Theorem C75_for_refuted : exists m d s p t e l x, check m = [] /\ In (IFn d) m /\ In s (f_body d) /\ within s (SLet p t e) /\ binds p l /\ twice x l.
Proof.
  exists in_for. unfold in_for. do 7 eexists. split; [vm_compute; reflexivity|]. split; [left; reflexivity|]. split; [left; reflexivity|]. split; [apply w_body; eapply w_block; [left; reflexivity|apply w_here]|].
  split; [apply binds_collect|]. exists [], [], []. reflexivity.
Qed.
Print Assumptions C75_for_refuted.

(** *** Examples *)
Definition sample : module := [IFn (Fdef "f" [("a", TyName NFelt); ("b", TyName NFelt); ("a", TyName NU32)] (TyTuple []) [SLoop (SBlock [SLet (PTuple [PId "x"; PTuple [PId "y"; PId "x"]]) None (EId "a"); SBreak])]);
  IStruct (Sdef "s" [("u", TyName NFelt); ("u", TyName NFelt)]); IConst (Cdef "c" None (ELit 1%N None))].
Example C75_sample : check sample = [DuplicateParameter "f" "a"; DuplicateStructField "s" "u"; DuplicatePatternIdentifier "f" "x"] /\ (names_of sample ["f"; "s"; "c"] /\ NoDup ["f"; "s"; "c"]) /\
  (forall d, In (IFn d) sample -> for_free d).
Proof.
  split; [vm_compute; reflexivity|]. split; [split; [apply names_unique; reflexivity|]; constructor; [intros [X|[X|[]]]; discriminate X|constructor; [intros [X|[]]; discriminate X|constructor; [intros []|constructor]]]|].
  intros d [E|[E|[E|[]]]]; try discriminate E. injection E as <-. intros s i c st b [<-|[]] W. inversion W as [| | | |? ? W1| | | |]; subst. inversion W1 as [|? ? ? I W2| | | | | | |]; subst.
  destruct I as [<-|[<-|[]]]; inversion W2.
Qed.
Example C75_accepted_example : check in_for = [] /\ check (IConst (Cdef "f" None (ELit 1%N None)) :: in_for) = [DuplicateDefinition "f"].
Proof. split; vm_compute; reflexivity. Qed.
