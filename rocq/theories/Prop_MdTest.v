(** Property C72: every code block of a Markdown document is one test, as it stands there. *)
From Coq Require Import String List Bool Arith.
From Verif Require Import MdTest MdTestSpec.
Import ListNotations.
Local Open Scope string_scope.

Lemma eqb_refl s : (s =? s) = true.
Proof. apply String.eqb_refl. Qed.
Section Facts.
  Variables (C M : Type) (parse : string -> string * M) (toml : string -> option C).
  Notation st := (st C M). Notation raw := (raw C).
  Definition heads (s : st) : section := (h1 C M s, h2 C M s, h3 C M s).

  (** What the program does with the parts of a document. *)
  Definition pend (h : section) (g : option C) (c r : option string) : list raw :=
    match c with Some x => [Raw C (title h) x r g] | None => [] end.
  Definition drop_rust (c r : option string) : option string := match c with Some _ => None | None => r end.
  Fixpoint found (h : section) (g : option C) (c r : option string) (d : list part) : list raw :=
    match d with
    | [] => pend h g c r
    | Heading l t :: d' => (pend h g c r ++ found (under l t h) g None (drop_rust c r) d')%list
    | Cairo x :: d' => (pend h g c r ++ found h g (Some x) (drop_rust c r) d')%list
    | Rust x :: d' => found h g c (Some x) d'
    | Toml x :: d' => found h (toml x) c r d'
    | _ :: d' => found h g c r d'
    end.
  Definition core (before : list raw) (c : option string) (s : st) : Prop :=
    tests C M s = numbered C M parse [] before /\ (forall x, counts C M s x = length (filter (fun t => r_title C t =? x) before)) /\
    cairo C M s = option_map parse c.
  Definition quiet (s : st) : Prop := in_heading C M s = false /\ in_code C M s = false.
  Lemma title_format h : title h = format_test_name (fst (fst h)) (snd (fst h)) (snd h).
  Proof. destruct h as [[a b] c]. unfold title, format_test_name. cbn [fst snd]. destruct (a =? ""), (b =? ""), (c =? ""); try reflexivity. f_equal. f_equal. clear. induction b; cbn; [reflexivity|f_equal; assumption]. Qed.
  Lemma numbered_app : forall l b l', numbered C M parse b (l ++ l') = (numbered C M parse b l ++ numbered C M parse (b ++ l) l')%list.
  Proof. induction l as [|t l IH]; intros b l'; cbn [numbered app]; [rewrite app_nil_r; reflexivity|]. rewrite IH, <- app_assoc. reflexivity. Qed.

  Lemma flush_core before c s : core before c s ->
    let f := flush C M s in
    core (before ++ pend (heads s) (config C M s) c (rust C M s)) None f /\ heads f = heads s /\ config C M f = config C M s /\ rust C M f = drop_rust c (rust C M s) /\
    in_heading C M f = in_heading C M s /\ in_code C M f = in_code C M s.
  Proof.
    intros (T & N & P) f. subst f. unfold flush. rewrite P. destruct c as [x|]; cbn [option_map pend drop_rust].
    - destruct (parse x) as [src meta] eqn:E. cbn [heads h1 h2 h3 config rust in_heading in_code]. split; [|auto 6]. unfold core. cbn [tests counts cairo option_map]. split; [|split; [|reflexivity]].
      + rewrite numbered_app, T. cbn [numbered app]. unfold number. cbn [r_title r_code r_rust r_config]. rewrite E, N, !title_format. reflexivity.
      + intros y. rewrite filter_app, app_length. cbn [filter r_title]. rewrite title_format, !N. unfold heads. cbn [fst snd]. rewrite (String.eqb_sym y). destruct (format_test_name _ _ _ =? y) eqn:Y; cbn [length]; [|rewrite Nat.add_0_r; reflexivity].
        apply String.eqb_eq in Y. subst y. rewrite Nat.add_1_r. reflexivity.
    - rewrite app_nil_r. unfold core. auto 9.
  Qed.
  Lemma quiet_paragraph : forall ts s r, quiet s -> steps C M parse toml (map Txt ts ++ r) s = steps C M parse toml r s.
  Proof. induction ts as [|t ts IH]; intros s r [A B]; cbn [map app steps step]; [reflexivity|]. rewrite A, B. apply IH. split; assumption. Qed.
  (** A code block with its contents, up to its end. *)
  Lemma block_steps l x r s : quiet s ->
    steps C M parse toml (block_events l x ++ r) s =
    match block_end C M parse toml (St C M (tests C M s) (h1 C M s) (h2 C M s) (h3 C M s) (counts C M s) (config C M s) (cairo C M s) (rust C M s) false (level C M s) true l x) with
    | Some s' => steps C M parse toml r s' | None => None end.
  Proof. intros [A B]. unfold block_events. cbn [app steps step in_heading]. rewrite A. cbn [in_code append]. reflexivity. Qed.

  Lemma steps_found : forall d before c s, named d -> configs_ok C toml d -> core before c s -> quiet s ->
    option_map (fun x => tests C M (flush C M x)) (steps C M parse toml (events d) s) =
    Some (numbered C M parse [] (before ++ found (heads s) (config C M s) c (rust C M s) d)).
  Proof.
    induction d as [|p d IH]; intros before c s Nm Co Q Qu.
    - cbn [events flat_map steps option_map found]. destruct (flush_core _ _ _ Q) as ((T & _) & _). rewrite T. reflexivity.
    - inversion Nm as [|? ? Np Nd]; subst. inversion Co as [|? ? Cp Cd]; subst. change (events (p :: d)) with (part_events p ++ events d)%list. destruct p as [l t|x|x|x|l x|ts]; cbn [found part_events].
      + cbn [app steps step in_heading]. destruct (flush_core _ _ _ Q) as ((FT & FN & FP) & Fh & Fg & Fr & Fi & Fc). set (f := flush C M s) in *.
        match goal with |- context [steps C M parse toml (events d) ?z] => set (s' := z) end.
        assert (Q' : core (before ++ pend (heads s) (config C M s) c (rust C M s)) None s' /\ quiet s').
        { destruct Qu as [_ Qc]. unfold s', set_heading, core, quiet. cbn [level]. destruct l as [|[|[|[|l]]]]; cbn [tests counts cairo in_heading in_code option_map]; (split; [auto|split; [reflexivity|congruence]]). }
        destruct Q' as [Q1 Q2]. rewrite (IH _ _ _ Nd Cd Q1 Q2), <- app_assoc.
        assert (E : heads s' = under l t (heads s) /\ config C M s' = config C M s /\ rust C M s' = drop_rust c (rust C M s)).
        { rewrite <- Fh, <- Fg, <- Fr. unfold s', set_heading, heads, under. cbn [level]. destruct l as [|[|[|[|l]]]]; cbn; auto. }
        destruct E as (-> & -> & ->). reflexivity.
      + rewrite (block_steps _ _ _ _ Qu). unfold block_end. cbn [lang content]. rewrite eqb_refl.
        match goal with |- context [flush C M ?z] => set (s1 := z) end.
        assert (Q1 : core before c s1) by exact Q. destruct (flush_core _ _ _ Q1) as ((FT & FN & FP) & Fh & Fg & Fr & Fi & Fc). set (f := flush C M s1) in *.
        match goal with |- context [steps C M parse toml (events d) ?z] => set (s' := z) end.
        assert (Q' : core (before ++ pend (heads s) (config C M s) c (rust C M s)) (Some x) s') by (unfold s', set_pending, core; cbn; auto).
        rewrite (IH _ _ _ Nd Cd Q' ltac:(split; [exact Fi|reflexivity])), <- app_assoc.
        assert (E : heads s' = heads s /\ config C M s' = config C M s /\ rust C M s' = drop_rust c (rust C M s)) by (split; [exact Fh|split; [exact Fg|exact Fr]]).
        destruct E as (-> & -> & ->). reflexivity.
      + rewrite (block_steps _ _ _ _ Qu). unfold block_end. cbn [lang content]. change ("rust" =? "cairo-m") with false. rewrite eqb_refl. cbv iota beta zeta.
        match goal with |- context [steps C M parse toml (events d) ?z] => set (s' := z) end.
        exact (IH before c s' Nd Cd Q (conj eq_refl eq_refl)).
      + rewrite (block_steps _ _ _ _ Qu). unfold block_end. cbn [lang content]. change ("toml" =? "cairo-m") with false. change ("toml" =? "rust") with false. rewrite eqb_refl. cbv iota beta zeta.
        destruct (toml x) as [g|] eqn:G; [|destruct (Cp eq_refl)].
        match goal with |- context [steps C M parse toml (events d) ?z] => set (s' := z) end.
        exact (IH before c s' Nd Cd Q (conj eq_refl eq_refl)).
      + rewrite (block_steps _ _ _ _ Qu). unfold block_end. cbn [lang content]. destruct Np as (N1 & N2 & N3). apply String.eqb_neq in N1, N2, N3. rewrite N1, N2, N3. cbv iota beta zeta.
        match goal with |- context [steps C M parse toml (events d) ?z] => set (s' := z) end.
        exact (IH before c s' Nd Cd Q (conj eq_refl eq_refl)).
      + cbn [app steps step]. rewrite <- app_assoc, (quiet_paragraph _ _ _ Qu). cbn [app steps step]. exact (IH before c s Nd Cd Q Qu).
  Qed.

  (** In a document that is in order, this is what the tests are. *)
  Lemma found_expected : forall d h g c r, in_order (match c with Some _ => true | None => false end) d = true -> (c = None -> r = None) ->
    found h g c r d = ((match c with Some x => [Raw C (title h) x (match rust_after d with Some y => Some y | None => r end) g] | None => [] end) ++ expected C toml h g d)%list.
  Proof.
    induction d as [|p d IH]; intros h g c r O R; [cbn; destruct c; reflexivity|]. destruct p as [l t|x|x|x|l x|ts]; cbn [found in_order expected rust_after] in *.
    - rewrite (IH _ _ None); [destruct c; reflexivity|exact O|intros _; destruct c; [reflexivity|exact (R eq_refl)]].
    - rewrite (IH _ _ (Some x)); [|exact O|discriminate]. replace (drop_rust c r) with (@None string) by (destruct c; [reflexivity|symmetry; exact (R eq_refl)]). destruct c; cbn; destruct (rust_after d); reflexivity.
    - apply andb_true_iff in O as [Oc O]. destruct c as [y|]; [|discriminate]. rewrite (IH _ _ (Some y)); [|exact O|discriminate]. destruct (rust_after d); reflexivity.
    - apply andb_true_iff in O as [Oc O]. destruct c as [y|]; [discriminate|]. rewrite (IH _ _ None); [reflexivity|exact O|exact R].
    - rewrite IH; auto.
    - rewrite IH; auto.
  Qed.
  (** In any document, the names and the code are. *)
  Lemma found_code : forall d h g g' c r, map (fun t => (r_title C t, r_code C t)) (found h g c r d) =
    (match c with Some x => [(title h, x)] | None => [] end ++ map (fun t => (r_title C t, r_code C t)) (expected C toml h g' d))%list.
  Proof.
    induction d as [|p d IH]; intros h g g' c r; [cbn; destruct c; reflexivity|]. destruct p as [l t|x|x|x|l x|ts]; cbn [found expected]; try (apply IH);
      rewrite map_app, (IH _ _ g'); destruct c; reflexivity.
  Qed.
  Lemma numbered_code : forall l l' b b', map (fun t => (r_title C t, r_code C t)) l = map (fun t => (r_title C t, r_code C t)) l' -> map (r_title C) b = map (r_title C) b' ->
    map (fun t => (t_name C M t, t_source C M t, t_meta C M t)) (numbered C M parse b l) = map (fun t => (t_name C M t, t_source C M t, t_meta C M t)) (numbered C M parse b' l').
  Proof.
    assert (Cnt : forall b b' x, map (r_title C) b = map (r_title C) b' -> length (filter (fun t => r_title C t =? x) b) = length (filter (fun t => r_title C t =? x) b')).
    { induction b as [|t b IH]; intros [|t' b'] x H; try discriminate H; [reflexivity|]. injection H as H1 H2. cbn [filter]. rewrite H1. destruct (r_title C t' =? x); cbn [length]; rewrite (IH b' x H2); reflexivity. }
    induction l as [|t l IH]; intros [|t' l'] b b' H Hb; try discriminate H; [reflexivity|]. injection H as H1 H2 H3. cbn [numbered map t_name t_source t_meta]. unfold number. rewrite H1, H2, (Cnt b b' _ Hb).
    f_equal. apply IH; [exact H3|]. rewrite !map_app, Hb. cbn. rewrite H1. reflexivity.
  Qed.
End Facts.

(** ** C72: tests in documents *)
(** If Rust code stands behind the test it belongs to and configurations stand before the tests, the
    tests that are run are the code blocks of the document, in order, each with the Rust code behind
    it, the configuration before it, and the name of its section. *)
Theorem C72_tests_partial : forall C M parse toml d, named d -> configs_ok C toml d -> in_order false d = true ->
  extract_tests C M parse toml (events d) = Some (tests_of C M parse toml d).
Proof.
  intros C M parse toml d Nm Co O. unfold extract_tests. rewrite (steps_found C M parse toml d [] None (start C M) Nm Co); [|split; [reflexivity|split; [intros x; reflexivity|reflexivity]]|split; reflexivity].
  cbn [app]. rewrite found_expected; [reflexivity|exact O|reflexivity].
Qed.
Print Assumptions C72_tests_partial.
(** In every document of such parts, no code block is lost, changed or doubled: the names, sources and
    annotations are as they should be. *)
Theorem C72_code : forall C M parse toml d, named d -> configs_ok C toml d ->
  exists ts, extract_tests C M parse toml (events d) = Some ts /\
  map (fun t => (t_name C M t, t_source C M t, t_meta C M t)) ts = map (fun t => (t_name C M t, t_source C M t, t_meta C M t)) (tests_of C M parse toml d).
Proof.
  intros C M parse toml d Nm Co. unfold extract_tests. rewrite (steps_found C M parse toml d [] None (start C M) Nm Co); [|split; [reflexivity|split; [intros x; reflexivity|reflexivity]]|split; reflexivity].
  eexists. split; [reflexivity|]. apply numbered_code; [|reflexivity]. cbn [app]. apply (found_code C toml d ("", "", "") None None None None).
Qed.
Print Assumptions C72_code.

(** ** C72: refutations *)
Definition as_it_is (s : string) : string * unit := (s, tt).
Definition run (d : list part) : option (list (test string unit)) := extract_tests string unit as_it_is Some (events d).
Definition wanted (d : list part) : list (test string unit) := tests_of string unit as_it_is Some d.
(** Rust code of a section without a test becomes that of the test in the next section. *)
Theorem C72_rust_refuted : exists d, named d /\ configs_ok string Some d /\
  option_map (map (t_rust string unit)) (run d) = Some [Some "a"] /\ map (t_rust string unit) (wanted d) = [None].
Proof.
  exists [Heading 1 "A"; Rust "a"; Heading 1 "B"; Cairo "b"]. split; [repeat constructor|]. split; [repeat constructor|]. split; reflexivity.
Qed.
Print Assumptions C72_rust_refuted.
(** A configuration behind a test, in its section, changes that test. *)
Theorem C72_config_refuted : exists d, named d /\ configs_ok string Some d /\
  option_map (map (t_config string unit)) (run d) = Some [Some "2"; Some "2"] /\ map (t_config string unit) (wanted d) = [Some "1"; Some "2"].
Proof.
  exists [Heading 1 "A"; Toml "1"; Cairo "a"; Toml "2"; Cairo "b"]. split; [repeat constructor|]. split; [repeat (constructor; try discriminate)|]. split; reflexivity.
Qed.
Print Assumptions C72_config_refuted.
(** An indented code block behind a test is taken for another, empty, test. *)
Theorem C72_indented_refuted : exists es, es = (events [Heading 1 "A"; Cairo "a"] ++ [Indented; Txt "text"; BlockEnd])%list /\
  option_map (map (t_source string unit)) (extract_tests string unit as_it_is Some es) = Some ["a"; ""].
Proof. eexists. split; reflexivity. Qed.
Print Assumptions C72_indented_refuted.
(** Of a title with emphasis or code only the last piece of text is kept. *)
Theorem C72_title_refuted : exists es, es = ([Head 1; Txt "one "; Other; Txt "two"; Other; HeadEnd] ++ events [Cairo "a"])%list /\
  option_map (map (t_name string unit)) (extract_tests string unit as_it_is Some es) = Some ["two"].
Proof. eexists. split; reflexivity. Qed.
Print Assumptions C72_title_refuted.
(** Names are not unique, and different names have the same snapshot. *)
Theorem C72_names_refuted : exists d d', in_order false d = true /\ in_order false d' = true /\
  option_map (map (t_name string unit)) (run d) = Some ["A"; "A 2"; "A 2"] /\
  option_map (map (fun t => sanitize (t_name string unit t))) (run d') = Some ["a_b"; "a_b"] /\ option_map (map (t_name string unit)) (run d') = Some ["a b"; "A-b"].
Proof.
  exists [Heading 1 "A"; Cairo "a"; Cairo "b"; Heading 1 "A 2"; Cairo "c"], [Heading 1 "a b"; Cairo "a"; Heading 1 "A-b"; Cairo "b"].
  split; [reflexivity|]. split; [reflexivity|]. split; [reflexivity|]. split; reflexivity.
Qed.
Print Assumptions C72_names_refuted.

(** *** Examples *)
Definition sample : list part :=
  [Heading 1 "Loops"; Paragraph ["some"; "text"]; Toml "fast"; Heading 2 "While"; Cairo "a"; Rust "a'"; OtherBlock "sh" "ls"; Cairo "b"; Heading 3 "Break"; Cairo "c"; Rust "c'"; Heading 1 "If"; Cairo "d"].
Example C72_example : named sample /\ configs_ok string Some sample /\ in_order false sample = true /\
  map (fun t => (t_name string unit t, t_source string unit t, t_rust string unit t, t_config string unit t)) (wanted sample) =
  [("Loops - While", "a", Some "a'", Some "fast"); ("Loops - While 2", "b", None, Some "fast"); ("Loops - While - Break", "c", Some "c'", Some "fast"); ("If", "d", None, Some "fast")].
Proof. split; [repeat (constructor; try (split; [|split]; discriminate))|]. split; [repeat (constructor; try discriminate)|]. split; reflexivity. Qed.
