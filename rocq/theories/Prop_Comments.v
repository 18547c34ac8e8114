(** Property C74: the formatter finds every comment and gives it one place. *)
From Coq Require Import String Ascii List Arith Bool Lia.
From Verif Require Import Comments CommentsSpec.
Import ListNotations.
Open Scope nat_scope.

(** ** Lemmas: scanning *)
Lemma is_ok a b : is a b = true <-> a = b.
Proof. unfold is. apply Ascii.eqb_eq. Qed.
Lemma is_no a b : is a b = false <-> a <> b.
Proof. unfold is. apply Ascii.eqb_neq. Qed.

Definition tail_ok (r : text) : Prop := r = [] \/ exists r', r = nl :: r'.
Definition after (r : text) (i : nat) : list comment := match r with [] => [] | _ :: r' => scan r' (S i) None end.
Lemma scan_in : forall l r i start acc, ~ In nl l -> tail_ok r ->
  scan (l ++ r) i (Some (start, acc)) = Comment (Span start (i + length l)) (rev acc ++ l) :: after r (i + length l).
Proof.
  induction l as [|c l IH]; intros r i start acc N T; cbn [app length].
  - rewrite app_nil_r, Nat.add_0_r. destruct T as [->|[r' ->]]; cbn [scan after]; [reflexivity|]. replace (is nl nl) with true by reflexivity. reflexivity.
  - cbn [scan]. rewrite (proj2 (is_no c nl)) by (intro E; apply N; left; exact E). rewrite IH; [|intro E; apply N; right; exact E|exact T].
    cbn [rev]. rewrite <- app_assoc. replace (S i + length l) with (i + S (length l)) by lia. reflexivity.
Qed.
Lemma two_slashes_cons c l : two_slashes (c :: l) -> (c = slash /\ exists l', l = slash :: l') \/ two_slashes l.
Proof.
  intros ([|d a] & b & E); cbn in E; [injection E as -> ->; left; split; [reflexivity|exists b; reflexivity]|].
  injection E as -> ->. right. exists a, b. reflexivity.
Qed.
Lemma scan_out : forall l r i, ~ In nl l -> tail_ok r ->
  (~ two_slashes l /\ scan (l ++ r) i None = after r (i + length l)) \/
  (exists k x, line_comment l k x /\ scan (l ++ r) i None = Comment (Span (i + k) (i + length l)) x :: after r (i + length l)).
Proof.
  induction l as [|c l IH]; intros r i N T.
  - left. split; [intros ([|? ?] & b & E); discriminate E|]. cbn [app length]. rewrite Nat.add_0_r. destruct T as [->|[r' ->]]; [reflexivity|]. cbn [scan after]. destruct r' as [|d r']; [reflexivity|]. replace (is nl slash) with false by reflexivity. reflexivity.
  - assert (Nl : ~ In nl l) by (intro E; apply N; right; exact E).
    assert (Dec : (c = slash /\ exists l', l = slash :: l') \/ ~ (c = slash /\ exists l', l = slash :: l')).
    { destruct (Ascii.ascii_dec c slash) as [->|D]; [|right; tauto]. destruct l as [|d l']; [right; intros [_ [l' E]]; discriminate E|].
      destruct (Ascii.ascii_dec d slash) as [->|D]; [left; split; [reflexivity|exists l'; reflexivity]|right; intros [_ [l'' E]]; injection E as E _; contradiction]. }
    destruct Dec as [[-> [l' ->]]|Dec].
    + right. exists 0, (slash :: slash :: l'). split.
      * exists []. split; [reflexivity|]. split; [reflexivity|]. split; [exists l'; reflexivity|]. intros ([|? [|? ?]] & b & E); discriminate E.
      * cbn [app scan]. replace (is slash slash && is slash slash) with true by reflexivity. rewrite scan_in; [|intro E; apply Nl; right; exact E|exact T].
        cbn [length rev app]. rewrite Nat.add_0_r. replace (S (S i) + length l') with (i + S (S (length l'))) by lia. reflexivity.
    + assert (E : scan ((c :: l) ++ r) i None = scan (l ++ r) (S i) None).
      { cbn [app scan]. destruct (l ++ r) as [|d m] eqn:LR; [reflexivity|]. destruct (is c slash && is d slash) eqn:B; [|reflexivity]. exfalso.
        apply andb_prop in B. destruct B as [B1 B2]. apply is_ok in B1, B2. subst. apply Dec. split; [reflexivity|].
        destruct l as [|e l']; [|cbn in LR; injection LR as -> _; exists l'; reflexivity]. cbn in LR. destruct T as [->|[r' ->]]; discriminate LR. }
      rewrite E. destruct (IH r (S i) Nl T) as [[A B]|(k & x & (a & L1 & L2 & L3 & L4) & B)].
      * left. split; [intro H; apply two_slashes_cons in H; tauto|]. rewrite B. cbn [length]. f_equal. lia.
      * right. exists (S k), x. split.
        -- exists (c :: a). split; [cbn; f_equal; exact L1|]. split; [cbn; lia|]. split; [exact L3|]. cbn [app]. intro H. apply two_slashes_cons in H. destruct H as [[-> [l' H]]|H]; [|contradiction].
           apply Dec. split; [reflexivity|]. rewrite L1. destruct L3 as [b ->]. destruct a as [|d a]; [exists (slash :: b); reflexivity|]. cbn in H. injection H as -> _. cbn. eexists. reflexivity.
        -- rewrite B. cbn [length]. f_equal; [f_equal; f_equal; lia|f_equal; lia].
Qed.

Lemma scan_lines : forall ls i, Forall (fun l => ~ In nl l) ls -> comments_of ls i (scan (join ls) i None).
Proof.
  induction ls as [|l ls IH]; intros i F; [apply co_none|]. inversion F as [|? ? Nl Fl]; subst.
  assert (E : exists r, join (l :: ls) = l ++ r /\ tail_ok r /\ after r (i + length l) = scan (join ls) (i + length l + 1) None).
  { destruct ls as [|l2 ls]; [exists []; split; [symmetry; apply app_nil_r|]; split; [left; reflexivity|reflexivity]|].
    exists (nl :: join (l2 :: ls)). split; [reflexivity|]. split; [right; eexists; reflexivity|]. cbn [after]. f_equal. lia. }
  destruct E as (r & -> & T & A). destruct (scan_out l r i Nl T) as [[N S]|(k & x & L & S)]; rewrite S, A.
  - apply co_plain; [exact N|]. apply IH, Fl.
  - apply co_comment; [exact L|]. apply IH, Fl.
Qed.
Lemma split_facts : forall t, join (split t) = t /\ Forall (fun l => ~ In nl l) (split t) /\ split t <> [].
Proof.
  induction t as [|c t (J & F & N)]; [split; [reflexivity|]; split; [constructor; [tauto|constructor]|discriminate]|].
  cbn [split]. destruct (is c nl) eqn:E.
  - apply is_ok in E. subst. destruct (split t) as [|l ls]; [contradiction|]. split; [cbn [join app]; f_equal; exact J|]. split; [constructor; [tauto|exact F]|discriminate].
  - apply is_no in E. destruct (split t) as [|l ls]; [contradiction|]. inversion F as [|? ? F1 F2]; subst. split; [|split; [constructor; [intros [H|H]; [congruence|contradiction]|exact F2]|discriminate]].
    destruct ls as [|l2 ls]; cbn [join app]; reflexivity.
Qed.

(** ** C74: comments are found *)
(** For every text, whatever its lines are: the comments are, line by line, what follows the first two slashes. *)
Theorem C74_found : forall t, exists ls, t = join ls /\ Forall (fun l => ~ In nl l) ls /\
  forall ls', t = join ls' -> ls' <> [] -> Forall (fun l => ~ In nl l) ls' -> ls' = ls /\ comments_of ls' 0 (scan_comments t).
Proof.
  intros t. destruct (split_facts t) as (J & F & N). exists (split t). split; [symmetry; exact J|]. split; [exact F|].
  intros ls' -> N' F'. split; [|apply scan_lines, F']. clear J F N. induction ls' as [|l ls IH]; [contradiction|]. inversion F' as [|? ? Nl Fl]; subst.
  assert (A : forall l, ~ In nl l -> split l = [l]).
  { clear. induction l as [|c l IH]; intros N; [reflexivity|]. cbn [split]. rewrite (proj2 (is_no c nl)) by (intro E; apply N; left; exact E). rewrite IH; [reflexivity|]. intro E. apply N. right. exact E. }
  assert (B : forall l r, ~ In nl l -> split (l ++ nl :: r) = l :: split r).
  { clear. induction l as [|c l IH]; intros r N; [reflexivity|]. cbn [app split]. rewrite (proj2 (is_no c nl)) by (intro E; apply N; left; exact E). rewrite IH; [reflexivity|]. intro E. apply N. right. exact E. }
  destruct ls as [|l2 ls]; [cbn [join]; symmetry; apply A, Nl|]. change (join (l :: l2 :: ls)) with (l ++ nl :: join (l2 :: ls)). rewrite (B _ _ Nl). f_equal. apply IH; [discriminate|exact Fl].
Qed.
Print Assumptions C74_found.

(** ** Lemmas: blanks and comments *)
Definition line_ok (l : text) : Prop := ~ In nl l /\ (blanks l \/ exists a b, blanks a /\ l = a ++ slash :: slash :: b).
Definition is_blank (c : ascii) : Prop := c = " "%char \/ c = Ascii.ascii_of_nat 9 \/ c = cr.
Lemma blank_step c r : is_blank c -> only_blank (c :: r) false = only_blank r false.
Proof. intros [->|[->| ->]]; reflexivity. Qed.
Lemma blanks_step : forall a r, blanks a -> only_blank (a ++ r) false = only_blank r false.
Proof. induction a as [|c a IH]; intros r B; [reflexivity|]. inversion B as [|? ? B1 B2]; subst. cbn [app]. rewrite (blank_step c _ B1). apply IH, B2. Qed.
Lemma skip_step : forall b r, ~ In nl b -> tail_ok r -> only_blank (b ++ r) true = only_blank r false.
Proof.
  induction b as [|c b IH]; intros r N T; cbn [app].
  - destruct T as [->|[r' ->]]; reflexivity.
  - cbn [only_blank]. rewrite (proj2 (is_no c nl)) by (intro E; apply N; left; exact E). cbn [negb]. apply IH; [intro E; apply N; right; exact E|exact T].
Qed.
Lemma line_step l r : line_ok l -> tail_ok r -> only_blank (l ++ r) false = only_blank r false.
Proof.
  intros [N [B|(a & b & B & ->)]] T; [apply blanks_step, B|]. rewrite <- app_assoc, (blanks_step _ _ B). cbn [app only_blank]. apply skip_step; [|exact T].
  intro E. apply N. apply in_or_app. right. right. right. exact E.
Qed.
Lemma blank_sound : forall n t skip, length t <= n -> only_blank t skip = true ->
  exists l ls, t = join (l :: ls) /\ Forall line_ok ls /\ ~ In nl l /\ (if skip then True else line_ok l).
Proof.
  induction n as [|n IH]; intros t skip L H.
  - destruct t; [|cbn in L; lia]. exists [], []. split; [reflexivity|]. split; [constructor|]. split; [tauto|]. destruct skip; [exact I|]. split; [tauto|left; constructor].
  - destruct t as [|c r]; [apply (IH []); [cbn; lia|exact H]|]. cbn [length] in L.
    assert (Cons : forall c l ls, join ((c :: l) :: ls) = c :: join (l :: ls)) by (intros c' l [|? ?]; reflexivity).
    destruct skip; cbn [only_blank] in H.
    + destruct (is c nl) eqn:E; cbn [negb] in H; destruct (IH r _ ltac:(lia) H) as (l & ls & -> & F & N & K).
      * apply is_ok in E. subst. exists [], (l :: ls). split; [reflexivity|]. split; [constructor; assumption|]. split; [tauto|exact I].
      * apply is_no in E. exists (c :: l), ls. split; [symmetry; apply Cons|]. split; [exact F|]. split; [intros [X|X]; [congruence|contradiction]|exact I].
    + destruct (is c " "%char || is c (Ascii.ascii_of_nat 9) || is c cr || is c nl) eqn:E.
      * destruct (IH r _ ltac:(lia) H) as (l & ls & -> & F & N & K). destruct (is c nl) eqn:E2.
        -- apply is_ok in E2. subst. exists [], (l :: ls). split; [reflexivity|]. split; [constructor; assumption|]. split; [tauto|]. split; [tauto|left; constructor].
        -- assert (B : is_blank c). { rewrite orb_false_r in E. apply orb_prop in E. destruct E as [E|E]; [apply orb_prop in E; destruct E as [E|E]|]; apply is_ok in E; subst; [left|right; left|right; right]; reflexivity. }
           apply is_no in E2. assert (N2 : ~ In nl (c :: l)) by (intros [X|X]; [congruence|contradiction]).
           exists (c :: l), ls. split; [symmetry; apply Cons|]. split; [exact F|]. split; [exact N2|]. split; [exact N2|]. destruct K as [_ [K|(a & b & K & ->)]]; [left; constructor; assumption|].
           right. exists (c :: a), b. split; [constructor; assumption|reflexivity].
      * destruct r as [|d r']; [discriminate H|]. destruct (is c slash && is d slash) eqn:S; [|discriminate H]. apply andb_prop in S. destruct S as [S1 S2]. apply is_ok in S1, S2. subst. cbn [length] in L.
        destruct (IH r' _ ltac:(lia) H) as (l & ls & -> & F & N & K). exists (slash :: slash :: l), ls. split; [rewrite !Cons; reflexivity|]. split; [exact F|].
        assert (N2 : ~ In nl (slash :: slash :: l)) by (intros [X|[X|X]]; [discriminate X|discriminate X|contradiction]). split; [exact N2|]. split; [exact N2|]. right. exists [], l. split; [constructor|reflexivity].
Qed.
Lemma blank_exact t : only_blank t false = true <-> nothing_but_comments t.
Proof.
  split.
  - intros H. destruct (blank_sound _ t false (le_n _) H) as (l & ls & -> & F & _ & K). exists (l :: ls). split; [reflexivity|]. constructor; assumption.
  - intros (ls & -> & F). induction ls as [|l ls IH]; [reflexivity|]. inversion F as [|? ? F1 F2]; subst. destruct ls as [|l2 ls].
    + cbn [join]. rewrite <- (app_nil_r l). apply (line_step l [] F1). left. reflexivity.
    + change (join (l :: l2 :: ls)) with (l ++ nl :: join (l2 :: ls)). rewrite (line_step l _ F1) by (right; eexists; reflexivity). apply (IH F2).
Qed.

(** ** Lemmas: places *)
Lemma determine_before c n t : determine c n t = Some Before <-> before_node t c n.
Proof.
  unfold determine, before_node. destruct (Nat.ltb_spec (s_start c) (s_start n)) as [L|L].
  - rewrite <- blank_exact. destruct (only_blank _ _); split; intros H; [split; [exact L|reflexivity]|reflexivity|discriminate H|destruct H as [_ H]; discriminate H].
  - split; [|lia]. destruct (s_end n <=? s_start c); [|discriminate]. cbv zeta. destruct (_ =? 0); [discriminate|]. destruct (_ <=? 1); discriminate.
Qed.
Lemma determine_behind c n t : (determine c n t = Some EndOfLine \/ determine c n t = Some After) <-> behind_node t c n.
Proof.
  unfold determine, behind_node. destruct (Nat.ltb_spec (s_start c) (s_start n)) as [L|L].
  - destruct (only_blank _ _); split; [intros [H|H]; discriminate H|lia|intros [H|H]; discriminate H|lia].
  - destruct (Nat.leb_spec (s_end n) (s_start c)) as [M|M]; [|split; [intros [H|H]; discriminate H|lia]]. cbv zeta.
    destruct (Nat.eqb_spec (line_ends (slice t (s_end n) (s_start c))) 0) as [Z|Z]; [split; [lia|left; reflexivity]|].
    destruct (Nat.leb_spec (line_ends (slice t (s_end n) (s_start c))) 1) as [Y|Y]; [split; [lia|right; reflexivity]|split; [intros [H|H]; discriminate H|lia]].
Qed.
Lemma determine_line c n t : determine c n t = Some EndOfLine <-> s_start n <= s_start c /\ s_end n <= s_start c /\ line_ends (slice t (s_end n) (s_start c)) = 0.
Proof.
  unfold determine. destruct (Nat.ltb_spec (s_start c) (s_start n)) as [L|L]; [destruct (only_blank _ _); split; [discriminate|lia|discriminate|lia]|].
  destruct (Nat.leb_spec (s_end n) (s_start c)) as [M|M]; [|split; [discriminate|lia]]. cbv zeta.
  destruct (Nat.eqb_spec (line_ends (slice t (s_end n) (s_start c))) 0) as [Z|Z]; [split; [lia|reflexivity]|]. destruct (_ <=? 1); split; try discriminate; lia.
Qed.
Definition at_most (a b : nat * nat) : Prop := fst a < fst b \/ fst a = fst b /\ snd a <= snd b.
Lemma less_iff a b : less a b = true <-> fst a < fst b \/ fst a = fst b /\ snd a < snd b.
Proof. unfold less. rewrite orb_true_iff, andb_true_iff, !Nat.ltb_lt, Nat.eqb_eq. tauto. Qed.
Lemma min_by_spec {A} (key : A -> nat * nat) : forall l, match min_by key l with Some x => In x l /\ (forall y, In y l -> at_most (key x) (key y)) | None => l = [] end.
Proof.
  induction l as [|x l IH]; [reflexivity|]. cbn [min_by]. destruct (min_by key l) as [y|].
  - destruct IH as [I1 I2]. destruct (less (key y) (key x)) eqn:E.
    + split; [right; exact I1|]. apply less_iff in E. intros z [<-|Z]; [unfold at_most; lia|apply I2, Z].
    + split; [left; reflexivity|]. assert (Q : ~ (fst (key y) < fst (key x) \/ fst (key y) = fst (key x) /\ snd (key y) < snd (key x))) by (rewrite <- less_iff, E; discriminate).
      intros z [<-|Z]; [unfold at_most; lia|]. specialize (I2 z Z). unfold at_most in *. lia.
  - subst l. split; [left; reflexivity|]. intros z [<-|[]]. unfold at_most. lia.
Qed.
Lemma in_candidates c nodes t n p : In (n, p) (candidates c nodes t) <-> In n nodes /\ determine (c_span c) n t = Some p.
Proof.
  unfold candidates. rewrite in_flat_map. split.
  - intros (m & M & H). destruct (determine (c_span c) m t) as [q|] eqn:D; [|destruct H]. destruct H as [H|[]]. injection H as <- <-. split; [exact M|exact D].
  - intros [N D]. exists n. split; [exact N|]. rewrite D. left. reflexivity.
Qed.
Definition place (nodes : list span) (t : text) (c : comment) : Prop := exists n, In n nodes /\ (before_node t (c_span c) n \/ behind_node t (c_span c) n).
Definition placed (nodes : list span) (t : text) (c : comment) : bool := negb (s_start (c_span c) <? first_code_pos t) && match candidates c nodes t with [] => false | _ => true end.
Lemma place_candidates nodes t c : place nodes t c <-> candidates c nodes t <> [].
Proof.
  split.
  - intros (n & N & [H|H]) E.
    + apply determine_before in H. assert (X : In (n, Before) (candidates c nodes t)) by (apply in_candidates; split; assumption). rewrite E in X. destruct X.
    + apply determine_behind in H. destruct H as [H|H]; [assert (X : In (n, EndOfLine) (candidates c nodes t)) by (apply in_candidates; split; assumption)|assert (X : In (n, After) (candidates c nodes t)) by (apply in_candidates; split; assumption)]; rewrite E in X; destruct X.
  - intros H. destruct (candidates c nodes t) as [|[n p] l] eqn:E; [contradiction|]. assert (X : In (n, p) (candidates c nodes t)) by (rewrite E; left; reflexivity).
    apply in_candidates in X. destruct X as [N D]. exists n. split; [exact N|]. destruct p; [left; apply determine_before, D|right; apply determine_behind; right; exact D|right; apply determine_behind; left; exact D].
Qed.
Lemma attach_one_spec nodes t c : if placed nodes t c then
    exists s n p, attach_one nodes t c = [(s, n, c)] /\ In n nodes /\ determine (c_span c) n t = Some p /\ s = match p with Before => Leading | _ => Trailing end /\
      (forall m q, In m nodes -> determine (c_span c) m t = Some q ->
        at_most (rank (is_doc (c_text c)) p, distance (c_span c) n) (rank (is_doc (c_text c)) q, distance (c_span c) m))
  else attach_one nodes t c = [].
Proof.
  unfold placed, attach_one. destruct (s_start (c_span c) <? first_code_pos t); [reflexivity|]. cbn [negb andb]. unfold find_best.
  match goal with |- context [min_by ?k (candidates c nodes t)] => pose proof (min_by_spec k (candidates c nodes t)) as M; destruct (min_by k (candidates c nodes t)) as [[n p]|] end.
  - destruct M as [M1 M2]. destruct (candidates c nodes t) as [|x l] eqn:E; [destruct M1|]. rewrite <- E in *. apply in_candidates in M1. destruct M1 as [N D].
    exists (match p with Before => Leading | _ => Trailing end), n, p. cbn [option_map fst]. rewrite D. split; [destruct p; reflexivity|]. split; [exact N|]. split; [reflexivity|]. split; [reflexivity|].
    intros m q Hm Hq. apply (M2 (m, q)). apply in_candidates. split; assumption.
  - rewrite M. reflexivity.
Qed.

(** ** C74: each comment behind the head has one place *)
(** The comments put at nodes are, once each and in order, the comments behind the head of the file that
    have a place: nothing but blanks and comments up to the start of a node, or at most one line end from
    the end of a node.  Leading comments stand before their node and trailing ones behind it. *)
Theorem C74_attached_partial : forall nodes t, exists f,
  map snd (attach nodes t) = filter f (scan_comments t) /\
  (forall c, f c = true <-> first_code_pos t <= s_start (c_span c) /\ exists n, In n nodes /\ (before_node t (c_span c) n \/ behind_node t (c_span c) n)) /\
  (forall s n c, In (s, n, c) (attach nodes t) -> In n nodes /\ (s = Leading /\ before_node t (c_span c) n \/ s = Trailing /\ behind_node t (c_span c) n)).
Proof.
  intros nodes t. exists (placed nodes t). split; [|split].
  - unfold attach. induction (scan_comments t) as [|c cs IH]; [reflexivity|]. cbn [flat_map filter]. rewrite map_app, IH. pose proof (attach_one_spec nodes t c) as S.
    destruct (placed nodes t c); [destruct S as (s & n & p & -> & _); reflexivity|rewrite S; reflexivity].
  - intros c. change (exists n, In n nodes /\ (before_node t (c_span c) n \/ behind_node t (c_span c) n)) with (place nodes t c). rewrite place_candidates. unfold placed. rewrite andb_true_iff, negb_true_iff, Nat.ltb_ge.
    destruct (candidates c nodes t); split; intros [A B]; (split; [exact A|]); [discriminate B|congruence|discriminate|reflexivity].
  - intros s n c H. unfold attach in H. apply in_flat_map in H. destruct H as (d & _ & H). pose proof (attach_one_spec nodes t d) as S. destruct (placed nodes t d); [|rewrite S in H; destruct H].
    destruct S as (s' & n' & p & E & N & D & Es & _). rewrite E in H. destruct H as [H|[]]. injection H as <- <- <-. split; [exact N|]. subst s'.
    destruct p; [left; split; [reflexivity|apply determine_before, D]|right; split; [reflexivity|apply determine_behind; right; exact D]|right; split; [reflexivity|apply determine_behind; left; exact D]].
Qed.
Print Assumptions C74_attached_partial.

(** The place is the nearest one: a comment behind code on its line (not a documentation comment) goes to
    the node that ends last there, any other comment above a node to the node that starts first below it. *)
Theorem C74_nearest : forall nodes t s n c, In (s, n, c) (attach nodes t) -> is_doc (c_text c) = false ->
  let on_line m := s_start m <= s_start (c_span c) /\ s_end m <= s_start (c_span c) /\ line_ends (slice t (s_end m) (s_start (c_span c))) = 0 in
  (forall m, In m nodes -> on_line m -> s = Trailing /\ on_line n /\ s_end m <= s_end n) /\
  ((forall m, In m nodes -> ~ on_line m) -> forall m, In m nodes -> before_node t (c_span c) m -> s = Leading /\ s_start n <= s_start m).
Proof.
  intros nodes t s n c H Doc on_line. unfold attach in H. apply in_flat_map in H. destruct H as (d & _ & H). pose proof (attach_one_spec nodes t d) as S. destruct (placed nodes t d); [|rewrite S in H; destruct H].
  destruct S as (s' & n' & p & E & N & D & Es & Best). rewrite E in H. destruct H as [H|[]]. injection H as <- <- <-. rewrite Doc in Best. split.
  - intros m Hm O. subst on_line. cbv beta in *. pose proof (proj2 (determine_line _ _ _) O) as Dm. specialize (Best m _ Hm Dm). unfold at_most in Best. cbn [fst snd] in Best.
    destruct p; cbn [rank] in Best; [lia|lia|]. apply determine_line in D. split; [exact Es|]. split; [exact D|]. unfold distance in Best.
    destruct (Nat.ltb_spec (s_start (c_span d)) (s_start n')); [lia|]. destruct (Nat.ltb_spec (s_start (c_span d)) (s_start m)); lia.
  - intros None m Hm B. pose proof (proj2 (determine_before _ _ _) B) as Dm. specialize (Best m _ Hm Dm). unfold at_most in Best. cbn [fst snd] in Best.
    destruct p; cbn [rank] in Best; [|lia|exfalso; apply (None n' N); apply determine_line, D]. split; [exact Es|]. apply determine_before in D. destruct D as [D _], B as [B _]. unfold distance in Best.
    destruct (Nat.ltb_spec (s_start (c_span d)) (s_start n')); [|lia]. destruct (Nat.ltb_spec (s_start (c_span d)) (s_start m)); lia.
Qed.
Print Assumptions C74_nearest.

(** ** Lemmas: the head of the file *)
Lemma comment_line : forall ls pos cs, comments_of ls pos cs -> forall c, In c cs ->
  exists j l, nth_error ls j = Some l /\ pos + sizes (firstn j ls) <= s_start (c_span c) /\ s_start (c_span c) + 2 <= pos + sizes (firstn j ls) + length l.
Proof.
  intros ls pos cs H. induction H as [pos|l ls pos cs N H IH|l ls pos cs k x (a & L1 & L2 & (b & L3) & L4) H IH]; intros c C; [destruct C| |].
  - destruct (IH c C) as (j & l' & J & A & B). exists (S j), l'. split; [exact J|]. cbn [firstn]. unfold sizes in *. cbn [map list_sum fold_right]. change (fold_right Nat.add 0) with list_sum. lia.
  - destruct C as [<-|C].
    + exists 0, l. split; [reflexivity|]. cbn. subst x l k. rewrite app_length. cbn. lia.
    + destruct (IH c C) as (j & l' & J & A & B). exists (S j), l'. split; [exact J|]. cbn [firstn]. unfold sizes in *. cbn [map list_sum fold_right]. change (fold_right Nat.add 0) with list_sum. lia.
Qed.
Lemma line_ends_app a b : line_ends (a ++ b) = line_ends a + line_ends b.
Proof. unfold line_ends. rewrite filter_app, app_length. reflexivity. Qed.
Lemma line_ends_none : forall l, ~ In nl l -> line_ends l = 0.
Proof. unfold line_ends. induction l as [|c l IH]; intros N; [reflexivity|]. cbn [filter]. rewrite (proj2 (is_no c nl)) by (intro E; apply N; left; exact E). apply IH. intro E. apply N. right. exact E. Qed.
Lemma in_firstn {A} (x : A) : forall n l, In x (firstn n l) -> In x l.
Proof. induction n as [|n IH]; intros [|y l] H; try destruct H; [left; assumption|right; apply IH; assumption]. Qed.
Lemma line_number : forall j ls l s, Forall (fun l => ~ In nl l) ls -> nth_error ls j = Some l ->
  sizes (firstn j ls) <= s -> s <= sizes (firstn j ls) + length l -> line_ends (firstn s (join ls)) = j.
Proof.
  induction j as [|j IH]; intros [|l0 ls] l s F J A B; try discriminate J; inversion F as [|? ? F1 F2]; subst.
  - injection J as ->. cbn in A, B. assert (E : exists r, join (l :: ls) = l ++ r) by (destruct ls; [exists []; symmetry; apply app_nil_r|eexists; reflexivity]). destruct E as [r ->].
    rewrite firstn_app. replace (s - length l) with 0 by lia. cbn [firstn]. rewrite app_nil_r. apply line_ends_none. intro X. apply F1, (in_firstn _ _ _ X).
  - cbn [nth_error] in J. destruct ls as [|l1 ls]; [destruct j; discriminate J|]. change (join (l0 :: l1 :: ls)) with (l0 ++ nl :: join (l1 :: ls)).
    change (sizes (firstn (S j) (l0 :: l1 :: ls))) with (length l0 + 1 + sizes (firstn j (l1 :: ls))) in A, B.
    rewrite firstn_app, firstn_all2 by lia. destruct (s - length l0) as [|m] eqn:M; [lia|]. rewrite line_ends_app, (line_ends_none l0 F1). cbn [firstn].
    change (nl :: firstn m (join (l1 :: ls))) with ([nl] ++ firstn m (join (l1 :: ls))). rewrite line_ends_app, (IH _ l m F2 J) by lia. reflexivity.
Qed.
Lemma sizes_prefix : forall ls j k l, nth_error ls j = Some l -> (j < k -> sizes (firstn j ls) + length l + 1 <= sizes (firstn k ls)) /\ (k <= j -> sizes (firstn k ls) <= sizes (firstn j ls)).
Proof.
  induction ls as [|l0 ls IH]; intros [|j] [|k] l J; try discriminate J; cbn [nth_error] in J.
  - split; [lia|]. intros. lia.
  - injection J as ->. split; [|lia]. intros _. cbn [firstn]. unfold sizes. cbn. lia.
  - split; [lia|]. intros _. cbn. lia.
  - destruct (IH j k l J) as [A B]. cbn [firstn]. unfold sizes in *. cbn [map list_sum fold_right]. change (fold_right Nat.add 0) with list_sum. split; intros; [specialize (A ltac:(lia))|specialize (B ltac:(lia))]; lia.
Qed.
Lemma strip_same l : ~ In cr l -> strip_cr l = l.
Proof.
  intros N. unfold strip_cr. destruct (rev l) as [|c r] eqn:E; [reflexivity|]. rewrite (proj2 (is_no c cr)); [reflexivity|]. intros ->. apply N. apply in_rev. rewrite E. left. reflexivity.
Qed.
Lemma join_in x : forall ls l, In l ls -> In x l -> In x (join ls).
Proof. induction ls as [|l0 [|l1 ls] IH]; intros l H X; [destruct H|destruct H as [<-|[]]; exact X|]. change (join (l0 :: l1 :: ls)) with (l0 ++ nl :: join (l1 :: ls)). apply in_or_app. destruct H as [<-|H]; [left; exact X|right; right; apply (IH l H X)]. Qed.

(** In texts without carriage returns a comment is either printed at the head of the file or given a place at a node, never both. *)
Theorem C74_head_partial : forall t, ~ In cr t -> forall c, In c (scan_comments t) -> (In c (head_comments t) <-> s_start (c_span c) < first_code_pos t).
Proof.
  intros t N c C. destruct (split_facts t) as (J & F & _). assert (E : lines t = split t).
  { unfold lines. rewrite <- (map_id (split t)) at 2. apply map_ext_in. intros l L. apply strip_same. intro X. apply N. rewrite <- J. apply (join_in _ _ l L X). }
  pose proof (scan_lines (split t) 0 F) as S. rewrite J in S. destruct (comment_line _ _ _ S c C) as (j & l & Hj & A & B). cbn [Nat.add] in A, B.
  unfold head_comments, first_code_pos. rewrite filter_In, E. assert (B' : s_start (c_span c) <= sizes (firstn j (split t)) + length l) by lia. pose proof (line_number j (split t) l (s_start (c_span c)) F Hj A B') as Ln. rewrite J in Ln. rewrite Ln, Nat.ltb_lt.
  destruct (first_code_line (split t)) as [k|]; [|split; [intros [_ X]; lia|intros X; exfalso; lia]]. destruct (sizes_prefix (split t) j k l Hj) as [P1 P2]. split.
  - intros [_ X]. specialize (P1 X). lia.
  - intros X. split; [exact C|]. destruct (Nat.lt_ge_cases j k) as [Y|Y]; [exact Y|]. specialize (P2 Y). lia.
Qed.
Print Assumptions C74_head_partial.

(** ** C74: refutations *)
Definition of_lines (ls : list string) : text := join (map list_ascii_of_string ls).
(** A comment in a function without statements is dropped: it is neither printed at the head nor given a place. *)
Definition empty_function : text := of_lines ["fn f() {"; "    // why this does nothing"; "}"; ""]%string.
Theorem C74_empty_function_refuted : exists c, scan_comments empty_function = [c] /\ slice empty_function (s_start (c_span c)) (s_end (c_span c)) = c_text c /\
  head_comments empty_function = [] /\ slice empty_function 38 39 = ["}"%char] /\ attach [Span 0 39] empty_function = [].
Proof. eexists. split; [vm_compute; reflexivity|]. split; [vm_compute; reflexivity|]. split; [vm_compute; reflexivity|]. split; vm_compute; reflexivity. Qed.
Print Assumptions C74_empty_function_refuted.
(** A comment at the end of a block, behind an empty line, is dropped. *)
Definition last_in_block : text := of_lines ["fn f() {"; "    g();"; ""; "    // nothing else to do"; "}"; ""]%string.
Theorem C74_end_of_block_refuted : exists c, scan_comments last_in_block = [c] /\ head_comments last_in_block = [] /\
  slice last_in_block 45 46 = ["}"%char] /\ slice last_in_block 13 17 = list_ascii_of_string "g();"%string /\ attach [Span 0 46; Span 13 17; Span 13 16; Span 13 14] last_in_block = [].
Proof. eexists. split; [vm_compute; reflexivity|]. split; [vm_compute; reflexivity|]. split; [vm_compute; reflexivity|]. split; vm_compute; reflexivity. Qed.
Print Assumptions C74_end_of_block_refuted.
(** A comment inside an expression goes to a part of the expression; only comments of items and
    statements are printed (rules/items.rs 41-52, rules/statements.rs 8-28). *)
Definition in_expression : text := of_lines ["fn f() {"; "    let x = a + // the first part"; "        b;"; "}"; ""]%string.
Theorem C74_expression_refuted : exists c, scan_comments in_expression = [c] /\ head_comments in_expression = [] /\
  let item := Span 0 55 in let statement := Span 13 53 in let sum := Span 21 52 in let a := Span 21 22 in let b := Span 51 52 in
  map (fun n => (hd nl (slice in_expression (s_start n) (s_end n)), last (slice in_expression (s_start n) (s_end n)) nl)) [item; statement; sum; a; b] =
    [("f"%char, "}"%char); ("l"%char, ";"%char); ("a"%char, "b"%char); ("a"%char, "a"%char); ("b"%char, "b"%char)] /\
  attach [item; statement; sum; a; b] in_expression = [(Trailing, a, c)].
Proof. eexists. split; [vm_compute; reflexivity|]. split; [vm_compute; reflexivity|]. split; vm_compute; reflexivity. Qed.
Print Assumptions C74_expression_refuted.
(** With carriage returns a comment is printed twice: at the head of the file and before the function. *)
Definition with_cr : text := list_ascii_of_string "//"%string ++ [cr; nl] ++ list_ascii_of_string "//"%string ++ [cr; nl] ++ list_ascii_of_string "//"%string ++ [cr; nl] ++ list_ascii_of_string "fn f() {}"%string.
Theorem C74_twice_refuted : exists c, In c (head_comments with_cr) /\ In (Leading, Span 12 21, c) (attach [Span 12 21] with_cr).
Proof. exists (Comment (Span 8 11) [slash; slash; cr]). split; vm_compute; auto. Qed.
Print Assumptions C74_twice_refuted.

(** *** Examples *)
Definition sample : text := of_lines ["// head"; "fn f() {"; "    // above"; "    let x = 1; // beside"; "    return x;"; "    // below"; "}"; ""]%string.
Example C74_sample : map (fun x => match x with (s, n, c) => (s, n, string_of_list_ascii (c_text c)) end)
    (attach [Span 8 83; Span 34 44; Span 42 43; Span 59 68; Span 66 67] sample) =
  [(Leading, Span 34 44, "// above"%string); (Trailing, Span 34 44, "// beside"%string); (Trailing, Span 59 68, "// below"%string)] /\
  map c_text (head_comments sample) = [list_ascii_of_string "// head"%string] /\ ~ In cr sample.
Proof.
  split; [vm_compute; reflexivity|]. split; [vm_compute; reflexivity|].
  assert (E : forallb (fun c => negb (is c cr)) sample = true) by (vm_compute; reflexivity). intro X. rewrite forallb_forall in E. specialize (E _ X). discriminate E.
Qed.
