(** Number literals, grouping of operators, comments: from the model to the specification. *)
From Coq Require Import NArith Bool Ascii String List Lia PeanoNat.
From Verif Require Import Lex Syn SynSpec Fmt Parse ParseComb ParseFacts ParseStmt ParseSound LexFacts FmtFacts.
Import ListNotations.
Open Scope string_scope.
Open Scope bool_scope.
Open Scope list_scope.

(** ** Number literals *)
Lemma digit_table c : digit_value c = digit_at c.
Proof. destruct c as [[] [] [] [] [] [] [] []]; reflexivity. Qed.
Lemma radix_value base s : (0 < base)%N -> forall acc, (acc < 2 ^ 64)%N ->
  radix base acc s = match value base s with
                     | Some v => let w := (acc * base ^ N.of_nat (String.length s) + v)%N in
                                 if (w <? 2 ^ 64)%N then Some w else None
                     | None => None
                     end.
Proof.
  intro Hb. induction s as [|c s IH]; intros acc Ha.
  - cbn [radix value String.length N.of_nat]. cbv zeta. rewrite N.pow_0_r, N.mul_1_r, N.add_0_r. rewrite (proj2 (N.ltb_lt acc _) Ha). reflexivity.
  - cbn [radix value String.length]. unfold digit. rewrite digit_table. destruct (digit_at c) as [d|]; [|reflexivity].
    destruct (d <? base)%N; [|destruct (value base s); reflexivity].
    set (q := (base ^ N.of_nat (String.length s))%N).
    assert (Hq : (0 < q)%N) by (apply N.neq_0_lt_0, N.pow_nonzero; lia).
    assert (Eq1 : (base ^ N.of_nat (S (String.length s)) = base * q)%N)
      by (rewrite Nnat.Nat2N.inj_succ, N.pow_succ_r'; reflexivity).
    destruct (acc * base + d <? 2 ^ 64)%N eqn:E.
    + apply N.ltb_lt in E. rewrite IH by exact E. destruct (value base s) as [v|]; [|reflexivity]. cbv zeta. fold q.
      rewrite Eq1. replace ((acc * base + d) * q + v)%N with (acc * (base * q) + (d * q + v))%N by lia. reflexivity.
    + apply N.ltb_ge in E. destruct (value base s) as [v|]; [|reflexivity]. cbv zeta. fold q. rewrite Eq1.
      replace (acc * (base * q) + (d * q + v))%N with ((acc * base + d) * q + v)%N by lia.
      replace ((acc * base + d) * q + v <? 2 ^ 64)%N with false; [reflexivity|]. symmetry. apply N.ltb_ge. nia.
Qed.
Lemma radix0 base s v : (0 < base)%N -> radix base 0 s = Some v -> value base s = Some v /\ (v < 2 ^ 64)%N.
Proof.
  intros Hb H. rewrite radix_value in H by (lia || reflexivity). destruct (value base s) as [w|]; [|discriminate].
  cbv zeta in H. rewrite N.mul_0_l, N.add_0_l in H. destruct (w <? 2 ^ 64)%N eqn:E; [|discriminate].
  apply N.ltb_lt in E. inversion H; subst. auto.
Qed.
Lemma base_pos pre base : In (pre, base) bases -> (0 < base)%N.
Proof. intro H. repeat destruct H as [H | H]; try (injection H as <- <-; reflexivity). destruct H. Qed.
Lemma split_base_in w : exists pre, In (pre, snd (split_base w)) bases /\ w = (pre +++ fst (split_base w))%string.
Proof.
  destruct w as [|c w]; [exists ""; split; [left; reflexivity | reflexivity]|].
  assert (D : exists pre, In (pre, 10%N) bases /\ String c w = (pre +++ String c w)%string)
    by (exists ""; split; [left; reflexivity | reflexivity]).
  destruct (c =? "0")%char eqn:Ec.
  2: { replace (split_base (String c w)) with (String c w, 10%N); [exact D|].
       destruct c as [[] [] [] [] [] [] [] []]; try reflexivity; discriminate. }
  apply Ascii.eqb_eq in Ec. subst c. destruct w as [|d w]; [exact D|].
  destruct d as [[] [] [] [] [] [] [] []]; try exact D; cbn [split_base fst snd].
  all: eexists; split; [|match goal with |- String _ (String ?d ?w) = _ => change (String "0" (String d w)) with ((String "0" (String d "")) +++ w)%string; reflexivity end].
  all: cbn; tauto.
Qed.
Lemma take_drop n s : s = (take n s +++ drop n s)%string.
Proof. revert s. induction n as [|n IH]; intros [|c s]; cbn; try reflexivity. rewrite <- IH. reflexivity. Qed.
Lemma suffix_is s : suffix_ok s = true -> suffix s (suftext s).
Proof.
  destruct s as [x|]; [|constructor]. cbn. destruct (x =? "felt")%string eqn:E; [apply String.eqb_eq in E; subst; constructor|].
  destruct (x =? "u32")%string eqn:E2; [apply String.eqb_eq in E2; subst; constructor | discriminate].
Qed.
Lemma suffix_of s t : suffix s t -> suffix_ok s = true /\ t = suftext s.
Proof. destruct 1; auto. Qed.
Lemma number_sound w v s : number w = Some (TNum v s) -> suffix_ok s = true ->
  exists pre base ds suf, In (pre, base) bases /\ suffix s suf /\ w = (pre +++ ds +++ suf)%string /\ ds <> "" /\
    value base ds = Some v /\ (v < 2 ^ 64)%N.
Proof.
  unfold number. intros H Hs. destruct (split_base_in w) as (pre & Hin & Ew). destruct (split_base w) as [rem base].
  cbn [fst snd] in *. set (p := digit_end base rem) in *. pose proof (take_drop p rem) as Er.
  destruct (take p rem =? "")%string eqn:En; [discriminate|]. apply String.eqb_neq in En. pose proof (base_pos _ _ Hin) as Hb.
  destruct (drop p rem) as [|c r].
  - destruct (radix base 0 (take p rem)) as [x|] eqn:E; [|discriminate]. injection H as <- <-. apply radix0 in E as [E1 E2]; [|exact Hb].
    exists pre, base, (take p rem), "". split; [exact Hin|]. split; [constructor|]. rewrite <- Er. auto.
  - destruct (is_digit c); [discriminate|]. destruct (radix base 0 (take p rem)) as [x|] eqn:E; [|discriminate].
    injection H as <- <-. apply radix0 in E as [E1 E2]; [|exact Hb].
    exists pre, base, (take p rem), (String c r). split; [exact Hin|]. split; [exact (suffix_is _ Hs)|]. rewrite <- Er. auto.
Qed.
Lemma word_num w v s : word w = Some (TNum v s) -> number w = Some (TNum v s).
Proof.
  unfold word. destruct w as [|c w]; [discriminate|]. destruct (is_digit c); [auto|].
  destruct (keyword (String c w)); discriminate.
Qed.

(** All digits of the base. *)
Fixpoint alld16 (s : string) : bool :=
  match s with EmptyString => true | String c r => (match digit_at c with Some _ => true | None => false end) && alld16 r end.
Lemma value_digits base s v : value base s = Some v -> alld16 s = true /\ find_not_digit base s = None.
Proof.
  revert v. induction s as [|c s IH]; intros v H; [auto|]. cbn [value alld16 find_not_digit] in *. unfold digit. rewrite digit_table.
  destruct (digit_at c) as [d|]; [|discriminate]. destruct (value base s) as [w|]; [|discriminate].
  destruct (d <? base)%N; [|discriminate]. destruct (IH w eq_refl) as [-> ->]. auto.
Qed.
Lemma rfind_none16 (ds suf : string) p c : p = (String c "" +++ match p with String _ r => r | _ => "" end)%string ->
  alld16 ds = true -> rfind p suf = None ->
  digit_at c = None -> rfind p (ds +++ suf)%string = None.
Proof.
  intros Hp Hd H Hc. induction ds as [|d ds IH]; [exact H|].
  cbn in Hd. apply andb_prop in Hd as [H1 H2]. cbn [append rfind]. rewrite IH by assumption.
  rewrite Hp. cbn [append prefix]. destruct (Ascii.ascii_dec c d) as [->|]; [rewrite Hc in H1; discriminate | reflexivity].
Qed.
(** "felt" starts with a hexadecimal digit, but its third letter is not one. *)
Lemma rfind_felt ds suf : alld16 ds = true -> rfind "felt" suf = None ->
  (prefix "elt" suf = false) -> (prefix "lt" suf = false) -> (prefix "t" suf = false) ->
  rfind "felt" (ds +++ suf)%string = None.
Proof.
  intros Hd H P1 P2 P3. induction ds as [|d ds IH]; [exact H|].
  cbn [alld16] in Hd. apply andb_prop in Hd as [H1 H2]. cbn [append rfind]. rewrite IH by exact H2.
  replace (prefix "felt" (String d (ds +++ suf)%string)) with false; [reflexivity|].
  symmetry. cbn [prefix]. destruct (Ascii.ascii_dec "f" d) as [_|]; [|reflexivity].
  destruct ds as [|e ds]; [exact P1|]. cbn [append]. cbn [prefix]. destruct (Ascii.ascii_dec "e" e) as [_|]; [|reflexivity].
  destruct ds as [|g ds]; [exact P2|]. cbn [append prefix]. destruct (Ascii.ascii_dec "l" g) as [<-|]; [|reflexivity].
  cbn [alld16] in H2. apply andb_prop in H2 as [_ H2]. apply andb_prop in H2 as [H2 _]. discriminate.
Qed.
Lemma digit_end_ok base ds s v : value base ds = Some v -> suffix_ok s = true -> ds <> "" ->
  digit_end base (ds +++ suftext s)%string = String.length ds.
Proof.
  intros Hv Hs Hn. destruct (value_digits _ _ _ Hv) as [Hd Hf].
  assert (Hl : Nat.ltb 0 (String.length ds) = true) by (destruct ds; [congruence | reflexivity]).
  unfold digit_end, suffix_pos. destruct (suffix_is s Hs); cbn [suftext].
  - rewrite (rfind_felt ds "") by (auto; reflexivity).
    rewrite (rfind_none16 ds "" "u32" "u") by (auto; reflexivity). cbn [min_pos]. rewrite app_nil_s, Hf. reflexivity.
  - rewrite (rfind_suf ds "felt") by reflexivity. rewrite (rfind_none16 ds "felt" "u32" "u") by (auto; reflexivity).
    rewrite drop_app, Hl. reflexivity.
  - rewrite (rfind_suf ds "u32") by reflexivity. rewrite (rfind_felt ds "u32") by (auto; reflexivity).
    rewrite drop_app, Hl. reflexivity.
Qed.
Lemma hexdigit_word c d : digit_at c = Some d -> is_word c = true.
Proof. destruct c as [[] [] [] [] [] [] [] []]; try reflexivity; discriminate. Qed.
Lemma alld16_allw s : alld16 s = true -> allw s = true.
Proof.
  induction s as [|c s IH]; [reflexivity|]. cbn [alld16 allw]. intro H. apply andb_prop in H as [H1 H2].
  destruct (digit_at c) as [d|] eqn:E; [|discriminate]. rewrite (hexdigit_word c d E). exact (IH H2).
Qed.
Lemma digit10 c d : digit_at c = Some d -> (d <? 10)%N = true -> is_digit c = true.
Proof.
  destruct c as [[] [] [] [] [] [] [] []]; try reflexivity; intro H; try discriminate H;
    cbv in H; injection H as <-; discriminate.
Qed.
Lemma split_base_ok pre base ds s v : In (pre, base) bases -> value base ds = Some v -> ds <> "" -> suffix_ok s = true ->
  split_base (pre +++ ds +++ suftext s)%string = ((ds +++ suftext s)%string, base).
Proof.
  intros Hin Hv Hn Hs. destruct Hin as [Hin | Hin].
  - injection Hin as <- <-. cbn [append]. destruct ds as [|c ds]; [congruence|]. cbn [append].
    destruct (c =? "0")%char eqn:Ec.
    + apply Ascii.eqb_eq in Ec. subst c. destruct ds as [|d ds].
      * cbn [append]. destruct (suffix_is s Hs); reflexivity.
      * cbn [append]. cbn [value] in Hv. destruct (digit_at d) as [x|] eqn:Ed.
        2: { cbn in Hv. discriminate. }
        assert (Hx : is_digit d = true).
        { apply (digit10 d x Ed). cbn in Hv. destruct (x <? 10)%N; [reflexivity|]. destruct (value 10 ds); discriminate. }
        clear - Hx. destruct d as [[] [] [] [] [] [] [] []]; try reflexivity; discriminate.
    + clear - Ec. destruct c as [[] [] [] [] [] [] [] []]; try reflexivity; discriminate.
  - repeat destruct Hin as [Hin | Hin]; try (injection Hin as <- <-; reflexivity). destruct Hin.
Qed.
Lemma suffix_allw s : suffix_ok s = true -> allw (suftext s) = true.
Proof. intro H. destruct (suffix_is s H); reflexivity. Qed.
Lemma first_digit pre base ds v t : In (pre, base) bases -> value base ds = Some v -> ds <> "" ->
  exists c r, (pre +++ ds +++ t)%string = String c r /\ is_digit c = true.
Proof.
  intros Hin Hv Hn. destruct Hin as [Hin | Hin].
  - injection Hin as <- <-. destruct ds as [|c ds]; [congruence|]. exists c, (ds +++ t)%string. split; [reflexivity|].
    cbn [value] in Hv. destruct (digit_at c) as [d|] eqn:E; [|discriminate]. apply (digit10 c d E).
    destruct (value 10 ds); [|discriminate]. destruct (d <? 10)%N; [reflexivity | discriminate].
  - repeat destruct Hin as [Hin | Hin]; try (injection Hin as <- <-; eexists _, _; split; reflexivity). destruct Hin.
Qed.
Lemma lit_allw pre base ds s v : In (pre, base) bases -> value base ds = Some v -> suffix_ok s = true ->
  allw (pre +++ ds +++ suftext s)%string = true.
Proof.
  intros Hin Hv Hs. apply allw_app; [|apply allw_app; [exact (alld16_allw ds (proj1 (value_digits _ _ _ Hv))) | apply suffix_allw, Hs]].
  repeat destruct Hin as [Hin | Hin]; try (injection Hin as <- <-; reflexivity). destruct Hin.
Qed.
Lemma lex_literal pre base ds s v : In (pre, base) bases -> value base ds = Some v -> ds <> "" -> suffix_ok s = true ->
  lex (pre +++ ds +++ suftext s)%string = if (v <? 2 ^ 64)%N then Some [TNum v s] else None.
Proof.
  intros Hin Hv Hn Hs. unfold lex. rewrite go_word by (eapply lit_allw; eauto). cbn [append].
  destruct (first_digit pre base ds v (suftext s) Hin Hv Hn) as (c & r & E & Hc).
  assert (W : word (pre +++ ds +++ suftext s)%string = number (pre +++ ds +++ suftext s)%string)
    by (rewrite E; cbn [word]; rewrite Hc; reflexivity).
  unfold flush. rewrite E, <- E, W. unfold number. rewrite (split_base_ok pre base ds s v) by assumption.
  rewrite (digit_end_ok base ds s v) by assumption. rewrite take_app, drop_app.
  apply String.eqb_neq in Hn. rewrite Hn. apply String.eqb_neq in Hn.
  rewrite radix_value by (try reflexivity; eapply base_pos; eauto). rewrite Hv. cbv zeta. rewrite N.mul_0_l, N.add_0_l.
  destruct (suffix_is s Hs); cbn [suftext]; change (is_digit "f") with false; change (is_digit "u") with false; cbv iota;
    destruct (v <? 2 ^ 64)%N; reflexivity.
Qed.
Lemma lex_literal_sound w v s : allw w = true -> lex w = Some [TNum v s] -> suffix_ok s = true ->
  exists pre base ds suf, In (pre, base) bases /\ suffix s suf /\ w = (pre +++ ds +++ suf)%string /\ ds <> "" /\
    value base ds = Some v /\ (v < 2 ^ 64)%N.
Proof.
  intros Hw H Hs. unfold lex in H. rewrite go_word in H by exact Hw. cbn [append] in H. unfold flush in H.
  destruct w as [|c w]; [discriminate|]. destruct (word (String c w)) as [t|] eqn:E; [|discriminate]. injection H as ->.
  apply number_sound; [apply word_num, E | exact Hs].
Qed.

(** ** Grouping *)
Lemma lv_level e : lv e = level e.
Proof. destruct e; try reflexivity. Qed.
Lemma btier_level o : btier o = op_level o.
Proof. destruct o; reflexivity. Qed.
Lemma forallb_Forall {A} (f g : A -> bool) l : Forall (fun a => f a = true -> g a = true) l -> forallb f l = true -> forallb g l = true.
Proof. induction 1 as [|a l H _ IH]; [reflexivity|]. cbn. intro E. apply andb_prop in E as [E1 E2]. rewrite H, IH; auto. Qed.
Ltac ab := repeat match goal with W : _ && _ = true |- _ => apply andb_prop in W as [W ?] end.
Lemma wfe_grouped e : wfe e = true -> grouped e = true.
Proof.
  induction e as [v s|b|x|o a Ha|o l r Hl Hr|f es Hf Hes|a f Ha|a i Ha Hi|n fs Hfs|es Hes|a i Ha|es Hes|a n Ha|a t Ha|t n Hn|a Ha]
    using expr_ind2; cbn [wfe grouped]; rewrite ?lv_level, ?btier_level; intro W; ab;
    repeat match goal with H : ?x = true |- context [?x] => rewrite H end;
    repeat match goal with H : wfe ?a = true -> grouped ?a = true |- _ => rewrite H by assumption; clear H end; try reflexivity;
    try (eapply forallb_Forall; eauto; fail); cbn [andb].
  - rewrite lv_level in H1. rewrite H1. reflexivity.
  - eapply forallb_Forall; [|eassumption]. eapply Forall_impl; [|exact Hfs]. intros [x e] He Hx. cbn in *. apply andb_prop in Hx as [_ Hx]. auto.
Qed.
Lemma wfs_grouped s : wfs s = true -> grouped_stmt s = true.
Proof.
  induction s as [p t e|c|l r|o|c a b IHa IHb|e|l IH|b IH|c b IH|i c st b IHi IHst IHb| |] using stmt_ind3;
    cbn [wfs grouped_stmt]; intro W; ab; try reflexivity; auto using wfe_grouped.
  - unfold wfc in W. ab. auto using wfe_grouped.
  - rewrite !wfe_grouped by assumption. reflexivity.
  - destruct o; cbn in *; auto using wfe_grouped.
  - rewrite wfe_grouped, IHa by assumption. destruct b as [b|]; [|reflexivity]. ab. cbn. apply (IHb b eq_refl). assumption.
  - eapply forallb_Forall; eauto.
  - rewrite wfe_grouped, IH by assumption. reflexivity.
  - rewrite wfe_grouped, IHi, IHst, IHb by assumption. reflexivity.
Qed.
Lemma wfi_grouped m : forallb wfi m = true -> forallb grouped_item m = true.
Proof.
  apply forallb_Forall, Forall_forall. intros i _ W. destruct i as [f|s|c|u]; cbn [wfi grouped_item] in *; try reflexivity; ab.
  - eapply forallb_Forall; [|eassumption]. apply Forall_forall. intros s _. apply wfs_grouped.
  - unfold wfc in W. ab. auto using wfe_grouped.
Qed.

(** ** Files *)
Lemma parse_wf s m : parse_file s = Some m -> forallb wfi m = true.
Proof.
  unfold parse_file. destruct (lex s) as [ts|] eqn:E; [|discriminate]. destruct (module_p ts) as [m' r| |] eqn:Em; try discriminate.
  intro H. injection H as ->. exact (module_sound ts m r (lex_ok s ts E) Em).
Qed.
Lemma one_line_nonl s : one_line s = true -> nonl s = true.
Proof.
  induction s as [|c s IH]; [reflexivity|]. cbn [one_line nonl]. intro H. apply andb_prop in H as [H1 H2]. rewrite (IH H2), andb_true_r.
  destruct (c =? newline)%char eqn:E; [|reflexivity]. apply Ascii.eqb_eq in E. subst. discriminate.
Qed.
Lemma comment_cok s : comment s = true -> cok s = true.
Proof.
  unfold comment, cok. destruct s as [|a [|b r]]; try discriminate. intro H. ab. apply Ascii.eqb_eq in H, H1. subst.
  rewrite (one_line_nonl (String "/" (String "/" r))) by assumption. rewrite andb_true_r. destruct r; reflexivity.
Qed.
Lemma comments_cok cs : forallb comment cs = true -> forallb cok cs = true.
Proof. apply forallb_Forall, Forall_forall. intros c _. apply comment_cok. Qed.
Lemma format_parse width iw cm m : forallb wfi m = true -> printable m = true -> cmok cm m ->
  parse_file (format_module width iw cm m) = Some m.
Proof. intros W Pr Hc. unfold parse_file. rewrite format_tokens, module_rt by assumption. reflexivity. Qed.
(** A comment up to the end of its line is the same as nothing. *)
Lemma lex_comment s c t : noslash s = true -> lastc s <> Some "/"%char -> comment c = true ->
  lex (s +++ c +++ String newline t)%string = lex (s +++ String newline t)%string.
Proof.
  intros Hs Hl Hc. apply comment_cok in Hc. apply andb_prop in Hc as [H1 H2]. destruct (comment_form c H1) as [r E].
  rewrite (lex_app s (c +++ String newline t)%string), (lex_app s (String newline t)); try exact Hs.
  - f_equal. unfold lex. rewrite go_line by assumption. cbn [go]. change (is_word newline) with false.
    change (is_ws newline) with true. cbv iota. symmetry. apply more_nil_l.
  - destruct (lastc s) as [d|]; [|reflexivity]. cbn. rewrite joins_ws by reflexivity. reflexivity.
  - rewrite E. cbn [append firstc]. destruct (lastc s) as [d|]; [|reflexivity]. cbn [safe]. apply negb_true_iff.
    clear - Hl. assert (Hd : (d =? "/")%char = false) by (apply Ascii.eqb_neq; congruence).
    destruct d as [[] [] [] [] [] [] [] []]; try reflexivity; discriminate.
Qed.
(** White space separates. *)
Lemma lex_white s c t : noslash s = true -> In (N_of_ascii c) [9; 10; 13; 32]%N ->
  lex (s +++ String c t)%string = match lex s, lex t with Some a, Some b => Some (a ++ b) | _, _ => None end.
Proof.
  intros Hs Hc. assert (Hw : is_ws c = true).
  { destruct c as [[] [] [] [] [] [] [] []]; try reflexivity; exfalso; cbn in Hc; destruct Hc as [Hc | [Hc | [Hc | [Hc | []]]]]; discriminate. }
  rewrite lex_app; [|exact Hs | destruct (lastc s) as [d|]; [|reflexivity]; cbn; rewrite joins_ws by exact Hw; reflexivity].
  replace (lex (String c t)) with (lex t); [reflexivity|]. unfold lex. cbn [go]. rewrite Hw.
  replace (is_word c) with false by (symmetry; apply ws_not_word, Hw). symmetry. apply more_nil_l.
Qed.

(** ** Comments in the formatted text *)
Definition within (t s : string) : Prop := exists p q, s = (p +++ t +++ q)%string.
Lemma R_in a y c : R a y -> In (AT c) a -> within c y.
Proof.
  intros H Hin. induction H as [|s k y H IH|k y H IH|k y H IH|k y H IH]; [destruct Hin|..].
  - destruct Hin as [E | Hin].
    + injection E as <-. exists "", y. reflexivity.
    + destruct (IH Hin) as (p & q & ->). exists (s +++ p)%string, q. rewrite app_assoc_s. reflexivity.
  - destruct Hin as [E | Hin]; [discriminate|]. destruct (IH Hin) as (p & q & ->). exists (String newline p), q. reflexivity.
  - destruct Hin as [E | Hin]; [discriminate|]. destruct (IH Hin) as (p & q & ->). exists (String space p), q. reflexivity.
  - destruct Hin as [E | Hin]; [discriminate|]. destruct (IH Hin) as (p & q & ->). exists (String newline p), q. reflexivity.
Qed.
Lemma ind_line c : nonl c = true -> forall q x, ind false (c +++ q)%string x -> exists q', x = (c +++ q')%string.
Proof.
  induction c as [|d c IH]; intros Hc q x H; [exists x; reflexivity|].
  cbn [nonl] in Hc. apply andb_prop in Hc as [H1 H2]. apply negb_true_iff in H1. cbn [append] in H.
  inversion H as [| |b d' y' x' H']; subst. unfold after in H'. rewrite H1 in H'.
  assert (H3 : ind false (c +++ q)%string x') by (destruct (is_white d); exact H').
  destruct (IH H2 q x' H3) as [q' ->]. exists q'. reflexivity.
Qed.
Lemma ind_within b y x c : ind b y x -> cok c = true -> within c y -> within c x.
Proof.
  intros H Hc. assert (Hc' := Hc). apply andb_prop in Hc' as [H1 H2]. destruct (comment_form c H1) as [r E].
  induction H as [b | y x H IH | b d y x H IH]; intros (p & q & Ey).
  - exists p, q. exact Ey.
  - destruct (IH (ex_intro _ p (ex_intro _ q Ey))) as (p' & q' & ->). exists (String space p'), q'. reflexivity.
  - destruct p as [|e p].
    + cbn [append] in Ey. rewrite E in Ey. cbn [append] in Ey. injection Ey as -> Ey. subst y.
      change (after b "/") with false in H. rewrite E in H2. cbn [nonl] in H2. apply andb_prop in H2 as [_ H2].
      change (String "/" (r +++ q)%string) with (String "/" r +++ q)%string in H.
      destruct (ind_line (String "/" r) H2 q x H) as [q' ->]. exists "", q'. rewrite E. reflexivity.
    + cbn [append] in Ey. injection Ey as -> Ey. destruct (IH (ex_intro _ p (ex_intro _ q Ey))) as (p' & q' & ->).
      exists (String e p'), q'. reflexivity.
Qed.
Lemma in_concat2 d l a : In d l -> In a (datoms d) -> In a (flat_map datoms l).
Proof. intros H1 H2. apply in_flat_map. eauto. Qed.
Lemma mapi_in {A B} (f : nat -> A -> B) l : forall s n a, nth_error l n = Some a -> In (f (s + n) a) (mapi f s l).
Proof.
  induction l as [|x l IH]; intros s n a H; [destruct n; discriminate|]. destruct n as [|n].
  - injection H as <-. left. rewrite Nat.add_0_r. reflexivity.
  - right. specialize (IH (S s) n a H). rewrite <- plus_n_Sm. exact IH.
Qed.
Lemma lead_in cs d c : In c cs -> In (AT c) (datoms (with_leading cs d)).
Proof.
  intro H. unfold with_leading. cbn [datoms]. rewrite flat_map_app. apply in_or_app. left.
  apply (in_concat2 (Text c)); [|left; reflexivity]. apply in_flat_map. exists c. split; [exact H | left; reflexivity].
Qed.
Lemma lead_keep cs d a : In a (datoms d) -> In a (datoms (with_leading cs d)).
Proof. intro H. unfold with_leading. cbn [datoms]. rewrite flat_map_app. apply in_or_app. right. cbn [flat_map]. rewrite app_nil_r. exact H. Qed.
Lemma trail_in cs d c : In c cs -> In (AT c) (datoms (with_trailing d cs)).
Proof.
  intro H. unfold with_trailing. cbn [datoms flat_map]. apply in_or_app. right.
  apply (in_concat2 (Text c)); [|left; reflexivity]. apply in_flat_map. exists c. split; [exact H | right; left; reflexivity].
Qed.
Lemma trail_keep cs d a : In a (datoms d) -> In a (datoms (with_trailing d cs)).
Proof. intro H. unfold with_trailing. cbn [datoms flat_map]. apply in_or_app. left. exact H. Qed.
Lemma item_kept iw cm i c : In c (ic_lead cm) \/ In c (ic_trail cm) -> In (AT c) (datoms (fmt_item iw cm i)).
Proof.
  intro H. unfold fmt_item. set (d := match i with IFn f => fmt_fn iw cm f | IStruct s => fmt_struct iw s | IConst c => fmt_const c | IUse u => fmt_use u end).
  destruct H as [H | H].
  - assert (Hd : In (AT c) (datoms (match ic_lead cm with [] => d | c0 :: l0 => with_leading (c0 :: l0) d end))).
    { destruct (ic_lead cm) as [|c0 l0]; [destruct H | apply lead_in, H]. }
    destruct (ic_trail cm); [exact Hd | apply trail_keep, Hd].
  - destruct (ic_trail cm) as [|c0 l0]; [destruct H | apply trail_in, H].
Qed.
Lemma item_inner iw cm f a : In a (datoms (fmt_fn iw cm f)) -> In a (datoms (fmt_item iw cm (IFn f))).
Proof.
  intro H. unfold fmt_item.
  assert (Hd : In a (datoms (match ic_lead cm with [] => fmt_fn iw cm f | c0 :: l0 => with_leading (c0 :: l0) (fmt_fn iw cm f) end))).
  { destruct (ic_lead cm) as [|c0 l0]; [exact H | apply lead_keep, H]. }
  destruct (ic_trail cm); [exact Hd | apply trail_keep, Hd].
Qed.
Definition first_of (l : list string) : list string := match l with [] => [] | c :: _ => [c] end.
Lemma stmt_kept iw cm f i s c : nth_error (f_body f) i = Some s ->
  In c (fst (ic_stmt cm i)) \/ In c (first_of (snd (ic_stmt cm i))) -> In (AT c) (datoms (fmt_fn iw cm f)).
Proof.
  intros Hi H. assert (Hb : In (AT c) (datoms (fmt_body_stmt iw (ic_stmt cm i) s))).
  { unfold fmt_body_stmt. destruct H as [H | H].
    - assert (Hd : In (AT c) (datoms (match fst (ic_stmt cm i) with [] => fmt_stmt iw s | c0 :: l0 => with_leading (c0 :: l0) (fmt_stmt iw s) end))).
      { destruct (fst (ic_stmt cm i)) as [|c0 l0]; [destruct H | apply lead_in, H]. }
      destruct (snd (ic_stmt cm i)); [exact Hd|]. unfold with_eol. cbn [datoms flat_map]. apply in_or_app. left. exact Hd.
    - destruct (snd (ic_stmt cm i)) as [|c0 l0]; [destruct H|]. destruct H as [<- | []]. unfold with_eol. cbn [datoms flat_map].
      apply in_or_app. right. right. left. reflexivity. }
  unfold fmt_fn. cbn [datoms]. rewrite !flat_map_app. apply in_or_app. right. apply in_or_app. right. apply in_or_app. right.
  apply in_or_app. left. destruct (f_body f) as [|s0 l0] eqn:E; [destruct i; discriminate|]. rewrite <- E in *.
  cbn [flat_map datoms]. apply in_or_app. left.
  refine (in_concat2 _ _ _ (mapi_in _ _ 0 i s Hi) _). cbn [datoms flat_map]. rewrite app_nil_r. right. exact Hb.
Qed.
Lemma module_kept iw cm m n i a : nth_error m n = Some i -> In a (datoms (fmt_item iw (cm n) i)) -> In a (datoms (fmt_module iw cm m)).
Proof.
  intros Hn H. unfold fmt_module. cbn [datoms]. rewrite flat_map_app. apply in_or_app. left.
  apply (in_concat2 (fmt_item iw (cm n) i)); [|exact H]. apply in_concat.
  eexists. split; [exact (mapi_in _ _ 0 n i Hn)|]. apply in_or_app. right. left. reflexivity.
Qed.
Lemma render_within d width c : wfdoc d = true -> cok c = true -> In (AT c) (datoms d) -> within c (render width d).
Proof.
  intros W Hc H. unfold render. destruct (render_R d W width Flat 0) as (y & Hy & Hi).
  exact (ind_within _ _ _ c Hi Hc (R_in _ _ c Hy H)).
Qed.
Lemma within_app a c s : within c s -> within c (a +++ s)%string.
Proof. intros (p & q & ->). exists (a +++ p)%string, q. rewrite app_assoc_s. reflexivity. Qed.
Lemma header_within cs c s : In c cs -> within c (header cs +++ s)%string.
Proof.
  unfold header. intro H. induction cs as [|d cs IH]; [destruct H|].
  assert (E : String.concat "" (map (fun c => (c +++ String newline "")%string) (d :: cs))
              = (d +++ String newline (String.concat "" (map (fun c => (c +++ String newline "")%string) cs)))%string).
  { cbn [map String.concat]. destruct (map (fun c0 => (c0 +++ String newline "")%string) cs) as [|x l]; [reflexivity|].
    rewrite app_assoc_s. reflexivity. }
  rewrite E. destruct H as [<- | H].
  - exists "". eexists. rewrite app_assoc_s. reflexivity.
  - rewrite app_assoc_s. apply within_app. cbn [append]. destruct (IH H) as (p & q & Eq1).
    exists (String newline p), q. cbn [append]. rewrite <- Eq1. reflexivity.
Qed.
