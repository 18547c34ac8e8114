(** Facts about the lexer. *)
From Coq Require Import NArith Bool Ascii String List Lia PeanoNat.
From Verif Require Import Lex Syn Fmt Parse ParseFacts ParseSound.
Import ListNotations.
Open Scope string_scope.
Open Scope bool_scope.

Lemma app_assoc_s (a b c : string) : (a ++ b) ++ c = a ++ (b ++ c).
Proof. induction a as [|x a IH]; cbn; [reflexivity | rewrite IH; reflexivity]. Qed.
Lemma app_nil_s (a : string) : a ++ "" = a.
Proof. induction a as [|x a IH]; cbn; [reflexivity | rewrite IH; reflexivity]. Qed.
Lemma length_app_s (a b : string) : String.length (a ++ b) = String.length a + String.length b.
Proof. induction a as [|x a IH]; cbn; [reflexivity | rewrite IH; reflexivity]. Qed.
Lemma more_assoc a b c : more (more a b) c = more a (more b c).
Proof. destruct a, b, c; cbn; try reflexivity. rewrite app_assoc. reflexivity. Qed.
Lemma more_nil_l a : more (Some []) a = a.
Proof. destruct a; reflexivity. Qed.
Lemma more_nil_r a : more a (Some []) = a.
Proof. destruct a; cbn; [rewrite app_nil_r|]; reflexivity. Qed.
Lemma more_some a b c : more (Some a) b = Some c -> exists d, b = Some d /\ c = (a ++ d)%list.
Proof. destruct b; cbn; intro H; inversion H. eauto. Qed.

(** ** The tokens of accepted text *)
Lemma allw_snoc a c : allw a = true -> is_word c = true -> allw (a ++ String c "") = true.
Proof. induction a as [|d a IH]; cbn; intros H Hc; [rewrite Hc; reflexivity|]. apply andb_prop in H as [-> H]. auto. Qed.
Lemma radix_bound base s : forall acc v, (acc < 2 ^ 64)%N -> radix base acc s = Some v -> (v < 2 ^ 64)%N.
Proof.
  induction s as [|c s IH]; intros acc v Ha H; cbn in H; [inversion H; subst; exact Ha|].
  destruct (digit base c); [|discriminate].
  destruct (acc * base + n <? 18446744073709551616)%N eqn:E; [|discriminate].
  apply N.ltb_lt in E. exact (IH _ _ E H).
Qed.
Lemma radix_numok base s v : radix base 0 s = Some v -> numok v = true.
Proof. intro H. apply N.ltb_lt, (radix_bound base s 0 v); [reflexivity | exact H]. Qed.
Lemma number_ok w t : number w = Some t -> tokok t.
Proof.
  unfold number. destruct (split_base w) as [rem base]. destruct (take _ _ =? "") ; [discriminate|].
  destruct (drop _ _) as [|c r].
  - destruct (radix base 0 _) as [v|] eqn:E; cbn; [|discriminate]. intro H; inversion H; subst. apply radix_numok in E. exact E.
  - destruct (is_digit c); [discriminate|].
    destruct (radix base 0 _) as [v|] eqn:E; cbn; [|discriminate]. intro H; inversion H; subst. apply radix_numok in E. exact E.
Qed.
Lemma word_ok w t : allw w = true -> word w = Some t -> tokok t.
Proof.
  destruct w as [|c w]; [discriminate|]. intros Hw H. cbn [word] in H. destruct (is_digit c) eqn:Ec.
  - apply number_ok in H. exact H.
  - destruct (keyword (String c w)) eqn:Ek; inversion H; subst; [exact I|].
    unfold tokok, idok. rewrite Hw. cbn [word]. rewrite Ec, Ek. apply String.eqb_refl.
Qed.
Lemma flush_ok acc ts : allw acc = true -> flush acc = Some ts -> Forall tokok ts.
Proof.
  intro Hw. unfold flush. destruct acc as [|c acc]; [intro H; inversion H; constructor|].
  destruct (word (String c acc)) as [t|] eqn:E; cbn [option_map]; intro H; inversion H; subst.
  constructor; [exact (word_ok _ _ Hw E) | constructor].
Qed.
Lemma more_ok (P : token -> Prop) a b ts : (forall l, a = Some l -> Forall P l) -> (forall l, b = Some l -> Forall P l) ->
  more a b = Some ts -> Forall P ts.
Proof. destruct a, b; cbn; intros Ha Hb H; inversion H; subst. apply Forall_app. auto. Qed.
Lemma sym_ok k ts : sym k = Some ts -> Forall tokok ts.
Proof. destruct k; cbn; intro H; inversion H; subst. repeat constructor. Qed.
Lemma go_ok n : forall s acc com ts, String.length s <= n -> allw acc = true -> go acc com s = Some ts -> Forall tokok ts.
Proof.
  induction n as [|n IH]; intros s acc com ts Hl Hw H.
  - destruct s; [|cbn in Hl; lia]. exact (flush_ok _ _ Hw H).
  - destruct s as [|c r]; [exact (flush_ok _ _ Hw H)|]. cbn in Hl. cbn [go] in H.
    destruct com; [apply IH in H; [exact H | lia | reflexivity]|].
    destruct (is_word c) eqn:Ec; [apply IH in H; [exact H | lia | apply allw_snoc; assumption]|].
    revert H. apply more_ok; [intros l Hf; exact (flush_ok _ _ Hw Hf)|]. intros l H.
    destruct (is_ws c); [apply IH in H; [exact H | lia | reflexivity]|].
    destruct r as [|d r2]; [exact (sym_ok _ _ H)|]. cbn in Hl.
    destruct (slashes c d); [apply IH in H; [exact H | lia | reflexivity]|].
    destruct (two c d).
    + revert H. apply more_ok; [intros l' E; inversion E; repeat constructor|]. intros l' H. apply IH in H; [exact H | lia | reflexivity].
    + revert H. apply more_ok; [apply sym_ok|]. intros l' H. apply IH in H; [exact H | cbn; lia | reflexivity].
Qed.
Lemma lex_ok s ts : lex s = Some ts -> Forall tokok ts.
Proof. apply (go_ok (String.length s)); [lia | reflexivity]. Qed.

(** ** Indentation does not change the tokens *)
(** [ind b y x]: [x] is [y] with spaces added at the beginning of lines; [b]: at the beginning
    of a line. *)
Definition after (b : bool) (c : ascii) : bool :=
  if (c =? newline)%char then true else if is_white c then b else false.
Inductive ind : bool -> string -> string -> Prop :=
| ind_nil b : ind b "" ""
| ind_sp y x : ind true y x -> ind true y (String space x)
| ind_cons b c y x : ind (after b c) y x -> ind b (String c y) (String c x).
Lemma ind_refl b y : ind b y y.
Proof. revert b. induction y; intro b; constructor; auto. Qed.
Lemma go_sp s : go "" false (String space s) = go "" false s.
Proof. cbn. apply more_nil_l. Qed.
Lemma white_cases c : is_white c = true -> is_ws c = true \/ c = ascii_of_N 11 \/ c = ascii_of_N 12.
Proof.
  intro H. destruct c as [[] [] [] [] [] [] [] []]; try discriminate H; auto.
Qed.
Lemma ws_not_word c : is_ws c = true -> is_word c = false.
Proof. destruct c as [[] [] [] [] [] [] [] []]; try reflexivity; discriminate. Qed.
Lemma ws_white c : is_ws c = true -> is_white c = true.
Proof. destruct c as [[] [] [] [] [] [] [] []]; try reflexivity; discriminate. Qed.
Lemma newline_ws : is_ws newline = true.
Proof. reflexivity. Qed.
Lemma bad_char c acc s : c = ascii_of_N 11 \/ c = ascii_of_N 12 -> go acc false (String c s) = None.
Proof.
  intros [-> | ->]; destruct s; cbn [go]; (destruct (flush acc); [|reflexivity]); reflexivity.
Qed.
Lemma go_ind n : forall b y x acc com, String.length y + String.length x <= n -> ind b y x ->
  (b = true -> acc = "" /\ com = false) -> go acc com x = go acc com y.
Proof.
  induction n as [|n IH]; intros b y x acc com Hn H Hb.
  - inversion H; subst; cbn in Hn; try lia; reflexivity.
  - inversion H as [| y1 x1 H1 | b1 c y1 x1 H1]; subst.
    + reflexivity.
    + destruct (Hb eq_refl) as [-> ->]. rewrite go_sp. apply (IH true); auto. cbn in Hn. lia.
    + cbn in Hn. cbn [go]. destruct com.
      { destruct b; [destruct (Hb eq_refl) as [_ E]; discriminate|].
        apply (IH (after false c)); [lia | exact H1|]. unfold after. intro E. split; [reflexivity|].
        destruct (c =? newline)%char; [reflexivity|]. destruct (is_white c); discriminate. }
      destruct (is_word c) eqn:Ew.
      { apply (IH (after b c)); [lia | exact H1|]. unfold after. intro E.
        destruct (c =? newline)%char eqn:E1; [apply Ascii.eqb_eq in E1; subst; discriminate|].
        destruct (is_white c) eqn:E2; [|discriminate]. exfalso.
        destruct (white_cases c E2) as [E3 | [-> | ->]]; [apply ws_not_word in E3; congruence | discriminate | discriminate]. }
      f_equal. destruct (is_ws c) eqn:Es.
      { apply (IH (after b c)); [lia | exact H1 | auto]. }
      destruct (after b c) eqn:Ea.
      { assert (Hc : c = ascii_of_N 11 \/ c = ascii_of_N 12).
        { unfold after in Ea. destruct (c =? newline)%char eqn:E1.
          - apply Ascii.eqb_eq in E1. subst. discriminate.
          - destruct (is_white c) eqn:E2; [|discriminate]. destruct (white_cases c E2) as [E3|]; [congruence | assumption]. }
        destruct Hc as [-> | ->]; destruct x1, y1; reflexivity. }
      inversion H1 as [| |b2 d y2 x2 H2]; subst; [reflexivity|]. cbn in Hn.
      destruct (slashes c d) eqn:Esl.
      { apply (IH (after false d)); [lia | exact H2|].
        unfold slashes in Esl. apply andb_prop in Esl as [_ E]. apply Ascii.eqb_eq in E. subst d. discriminate. }
      destruct (two c d).
      { f_equal. apply (IH (after false d)); [lia | exact H2 | auto]. }
      f_equal. apply (IH false); [cbn; lia | exact H1 | discriminate].
Qed.
Lemma lex_ind b y x : ind b y x -> lex x = lex y.
Proof. intro H. apply (go_ind _ b y x "" false (le_n _) H). auto. Qed.

(** ** Pieces of text *)
Definition firstc (s : string) : option ascii := match s with String c _ => Some c | EmptyString => None end.
Fixpoint lastc (s : string) : option ascii :=
  match s with
  | EmptyString => None
  | String c r => match lastc r with Some d => Some d | None => Some c end
  end.
Definition joins (c d : ascii) : bool :=
  (is_word c && is_word d) || slashes c d || match two c d with Some _ => true | None => false end.
Definition safe (a b : option ascii) : bool :=
  match a, b with Some c, Some d => negb (joins c d) | _, _ => true end.
Fixpoint noslash (s : string) : bool :=
  match s with
  | String c ((String d _) as r) => negb (slashes c d) && noslash r
  | _ => true
  end.
Lemma lastc_app s t : lastc (s ++ t) = match lastc t with Some d => Some d | None => lastc s end.
Proof. induction s as [|c s IH]; cbn; [destruct (lastc t); reflexivity|]. rewrite IH. destruct (lastc t); reflexivity. Qed.
Lemma lastc_word acc c : allw acc = true -> lastc acc = Some c -> is_word c = true.
Proof.
  revert c. induction acc as [|d acc IH]; intros c H E; [discriminate|]. cbn in H, E. apply andb_prop in H as [H1 H2].
  destruct (lastc acc) eqn:El; inversion E; subst; auto.
Qed.
Lemma lastc_some c s : exists d, lastc (String c s) = Some d.
Proof. cbn. destruct (lastc s); eauto. Qed.
Lemma noslash_tail c s : noslash (String c s) = true -> noslash s = true.
Proof. cbn. destruct s; [reflexivity|]. intro H. apply andb_prop in H as [_ H]. exact H. Qed.
Lemma go_app n : forall s acc t, String.length s <= n -> allw acc = true -> noslash s = true ->
  safe (lastc (acc ++ s)) (firstc t) = true ->
  go acc false (s ++ t) = more (go acc false s) (go "" false t).
Proof.
  induction n as [|n IH]; intros s acc t Hn Ha Hs Hb; (destruct s as [|c r]; [|cbn in Hn]).
  - cbn [append]. rewrite app_nil_s in Hb. destruct t as [|d t].
    + cbn. symmetry. apply more_nil_r.
    + destruct acc as [|a acc]; [symmetry; apply more_nil_l|].
      destruct (lastc_some a acc) as [e He]. rewrite He in Hb. cbn in Hb. apply negb_true_iff in Hb.
      unfold joins in Hb. rewrite (lastc_word _ _ Ha He) in Hb. apply orb_false_iff in Hb as [Hb _].
      apply orb_false_iff in Hb as [Hb _]. cbn [andb] in Hb.
      cbn [go]. rewrite Hb. change (flush "") with (Some (@nil token)). rewrite more_nil_l. reflexivity.
  - lia.
  - cbn [append]. rewrite app_nil_s in Hb. destruct t as [|d t].
    + cbn. symmetry. apply more_nil_r.
    + destruct acc as [|a acc]; [symmetry; apply more_nil_l|].
      destruct (lastc_some a acc) as [e He]. rewrite He in Hb. cbn in Hb. apply negb_true_iff in Hb.
      unfold joins in Hb. rewrite (lastc_word _ _ Ha He) in Hb. apply orb_false_iff in Hb as [Hb _].
      apply orb_false_iff in Hb as [Hb _]. cbn [andb] in Hb.
      cbn [go]. rewrite Hb. change (flush "") with (Some (@nil token)). rewrite more_nil_l. reflexivity.
  - pose proof (noslash_tail c r Hs) as Hr. change (String c r ++ t) with (String c (r ++ t)). cbn [go].
    destruct (is_word c) eqn:Ew.
    { apply IH; [lia | apply allw_snoc; assumption | exact Hr |]. rewrite app_assoc_s. exact Hb. }
    rewrite more_assoc. f_equal.
    assert (Hb' : safe (lastc ("" ++ r)) (firstc t) = true).
    { rewrite lastc_app in Hb. cbn [lastc] in Hb. cbn [append]. destruct (lastc r); [exact Hb | reflexivity]. }
    destruct (is_ws c); [apply IH; [lia | reflexivity | exact Hr | exact Hb']|].
    destruct r as [|d r2].
    + cbn [append]. rewrite lastc_app in Hb. cbn [lastc] in Hb. destruct t as [|e t].
      * cbn. rewrite more_nil_r. reflexivity.
      * cbn in Hb. apply negb_true_iff in Hb. unfold joins in Hb. apply orb_false_iff in Hb as [Hb H2].
        apply orb_false_iff in Hb as [_ H1]. rewrite H1. destruct (two c e); [discriminate | reflexivity].
    + cbn [append]. cbn in Hn. cbn [noslash] in Hs. apply andb_prop in Hs as [Hs _]. apply negb_true_iff in Hs. rewrite Hs.
      destruct (two c d).
      * rewrite more_assoc. f_equal. apply IH; [lia | reflexivity | exact (noslash_tail _ _ Hr) |].
        cbn [append]. cbn [lastc append] in Hb'. destruct (lastc r2); [exact Hb' | reflexivity].
      * rewrite more_assoc. f_equal. apply (IH (String d r2)); [cbn; lia | reflexivity | exact Hr | exact Hb'].
Qed.
Lemma lex_app s t : noslash s = true -> safe (lastc s) (firstc t) = true -> lex (s ++ t) = more (lex s) (lex t).
Proof. intros. apply (go_app (String.length s)); auto. Qed.
(** A comment, up to the end of the line. *)
Fixpoint nonl (s : string) : bool := match s with EmptyString => true | String c r => negb (c =? newline)%char && nonl r end.
Lemma go_comment s t : nonl s = true -> go "" true (s ++ String newline t) = go "" false t.
Proof.
  induction s as [|c s IH]; intro H; [reflexivity|]. cbn [nonl] in H. apply andb_prop in H as [H1 H2].
  cbn [append go]. rewrite H1. auto.
Qed.
Lemma go_comment_end s : nonl s = true -> go "" true s = Some [].
Proof.
  induction s as [|c s IH]; intro H; [reflexivity|]. cbn [nonl] in H. apply andb_prop in H as [H1 H2].
  cbn [go]. rewrite H1. auto.
Qed.

(** ** Words and numbers *)
Lemma go_word s : forall acc, allw s = true -> go acc false s = flush (acc ++ s).
Proof.
  induction s as [|c s IH]; intros acc H; [cbn; rewrite app_nil_s; reflexivity|].
  cbn in H. apply andb_prop in H as [H1 H2]. cbn [go]. rewrite H1, IH by exact H2. rewrite app_assoc_s. reflexivity.
Qed.
Lemma lex_word s t : allw s = true -> word s = Some t -> lex s = Some [t].
Proof.
  intros H E. unfold lex. rewrite go_word by exact H. cbn [append]. unfold flush. destruct s; [discriminate|].
  rewrite E. reflexivity.
Qed.
Lemma word_not_slash c : is_word c = true -> (c =? "/")%char = false.
Proof. destruct c as [[] [] [] [] [] [] [] []]; try reflexivity; discriminate. Qed.
Lemma allw_noslash s : allw s = true -> noslash s = true.
Proof.
  induction s as [|c s IH]; intro H; [reflexivity|]. cbn in H. apply andb_prop in H as [H1 H2].
  cbn. destruct s; [reflexivity|]. unfold slashes. rewrite (word_not_slash c H1). cbn. apply IH, H2.
Qed.
Fixpoint alld (s : string) : bool := match s with EmptyString => true | String c r => is_digit c && alld r end.
Lemma alld_allw s : alld s = true -> allw s = true.
Proof.
  induction s as [|c s IH]; cbn; intro H; [reflexivity|]. apply andb_prop in H as [H1 H2].
  unfold is_word. rewrite H1, orb_true_r. auto.
Qed.
Lemma digit_char d : (d < 10)%N -> is_digit (ascii_of_N (48 + d)) = true /\ digit_value (ascii_of_N (48 + d)) = Some d.
Proof.
  intro H. assert (E : (d = 0 \/ d = 1 \/ d = 2 \/ d = 3 \/ d = 4 \/ d = 5 \/ d = 6 \/ d = 7 \/ d = 8 \/ d = 9)%N) by lia.
  repeat destruct E as [-> | E]; try (split; reflexivity). subst. split; reflexivity.
Qed.
Lemma dec_n_digits n : forall v acc, alld acc = true -> alld (dec_n n v acc) = true.
Proof.
  induction n as [|n IH]; intros v acc H; [exact H|]. cbn [dec_n].
  assert (Hd : alld (String (ascii_of_N (48 + v mod 10)) acc) = true).
  { cbn [alld]. rewrite H. destruct (digit_char (v mod 10) (N.mod_lt v 10 ltac:(discriminate))) as [-> _]. reflexivity. }
  destruct (v <? 10)%N; [exact Hd | apply IH, Hd].
Qed.
Lemma dec_digits v : alld (dec v) = true.
Proof. apply dec_n_digits. reflexivity. Qed.
Lemma radix_dec_n n : forall v acc, (v < 10 ^ N.of_nat n)%N -> (v < 2 ^ 64)%N ->
  radix 10 0 (dec_n n v acc) = radix 10 v acc.
Proof.
  induction n as [|n IH]; intros v acc Hv Hb.
  - cbn in Hv. replace v with 0%N by lia. reflexivity.
  - cbn [dec_n]. destruct (digit_char (v mod 10) (N.mod_lt v 10 ltac:(discriminate))) as [_ Hd].
    destruct (v <? 10)%N eqn:E.
    + apply N.ltb_lt in E. rewrite N.mod_small in Hd by exact E. rewrite N.mod_small by exact E.
      cbn [radix]. unfold digit. rewrite Hd. rewrite (proj2 (N.ltb_lt v 10) E).
      rewrite N.mul_0_l, N.add_0_l. rewrite (proj2 (N.ltb_lt v _) Hb). reflexivity.
    + apply N.ltb_ge in E. pose proof (N.div_mod v 10 ltac:(discriminate)) as Hdm.
      pose proof (N.mod_lt v 10 ltac:(discriminate)) as Hm.
      assert (Hq : (v / 10 < 10 ^ N.of_nat n)%N).
      { apply N.div_lt_upper_bound; [discriminate|]. rewrite Nnat.Nat2N.inj_succ, N.pow_succ_r' in Hv. exact Hv. }
      assert (Hq2 : (v / 10 < 2 ^ 64)%N).
      { apply (N.le_lt_trans _ v); [|exact Hb]. apply N.div_le_upper_bound; [discriminate | lia]. }
      rewrite IH by assumption. cbn [radix]. unfold digit. rewrite Hd, (proj2 (N.ltb_lt (v mod 10) 10) Hm).
      replace (v / 10 * 10 + v mod 10)%N with v by lia. rewrite (proj2 (N.ltb_lt v _) Hb). reflexivity.
Qed.
Lemma dec_fuel v : (v < 10 ^ N.of_nat (S (N.to_nat (N.log2 v))))%N.
Proof.
  rewrite Nnat.Nat2N.inj_succ, Nnat.N2Nat.id. destruct (N.eq_dec v 0) as [-> | H]; [reflexivity|].
  apply (N.lt_le_trans _ (2 ^ N.succ (N.log2 v))).
  - apply N.log2_spec. lia.
  - apply N.pow_le_mono_l. lia.
Qed.
Lemma radix_dec v : (v < 2 ^ 64)%N -> radix 10 0 (dec v) = Some v.
Proof. intro H. unfold dec. rewrite radix_dec_n; [reflexivity | apply dec_fuel | exact H]. Qed.

(** The first digit is zero only for zero. *)
Lemma dec_n_first n : forall v acc, (0 < v)%N -> (v < 10 ^ N.of_nat n)%N ->
  exists c r, dec_n n v acc = String c r /\ is_digit c = true /\ c <> "0"%char.
Proof.
  induction n as [|n IH]; intros v acc H0 Hv; [cbn in Hv; lia|]. cbn [dec_n].
  destruct (v <? 10)%N eqn:E.
  - apply N.ltb_lt in E. rewrite N.mod_small by exact E. eexists _, _. split; [reflexivity|].
    destruct (digit_char v E) as [H1 H2]. split; [exact H1|]. intro Hc. rewrite Hc in H2. cbn in H2. inversion H2. lia.
  - apply N.ltb_ge in E. apply IH.
    + apply N.div_str_pos. lia.
    + apply N.div_lt_upper_bound; [discriminate|]. rewrite Nnat.Nat2N.inj_succ, N.pow_succ_r' in Hv. exact Hv.
Qed.
Lemma split_base_dec v suf : firstc suf = None \/ firstc suf = Some "f"%char \/ firstc suf = Some "u"%char ->
  split_base (dec v ++ suf) = (dec v ++ suf, 10%N).
Proof.
  intro Hs. destruct (N.eq_dec v 0) as [-> | Hv].
  - change (dec 0) with "0". cbn [append]. destruct suf as [|c suf]; [reflexivity|].
    cbn in Hs. destruct Hs as [Hs | [Hs | Hs]]; inversion Hs; subst; reflexivity.
  - destruct (dec_n_first (S (N.to_nat (N.log2 v))) v "" ltac:(lia) (dec_fuel v)) as (c & r & E & Hd & Hc).
    fold (dec v) in E. rewrite E. cbn [append]. destruct c as [[] [] [] [] [] [] [] []]; try reflexivity; try discriminate Hd.
    exfalso. apply Hc. reflexivity.
Qed.
Lemma rfind_suf (ds suf : string) : rfind suf suf = Some 0 -> rfind suf (ds ++ suf) = Some (String.length ds).
Proof. intro H. induction ds as [|c ds IH]; [exact H|]. cbn [append rfind]. rewrite IH. reflexivity. Qed.
Lemma rfind_none (ds suf : string) p c : p = String c "" ++ match p with String _ r => r | _ => "" end -> is_digit c = false ->
  alld ds = true -> rfind p suf = None -> rfind p (ds ++ suf) = None.
Proof.
  intros Hp Hc. induction ds as [|d ds IH]; intros Hd H; [exact H|].
  cbn in Hd. apply andb_prop in Hd as [H1 H2]. cbn [append rfind]. rewrite IH by assumption.
  rewrite Hp. cbn [append prefix]. destruct (Ascii.ascii_dec c d) as [->|]; [congruence | reflexivity].
Qed.
Lemma drop_app (a b : string) : drop (String.length a) (a ++ b) = b.
Proof. induction a; cbn; [destruct b; reflexivity | assumption]. Qed.
Lemma take_app (a b : string) : take (String.length a) (a ++ b) = a.
Proof. induction a as [|c a IH]; cbn; [destruct b; reflexivity | rewrite IH; reflexivity]. Qed.
Lemma find_not_digit_all s : alld s = true -> find_not_digit 10 s = None.
Proof.
  induction s as [|c s IH]; intro H; [reflexivity|]. cbn [alld] in H. apply andb_prop in H as [H1 H2].
  cbn [find_not_digit]. unfold digit, digit_value. rewrite H1.
  assert (E : (code c - 48 <? 10)%N = true).
  { unfold is_digit, between in H1. apply andb_prop in H1 as [_ H1]. apply N.leb_le in H1.
    change (code "9"%char) with 57%N in H1. apply N.ltb_lt. lia. }
  rewrite E, IH by exact H2. reflexivity.
Qed.
Lemma dec_nonempty v : exists c r, dec v = String c r /\ is_digit c = true.
Proof.
  destruct (N.eq_dec v 0) as [-> | Hv]; [exists "0"%char, ""; split; reflexivity|].
  destruct (dec_n_first (S (N.to_nat (N.log2 v))) v "" ltac:(lia) (dec_fuel v)) as (c & r & E & Hd & _). eauto.
Qed.
Definition suftext (s : option string) : string := match s with Some x => x | None => "" end.
(** Printed literals are read back. *)
Lemma word_number v s : numok v = true -> suffix_ok s = true -> word (dec v ++ suftext s) = Some (TNum v s).
Proof.
  intros Hv Hs. destruct (dec_nonempty v) as (c & r & E & Hc).
  assert (W : word (dec v ++ suftext s) = number (dec v ++ suftext s)).
  { rewrite E. cbn [append word]. rewrite Hc. reflexivity. }
  rewrite W. apply N.ltb_lt in Hv. pose proof (dec_digits v) as Hd.
  assert (Hs' : s = None \/ s = Some "felt" \/ s = Some "u32").
  { destruct s as [x|]; [|auto]. cbn in Hs. destruct (x =? "felt") eqn:E1; [apply String.eqb_eq in E1; subst; auto|].
    destruct (x =? "u32") eqn:E2; [apply String.eqb_eq in E2; subst; auto | discriminate]. }
  assert (Hne : (dec v =? "") = false) by (rewrite E; reflexivity).
  unfold number. rewrite split_base_dec by (destruct Hs' as [-> | [-> | ->]]; cbn; auto).
  destruct Hs' as [-> | [-> | ->]]; cbn [suftext].
  - assert (De : digit_end 10 (dec v ++ "") = String.length (dec v)).
    { unfold digit_end, suffix_pos.
      rewrite (rfind_none (dec v) "" "felt" "f") by (try reflexivity; exact Hd).
      rewrite (rfind_none (dec v) "" "u32" "u") by (try reflexivity; exact Hd).
      cbn [min_pos]. rewrite app_nil_s, find_not_digit_all by exact Hd. reflexivity. }
    rewrite De, take_app, drop_app, Hne, radix_dec by exact Hv. reflexivity.
  - unfold digit_end, suffix_pos. rewrite (rfind_suf (dec v) "felt") by reflexivity.
    rewrite (rfind_none (dec v) "felt" "u32" "u") by (try reflexivity; exact Hd).
    rewrite drop_app. cbn [min_pos]. replace (Nat.ltb 0 (String.length (dec v))) with true by (rewrite E; reflexivity).
    cbn [String.eqb andb Ascii.eqb Bool.eqb]. rewrite take_app, drop_app, Hne, radix_dec by exact Hv. reflexivity.
  - unfold digit_end, suffix_pos. rewrite (rfind_suf (dec v) "u32") by reflexivity.
    rewrite (rfind_none (dec v) "u32" "felt" "f") by (try reflexivity; exact Hd).
    rewrite drop_app. cbn [min_pos]. replace (Nat.ltb 0 (String.length (dec v))) with true by (rewrite E; reflexivity).
    cbn [String.eqb andb Ascii.eqb Bool.eqb]. rewrite take_app, drop_app, Hne, radix_dec by exact Hv. reflexivity.
Qed.
