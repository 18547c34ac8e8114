(** Positions: lemmas. *)
From Coq Require Import Bool Arith NArith List Lia.
From Verif Require Import Position PositionSpec.
Import ListNotations.

Lemma utf8_pos c : 1 <= utf8_len c.
Proof. unfold utf8_len. destruct (c <? 128)%N, (c <? 2048)%N, (c <? 65536)%N; lia. Qed.
Lemma utf16_utf8 c : utf16_len c <= utf8_len c.
Proof.
  unfold utf16_len, utf8_len. destruct (N.ltb_spec c 65536), (N.ltb_spec c 128), (N.ltb_spec c 2048); lia.
Qed.
Lemma bytes_app a b : bytes (a ++ b) = bytes a + bytes b.
Proof. induction a as [| c r IH]; cbn; [reflexivity | lia]. Qed.

(** The position after a text. *)
Fixpoint walk (t : text) (line character : nat) : nat * nat :=
  match t with
  | [] => (line, character)
  | c :: r => if N.eqb c LF then walk r (S line) 0 else walk r line (S character)
  end.
Lemma to_position_walk : forall pre post i line ch,
  to_position i (pre ++ post) (i + bytes pre) line ch = walk pre line ch.
Proof.
  induction pre as [| c r IH]; intros post i line ch; cbn [bytes app to_position walk].
  - destruct post; cbn; [reflexivity|]. rewrite Nat.add_0_r, Nat.leb_refl. reflexivity.
  - pose proof (utf8_pos c). destruct (Nat.leb_spec (i + (utf8_len c + bytes r)) i); [lia|].
    replace (i + (utf8_len c + bytes r)) with (i + utf8_len c + bytes r) by lia. now rewrite !IH.
Qed.
Lemma walk_later : forall t line ch, line < fst (walk t line ch) \/ (line = fst (walk t line ch) /\ ch + length t = snd (walk t line ch)).
Proof.
  induction t as [| c r IH]; intros line ch; cbn; [right; lia|].
  destruct (N.eqb c LF).
  - specialize (IH (S line) 0). lia.
  - specialize (IH line (S ch)). lia.
Qed.
Lemma to_offset_walk : forall pre post i line ch,
  to_offset i (i + bytes (pre ++ post)) (pre ++ post) (walk pre line ch) line ch = i + bytes pre.
Proof.
  induction pre as [| c r IH]; intros post i line ch.
  - destruct post as [| c post]; cbn; [reflexivity|]. rewrite !Nat.eqb_refl. cbn. lia.
  - pose proof (walk_later (c :: r) line ch) as L. cbn [length] in L. cbn [bytes app to_offset].
    destruct (Nat.eqb_spec line (fst (walk (c :: r) line ch))) as [E1 | E1];
    destruct (Nat.eqb_spec ch (snd (walk (c :: r) line ch))) as [E2 | E2]; cbn [andb]; try lia.
    all: cbn [walk] in *; replace (i + (utf8_len c + bytes (r ++ post))) with (i + utf8_len c + bytes (r ++ post)) by lia.
    all: destruct (N.eqb c LF).
    all: try (pose proof (walk_later r (S line) 0); destruct (Nat.ltb_spec (fst (walk r (S line) 0)) (S line)); [lia|]).
    all: rewrite IH; lia.
Qed.

Fixpoint lfs (t : text) : nat := match t with [] => 0 | c :: r => if N.eqb c LF then S (lfs r) else lfs r end.
Lemma last_line_cur : forall t cur, last_line t cur = match lfs t with 0 => cur ++ t | S _ => last_line t [] end.
Proof.
  induction t as [| c r IH]; intros cur; cbn; [now rewrite app_nil_r|].
  destruct (N.eqb c LF); [reflexivity|]. rewrite IH, (IH [c]). destruct (lfs r); [| reflexivity].
  cbn. now rewrite <- app_assoc.
Qed.
Lemma walk_lfs : forall t line ch, walk t line ch = (line + lfs t, match lfs t with 0 => ch + length t | S _ => length (last_line t []) end).
Proof.
  induction t as [| c r IH]; intros line ch; cbn [walk lfs last_line length app]; [now rewrite !Nat.add_0_r|].
  destruct (N.eqb c LF); rewrite IH; f_equal.
  - lia.
  - rewrite (last_line_cur r []). destruct (lfs r); reflexivity.
  - rewrite (last_line_cur r [c]). destruct (lfs r); [lia | reflexivity].
Qed.

Lemma no_lf_no_cr : forall t, no_bare_cr t -> lfs t = 0 -> forall c, In c t -> ends_line c = false.
Proof.
  induction t as [| d r IH]; intros H L c I; [destruct I|]. cbn in L. destruct H as [H1 H2].
  destruct (N.eqb_spec d LF) as [-> | Nd]; [discriminate|].
  destruct I as [-> | I]; [| now apply IH]. unfold ends_line.
  destruct (N.eqb_spec c LF); [contradiction|]. destruct (N.eqb_spec c CR) as [E | ]; [| reflexivity].
  destruct (H1 E) as (r' & ->). cbn in L. discriminate.
Qed.
Lemma no_bare_suffix : forall a b, no_bare_cr (a ++ b) -> no_bare_cr b.
Proof. induction a as [| c r IH]; intros b H; [exact H|]. apply IH, H. Qed.
Lemma last_line_no_lf : forall t, lfs (last_line t []) = 0.
Proof.
  assert (A : forall a b, lfs (a ++ b) = lfs a + lfs b).
  { induction a as [| c r IH]; intros b; cbn; [reflexivity|]. rewrite IH. destruct (N.eqb c LF); reflexivity. }
  assert (K : forall t cur, lfs cur = 0 -> lfs (last_line t cur) = 0).
  { induction t as [| c r IH]; intros cur H; cbn; [exact H|]. destruct (N.eqb c LF) eqn:E; apply IH; [reflexivity|].
    rewrite A, H. cbn. now rewrite E. }
  intros t. now apply K.
Qed.
Lemma last_line_suffix : forall t, exists a, t = a ++ last_line t [].
Proof.
  induction t as [| c r IH]; [exists []; reflexivity|]. cbn. destruct (N.eqb c LF).
  - destruct IH as (a & E). exists (c :: a). cbn. now f_equal.
  - rewrite last_line_cur. destruct (lfs r) eqn:L.
    + exists []. reflexivity.
    + destruct IH as (a & E). exists (c :: a). cbn. now f_equal.
Qed.
Lemma last_line_clean t : no_bare_cr t -> forall c, In c (last_line t []) -> ends_line c = false.
Proof.
  intros H. apply no_lf_no_cr; [| apply last_line_no_lf]. destruct (last_line_suffix t) as (a & E). rewrite E in H.
  now apply no_bare_suffix in H.
Qed.

Lemma cut_0 k t : cut 0 k t = cut_line k t.
Proof. destruct t; reflexivity. Qed.
Lemma cut_walk : forall pre post k, no_bare_cr pre -> cut (lfs pre) k (pre ++ post) = cut_line k (last_line pre [] ++ post).
Proof.
  intros pre. remember (length pre) as n eqn:En. revert pre En.
  induction n as [n IH] using lt_wf_ind. intros pre -> post k H.
  destruct pre as [| c r]; [apply cut_0|].
  cbn [lfs last_line app]. destruct (N.eqb_spec c LF) as [-> | Nc].
  - cbn [cut]. rewrite N.eqb_refl. apply (IH (length r)); [cbn; lia | reflexivity | apply H].
  - rewrite last_line_cur. destruct (lfs r) as [| l] eqn:L; [apply cut_0|].
    cbn [cut]. rewrite (proj2 (N.eqb_neq c LF) Nc).
    destruct (N.eqb_spec c CR) as [-> | Nr].
    + destruct (proj1 H eq_refl) as (r' & ->). cbn [lfs app] in *. rewrite N.eqb_refl in *. injection L as <-.
      cbn [last_line]. rewrite N.eqb_refl. apply (IH (length r')); [cbn; lia | reflexivity | apply H].
    + rewrite <- L. apply (IH (length r)); [cbn; lia | reflexivity | apply H].
Qed.
Lemma cut_line_short : forall l post, (forall c, In c l -> ends_line c = false) -> Forall short l ->
  cut_line (length l) (l ++ post) = post.
Proof.
  induction l as [| c r IH]; intros post H S; [cbn; destruct post; reflexivity|]. cbn.
  rewrite (H c) by now left. inversion S as [| ? ? S1 S2]; subst. unfold utf16_len. rewrite (proj2 (N.ltb_lt c 65536) S1).
  cbn. rewrite Nat.sub_0_r. apply IH; [| exact S2]. intros d I. apply H. now right.
Qed.
Lemma cut_line_past : forall l post k, (forall c, In c l -> ends_line c = false) -> bytes l <= k ->
  (post = [] \/ exists c r, post = c :: r /\ ends_line c = true) -> cut_line k (l ++ post) = post.
Proof.
  induction l as [| c r IH]; intros post k H B P; cbn.
  - destruct P as [-> | (c & r & -> & E)]; cbn; destruct k; try reflexivity. now rewrite E.
  - cbn in B. pose proof (utf8_pos c). pose proof (utf16_utf8 c). destruct k as [| k]; [lia|].
    rewrite (H c) by now left. apply IH; [intros d I; apply H; now right | lia | exact P].
Qed.

(** ** [str::lines] *)
Definition strip (cur : text) : text := match rev cur with c' :: b => if N.eqb c' CR then rev b else cur | [] => [] end.
Lemma lines_open : forall t cur, last_line t cur <> [] ->
  length (split_lines t cur) = S (lfs t) /\ last (split_lines t cur) [] = last_line t cur.
Proof.
  induction t as [| c r IH]; intros cur H; cbn in *.
  - destruct cur; [congruence | split; reflexivity].
  - destruct (N.eqb c LF); [| now apply IH]. destruct (IH [] H) as [E1 E2]. cbn. split; [now f_equal|].
    destruct (split_lines r []); [discriminate | exact E2].
Qed.
Lemma lines_closed : forall t cur, length (split_lines (t ++ [LF]) cur) = S (lfs t)
  /\ last (split_lines (t ++ [LF]) cur) [] = strip (last_line t cur).
Proof.
  induction t as [| c r IH]; intros cur; cbn.
  - split; reflexivity.
  - destruct (N.eqb c LF); [| apply IH]. destruct (IH []) as [E1 E2]. cbn. split; [now f_equal|].
    destruct (split_lines (r ++ [LF]) []); [discriminate | exact E2].
Qed.
Lemma lfs_app a b : lfs (a ++ b) = lfs a + lfs b.
Proof. induction a as [| c r IH]; cbn; [reflexivity|]. rewrite IH. destruct (N.eqb c LF); reflexivity. Qed.
Lemma last_line_app : forall a b, lfs b = 0 -> forall cur, last_line (a ++ b) cur = last_line a cur ++ b.
Proof.
  induction a as [| c r IH]; intros b H cur; cbn.
  - rewrite last_line_cur, H. reflexivity.
  - destruct (N.eqb c LF); now apply IH.
Qed.

Lemma edit_all t new p : edited ((0, 0), p, new) t = new ++ after p t.
Proof. unfold edited, before, after. cbn [fst snd]. rewrite cut_0. destruct t; cbn [cut_line]; rewrite Nat.sub_diag; reflexivity. Qed.
Lemma last_line_empty : forall t, last_line t [] = [] -> t = [] \/ exists t0, t = t0 ++ [LF].
Proof.
  induction t as [| c r IH] using rev_ind; intros H; [now left|]. right. exists r.
  destruct (N.eqb_spec c LF) as [-> | D]; [reflexivity|].
  rewrite last_line_app in H by (cbn; now rewrite (proj2 (N.eqb_neq _ _) D)). destruct (last_line r []); discriminate.
Qed.
Lemma format_open t new : no_bare_cr t -> (forall t0, t <> t0 ++ [LF]) -> edited (format_edit t new) t = new.
Proof.
  intros H N. unfold format_edit. rewrite edit_all. unfold after. cbn [fst snd].
  assert (E : cut (Nat.pred (length (lines t))) (bytes (last (lines t) [])) t = []).
  { unfold lines. destruct t as [| c r] eqn:T; [reflexivity|]. rewrite <- T in *.
    assert (L : last_line t [] <> []).
    { intros L. destruct (last_line_empty t L) as [-> | (t0 & E)]; [discriminate T | exact (N t0 E)]. }
    destruct (lines_open t [] L) as [E1 E2]. rewrite E1, E2. cbn [Nat.pred].
    pose proof (cut_walk t [] (bytes (last_line t [])) H) as C. rewrite !app_nil_r in C. rewrite C.
    pose proof (cut_line_past (last_line t []) [] (bytes (last_line t [])) (last_line_clean t H) (le_n _) (or_introl eq_refl)) as P.
    now rewrite app_nil_r in P. }
  rewrite E. apply app_nil_r.
Qed.
Lemma strip_clean l : (forall c, In c l -> ends_line c = false) -> strip l = l /\ strip (l ++ [CR]) = l.
Proof.
  intros H. unfold strip. split.
  - destruct (rev l) as [| c b] eqn:E.
    + rewrite <- (rev_involutive l), E. reflexivity.
    + assert (I : In c l) by (apply in_rev; rewrite E; now left). specialize (H c I). unfold ends_line in H.
      apply orb_false_iff in H. destruct H as [_ H]. now rewrite H.
  - rewrite rev_app_distr. cbn. apply rev_involutive.
Qed.
Lemma format_closed t new nl : no_bare_cr t -> nl = [LF] \/ nl = [CR; LF] -> edited (format_edit (t ++ nl) new) (t ++ nl) = new ++ nl.
Proof.
  intros H N. unfold format_edit. rewrite edit_all. unfold after. cbn [fst snd]. f_equal. unfold lines.
  pose proof (last_line_clean t H) as C. destruct (strip_clean _ C) as [S1 S2].
  assert (E : length (split_lines (t ++ nl) []) = S (lfs t) /\ last (split_lines (t ++ nl) []) [] = last_line t []).
  { destruct N as [-> | ->].
    - destruct (lines_closed t []) as [E1 E2]. now rewrite E1, E2, S1.
    - change [CR; LF] with ([CR] ++ [LF]). rewrite app_assoc. destruct (lines_closed (t ++ [CR]) []) as [E1 E2].
      rewrite E1, E2, last_line_app, lfs_app, S2 by reflexivity. cbn. now rewrite Nat.add_0_r. }
  destruct E as [E1 E2]. rewrite E1, E2. cbn [Nat.pred]. rewrite cut_walk by exact H.
  apply cut_line_past; [exact C | lia |]. right. destruct N as [-> | ->]; do 2 eexists; (split; [reflexivity|]); reflexivity.
Qed.

(** ** The position of a text *)
Fixpoint units (t : text) : nat := match t with [] => 0 | c :: r => utf16_len c + units r end.
Lemma units_app a b : units (a ++ b) = units a + units b.
Proof. induction a as [| c r IH]; cbn; [reflexivity | lia]. Qed.
Lemma units_short l : Forall short l -> units l = length l.
Proof.
  induction l as [| c r IH]; intros H; [reflexivity|]. inversion H as [| ? ? H1 H2]; subst. cbn. rewrite (IH H2).
  unfold utf16_len. now rewrite (proj2 (N.ltb_lt c 65536) H1).
Qed.
Lemma position_lfs : forall t line u, no_bare_cr t ->
  position_from t line u = (line + lfs t, match lfs t with 0 => u + units t | S _ => units (last_line t []) end).
Proof.
  intros t. remember (length t) as n eqn:En. revert t En.
  induction n as [n IH] using lt_wf_ind. intros t -> line u H.
  destruct t as [| c r]; cbn [position_from lfs units last_line app]; [now rewrite !Nat.add_0_r|].
  destruct (N.eqb_spec c LF) as [-> | Nc].
  - rewrite (IH (length r)) by (cbn; auto; apply H). rewrite Nat.add_succ_r. f_equal.
    rewrite (last_line_cur r []). destruct (lfs r); reflexivity.
  - destruct (N.eqb_spec c CR) as [-> | Nr].
    + destruct (proj1 H eq_refl) as (r' & ->). cbn [lfs last_line]. rewrite !N.eqb_refl.
      rewrite (IH (length r')) by (cbn; auto; apply H). rewrite Nat.add_succ_r. f_equal.
      rewrite (last_line_cur r' []). destruct (lfs r'); reflexivity.
    + rewrite (IH (length r)) by (cbn; auto; apply H). f_equal.
      rewrite (last_line_cur r [c]). destruct (lfs r); [lia | reflexivity].
Qed.
Lemma cut_line_units : forall l post, (forall c, In c l -> ends_line c = false) -> cut_line (units l) (l ++ post) = post.
Proof.
  induction l as [| c r IH]; intros post H; [cbn; destruct post; reflexivity|]. cbn.
  assert (U : 1 <= utf16_len c) by (unfold utf16_len; destruct (c <? 65536)%N; lia).
  destruct (utf16_len c + units r) as [| k] eqn:E; [lia|]. rewrite (H c) by now left. rewrite <- E.
  replace (utf16_len c + units r - utf16_len c) with (units r) by lia. apply IH. intros d I. apply H. now right.
Qed.
Lemma position_eq pre : no_bare_cr pre -> position_of pre = (lfs pre, units (last_line pre [])).
Proof.
  intros H. unfold position_of. rewrite position_lfs by exact H. cbn. f_equal. rewrite (last_line_cur pre []).
  destruct (lfs pre); reflexivity.
Qed.
(** The two definitions of a position agree. *)
Lemma after_position pre post : no_bare_cr pre -> after (position_of pre) (pre ++ post) = post.
Proof.
  intros H. rewrite position_eq by exact H. unfold after. cbn [fst snd]. rewrite cut_walk by exact H.
  apply cut_line_units, last_line_clean, H.
Qed.
Lemma walk_position pre : no_bare_cr pre -> Forall short (last_line pre []) -> walk pre 0 0 = position_of pre.
Proof.
  intros H S. rewrite position_eq by exact H. rewrite walk_lfs. cbn. f_equal. rewrite (units_short _ S).
  rewrite (last_line_cur pre []). destruct (lfs pre); reflexivity.
Qed.
Lemma no_bare_lf t : no_bare_cr t -> no_bare_cr (t ++ [LF]).
Proof.
  induction t as [| c r IH]; intros H; cbn.
  - split; [discriminate | exact I].
  - destruct H as [H1 H2]. split; [| auto]. intros E. destruct (H1 E) as (r' & ->). cbn. eauto.
Qed.
Lemma short_all l : forallb (fun c => (c <? 65536)%N) l = true -> Forall short l.
Proof. intros H. apply Forall_forall. intros c I. apply N.ltb_lt. exact (proj1 (forallb_forall _ _) H c I). Qed.
