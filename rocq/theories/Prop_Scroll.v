(** Property C89: the selected exercise is on the screen. *)
From Coq Require Import List Bool Arith Lia.
From Verif Require Import Scroll.
Import ListNotations.
Open Scope nat_scope.

(** ** Specification *)
(** If there are rows, one of them is selected, it is among the rows shown, and no line stays empty while a row is hidden. *)
Definition in_view (s : scroll) : Prop :=
  (rows s = 0 /\ selected s = None) \/
  (exists k, selected s = Some k /\ k < rows s /\ (0 < shown s -> offset s <= k < offset s + shown s) /\
    (offset s + shown s <= rows s \/ offset s = 0)).
(** The row that is selected after an input. *)
Definition moves (i : input) (n k : nat) : nat :=
  match i with
  | Next => if S k =? n then k else S k
  | Previous => k - 1
  | First => 0
  | Last => n - 1
  | Rows m => if k <? m then k else m - 1
  | Resize _ => k
  | Found j => if j <? n then j else k
  end.

Definition fits (s : scroll) : Prop := padding s <= shown s / 4.
Lemma quarter m : 0 < m -> m / 4 <= m - 1.
Proof. intros H. assert (m / 4 < m) by (apply Nat.div_lt; lia). lia. Qed.
Lemma update_view s k : fits s -> selected s = Some k -> k < rows s -> in_view (update_offset s) /\ fits (update_offset s).
Proof.
  intros F E L. unfold update_offset. rewrite E. cbv zeta. unfold in_view, fits in *. cbn [rows shown selected offset padding]. split; [|exact F]. right. exists k.
  split; [reflexivity|]. split; [exact L|]. split.
  - intros P. pose proof (quarter _ P). lia.
  - lia.
Qed.
Lemma set_view s k : fits s -> k < rows s -> in_view (set_selected k s) /\ fits (set_selected k s).
Proof. intros F L. apply (update_view _ k); [exact F|reflexivity|exact L]. Qed.
Lemma set_sel k s : selected (set_selected k s) = Some k. Proof. reflexivity. Qed.
Lemma shown_fits m s : fits (set_shown m s).
Proof. unfold set_shown, update_offset, fits. cbn. destruct (selected s); cbn; lia. Qed.
Lemma react_view s i : in_view s -> fits s -> exists s', react i s = Some s' /\ in_view s' /\ fits s' /\
  forall k, selected s = Some k -> rows s' <> 0 -> selected s' = Some (moves i (rows s) k).
Proof.
  intros V F. destruct V as [[R E]|(k & E & L & V)].
  - destruct i; cbn [react].
    + unfold select_next. rewrite E. exists s. unfold in_view. repeat split; auto; congruence.
    + unfold select_previous. rewrite E. exists s. unfold in_view. repeat split; auto; congruence.
    + unfold select_first. rewrite R. exists s. unfold in_view. repeat split; auto; congruence.
    + unfold select_last. rewrite R. exists s. unfold in_view. repeat split; auto; congruence.
    + eexists. split; [reflexivity|]. destruct n as [|n]; cbn [set_n_rows].
      * split; [left; split; reflexivity|]. split; [exact F|]. intros k Q. congruence.
      * rewrite E. match goal with |- in_view (set_selected ?k ?x) /\ _ => destruct (set_view x k F) as [A B]; [cbn; lia|] end.
        split; [exact A|]. split; [exact B|]. intros k Q. congruence.
    + eexists. split; [reflexivity|]. split; [|split; [apply shown_fits|intros k Q; congruence]].
      left. unfold set_shown, update_offset. cbn. rewrite E. cbn. auto.
    + rewrite R. cbn. exists s. unfold in_view. repeat split; auto; congruence.
  - assert (W : in_view s) by (right; exists k; auto).
    assert (Sel : forall j s', s' = set_selected j s -> j < rows s -> forall m, j = m -> in_view s' /\ fits s' /\
      forall k', selected s = Some k' -> rows s' <> 0 -> selected s' = Some m).
    { intros j s' -> J m <-. destruct (set_view s j F J) as [A B]. split; [exact A|]. split; [exact B|]. intros. apply set_sel. }
    assert (Sel2 : forall j i', j < rows s -> j = moves i' (rows s) k -> in_view (set_selected j s) /\ fits (set_selected j s) /\
      forall k', selected s = Some k' -> rows (set_selected j s) <> 0 -> selected (set_selected j s) = Some (moves i' (rows s) k')).
    { intros j i' J M. destruct (Sel j _ eq_refl J _ M) as (A & B & C). split; [exact A|]. split; [exact B|]. intros k' Q Z.
      assert (k' = k) by congruence. subst k'. exact (C k Q Z). }
    destruct i; cbn [react].
    + unfold select_next, last_row. rewrite E. destruct (rows s) as [|l] eqn:R; [lia|]. eexists. split; [reflexivity|]. rewrite <- E.
      apply (Sel2 _ Next); [lia|]. cbn [moves]. destruct (Nat.eqb_spec (S k) (S l)); lia.
    + unfold select_previous. rewrite E. eexists. split; [reflexivity|]. rewrite <- E. apply (Sel2 _ Previous); [lia|reflexivity].
    + unfold select_first. destruct (Nat.ltb_spec 0 (rows s)); [|lia]. eexists. split; [reflexivity|]. apply (Sel2 _ First); [lia|reflexivity].
    + unfold select_last. destruct (Nat.ltb_spec 0 (rows s)); [|lia]. eexists. split; [reflexivity|]. apply (Sel2 _ Last); [lia|reflexivity].
    + eexists. split; [reflexivity|]. destruct n as [|n]; cbn [set_n_rows].
      * split; [left; split; reflexivity|]. split; [exact F|]. intros k' Q Z. cbn in Z. lia.
      * rewrite E. match goal with |- in_view (set_selected ?j ?x) /\ _ => destruct (set_view x j F) as [A B]; [cbn; lia|] end.
        split; [exact A|]. split; [exact B|]. intros k' [= <-] _. rewrite set_sel. f_equal. cbn [moves].
        destruct (Nat.ltb_spec k (S n)); lia.
    + eexists. split; [reflexivity|]. destruct (update_view (Scroll (rows s) m (selected s) (offset s) (Nat.min (m / 4) (max_padding s)) (max_padding s)) k) as [A B];
        [unfold fits; cbn; lia|exact E|exact L|]. split; [exact A|]. split; [exact B|]. intros k' Q _. unfold set_shown, update_offset. cbn. rewrite Q. reflexivity.
    + destruct (Nat.ltb_spec i (rows s)) as [J|J].
      * eexists. split; [reflexivity|]. apply (Sel2 _ (Found i)); [exact J|]. cbn [moves]. destruct (Nat.ltb_spec i (rows s)); lia.
      * exists s. split; [reflexivity|]. split; [exact W|]. split; [exact F|]. intros k' Q _. cbn [moves]. destruct (Nat.ltb_spec i (rows s)); [lia|exact Q].
Qed.
Lemma session_view : forall is s, in_view s -> fits s -> exists s', session is s = Some s' /\ in_view s' /\ fits s'.
Proof.
  induction is as [|i is IH]; intros s V F; cbn [session]; [exists s; auto|].
  destruct (react_view s i V F) as (s' & -> & V' & F' & _). exact (IH s' V' F').
Qed.
Lemma opened_view n sel m : sel < n -> in_view (opened n sel m) /\ fits (opened n sel m).
Proof.
  intros L. split; [|apply shown_fits]. unfold opened, set_shown. apply (update_view _ sel); [unfold fits; cbn [padding shown]; lia|reflexivity|exact L].
Qed.
(** Whatever the user does, the program does not fail and the selected row stays in view. *)
Theorem C89_in_view : forall n sel m inputs, sel < n -> exists s, session inputs (opened n sel m) = Some s /\ in_view s.
Proof.
  intros n sel m is L. destruct (opened_view n sel m L) as [V F]. destruct (session_view is _ V F) as (s & E & V' & _). exists s. auto.
Qed.
Print Assumptions C89_in_view.
(** Every input selects the row it should. *)
Theorem C89_moves : forall n sel m inputs i s, sel < n -> session inputs (opened n sel m) = Some s ->
  exists s', react i s = Some s' /\ forall k, selected s = Some k -> rows s' <> 0 -> selected s' = Some (moves i (rows s) k).
Proof.
  intros n sel m is i s L E. destruct (opened_view n sel m L) as [V F]. destruct (session_view is _ V F) as (t & E' & V' & F').
  rewrite E in E'. injection E' as <-. destruct (react_view s i V' F') as (s' & R & _ & _ & M). exists s'. auto.
Qed.
Print Assumptions C89_moves.
(** 20 rows on a screen of 8: the last row, a smaller screen, no row at all, 3 rows again. *)
Example C89_sample :
  option_map (fun s => (selected s, offset s)) (session [Last; Resize 4; Previous] (opened 20 3 8)) = Some (Some 18, 16) /\
  option_map (fun s => (selected s, offset s)) (session [Last; Rows 0; Next; Rows 3; Next] (opened 20 3 8)) = Some (Some 1, 0).
Proof. split; reflexivity. Qed.
