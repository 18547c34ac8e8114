(** Label resolution: where the emitted items end up in the program. *)
From Coq Require Import ZArith Bool String List Lia.
From Verif Require Import M31 M31Facts Instr InstrFacts Isa Mir MirSem MirIsa MirLegal Vm
  Cg CgLink CgSpec CgPassFacts CgStepFacts.
Import ListNotations.
Open Scope Z_scope.

(** The items of a function after rewriting. *)
Definition as_item (x : linstr) : item := CI (canon (fst x)) (snd x).
Fixpoint expand (f : Z) (is : list item) : list item :=
  match is with
  | [] => []
  | CL l :: r => CL l :: expand f r
  | CI i t :: r => map as_item (fst (dedup1 f (i, t))) ++ expand (snd (dedup1 f (i, t))) r
  end.
Definition shift (b : nat) (ms : list mark) : list mark := map (fun l => (fst l, (b + snd l)%nat)) ms.
(** The last item is an instruction. *)
Fixpoint ends_in_code (is : list item) : bool :=
  match is with
  | [] => false
  | CI _ _ :: r => match r with [] => true | _ => ends_in_code r end
  | CL _ :: r => ends_in_code r
  end.

Lemma split_shift : forall is n k, split (n + k) is = (fst (split k is), shift n (snd (split k is))).
Proof.
  induction is as [|[i t|l] is IH]; intros n k; cbn [split]; auto.
  - replace (S (n + k)) with (n + S k)%nat by lia. rewrite IH. reflexivity.
  - rewrite IH. reflexivity.
Qed.
Lemma shift0 : forall ms, shift 0 ms = ms.
Proof. induction ms as [|[l n] ms IH]; cbn; auto. rewrite <- IH at 2. reflexivity. Qed.
Lemma shift_shift : forall a b ms, shift a (shift b ms) = shift (a + b) ms.
Proof. induction ms as [|[l n] ms IH]; cbn; auto. f_equal; [f_equal; lia|auto]. Qed.
Lemma split_code : forall is n, fst (split n is) = fst (split 0 is).
Proof. intros. replace n with (n + 0)%nat by lia. rewrite split_shift. reflexivity. Qed.
Lemma split_app : forall x y n, split n (x ++ y) =
  (fst (split 0 x) ++ fst (split 0 y),
   snd (split n x) ++ shift (n + length (fst (split 0 x))) (snd (split 0 y))).
Proof.
  induction x as [|[i t|l] x IH]; intros y n.
  - cbn [app split fst snd length]. replace n with (n + 0)%nat at 1 by lia. rewrite split_shift.
    f_equal. f_equal. lia.
  - cbn [app split]. rewrite IH. rewrite (split_code x 1%nat), (split_code x (S n)). cbn [fst snd length app].
    f_equal. f_equal. f_equal. lia.
  - cbn [app split]. rewrite IH. reflexivity.
Qed.
Lemma split_items : forall xs n, split n (map as_item xs) = (map canon_l xs, []).
Proof. induction xs as [|x xs IH]; intros n; cbn [map split]; auto. rewrite IH. reflexivity. Qed.

Lemma dedup_length : forall is f, length (fst (dedup f is)) = length is.
Proof. induction is as [|i is IH]; intros f; cbn; auto. Qed.
Lemma dedup1_some : forall f i, (1 <= length (fst (dedup1 f i)))%nat.
Proof.
  intros f [i t]. destruct i; cbn [dedup1 fst]; unfold dup1, dup2;
  try (match goal with |- context [if ?c then _ else _] => destruct c end); cbn; lia.
Qed.

(** Marks of the original items are below its length when it ends in an instruction. *)
Lemma ends_marks : forall is, ends_in_code is = true ->
  forall l n, In (l, n) (snd (split 0 is)) -> (n < length (fst (split 0 is)))%nat.
Proof.
  induction is as [|[i t|l0] is IH]; intros H l n K; cbn [ends_in_code] in H; [discriminate| |].
  - cbn [split] in *. change 1%nat with (1 + 0)%nat in K |- *. rewrite split_shift in *. cbn [fst snd length] in *.
    apply in_map_iff in K. destruct K as ([l1 n1] & K & Hin). injection K as <- <-. cbn [snd].
    destruct is as [|x is]; [destruct Hin|]. specialize (IH H _ _ Hin). lia.
  - cbn [split] in *. cbn [fst snd] in *. destruct K as [K|K]; [|eauto]. injection K as <- <-.
    clear -H. revert H. induction is as [|[i t|l] is IH]; cbn; intros; [discriminate| |auto]. lia.
Qed.

(** Rewriting items and rewriting the two vectors give the same code. *)
Lemma expand_code : forall is f,
  fst (split 0 (expand f is)) = map canon_l (concat (fst (dedup f (fst (split 0 is))))).
Proof.
  induction is as [|[i t|l] is IH]; intros f; cbn [expand split].
  - reflexivity.
  - rewrite split_app. cbn [fst]. rewrite split_items. cbn [fst].
    rewrite (split_code is 1%nat). cbn [dedup fst concat]. rewrite map_app. f_equal. apply IH.
  - cbn [fst]. apply IH.
Qed.
(** ... and the same labels, for the labels that mark an instruction. *)
Lemma expand_marks : forall is f, ends_in_code is = true ->
  snd (split 0 (expand f is)) =
  map (fun l => (fst l, remap (fst (dedup f (fst (split 0 is)))) (snd l))) (snd (split 0 is)).
Proof.
  assert (R : forall is f, (forall l n, In (l, n) (snd (split 0 is)) -> (n < length (fst (split 0 is)))%nat) ->
    snd (split 0 (expand f is)) =
    map (fun l => (fst l, remap (fst (dedup f (fst (split 0 is)))) (snd l))) (snd (split 0 is))).
  2:{ intros is f H. apply R. apply ends_marks. auto. }
  induction is as [|[i t|l] is IH]; intros f H; cbn [expand].
  - reflexivity.
  - rewrite split_app. rewrite split_items. cbn [fst snd app]. rewrite map_length.
    cbn [split] in *. change 1%nat with (1 + 0)%nat in *. rewrite split_shift in *. cbn [fst snd] in *.
    rewrite IH.
    2:{ intros l n Hin. specialize (H l (1 + n)%nat). cbn [length] in H.
        assert (1 + n < S (length (fst (split 0 is))))%nat; [|lia]. apply H.
        apply in_map_iff. exists (l, n). auto. }
    unfold shift at 2. rewrite map_map. unfold shift. rewrite map_map. apply map_ext_in. intros [l n] Hin. cbn [fst snd].
    f_equal. cbn [dedup fst]. unfold remap. cbn [length]. rewrite dedup_length.
    specialize (H l (1 + n)%nat ltac:(apply in_map_iff; exists (l, n); auto)). cbn [length] in H.
    destruct (Nat.ltb_spec n (length (fst (split 0 is)))); [|lia].
    destruct (Nat.ltb_spec (1 + n) (S (length (fst (split 0 is))))); [|lia].
    cbn [Nat.add firstn concat]. rewrite app_length. reflexivity.
  - cbn [split] in *. cbn [fst snd map] in *. f_equal.
    + f_equal. unfold remap. rewrite dedup_length.
      destruct (Nat.ltb_spec 0 (length (fst (split 0 is)))); [|specialize (H l 0%nat (or_introl eq_refl)); lia].
      reflexivity.
    + apply IH. intros l0 n K. apply (H l0 n). right. auto.
Qed.

(** ** Resolution *)
Lemma total_app : forall x y, total (x ++ y) = total x + total y.
Proof. induction x; intros; cbn [total fold_right app] in *; auto. fold (total (x ++ y)). fold (total x). rewrite IHx. lia. Qed.
Lemma resolve_length : forall t is pc js, resolve t pc is = Some js -> length js = length is.
Proof.
  induction is as [|i is IH]; intros pc js H; cbn in H; [injection H as <-; auto|].
  destruct (resolve1 t pc i); [|discriminate]. destruct (resolve t _ is) eqn:E; [|discriminate].
  injection H as <-. cbn. f_equal. eauto.
Qed.
Lemma resolve1_aimed : forall t pc i l j, resolve1 t pc (i, Some l) = Some j ->
  exists b, lookup l t = Some b /\ aimed pc b i = Some j.
Proof.
  intros t pc i l j H. unfold resolve1 in H. cbn [fst snd] in H. destruct (lookup l t) as [b|]; [|discriminate].
  exists b. split; auto.
Qed.
Lemma resolve1_size : forall t pc i j, resolve1 t pc i = Some j -> size_qm31 j = size_qm31 (fst i).
Proof.
  intros t pc [i [l|]] j H; [|injection H as <-; auto]. apply resolve1_aimed in H. destruct H as (b & _ & H).
  destruct i; try discriminate; injection H as <-; reflexivity.
Qed.
Lemma resolve_total : forall t is pc js, resolve t pc is = Some js -> total js = words is.
Proof.
  induction is as [|i is IH]; intros pc js H; cbn in H; [injection H as <-; auto|].
  destruct (resolve1 t pc i) eqn:E1; [|discriminate]. destruct (resolve t _ is) eqn:E; [|discriminate].
  injection H as <-. cbn [total words fold_right]. fold (total l). fold (words is).
  rewrite (IH _ _ E), (resolve1_size _ _ _ _ E1). reflexivity.
Qed.
Lemma words_nonneg : forall is, 0 <= words is.
Proof. induction is; cbn; [lia|]. fold (words is). pose proof (size_pos (fst a)). lia. Qed.
Lemma total_nonneg : forall is, 0 <= total is.
Proof. induction is; cbn; [lia|]. fold (total is). pose proof (size_pos a). lia. Qed.
Lemma words_app : forall x y, words (x ++ y) = words x + words y.
Proof. induction x; intros; cbn [words fold_right app] in *; auto. fold (words (x ++ y)). fold (words x). rewrite IHx. lia. Qed.

(** Fetching instruction [k] at its start. *)
Lemma fetch_mid : forall x i y, fetch (x ++ i :: y) (total x) = Some i.
Proof.
  induction x as [|a x IH]; intros i y; [reflexivity|].
  change (total (a :: x)) with (size_qm31 a + total x). cbn [app fetch].
  pose proof (size_pos a). pose proof (total_nonneg x).
  destruct (Z.eqb_spec (size_qm31 a + total x) 0); [lia|].
  destruct (Z.ltb_spec (size_qm31 a + total x) 0); [lia|].
  replace (size_qm31 a + total x - size_qm31 a) with (total x) by lia. apply IH.
Qed.

(** Items are placed where resolution put them. *)
Lemma placed_resolved : forall t is js pre post,
  resolve t (total pre) (fst (split 0 is)) = Some js ->
  (forall l n, In (l, n) (snd (split 0 is)) -> lookup l t = Some (total pre + words (firstn n (fst (split 0 is))))) ->
  placed (fetch (pre ++ js ++ post)) (fun l => lookup l t) (total pre) is (total (pre ++ js)).
Proof.
  intros t. induction is as [|[i u|l] is IH]; intros js pre post R L.
  - cbn in R. injection R as <-. rewrite app_nil_r. reflexivity.
  - cbn [split] in R, L. change 1%nat with (1 + 0)%nat in R, L. rewrite split_shift in R, L. cbn [fst snd] in R, L.
    cbn [resolve] in R. destruct (resolve1 t (total pre) (i, u)) as [j|] eqn:E1; [|discriminate].
    destruct (resolve t (total pre + size_qm31 (fst (i, u))) (fst (split 0 is))) as [js'|] eqn:E2; [|discriminate].
    injection R as <-. cbn [placed app].
    pose proof (resolve1_size _ _ _ _ E1) as Sz. cbn [fst] in Sz, E2. split.
    + destruct u as [l|].
      * apply resolve1_aimed in E1. destruct E1 as (b & Lb & A). exists b, j. split; auto. split; auto. apply fetch_mid.
      * injection E1 as <-. apply fetch_mid.
    + assert (T : total (pre ++ [j]) = total pre + size_qm31 i).
      { rewrite total_app. cbn [total fold_right]. lia. }
      rewrite <- T in *. replace (pre ++ j :: js' ++ post) with ((pre ++ [j]) ++ js' ++ post) by (rewrite <- app_assoc; auto).
      replace (pre ++ j :: js') with ((pre ++ [j]) ++ js') by (rewrite <- app_assoc; auto).
      apply IH; auto. intros l n K. specialize (L l (1 + n)%nat ltac:(apply in_map_iff; exists (l, n); auto)).
      cbn [Nat.add firstn words fold_right fst] in L. fold (words (firstn n (fst (split 0 is)))) in L.
      rewrite L, T. f_equal. lia.
  - cbn [split] in R, L. cbn [fst snd] in R, L. cbn [placed]. split.
    + rewrite (L l 0%nat (or_introl eq_refl)). cbn. f_equal. lia.
    + apply IH; auto. intros l0 n K. apply L. right. auto.
Qed.

(** ** The table *)
Lemma lookup_app : forall l x y, lookup l (x ++ y) =
  match lookup l y with Some b => Some b | None => lookup l x end.
Proof.
  induction x as [|[m a] x IH]; intros y; cbn [app lookup]; [destruct (lookup l y); auto|].
  rewrite IH. destruct (lookup l y); auto.
Qed.
Lemma lookup_none : forall l t, ~ In l (map fst t) -> lookup l t = None.
Proof.
  induction t as [|[m a] t IH]; intros H; cbn in *; auto. rewrite IH by tauto.
  destruct (String.eqb_spec m l); auto. subst. tauto.
Qed.
Lemma lookup_in : forall l a t, In (l, a) t -> NoDup (map fst t) -> lookup l t = Some a.
Proof.
  induction t as [|[m b] t IH]; intros H N; [destruct H|]. cbn [map fst] in N. inversion N as [|? ? N1 N2]; subst.
  cbn [lookup]. destruct H as [H|H].
  - injection H as -> ->. rewrite lookup_none by auto. rewrite String.eqb_refl. auto.
  - rewrite (IH H N2). auto.
Qed.
Lemma lookup_some : forall l t a, lookup l t = Some a -> In (l, a) t.
Proof.
  induction t as [|[m b] t IH]; intros a H; cbn in H; [discriminate|].
  destruct (lookup l t) eqn:E; [injection H as <-; right; auto|].
  destruct (String.eqb_spec m l); [|discriminate]. injection H as <-. subst. left. auto.
Qed.
Lemma place_marks_in : forall is ms t, place_marks is ms = Some t ->
  map fst t = map fst ms /\
  (forall l n, In (l, n) ms -> (n < length is)%nat /\ In (l, words (firstn n is)) t) /\
  (forall l a, In (l, a) t -> 0 <= a < words is).
Proof.
  intros is. induction ms as [|[l n] ms IH]; intros t H; cbn in H; [injection H as <-; repeat split; intros; try contradiction|].
  destruct (phys is n) as [a|] eqn:E; [|discriminate]. destruct (place_marks is ms) as [t'|]; [|discriminate].
  injection H as <-. destruct (IH _ eq_refl) as (A & B & C). unfold phys in E.
  destruct (Nat.ltb_spec n (length is)) as [Ln|]; [|discriminate]. injection E as <-.
  split; [cbn; f_equal; auto|]. split.
  - intros l0 n0 [K|K]; [injection K as <- <-; split; [auto|left; auto]|]. destruct (B _ _ K). split; auto. right; auto.
  - intros l0 a0 [K|K]; [|eauto]. injection K as <- <-. split; [apply words_nonneg|].
    rewrite <- (firstn_skipn n is) at 2. rewrite words_app.
    destruct (skipn n is) as [|x r] eqn:Es.
    + exfalso. assert (length (skipn n is) = 0%nat) by (rewrite Es; auto). rewrite skipn_length in H. lia.
    + cbn [words fold_right]. fold (words r). pose proof (words_nonneg r). pose proof (size_pos (fst x)). lia.
Qed.
Lemma place_blobs_names : forall bs a, map fst (place_blobs a bs) = map snd bs.
Proof. induction bs as [|[w l] bs IH]; intros a; cbn; auto. f_equal. apply IH. Qed.
Lemma place_blobs_range : forall bs a l b, In (l, b) (place_blobs a bs) ->
  a <= b <= a + Z.of_nat (length (blob_words bs)).
Proof.
  induction bs as [|[w m] bs IH]; intros a l b H; cbn in H; [destruct H|].
  unfold blob_words in *. cbn [flat_map fst]. rewrite app_length.
  destruct H as [H|H]; [injection H as <- <-; lia|]. apply IH in H. lia.
Qed.

(** The names that mark places: labels, read-only arrays, the heap cursor. *)
Definition names (g : gst) : list string :=
  map fst (g_labels g) ++ map snd (g_blobs g) ++ (if g_heap g then [HEAP] else []).

Lemma distinct_nodup : forall l, distinct l = true <-> NoDup l.
Proof.
  induction l as [|x l IH]; cbn; split; intros H; auto; try constructor.
  - apply andb_true_iff in H. destruct H as (H & _). intros K. apply negb_true_iff in H.
    assert (existsb (String.eqb x) l = true); [|congruence]. apply existsb_exists. exists x. split; auto. apply String.eqb_refl.
  - apply andb_true_iff in H. destruct H as (_ & H). apply IH; auto.
  - inversion H as [|? ? H1 H2]; subst. apply andb_true_iff. split; [|apply IH; auto].
    apply negb_true_iff. destruct (existsb (String.eqb x) l) eqn:E; auto. exfalso. apply existsb_exists in E.
    destruct E as (y & Hy & E). apply String.eqb_eq in E. subst. auto.
Qed.

Lemma table_labels : forall g t, table g = Some t -> NoDup (names g) ->
  forall l n, In (l, n) (g_labels g) ->
  (n < length (g_code g))%nat /\ lookup l t = Some (words (firstn n (g_code g))).
Proof.
  intros g t H N l n K. unfold table in H.
  destruct (_ <? LIMIT); [|discriminate].
  destruct (place_marks (g_code g) (g_entries g)) as [x|]; [|discriminate].
  destruct (place_marks (g_code g) (g_labels g)) as [y|] eqn:E; [|discriminate]. injection H as <-.
  destruct (place_marks_in _ _ _ E) as (A & B & C). destruct (B _ _ K) as (B1 & B2). split; auto.
  rewrite lookup_app. rewrite (lookup_in l (words (firstn n (g_code g)))); auto.
  - apply in_or_app. left. auto.
  - rewrite !map_app, A, place_blobs_names. unfold names in N. destruct (g_heap g); exact N.
Qed.
Lemma table_range : forall g t, table g = Some t ->
  words (g_code g) < LIMIT /\ forall l b, lookup l t = Some b -> 0 <= b < LIMIT.
Proof.
  intros g t H. unfold table in H. pose proof (words_nonneg (g_code g)) as W.
  destruct (Z.ltb_spec (words (g_code g) + Z.of_nat (length (blob_words (g_blobs g))) + (if g_heap g then 1 else 0)) LIMIT) as [Lt|]; [|discriminate].
  assert (B0 : 0 <= (if g_heap g then 1 else 0)) by (destruct (g_heap g); lia).
  destruct (place_marks (g_code g) (g_entries g)) as [x|] eqn:Ex; [|discriminate].
  destruct (place_marks (g_code g) (g_labels g)) as [y|] eqn:E; [|discriminate]. injection H as <-.
  split; [lia|]. intros l b H. apply lookup_some in H.
  destruct (place_marks_in _ _ _ E) as (_ & _ & C). destruct (place_marks_in _ _ _ Ex) as (_ & _ & D).
  apply in_app_or in H. destruct H as [H|H]; [apply D in H; lia|].
  apply in_app_or in H. destruct H as [H|H]; [apply C in H; lia|].
  apply in_app_or in H. destruct H as [H|H]; [apply place_blobs_range in H; lia|].
  destruct (g_heap g); [|destruct H]. destruct H as [H|[]]. injection H as <- <-. lia.
Qed.

(** ** The whole module *)

(** The items of the functions one after the other, each rewritten, with the state in
    which each function was generated. *)
Inductive emitted (ms : funcs) : N -> list (list Z * string) -> bool -> funcs -> list layout -> list item ->
                                 list mark -> Prop :=
| emitted_nil c bs h : emitted ms c bs h [] [] [] []
| emitted_cons c bs h fn f L fs Ls is s r es :
    gen_func ms fn f (est0 L c bs h) = COk (tt, is, s) -> ends_in_code is = true ->
    emitted ms ((gcnt s + lbl s) mod 18446744073709551616) (blobs s) (heap s) fs Ls r es ->
    emitted ms c bs h ((fn, f) :: fs) (L :: Ls) (expand (frame (lay s)) is ++ r)
      ((fn, 0%nat) :: shift (length (fst (split 0 (expand (frame (lay s)) is)))) es).

(** Every function's items end in an instruction if its last block ends the function. *)
Definition last_term (f : func) : bool :=
  match last (map b_term (f_blocks f)) TUnreachable with TUnreachable => false | _ => true end.

Lemma ends_app : forall x y, ends_in_code y = true -> ends_in_code (x ++ y) = true.
Proof.
  induction x as [|[i t|l] x IH]; intros y H; cbn; auto. destruct (x ++ y) eqn:E; auto. rewrite <- E. auto.
Qed.

Lemma bind_ends : forall A B (c : M A) (k : A -> M B) s b is s',
  (forall a s1 i2, k a s1 = COk (b, i2, s') -> ends_in_code i2 = true) ->
  bind c k s = COk (b, is, s') -> ends_in_code is = true.
Proof.
  intros A B c k s b is s' H E. apply bind_ok in E. destruct E as (a & i1 & s1 & i2 & _ & E & ->).
  apply ends_app. eauto.
Qed.
Lemma emit_ends : forall i t s u is s', emit i t s = COk (u, is, s') -> ends_in_code is = true.
Proof. intros. apply emit_ok in H. destruct H as (-> & _). reflexivity. Qed.
Lemma return_ends : forall vs c rs s u is s', return_vals c vs rs s = COk (u, is, s') -> ends_in_code is = true.
Proof.
  induction vs as [|v vs IH]; intros c rs s u is s' H; cbn [return_vals] in H.
  - exact (emit_ends _ _ _ _ _ _ H).
  - destruct rs as [|r rs]; [discriminate|]. revert H. apply bind_ends. intros L s1 i2 H.
    destruct v as [[n|b|]|i|]; try discriminate; revert H; apply bind_ends; intros; eapply IH; eauto.
Qed.
Lemma term_ends : forall fn f t s u is s', t <> TUnreachable ->
  gen_term fn f t None s = COk (u, is, s') -> ends_in_code is = true.
Proof.
  intros fn f t s u is s' N H. destruct t; cbn [gen_term] in H.
  - exact (emit_ends _ _ _ _ _ _ H).
  - revert H. apply bind_ends. intros a s1 i2 H. exact (emit_ends _ _ _ _ _ _ H).
  - revert H. apply bind_ends. intros a s1 i2 H.
    destruct op; try discriminate; revert H; apply bind_ends; intros ? ? ? H; revert H; apply bind_ends;
      intros ? ? ? H; exact (emit_ends _ _ _ _ _ _ H).
  - destruct (types_of f (f_rets f)); [|discriminate]. eapply return_ends; eauto.
  - contradiction.
Qed.
Lemma blocks_ends : forall ms fn f bs k s u is s', bs <> [] ->
  last (map b_term bs) TUnreachable <> TUnreachable ->
  gen_blocks ms fn f k bs s = COk (u, is, s') -> ends_in_code is = true.
Proof.
  intros ms fn f. induction bs as [|b bs IH]; intros k s u is s' N H E; [contradiction|].
  cbn [gen_blocks] in E. destruct bs as [|b' bs].
  - apply bind_ok in E. destruct E as (a & i1 & s1 & i2 & E & E2 & ->). apply ret_ok in E2. destruct E2 as (_ & -> & _).
    rewrite app_nil_r. revert E. apply bind_ends. intros ? ? ? E. revert E. apply bind_ends.
    intros ? ? ? E. eapply term_ends; [|exact E]. exact H.
  - revert E. apply bind_ends. intros ? ? ? E. eapply IH; [discriminate| |exact E]. exact H.
Qed.
Lemma func_ends : forall ms fn f s u is s', last_term f = true ->
  gen_func ms fn f s = COk (u, is, s') -> ends_in_code is = true.
Proof.
  intros ms fn f s u is s' H E. unfold gen_func in E. unfold last_term in H.
  revert E. apply bind_ends. intros ? ? ? E. eapply blocks_ends; [| |exact E].
  - intros K. rewrite K in H. discriminate.
  - intros K. rewrite K in H. discriminate.
Qed.

Lemma gen_all_emitted : forall ms fs Ls g g',
  (forall fn f, In (fn, f) fs -> last_term f = true) -> length fs = length Ls ->
  gen_all ms g fs Ls = COk g' ->
  exists r es, emitted ms (g_cnt g) (g_blobs g) (g_heap g) fs Ls r es /\
    g_code g' = g_code g ++ fst (split 0 r) /\
    g_labels g' = g_labels g ++ shift (length (g_code g)) (snd (split 0 r)) /\
    g_entries g' = g_entries g ++ shift (length (g_code g)) es.
Proof.
  intros ms. induction fs as [|[fn f] fs IH]; intros Ls g g' HL HN H.
  - destruct Ls; [|discriminate]. cbn in H. injection H as <-. exists [], []. split; [constructor|].
    cbn. rewrite !app_nil_r. auto.
  - destruct Ls as [|L Ls]; [discriminate|]. cbn [gen_all] in H.
    destruct (gen_one ms g fn f L) as [g1| |] eqn:E1; try discriminate.
    unfold gen_one in E1. destruct (abi_all f (f_params f) && abi_all f (f_rets f)); [|discriminate].
    destruct (gen_func ms fn f (est0 L (g_cnt g) (g_blobs g) (g_heap g))) as [[[[] is] s]| |] eqn:Eg; try discriminate.
    injection E1 as <-.
    assert (Ec : ends_in_code is = true) by (eapply func_ends; [|exact Eg]; apply (HL fn); left; auto).
    destruct (IH Ls _ _ (fun a b K => HL a b (or_intror K)) ltac:(cbn in HN; lia) H) as (r & es & A & B & C & D).
    cbn [g_code g_labels g_entries g_cnt g_blobs g_heap] in *.
    rewrite <- expand_code in *. eexists _, _. split; [econstructor; eauto|].
    rewrite split_app. cbn [fst snd]. rewrite B, C, D, !app_length. rewrite <- !app_assoc. split; auto. split.
    + f_equal. rewrite expand_marks by auto. unfold shift. rewrite map_app. rewrite !map_map. cbn [fst snd]. f_equal.
      apply map_ext. intros [l n]. cbn [fst snd]. f_equal. lia.
    + f_equal. unfold shift. cbn [map fst snd app]. rewrite map_map. f_equal; [f_equal; lia|].
      apply map_ext. intros [l n]. cbn [fst snd]. f_equal. lia.
Qed.

Lemma lay_all_length : forall fs Ls, lay_all fs = COk Ls -> length fs = length Ls.
Proof.
  induction fs as [|[fn f] fs IH]; intros Ls H; cbn in H; [injection H as <-; auto|].
  destruct (lay_new f); try discriminate. destruct (lay_all fs); try discriminate. injection H as <-. cbn. f_equal. auto.
Qed.

(** The program holds the emitted items, labels where they belong. *)
Lemma compile_placed : forall fs p, compile fs = COk p ->
  (forall fn f, In (fn, f) (legal_funcs fs) -> last_term f = true) ->
  exists g, gen_module fs = COk g /\
  (NoDup (names g) ->
  exists Ls r es lab,
    lay_all (legal_funcs fs) = COk Ls /\
    emitted (legal_funcs fs) 0 [] false (legal_funcs fs) Ls r es /\
    placed (fetch (p_code p)) lab 0 r (total (p_code p)) /\
    (forall l b, lab l = Some b -> 0 <= b < LIMIT) /\ total (p_code p) < LIMIT).
Proof.
  intros fs p H HL. unfold compile in H. destruct (valid_module fs); [|discriminate].
  destruct (gen_module fs) as [g| |] eqn:Eg; try discriminate. exists g. split; auto. intros N.
  unfold gen_module in Eg. destruct (lay_all (legal_funcs fs)) as [Ls| |] eqn:EL; try discriminate.
  destruct (gen_all_emitted _ _ _ _ _ HL (lay_all_length _ _ EL) Eg) as (r & es & A & B & C & D).
  cbn [gst0 g_code g_labels g_entries app length] in *. rewrite shift0 in C, D.
  unfold link in H. destruct (table g) as [t|] eqn:Et; [|discriminate].
  destruct (place_marks (g_code g) (g_entries g)) as [en|] eqn:Ee; [|discriminate].
  destruct (resolve t 0 (g_code g)) as [js|] eqn:Er; [|discriminate]. injection H as <-. cbn [p_code].
  exists Ls, r, es, (fun l => lookup l t). split; auto. split; auto. split; [|split].
  - rewrite B in Er. pose proof (placed_resolved t r js [] [] Er) as K. cbn [app] in K.
    change (total []) with 0 in K. rewrite app_nil_r in K. apply K. intros l n Hin. cbn.
    rewrite <- C in Hin. destruct (table_labels _ _ Et N _ _ Hin) as (_ & X). rewrite X, B. reflexivity.
  - apply (table_range _ _ Et).
  - rewrite (resolve_total _ _ _ _ Er). apply (table_range _ _ Et).
Qed.

(** ** Single transfers *)
Lemma resolve_nth : forall t is pc js k i, resolve t pc is = Some js -> nth_error is k = Some i ->
  exists j, nth_error js k = Some j /\ resolve1 t (pc + total (firstn k js)) i = Some j.
Proof.
  induction is as [|x is IH]; intros pc js k i H K; [destruct k; discriminate|]. cbn in H.
  destruct (resolve1 t pc x) as [j|] eqn:E1; [|discriminate].
  destruct (resolve t (pc + size_qm31 (fst x)) is) as [js'|] eqn:E2; [|discriminate]. injection H as <-.
  destruct k as [|k]; cbn in K.
  - injection K as ->. exists j. split; auto. cbn. rewrite Z.add_0_r. auto.
  - destruct (IH _ _ _ _ E2 K) as (j' & A & B). exists j'. split; auto. cbn [firstn total fold_right].
    fold (total (firstn k js')). rewrite (resolve1_size _ _ _ _ E1). rewrite Z.add_assoc. auto.
Qed.
Lemma resolve_firstn : forall t is pc js k, resolve t pc is = Some js -> total (firstn k js) = words (firstn k is).
Proof.
  induction is as [|x is IH]; intros pc js k H; cbn in H; [injection H as <-; destruct k; auto|].
  destruct (resolve1 t pc x) as [j|] eqn:E1; [|discriminate].
  destruct (resolve t (pc + size_qm31 (fst x)) is) as [js'|] eqn:E2; [|discriminate]. injection H as <-.
  destruct k as [|k]; auto. cbn [firstn total words fold_right]. fold (total (firstn k js')). fold (words (firstn k is)).
  rewrite (IH _ _ k E2), (resolve1_size _ _ _ _ E1). auto.
Qed.
Lemma lookup_only : forall l a t, In (l, a) t -> (forall b, In (l, b) t -> b = a) -> lookup l t = Some a.
Proof.
  intros l a t H U. destruct (lookup l t) as [b|] eqn:E.
  - apply lookup_some in E. rewrite (U _ E). auto.
  - exfalso. revert E H. clear U. induction t as [|[m b] t IH]; intros E H; [destruct H|].
    cbn in E. destruct (lookup l t); [discriminate|]. destruct H as [H|H]; [|auto].
    injection H as -> ->. rewrite String.eqb_refl in E. discriminate.
Qed.
Lemma place_marks_inv : forall is ms t l a, place_marks is ms = Some t -> In (l, a) t ->
  exists n, In (l, n) ms /\ a = words (firstn n is).
Proof.
  intros is. induction ms as [|[l0 n] ms IH]; intros t l a H K; cbn in H; [injection H as <-; destruct K|].
  unfold phys in H. destruct (Nat.ltb n (length is)); [|discriminate]. destruct (place_marks is ms) as [t'|]; [|discriminate].
  injection H as <-. destruct K as [K|K].
  - injection K as <- <-. exists n. split; [left|]; auto.
  - destruct (IH _ _ _ eq_refl K) as (n' & A & B). exists n'. split; [right|]; auto.
Qed.

Lemma link_transfers : forall g p k i l n,
  link g = COk p -> nth_error (g_code g) k = Some (i, Some l) ->
  In (l, n) (g_labels g) -> (forall n', In (l, n') (g_labels g) -> n' = n) ->
  ~ In l (map snd (g_blobs g)) -> l <> HEAP ->
  exists j i', nth_error (p_code p) k = Some j /\ nth_error (p_code p) n = Some i' /\
    size_qm31 j = size_qm31 i /\
    forall m s e, pc s = start (p_code p) k -> isa j m s = Some e ->
    match i with
    | JmpRelImm _ | CallAbsImm _ _ => pc (next e) = start (p_code p) n
    | JnzFpImm c _ => pc (next e) = if m (slot s c) =? 0 then start (p_code p) (S k) else start (p_code p) n
    | _ => True
    end.
Proof.
  intros g p k i l n H K Hl U Nb Nh. unfold link in H. destruct (table g) as [t|] eqn:Et; [|discriminate].
  destruct (place_marks (g_code g) (g_entries g)) as [en|] eqn:Ee; [|discriminate].
  destruct (resolve t 0 (g_code g)) as [js|] eqn:Er; [|discriminate]. injection H as <-. cbn [p_code].
  destruct (table_range _ _ Et) as (RW & RL).
  destruct (resolve_nth _ _ _ _ _ _ Er K) as (j & Hj & R). rewrite Z.add_0_l in R.
  pose proof (resolve1_size _ _ _ _ R) as Sz. cbn [fst] in Sz.
  apply resolve1_aimed in R. destruct R as (b & Lb & A).
  assert (Hb : b = total (firstn n js) /\ (n < length js)%nat).
  { rewrite (resolve_firstn _ _ _ _ _ Er), (resolve_length _ _ _ _ Er). pose proof Et as Et'. unfold table in Et.
    destruct (_ <? LIMIT); [|discriminate]. rewrite Ee in Et.
    destruct (place_marks (g_code g) (g_labels g)) as [y|] eqn:El; [|discriminate]. injection Et as <-.
    destruct (place_marks_in _ _ _ El) as (_ & B & _). destruct (B _ _ Hl) as (B1 & B2). split; auto.
    assert (X : lookup l (y ++ place_blobs (words (g_code g)) (g_blobs g) ++
        (if g_heap g then [(HEAP, words (g_code g) + Z.of_nat (length (blob_words (g_blobs g))))] else [])) = Some (words (firstn n (g_code g)))).
    { apply lookup_only; [apply in_or_app; left; auto|]. intros b0 I. apply in_app_or in I. destruct I as [I|I].
      - destruct (place_marks_inv _ _ _ _ _ El I) as (n' & I1 & ->). rewrite (U _ I1). auto.
      - exfalso. apply in_app_or in I. destruct I as [I|I].
        + apply Nb. rewrite <- (place_blobs_names _ (words (g_code g))). apply (in_map fst) in I. exact I.
        + destruct (g_heap g); [|destruct I]. destruct I as [I|[]]. injection I as I _. congruence. }
    rewrite lookup_app, X in Lb. congruence. }
  destruct Hb as (-> & Ln).
  destruct (nth_error js n) as [i'|] eqn:En; [|apply nth_error_None in En; lia].
  exists j, i'. split; auto. split; auto. split; auto. intros m s e Hpc E.
  assert (Pn : 0 <= total (firstn n js) < P).
  { split; [apply total_nonneg|]. specialize (RL _ _ Lb). unfold LIMIT, P in *. lia. }
  assert (Pk : 0 <= start js k /\ start js (S k) = start js k + size_qm31 j /\ start js (S k) < P).
  { split; [apply total_nonneg|]. unfold start. rewrite (resolve_firstn _ _ _ _ _ Er), (resolve_firstn _ _ _ _ _ Er).
    assert (X : firstn (S k) (g_code g) = firstn k (g_code g) ++ [(i, Some l)]).
    { clear -K. revert k K. induction (g_code g) as [|x r IH]; intros [|k] K; try discriminate; cbn in *.
      - injection K as ->. auto.
      - f_equal. auto. }
    split.
    - rewrite X, words_app. cbn [words fold_right fst]. lia.
    - assert (words (firstn (S k) (g_code g)) <= words (g_code g)).
      { rewrite <- (firstn_skipn (S k) (g_code g)) at 2. rewrite words_app. pose proof (words_nonneg (skipn (S k) (g_code g))). lia. }
      unfold LIMIT, P in *. lia. }
  destruct i; auto; cbn [aimed] in A; injection A as <-.
  - cbn [isa] in E. injection E as <-. cbn [next pc]. apply Z.mod_small. auto.
  - cbn [isa] in E. injection E as <-. cbn [next pc]. rewrite Hpc. apply jump_pc. auto.
  - cbn [isa] in E. injection E as <-. cbn [next]. unfold slot. destruct Pk as (P1 & P2 & P3).
    destruct (m ((fp s + cond_off) mod P) =? 0); cbn [pc]; rewrite Hpc.
    + transitivity (start js (S k)); [|reflexivity]. rewrite P2.
      change (size_qm31 _) with 1 in P2 |- *. apply Z.mod_small. clear - P1 P2 P3. lia.
    + apply jump_pc. auto.
Qed.
