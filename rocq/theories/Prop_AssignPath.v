(** Property C78: an assignment changes exactly the part it names, and no constant. *)
From Coq Require Import ZArith NArith String List Bool Lia Arith.
From Verif Require Import M31 Syn Mir MirSem AssignPath.
Import ListNotations.
Open Scope list_scope.
Open Scope nat_scope.

(** ** Specification *)
(** The expression names the part [ps] of the variable [x]. *)
Inductive names : expr -> string -> list part -> Prop :=
| names_var x : names (EId x) x []
| names_field e x ps f : names e x ps -> names (EMem e f) x (ps ++ [Field f])
| names_elem e x ps i : names e x ps -> names (ETupIdx e i) x (ps ++ [Elem (N.to_nat i)])
| names_par e x ps : names e x ps -> names (EPar e) x ps.

(** [x'] is [x] with [y] in the place [ps], and the same everywhere else. *)
Inductive replaced : list part -> val -> val -> val -> Prop :=
| replaced_here x y : replaced [] x y y
| replaced_field f l m r a a' y : ~ In f (map fst l) -> replaced r a y a' ->
    replaced (Field f :: r) (VStr (l ++ (f, a) :: m)) y (VStr (l ++ (f, a') :: m))
| replaced_elem l m r a a' y : replaced r a y a' ->
    replaced (Elem (length l) :: r) (VTup (l ++ a :: m)) y (VTup (l ++ a' :: m)).

(** Values of a type, in depth. *)
Inductive has_ty : ty -> val -> Prop :=
| has_flat t v : shape t v = true -> (forall ts, t <> TTuple ts) -> (forall n fs, t <> TStruct n fs) -> has_ty t v
| has_tuple ts vs : Forall2 has_ty ts vs -> has_ty (TTuple ts) (VTup vs)
| has_struct n fts fs : Forall2 (fun ft fv => fst ft = fst fv /\ has_ty (snd ft) (snd fv)) fts fs -> has_ty (TStruct n fts) (VStr fs).

(** The type of a part of a value of type [T]. *)
Definition part_ty (T : ty) (p : part) : option ty :=
  match T, p with
  | TStruct _ fts, Field f => find_field f fts
  | TTuple ts, Elem i => nth_error ts i
  | _, _ => None
  end.
(** The steps carry the types of the parts on the way from [T] to [T']. *)
Fixpoint chain (T : ty) (ss : list lstep) (T' : ty) : Prop :=
  match ss with
  | [] => T = T'
  | s :: r => l_container s = T /\ part_ty T (l_part s) = Some (l_result s) /\ chain (l_result s) r T'
  end.

(** ** C78: targets *)
(** The compiler binds a variable again exactly for the targets that name a part of it, and it
    writes to that part. *)
Theorem C78_decomposed : forall e x ps, names e x ps <-> rebound e = Some (x, ps).
Proof.
  assert (G : forall e x ps, names e x ps -> forall acc, decompose e acc = (EId x, ps ++ acc)).
  { intros e x ps N. induction N; intros acc; cbn [decompose]; [reflexivity| | |apply IHN]; rewrite IHN, <- app_assoc; reflexivity. }
  assert (B : forall e acc x ps, decompose e acc = (EId x, ps) -> exists qs, names e x qs /\ ps = qs ++ acc).
  { fix B 1. intros e acc x ps D. destruct e; cbn [decompose] in D; try discriminate D.
    - injection D as -> <-. exists []. split; [apply names_var|reflexivity].
    - destruct (B _ _ _ _ D) as (qs & N & ->). exists (qs ++ [Field f]). split; [apply names_field, N|]. rewrite <- app_assoc. reflexivity.
    - destruct (B _ _ _ _ D) as (qs & N & ->). exists (qs ++ [Elem (N.to_nat i)]). split; [apply names_elem, N|]. rewrite <- app_assoc. reflexivity.
    - destruct (B _ _ _ _ D) as (qs & N & ->). exists qs. split; [apply names_par, N|reflexivity]. }
  intros e x ps. unfold rebound. split.
  - intros N. rewrite (G e x ps N), app_nil_r. reflexivity.
  - intros H. destruct (decompose e []) as [b qs] eqn:D. destruct b; try discriminate H. injection H as -> ->.
    destruct (B _ _ _ _ D) as (rs & N & ->). rewrite app_nil_r. exact N.
Qed.
Print Assumptions C78_decomposed.

(** No accepted assignment names a constant or a part of one, and variables and their parts
    are accepted (in parentheses: only below a part). *)
Theorem C78_constants : forall konst e x ps, names e x ps -> (forall e', e <> EPar e') ->
  (check_target konst e = None <-> konst x = false).
Proof.
  intros konst e x ps N Np.
  assert (R : const_root konst e = if konst x then Some x else None).
  { clear Np. induction N; cbn [const_root]; try assumption. reflexivity. }
  assert (E : check_target konst e = option_map AssignmentToConst (const_root konst e)).
  { destruct N; try reflexivity. exfalso. exact (Np _ eq_refl). }
  rewrite E, R. destruct (konst x); split; intros H; try discriminate H; reflexivity.
Qed.
Print Assumptions C78_constants.
(** (p.a).1 = … *)
Example C78_target_sample : let e := ETupIdx (EPar (EMem (EId "p") "a")) 1 in
  names e "p" [Field "a"; Elem 1] /\ check_target (fun _ => false) e = None
  /\ check_target (fun x => String.eqb x "p") e = Some (AssignmentToConst "p").
Proof.
  split; [|split; reflexivity]. apply (names_elem _ _ [Field "a"] 1). apply names_par. apply (names_field _ _ []). apply names_var.
Qed.

(** ** Lemmas *)
Definition get1 (p : part) (x : val) : option val :=
  match p, x with
  | Field f, VStr fs => find_field f fs
  | Elem i, VTup vs => nth_error vs i
  | _, _ => None
  end.
Fixpoint getp (ps : list part) (x : val) : option val :=
  match ps with [] => Some x | p :: r => match get1 p x with Some a => getp r a | None => None end end.
Definition put1 (p : part) (x y : val) : val :=
  match p, x with
  | Field f, VStr fs => VStr (set_field f y fs)
  | Elem i, VTup vs => VTup (set_nth i y vs)
  | _, _ => x
  end.

Lemma find_split {A} f : forall (l : list (string * A)) a, find_field f l = Some a ->
  exists u v, l = u ++ (f, a) :: v /\ ~ In f (map fst u) /\ forall b, set_field f b l = u ++ (f, b) :: v.
Proof.
  induction l as [|[g c] l IH]; intros a H; [discriminate H|]. cbn [find_field] in H. destruct (String.eqb_spec f g) as [->|D].
  - injection H as ->. exists [], l. split; [reflexivity|]. split; [intros []|]. intros b. cbn. rewrite String.eqb_refl. reflexivity.
  - destruct (IH a H) as (u & v & E & N & W). exists ((g, c) :: u), v. split; [rewrite E; reflexivity|]. split.
    + intros [X|X]; [apply D; symmetry; exact X|exact (N X)].
    + intros b. cbn [set_field]. destruct (String.eqb_spec f g); [contradiction|]. rewrite W. reflexivity.
Qed.
Lemma nth_split' {A} : forall (l : list A) i a, nth_error l i = Some a ->
  exists u v, l = u ++ a :: v /\ length u = i /\ forall b, set_nth i b l = u ++ b :: v.
Proof.
  induction l as [|c l IH]; intros [|i] a H; try discriminate H.
  - injection H as ->. exists [], l. split; [reflexivity|]. split; reflexivity.
  - destruct (IH i a H) as (u & v & E & L & W). exists (c :: u), v. split; [rewrite E; reflexivity|]. split; [cbn; rewrite L; reflexivity|].
    intros b. cbn [set_nth]. rewrite W. reflexivity.
Qed.
Lemma put1_replaced p x a y r b : get1 p x = Some a -> replaced r a y b -> replaced (p :: r) x y (put1 p x b).
Proof.
  intros G R. destruct p as [f|i], x; try discriminate G; cbn [get1 put1] in *.
  - destruct (find_split f fs a G) as (u & v & E & N & W). rewrite W, E. apply replaced_field; assumption.
  - destruct (nth_split' vs i a G) as (u & v & E & L & W). rewrite W, E, <- L. apply replaced_elem, R.
Qed.
Lemma replaced_snoc : forall ps x a p y b, getp ps x = Some a -> replaced ps x (put1 p a y) b -> get1 p a <> None -> replaced (ps ++ [p]) x y b.
Proof.
  induction ps as [|q ps IH]; intros x a p y b G R N; cbn [app].
  - injection G as ->. inversion R; subst. destruct (get1 p a) as [c|] eqn:E; [|destruct N; reflexivity].
    apply (put1_replaced p a c y [] y E). constructor.
  - cbn [getp] in G. destruct (get1 q x) as [c|] eqn:E; [|discriminate G]. inversion R; subst.
    + apply replaced_field; [assumption|]. apply (IH _ a); try assumption. cbn in E.
      match goal with X : ~ In f (map fst l) |- _ => rename X into H2 end.
      enough (c = a0) by congruence. clear - E H2. induction l as [|[g d] l IHl]; cbn in E; [rewrite String.eqb_refl in E; congruence|].
      destruct (String.eqb_spec f g) as [->|D]; [exfalso; apply H2; left; reflexivity|]. apply IHl; [exact E|]. intros X. apply H2. right. exact X.
    + apply replaced_elem. apply (IH _ a); try assumption. cbn in E. rewrite nth_error_app2, Nat.sub_diag in E by lia. cbn in E. congruence.
Qed.

Lemma has_shape T x : has_ty T x -> shape T x = true.
Proof. intros H. destruct H; [assumption|reflexivity|reflexivity]. Qed.
Lemma has_part T x p t : has_ty T x -> part_ty T p = Some t -> exists a, get1 p x = Some a /\ has_ty t a.
Proof.
  intros H E. destruct H as [T v Sh Nt Ns|ts vs F|n fts fs F].
  - destruct T; try discriminate E; [destruct (Nt ts eq_refl)|destruct (Ns name fields eq_refl)].
  - destruct p as [f|i]; [discriminate E|]. cbn in E |- *. revert i E. induction F as [|a b l m Hab F IH]; intros [|i] E; try discriminate E.
    + injection E as ->. exists b. split; [reflexivity|exact Hab].
    + apply IH, E.
  - destruct p as [f|i]; [|discriminate E]. cbn in E |- *. induction F as [|[g a] [h b] l m [Hg Hab] F IH]; [discriminate E|].
    cbn in Hg, Hab. subst h. cbn [find_field] in *. destruct (String.eqb f g); [|apply IH, E].
    injection E as ->. exists b. split; [reflexivity|exact Hab].
Qed.
Lemma part_any T x p t e i : has_ty T x -> part_ty T p = Some t -> e i = Some x -> eval_any e (Op i) = Some x.
Proof.
  intros H E X. cbn [eval_any]. rewrite X. destruct T; try discriminate E; inversion H; subst; try reflexivity; exfalso; congruence.
Qed.
Lemma chain_app : forall r T s T', chain T (r ++ [s]) T' -> exists T1, chain T r T1 /\ l_container s = T1 /\ part_ty T1 (l_part s) = Some T' /\ l_result s = T'.
Proof.
  induction r as [|q r IH]; intros T s T' C; cbn in C.
  - destruct C as (A & B & D). exists T. cbn. subst T'. auto.
  - destruct C as (A & B & D). destruct (IH _ _ _ D) as (T1 & X & Y). exists T1. split; [|exact Y]. cbn. auto.
Qed.
Lemma chain_has : forall ss T T' x, chain T ss T' -> has_ty T x -> exists a, getp (map l_part ss) x = Some a /\ has_ty T' a.
Proof.
  induction ss as [|s ss IH]; intros T T' x C H; cbn in C.
  - subst. exists x. split; [reflexivity|exact H].
  - destruct C as (A & B & D). destruct (has_part _ _ _ _ H B) as (a & Ga & Ha). destruct (IH _ _ _ D Ha) as (b & Gb & Hb).
    exists b. split; [|exact Hb]. cbn. rewrite Ga. exact Gb.
Qed.
Lemma getp_app : forall ps qs x, getp (ps ++ qs) x = match getp ps x with Some a => getp qs a | None => None end.
Proof. induction ps as [|p ps IH]; intros qs x; [reflexivity|]. cbn. destruct (get1 p x); [apply IH|reflexivity]. Qed.

Lemma exec_app {S} (W : world S) tys : forall is js e s, exec_list W tys e s (is ++ js) =
  rbind (exec_list W tys e s is) (fun x => exec_list W tys (fst x) (snd x) js).
Proof.
  induction is as [|i is IH]; intros js e s; [reflexivity|]. cbn [app exec_list]. destruct (exec W tys e s i) as [a| | |]; cbn [rbind]; auto.
Qed.
Lemma exec_extract {S} (W : world S) tys e s d i x st t a : e i = Some x -> has_ty (l_container st) x ->
  part_ty (l_container st) (l_part st) = Some (l_result st) -> get1 (l_part st) x = Some a -> has_ty (l_result st) a -> t = s ->
  exec W tys e s (extract d (Op i) st) = ROk (upd e d a, t).
Proof.
  intros X H E G Ha ->. pose proof (part_any _ _ _ _ e i H E X) as A. pose proof (has_shape _ _ Ha) as Sh.
  unfold exec, extract. destruct (l_part st) as [f|k]; cbn [effect]; rewrite A; cbn [of_opt rbind]; destruct x; try discriminate G;
    cbn [get1] in G; rewrite G, Sh; reflexivity.
Qed.
Lemma exec_insert {S} (W : world S) tys e (s : S) d i x st w a y : e i = Some x -> has_ty (l_container st) x ->
  part_ty (l_container st) (l_part st) = Some (l_result st) -> get1 (l_part st) x = Some a -> eval_as e (l_result st) w = Some y ->
  exec W tys e s (insert d (Op i) st w) = ROk (upd e d (put1 (l_part st) x y), s).
Proof.
  intros X H E G Ey. pose proof (part_any _ _ _ _ e i H E X) as A.
  unfold exec, insert. destruct (l_part st) as [f|k], (l_container st); try discriminate E; cbn [part_ty] in E; cbn [effect]; rewrite A, E; cbn [of_opt rbind];
    rewrite Ey; cbn [of_opt rbind]; destruct x; try discriminate G; cbn [get1] in G; rewrite G; reflexivity.
Qed.
Lemma upd_other e d v i : i <> d -> upd e d v i = e i.
Proof. intros N. unfold upd. destruct (Nat.eqb_spec i d); [contradiction|reflexivity]. Qed.
Lemma upd_same e d v : upd e d v d = Some v.
Proof. unfold upd. rewrite Nat.eqb_refl. reflexivity. Qed.

Lemma run_extracts {S} (W : world S) tys (s : S) : forall ss n b e T T' x, b < n -> e b = Some x -> has_ty T x -> chain T ss T' ->
  exists e', exec_list W tys e s (extracts n (Op b) ss) = ROk (e', s) /\ (forall i, i < n -> e' i = e i) /\
    forall j, j < length ss -> e' (n + j) = getp (map l_part (firstn (Datatypes.S j) ss)) x.
Proof.
  induction ss as [|st ss IH]; intros n b e T T' x L X H C.
  - exists e. split; [reflexivity|]. split; [reflexivity|]. intros j J. cbn in J. lia.
  - cbn in C. destruct C as (A & B & D). subst T. destruct (has_part _ _ _ _ H B) as (a & Ga & Ha).
    destruct (IH (Datatypes.S n) n (upd e n a) _ _ a (Nat.lt_succ_diag_r n) (upd_same e n a) Ha D) as (e' & R & O & V).
    exists e'. split; [|split].
    + cbn [extracts exec_list]. rewrite (exec_extract W tys e s n b x st s a X H B Ga Ha eq_refl). cbn [rbind fst snd]. exact R.
    + intros i I. rewrite O by lia. apply upd_other. lia.
    + intros [|j] J.
      * rewrite Nat.add_0_r, O by lia. rewrite upd_same. cbn. rewrite Ga. reflexivity.
      * cbn [length] in J. replace (n + Datatypes.S j) with (Datatypes.S n + j) by lia. rewrite V by lia. cbn [firstn map getp]. rewrite Ga. reflexivity.
Qed.

Lemma run_inserts {S} (W : world S) tys (s : S) n b T x : b < n -> has_ty T x -> forall ss k e T' w y,
  e b = Some x -> chain T ss T' -> ss <> [] -> n + length ss <= k -> eval_as e T' w = Some y -> 
  (forall j, j < length ss -> e (n + j) = getp (map l_part (firstn (Datatypes.S j) ss)) x) ->
  exists e' x', exec_list W tys e s (fst (inserts n k (Op b) w (rev ss))) = ROk (e', s) /\ (forall i, i < k -> e' i = e i) /\
    eval_as e' T (snd (inserts n k (Op b) w (rev ss))) = Some x' /\ replaced (map l_part ss) x y x'.
Proof.
  intros L H ss. induction ss as [|st r IH] using rev_ind; intros k e T' w y X C Ne K Ew V; [destruct Ne; reflexivity|]. clear Ne.
  destruct (chain_app _ _ _ _ C) as (T1 & C1 & Ct & Pt & Rt). destruct (chain_has _ _ _ _ C1 H) as (c & Gc & Hc).
  rewrite <- Ct in Pt, Hc. rewrite <- Rt in Pt, Ew.
  destruct (has_part _ _ _ _ Hc Pt) as (a & Ga & Ha). rewrite app_length in K, V. cbn [length] in K, V.
  rewrite rev_app_distr. cbn [rev app inserts fst snd]. rewrite rev_length.
  set (z := put1 (l_part st) c y).
  assert (Ex : exec W tys e s (insert k (match length r with O => Op b | Datatypes.S i => Op (n + i) end) st w) = ROk (upd e k z, s)).
  { destruct (length r) as [|i] eqn:Lr.
    - apply (exec_insert W tys e s k b c st w a y); try assumption. destruct r; [|discriminate Lr]. injection Gc as <-. exact X.
    - apply (exec_insert W tys e s k (n + i) c st w a y); try assumption. rewrite V by lia. rewrite <- Lr, firstn_app, Nat.sub_diag, firstn_all, firstn_O, app_nil_r. exact Gc. }
  assert (Ez : eval_as (upd e k z) T1 (Op k) = Some z).
  { cbn [eval_as]. rewrite upd_same. enough (shape T1 z = true) as -> by reflexivity. rewrite <- Ct. unfold z.
    destruct (l_part st), (l_container st); try discriminate Pt; destruct c; try discriminate Ga; reflexivity. }
  assert (Nn : get1 (l_part st) c <> None) by (rewrite Ga; discriminate).
  rewrite map_app. cbn [map]. cbn [exec_list]. rewrite Ex. cbn [rbind fst snd].
  destruct r as [|r0 r'].
  - cbn in C1. injection Gc as <-. cbn [rev inserts fst snd exec_list map app]. exists (upd e k z), z. split; [reflexivity|]. split; [intros i I; apply upd_other; lia|].
    split; [rewrite <- C1 in Ez; exact Ez|]. apply (put1_replaced _ _ a y [] y Ga). constructor.
  - destruct (IH (Datatypes.S k) (upd e k z) T1 (Op k) z) as (e' & x' & R & O & Ev & Rp); try assumption.
    + rewrite upd_other by lia. exact X.
    + discriminate.
    + cbn [length] in *. lia.
    + intros j J. rewrite upd_other by lia. rewrite V by lia. rewrite firstn_app. replace (Datatypes.S j - length (r0 :: r')) with 0 by lia.
      rewrite firstn_O, app_nil_r. reflexivity.
    + exists e', x'. split; [exact R|]. split; [intros i I; rewrite O by lia; apply upd_other; lia|]. split; [exact Ev|].
      apply (replaced_snoc _ x c); assumption.
Qed.

(** ** C78: what is written *)
(** For every depth of the part: the code for an assignment to a part of a variable with value
    [x] ends without failing, leaves all earlier values as they are, and computes [x] with
    the new value in the place of the part. *)
Theorem C78_written : forall S (W : world S) tys (s : S) e n b x T ss T' w y,
  b < n -> (forall i, w = Op i -> i < n) -> e b = Some x -> has_ty T x -> chain T ss T' -> ss <> [] -> eval_as e T' w = Some y ->
  exists e' x', exec_list W tys e s (fst (write_back n (Op b) ss w)) = ROk (e', s) /\
    eval_as e' T (snd (write_back n (Op b) ss w)) = Some x' /\
    replaced (map l_part ss) x y x' /\ forall i, i < n -> e' i = e i.
Proof.
  intros S W tys s e n b x T ss T' w y L Lw X H C Ne Ew.
  destruct (run_extracts W tys s ss n b e T T' x L X H C) as (e1 & R1 & O1 & V1).
  destruct (run_inserts W tys s n b T x L H ss (n + length ss) e1 T' w y) as (e2 & x' & R2 & O2 & Ev & Rp); try assumption.
  - rewrite O1 by exact L. exact X.
  - lia.
  - destruct w as [l|i|]; cbn [eval_as] in *; try assumption. rewrite O1 by (apply Lw; reflexivity). exact Ew.
  - exists e2, x'. unfold write_back. cbn [fst snd]. rewrite exec_app, R1. cbn [rbind fst snd]. split; [exact R2|]. split; [exact Ev|].
    split; [exact Rp|]. intros i I. rewrite O2 by lia. apply O1, I.
Qed.
Print Assumptions C78_written.

Lemma struct_fields nm fts x : has_ty (TStruct nm fts) x -> exists fs, x = VStr fs /\ Forall2 (fun ft fv => fst ft = fst fv /\ has_ty (snd ft) (snd fv)) fts fs.
Proof. intros H. remember (TStruct nm fts) as T eqn:E. destruct H as [T v Sh Nt Ns|ts vs F|n g fs F]; [destruct (Ns nm fts E)|discriminate E|]. injection E as -> ->. exists fs. auto. Qed.
Lemma tuple_elems ts x : has_ty (TTuple ts) x -> exists vs, x = VTup vs /\ Forall2 has_ty ts vs.
Proof. intros H. remember (TTuple ts) as T eqn:E. destruct H as [T v Sh Nt Ns|us vs F|n g fs F]; [destruct (Nt ts E)| |discriminate E]. injection E as ->. exists vs. auto. Qed.
(** The new value has the type of the old one, in depth. *)
Theorem C78_typed : forall ss T T' x y x', replaced (map l_part ss) x y x' -> chain T ss T' -> has_ty T x -> has_ty T' y -> has_ty T x'.
Proof.
  induction ss as [|st ss IH]; intros T T' x y x' R C H Hy; cbn [map] in R; cbn [chain] in C.
  - inversion R; subst. exact Hy.
  - destruct C as (_ & Pt & C). remember (l_part st :: map l_part ss) as ps eqn:Ep.
    destruct R as [x y|f l m r a a' y N Ra|l m r a a' y Ra]; [discriminate Ep| |]; injection Ep as Ep ->; rewrite <- Ep in Pt.
    + destruct T as [| | | |nm fts| | | | | |]; try discriminate Pt. cbn [part_ty] in Pt.
      destruct (struct_fields _ _ _ H) as (fs & E & F). injection E as <-. apply has_struct. clear H.
      revert l N F. induction fts as [|[g t] fts IHf]; intros l N F; [discriminate Pt|]. cbn [find_field] in Pt. destruct l as [|[h b] l]; cbn [app] in *.
      * inversion F as [|? ? ? ? [E1 E2] F']; subst. cbn in E1, E2. subst g. rewrite String.eqb_refl in Pt. injection Pt as ->.
        constructor; [|exact F']. split; [reflexivity|]. apply (IH _ _ _ _ _ Ra C E2 Hy).
      * inversion F as [|? ? ? ? [E1 E2] F']; subst. cbn in E1, E2. subst h.
        destruct (String.eqb_spec f g) as [->|D]; [destruct N; left; reflexivity|]. constructor; [split; [reflexivity|exact E2]|].
        apply IHf; [exact Pt| |exact F']. intros X. apply N. right. exact X.
    + destruct T as [| | |ts| | | | | | |]; try discriminate Pt. cbn [part_ty] in Pt.
      destruct (tuple_elems _ _ H) as (vs & E & F). injection E as <-. apply has_tuple. clear H Ep.
      revert l Pt F. induction ts as [|t ts IHt]; intros l Pt F; [destruct l; discriminate Pt|]. destruct l as [|b l]; cbn [app length nth_error] in *.
      * injection Pt as ->. inversion F as [|? ? ? ? E1 F']; subst. constructor; [|exact F']. apply (IH _ _ _ _ _ Ra C E1 Hy).
      * inversion F as [|? ? ? ? E1 F']; subst. constructor; [exact E1|]. apply IHt; [exact Pt|exact F'].
Qed.
Print Assumptions C78_typed.

(** p.a.1 = 9, for p = S { a: (1, 2), b: true }. *)
Definition pair : ty := TTuple [TFelt; TU32].
Definition rec : ty := TStruct "S" [("a", pair); ("b", TBool)]%string.
Definition rec_val (z : Z) : val := VStr [("a", VTup [VFelt 1; VU32 z]); ("b", VBool true)]%string.
Definition path : list lstep := [LStep (Field "a") rec pair; LStep (Elem 1) pair TU32].
Example C78_written_sample : has_ty rec (rec_val 2) /\ chain rec path TU32 /\
  replaced (map l_part path) (rec_val 2) (VU32 9) (rec_val 9) /\
  forall S (W : world S) s, exists e, exec_list W (fun _ => None) (upd (fun _ => None) 0 (rec_val 2)) s (fst (write_back 1 (Op 0) path (Lit (LInt 9)))) = ROk (e, s) /\
    eval_as e rec (snd (write_back 1 (Op 0) path (Lit (LInt 9)))) = Some (rec_val 9).
Proof.
  split; [|split; [|split]].
  - apply has_struct. constructor; [split; [reflexivity|]|constructor; [split; [reflexivity|]|constructor]]; cbn [snd].
    + apply has_tuple. constructor; [|constructor; [|constructor]]; apply has_flat; try reflexivity; discriminate.
    + apply has_flat; try reflexivity; discriminate.
  - split; [reflexivity|]. split; [reflexivity|]. split; [reflexivity|]. split; reflexivity.
  - apply (replaced_field "a"%string [] [("b"%string, VBool true)]); [intros []|]. apply (replaced_elem [VFelt 1] []). constructor.
  - intros S W s. eexists. split; [cbn; reflexivity|reflexivity].
Qed.

(** ** C78: refutation *)
(** f().x = 1 is accepted, and nothing is written. *)
Theorem C78_temporary_refuted : ~ (forall konst e, (forall a i, e <> EIdx a i) -> check_target konst e = None -> exists x ps, names e x ps)
  /\ rebound (EMem (ECall (EId "f") []) "x") = None.
Proof.
  split; [|reflexivity]. intros H. destruct (H (fun _ => false) (EMem (ECall (EId "f") []) "x")) as (x & ps & N); [discriminate|reflexivity|].
  inversion N as [|? ? ? ? M| |]; subst. inversion M.
Qed.
Print Assumptions C78_temporary_refuted.
