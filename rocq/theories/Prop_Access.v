(** Property C84: reading a part of a variable gives that part. *)
From Coq Require Import ZArith NArith String List Bool Lia Arith.
From Verif Require Import M31 Syn Mir MirSem AssignPath Prop_AssignPath Access.
Import ListNotations.
Open Scope list_scope.
Open Scope nat_scope.

(** ** Specification *)
(** What an access means, for variables with the values [r]. *)
Inductive denotes (r : string -> option val) : expr -> val -> Prop :=
| d_name x v : r x = Some v -> denotes r (EId x) v
| d_member e f l a m : denotes r e (VStr (l ++ (f, a) :: m)) -> ~ In f (map fst l) -> denotes r (EMem e f) a
| d_element e i l a m : denotes r e (VTup (l ++ a :: m)) -> N.to_nat i = length l -> denotes r (ETupIdx e i) a
| d_par e v : denotes r e v -> denotes r (EPar e) v.
(** Accesses to parts of variables that have a type. *)
Inductive path_of (nt : string -> option ty) : expr -> Prop :=
| p_name x T : nt x = Some T -> path_of nt (EId x)
| p_member e f : path_of nt e -> path_of nt (EMem e f)
| p_element e i : path_of nt e -> path_of nt (ETupIdx e i)
| p_par e : path_of nt e -> path_of nt (EPar e).

Lemma find_some : forall (A : Type) f (l : list (string * A)),
  existsb (fun p => String.eqb (fst p) f) l = true <-> exists a, find_field f l = Some a.
Proof.
  intros A f l. induction l as [|[g a] l IH]; cbn [existsb find_field fst].
  - split; [intros H; discriminate H|intros [a H]; discriminate H].
  - rewrite (String.eqb_sym f g). destruct (String.eqb g f); cbn [orb]; [|exact IH].
    split; [intros _; exists a; reflexivity|reflexivity].
Qed.
Lemma find_split : forall (A : Type) f (l : list (string * A)) a, find_field f l = Some a ->
  exists l1 l2, l = l1 ++ (f, a) :: l2 /\ ~ In f (map fst l1).
Proof.
  intros A f l a. induction l as [|[g b] l IH]; intros H; cbn [find_field] in H; [discriminate H|].
  destruct (String.eqb_spec f g) as [<-|N].
  - injection H as ->. exists [], l. split; [reflexivity|intros []].
  - destruct (IH H) as (l1 & l2 & -> & X). exists ((g, b) :: l1), l2. split; [reflexivity|].
    cbn. intros [E|E]; [apply N; symmetry; exact E|exact (X E)].
Qed.

(** ** C84 *)
(** Accepted accesses are exactly those that have a type; and they can be lowered. *)
Theorem C84_accepted : forall nt nv n e, path_of nt e ->
  (check_access nt e = [] <-> exists t, access_type nt e = Some t) /\
  (check_access nt e = [] -> exists c, lower_access nt nv n e = Some c).
Proof.
  intros nt nv n e P. induction P as [x T E|e f P [IH1 IH2]|e i P [IH1 IH2]|e P IH]; cbn [check_access access_type lower_access].
  - split; [|intros _; eexists; reflexivity]. split; [intros _; exists T; exact E|reflexivity].
  - assert (X : check_access nt e ++ check_member (access_type nt e) f = [] <->
      exists t, match access_type nt e with Some (TStruct _ fts) => find_field f fts | _ => None end = Some t).
    { split.
      - intros H. apply app_eq_nil in H. destruct H as [A B]. destruct (proj1 IH1 A) as [t Et]. rewrite Et in *.
        destruct t; try discriminate B. cbn [check_member] in B. apply find_some. destruct (existsb _ _); [reflexivity|discriminate B].
      - intros [t H]. destruct (access_type nt e) as [T|]; [|discriminate H]. rewrite (proj2 IH1 (ex_intro _ T eq_refl)).
        destruct T; try discriminate H. cbn [app check_member]. rewrite (proj2 (find_some _ f _) (ex_intro _ t H)). reflexivity. }
    split; [exact X|]. intros H. destruct (proj1 X H) as [t Et]. rewrite Et. apply app_eq_nil in H. destruct H as [A _].
    destruct (IH2 A) as [[[is v] k] ->]. eexists. reflexivity.
  - assert (X : check_access nt e ++ check_tuple_index (access_type nt e) i = [] <->
      exists t, match access_type nt e with Some (TTuple ts) => nth_error ts (N.to_nat i) | _ => None end = Some t).
    { split.
      - intros H. apply app_eq_nil in H. destruct H as [A B]. destruct (proj1 IH1 A) as [t Et]. rewrite Et in *.
        destruct t; try discriminate B. cbn [check_tuple_index] in B.
        destruct (Nat.leb_spec (length ts) (N.to_nat i)) as [L|L]; [discriminate B|].
        destruct (nth_error ts (N.to_nat i)) as [t|] eqn:Q; [exists t; reflexivity|]. apply nth_error_None in Q. lia.
      - intros [t H]. destruct (access_type nt e) as [T|]; [|discriminate H]. rewrite (proj2 IH1 (ex_intro _ T eq_refl)).
        destruct T; try discriminate H. cbn [app check_tuple_index].
        destruct (Nat.leb_spec (length ts) (N.to_nat i)) as [L|L]; [|reflexivity]. apply nth_error_None in L. congruence. }
    split; [exact X|]. intros H. destruct (proj1 X H) as [t Et]. apply app_eq_nil in H. destruct H as [A _].
    destruct (IH2 A) as [[[is v] k] ->]. destruct (access_type nt e) as [T|]; [|discriminate Et]. destruct T; try discriminate Et.
    rewrite Et. eexists. reflexivity.
  - exact IH.
Qed.
Print Assumptions C84_accepted.

(** The instructions give the part that is named, of the type of the access, and change no value
    that was there before. *)
Theorem C84_value : forall nt nv e n is v k t, lower_access nt nv n e = Some (is, v, k) -> access_type nt e = Some t ->
  forall S (W : world S) tys env s,
  (forall x T, nt x = Some T -> nv x < n /\ exists a, env (nv x) = Some a /\ has_ty T a) ->
  exists env' a, exec_list W tys env s is = ROk (env', s) /\ env' v = Some a /\ has_ty t a /\
    denotes (fun x => env (nv x)) e a /\ (forall j, j < n -> env' j = env j) /\ v < k /\ n <= k.
Proof.
  intros nt nv e. induction e; intros n0 is v0 k0 t0 H Ht S W tys env s V; cbn [lower_access] in H; try discriminate H.
  - injection H as <- <- <-. cbn [access_type] in Ht. destruct (V _ _ Ht) as (L & a & E & A).
    exists env, a. repeat split; try assumption; try lia. constructor. exact E.
  - rewrite Ht in H. cbn [access_type] in Ht. destruct (lower_access nt nv n0 e) as [[[is1 v1] k1]|] eqn:Lo; [|discriminate H].
    injection H as <- <- <-. destruct (access_type nt e) as [T|] eqn:Te; [|discriminate Ht].
    destruct (IHe _ _ _ _ _ Lo eq_refl S W tys env s V) as (e1 & a & X & E & A & D & O & L & L').
    destruct T as [| | | |nm fts| | | | | |]; try discriminate Ht.
    destruct (has_part _ _ (Field f) _ A Ht) as (b & G & B).
    exists (upd e1 k1 b), b. rewrite exec_app, X. cbn [rbind fst snd exec_list].
    pose proof (exec_extract W tys e1 s k1 v1 a (LStep (Field f) (TStruct nm fts) t0) s b E A Ht G B eq_refl) as Y.
    unfold extract in Y. cbn [l_part l_result] in Y. rewrite Y. cbn [rbind fst snd exec_list]. repeat split.
    + apply upd_same.
    + exact B.
    + destruct a; try discriminate G. cbn [get1] in G. destruct (find_split _ _ _ _ G) as (l1 & l2 & -> & N). eapply d_member; eassumption.
    + intros j J. rewrite upd_other by lia. apply O. exact J.
    + lia.
    + lia.
  - cbn [access_type] in Ht. destruct (lower_access nt nv n0 e) as [[[is1 v1] k1]|] eqn:Lo; [|discriminate H].
    destruct (access_type nt e) as [T|] eqn:Te; [|discriminate H].
    destruct T as [| | |ts| | | | | | |]; try discriminate H. rewrite Ht in H. injection H as <- <- <-.
    destruct (IHe _ _ _ _ _ Lo eq_refl S W tys env s V) as (e1 & a & X & E & A & D & O & L & L').
    destruct (has_part _ _ (Elem (N.to_nat i)) _ A Ht) as (b & G & B).
    exists (upd e1 k1 b), b. rewrite exec_app, X. cbn [rbind fst snd exec_list].
    pose proof (exec_extract W tys e1 s k1 v1 a (LStep (Elem (N.to_nat i)) (TTuple ts) t0) s b E A Ht G B eq_refl) as Y.
    unfold extract in Y. cbn [l_part l_result] in Y. rewrite Y. cbn [rbind fst snd exec_list]. repeat split.
    + apply upd_same.
    + exact B.
    + destruct a; try discriminate G. cbn [get1] in G. destruct (nth_error_split _ _ G) as (l1 & l2 & -> & N). eapply d_element; [exact D|symmetry; exact N].
    + intros j J. rewrite upd_other by lia. apply O. exact J.
    + lia.
    + lia.
  - cbn [access_type] in Ht. destruct (IHe _ _ _ _ _ H Ht S W tys env s V) as (e1 & a & X & E & A & D & O).
    exists e1, a. repeat split; try assumption; try apply O. constructor. exact D.
Qed.
Print Assumptions C84_value.

(** The meaning of an access is one value. *)
Theorem C84_one : forall r e a b, denotes r e a -> denotes r e b -> a = b.
Proof.
  intros r e a b D. revert b. induction D as [x v E|e f l a m D IH N|e i l a m D IH N|e v D IH]; intros b X; inversion X; subst.
  - congruence.
  - match goal with Y : denotes r e _ |- _ => pose proof (IH _ Y) as E end. injection E as E. clear - E N H3.
    revert l0 E H3. induction l as [|[g c] l IHl]; intros [|[h d] l0] E M; cbn in *.
    + injection E as <- _. reflexivity.
    + injection E as -> _ _. destruct M. left. reflexivity.
    + injection E as -> _ _. destruct N. left. reflexivity.
    + injection E as _ _ E. apply (IHl (fun I => N (or_intror I)) l0 E). intros I. apply M. right. exact I.
  - match goal with Y : denotes r e _ |- _ => pose proof (IH _ Y) as E end. injection E as E.
    assert (Q : length l = length l0) by congruence. clear - E Q. revert l0 E Q.
    induction l as [|c l IHl]; intros [|d l0] E Q; cbn in *; try discriminate Q.
    + injection E as <- _. reflexivity.
    + injection E as _ E. injection Q as Q. exact (IHl l0 E Q).
  - apply IH. assumption.
Qed.
Print Assumptions C84_one.

(** (p.a).1 for p = S { a: (1, 2), b: true } as in the example of C78; p.c and p.a.2 are reported. *)
Definition nt (x : string) : option ty := if String.eqb x "p" then Some rec else None.
Example C84_sample : let e := ETupIdx (EPar (EMem (EId "p") "a")) 1 in
  path_of nt e /\ check_access nt e = [] /\ access_type nt e = Some TU32 /\
  lower_access nt (fun _ => 0) 1 e = Some ([IExtractField 1 (Op 0) "a" pair; IExtractTuple 2 (Op 1) 1 TU32], 2, 3) /\
  denotes (fun _ => Some (rec_val 2)) e (VU32 2) /\
  check_access nt (EMem (EId "p") "c") = [NoSuchField "c"] /\ check_access nt (ETupIdx (EMem (EId "p") "a") 2) = [TupleIndexOutOfBounds 2] /\
  check_access nt (ETupIdx (EId "p") 0) = [NotATuple] /\ check_access nt (EMem (EMem (EId "p") "b") "x") = [NotAStruct].
Proof.
  cbv zeta. split; [apply p_element, p_par, p_member; eapply p_name; reflexivity|]. repeat split.
  eapply (d_element _ _ _ [VFelt 1] (VU32 2) []); [|reflexivity]. apply d_par.
  eapply (d_member _ _ _ [] _ [("b"%string, VBool true)]); [|intros []]. apply d_name. reflexivity.
Qed.
