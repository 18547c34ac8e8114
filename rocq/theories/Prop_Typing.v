(** Properties C59 and C60: operators and literals have the types the checker finds. *)
From Coq Require Import ZArith NArith Bool String List Lia.
From Verif Require Import M31 Isa Machine Vm Mir MirSem Src SrcSem SrcCheck Lower Syn ParseFacts Typing TypingSpec
  Cg CgLink CgRun Pipe PipeSource CgCheck CgVm CgWhole PipeFacts Prop_Pipe.
Import ListNotations.
Open Scope list_scope.

(** ** C59: the operator that is compiled is the one for the operand type that was checked *)

(** If the first operand of an expression settles its type, the type does not depend on what
    is expected of the expression, nor on where it stands. *)
Theorem C59_settled_type : forall G h e, anchored e = true ->
  forall o c o' c', sty G h o c e = sty G h o' c' e.
Proof.
  intros G h. induction e as [v s|b|x|op a IH|op l r IHl IHr|f es IHf IHes|a m IH|l r IHl IHr|n fs IHfs|es IH|a i IH|es IH|a n IH|a t IH|t n IH|a IH]
    using expr_ind2; intros A o c o' c'; cbn [anchored] in A; try reflexivity.
  - destruct s as [s|]; [|discriminate A]. cbn [sty]. destruct (suffix_type s); [reflexivity|discriminate A].
  - cbn [sty]. now rewrite (IH A ONone _ ONone (match c' with Some t => Some t | None => from_origin o' (EUn op a) end)).
  - cbn [sty]. assert (U : unsuffixed l = false) by (destruct l; try reflexivity; destruct suffix; [reflexivity|discriminate A]).
    rewrite U. rewrite andb_false_r. cbn [andb].
    rewrite (IHl A ONone (match c with Some t => Some t | None => from_origin o (EBin op l r) end)
                 ONone (match c' with Some t => Some t | None => from_origin o' (EBin op l r) end)). reflexivity.
  - cbn [sty]. apply IH, A.
Qed.

Lemma mty_inj a b : mty a = mty b -> a = b.
Proof. destruct a, b; intro E; try reflexivity; discriminate E. Qed.
Definition scalar3 (t : yty) : bool := match t with YFelt | YU32 | YBool => true | _ => false end.
Lemma bin_type_sig op t u : bin_type (the_op op) (mty t) = Some u ->
  scalar3 t = true /\ exists v, bin_sig op t = Some v /\ u = mty v.
Proof. destruct op, t; cbn; intro E; try discriminate E; injection E as <-; (split; [reflexivity|]); eexists; split; reflexivity. Qed.
Lemma result_bin_same op t v : scalar3 t = true -> bin_sig op t = Some v -> result_bin op t t = v.
Proof. destruct op, t; cbn; intros S E; try discriminate E; try discriminate S; injection E as <-; reflexivity. Qed.
Lemma un_type_sig op t u : un_type (the_unop op) (mty t) = Some u ->
  scalar3 t = true /\ exists v, un_sig op t = Some v /\ u = mty v.
Proof. destruct op, t; cbn; intro E; try discriminate E; injection E as <-; (split; [reflexivity|]); eexists; split; reflexivity. Qed.
Lemma result_un_same op t v : scalar3 t = true -> un_sig op t = Some v -> result_un op t = v.
Proof. destruct op, t; cbn; intros S E; try discriminate E; try discriminate S; injection E as <-; reflexivity. Qed.

Lemma same_ty u w : scalar3 u = true -> ty_eqb (mty u) (mty w) = true -> w = u.
Proof. destruct u, w; intros S E; try reflexivity; try discriminate S; discriminate E. Qed.
Lemma result_bin_two op t u v : scalar3 t = true -> bin_sig op t = Some v -> u = t -> result_bin op t u = v.
Proof. intros S E ->. now apply result_bin_same. Qed.
Section Ops.
Variables (G : scope) (V : nat -> Mir.ty) (sg : sigs).
Hypothesis FS : fits_scope G V sg.
Set Default Proof Using "All".
(** The reading has the types of the checker. *)
Lemma reading_type h : forall e o c e' t, reading G h o c e = Some e' -> type_of V sg e' = Some t -> t = mty (sty G h o c e).
Proof.
  induction e as [v s|b|x|op a IH|op l r IHl IHr|f es IHf IHes|a m IH|l r IHl IHr|n fs IHfs|es IH|a i IH|es IH|a n IH|a ta IH|ta n IH|a IH]
    using expr_ind2; intros o c e' t R T; cbn [reading] in R; try discriminate R.
  - injection R as <-. cbn [type_of] in T. match type of T with (if ?b then _ else _) = _ => destruct b end; [|discriminate T]. now injection T as <-.
  - injection R as <-. now injection T as <-.
  - pose proof (FS x) as F. cbn [sty]. destruct (find G x) as [[t0 n|k ps r]|]; try discriminate R.
    destruct (is_assert x); [discriminate R|]. injection R as <-. cbn in T. injection T as <-. exact F.
  - destruct (reading G h ONone _ a) as [a'|] eqn:Ra in R; [|discriminate R]. injection R as <-. cbn [type_of] in T.
    destruct (type_of V sg a') as [ta|] eqn:Ta; [|discriminate T]. specialize (IH _ _ _ _ Ra Ta). subst ta.
    apply un_type_sig in T as (Sc & v & E & ->). cbn [sty]. now rewrite (result_un_same _ _ _ Sc E).
  - cbn [sty]. destruct (commutative op && unsuffixed l && negb (unsuffixed r)) eqn:Cm.
    + destruct (reading G h ONone _ l) as [l'|] eqn:Rl in R; [|discriminate R].
      destruct (reading G h ONone _ r) as [r'|] eqn:Rr in R; [|discriminate R]. injection R as <-. cbn [type_of] in T.
      destruct (type_of V sg l') as [tl|] eqn:Tl; [|discriminate T]. destruct (type_of V sg r') as [tr|] eqn:Tr; [|discriminate T].
      destruct (ty_eqb tl tr) eqn:Q; [|discriminate T]. specialize (IHl _ _ _ _ Rl Tl). specialize (IHr _ _ _ _ Rr Tr). subst tl tr.
      apply bin_type_sig in T as (Sc & v & E & ->). now rewrite (result_bin_two _ _ _ _ Sc E (same_ty _ _ Sc Q)).
    + destruct (reading G h ONone _ l) as [l'|] eqn:Rl in R; [|discriminate R].
      destruct (reading G h ONone _ r) as [r'|] eqn:Rr in R; [|discriminate R]. injection R as <-. cbn [type_of] in T.
      destruct (type_of V sg l') as [tl|] eqn:Tl; [|discriminate T]. destruct (type_of V sg r') as [tr|] eqn:Tr; [|discriminate T].
      destruct (ty_eqb tl tr) eqn:Q; [|discriminate T]. specialize (IHl _ _ _ _ Rl Tl). specialize (IHr _ _ _ _ Rr Tr). subst tl tr.
      apply bin_type_sig in T as (Sc & v & E & ->). now rewrite (result_bin_two _ _ _ _ Sc E (same_ty _ _ Sc Q)).
  - destruct f as [| |f| | | | | | | | | | | | |]; try discriminate R. cbn [sty]. pose proof (FS f) as F.
    destruct (find G f) as [[t0 n|k ps r]|]; try discriminate R. destruct (is_assert f); [discriminate R|].
    match type of R with match ?x with Some _ => _ | None => _ end = _ => destruct x as [es'|]; [|discriminate R] end.
    injection R as <-. cbn [type_of] in T. rewrite F in T. unfold ret_type in T.
    destruct r; try discriminate T; match type of T with (if ?b then _ else _) = _ => destruct b end; try discriminate T; now injection T as <-.
  - destruct (reading G h ONone None a) as [a'|] eqn:Ra in R; [|discriminate R]. injection R as <-. cbn [type_of] in T.
    destruct (type_of V sg a') as [[]|]; try discriminate T. cbn [sty].
    destruct (named_type ta); try discriminate T; now injection T as <-.
  - cbn [sty]. exact (IH _ _ _ _ R T).
Qed.

Lemma operators_app a b : operators (a ++ b) = operators a ++ operators b.
Proof. apply flat_map_app. Qed.
(** The operators that are compiled are the wanted ones. *)
Lemma lower_operators env h : forall e o c s v s' e' t,
  lower G env h o e s = Some (v, s') -> reading G h o c e = Some e' -> type_of V sg e' = Some t -> steady e = true ->
  operators (fst s') = operators (fst s) ++ wanted V sg e'.
Proof.
  induction e as [v0 s0|b|x|op a IH|op l r IHl IHr|f es IHf IHes|a m IH|l r IHl IHr|n fs IHfs|es IH|a i IH|es IH|a n IH|a ta IH|ta n IH|a IH]
    using expr_ind2; intros o c s v s' e' t L R T St; cbn [lower] in L; cbn [reading] in R; try discriminate R; cbn [steady] in St.
  - injection R as <-. injection L as <- <-. cbn. now rewrite app_nil_r.
  - injection R as <-. injection L as <- <-. cbn. now rewrite app_nil_r.
  - destruct (find G x) as [[t0 n|k ps r]|]; try discriminate R. destruct (is_assert x); [discriminate R|].
    destruct (nth_error env n); [|discriminate L]. injection R as <-. injection L as <- <-. cbn. now rewrite app_nil_r.
  - destruct (reading G h ONone _ a) as [a'|] eqn:Ra in R; [|discriminate R]. injection R as <-. cbn [type_of] in T.
    destruct (type_of V sg a') as [ta|] eqn:Ta; [|discriminate T].
    destruct (lower G env h ONone a s) as [(v1 & s1)|] eqn:La; [|discriminate L]. injection L as <- <-. cbn [emit1 fst].
    rewrite operators_app. replace (unop_of op) with (the_unop op) by (destruct op; reflexivity). cbn [wanted operators flat_map app].
    rewrite app_assoc. now rewrite (IH _ _ _ _ _ _ _ La Ra Ta St).
  - apply andb_prop in St as (St & Sr). apply andb_prop in St as (An & Sl).
    assert (U : unsuffixed l = false) by (destruct l; try reflexivity; destruct suffix; [reflexivity|discriminate An]).
    rewrite U in R. rewrite andb_false_r in R. cbn [andb] in R.
    destruct (reading G h ONone _ l) as [l'|] eqn:Rl in R; [|discriminate R].
    destruct (reading G h ONone _ r) as [r'|] eqn:Rr in R; [|discriminate R]. injection R as <-. cbn [type_of] in T.
    destruct (type_of V sg l') as [tl|] eqn:Tl; [|discriminate T]. destruct (type_of V sg r') as [tr|] eqn:Tr; [|discriminate T].
    destruct (lower G env h ONone l s) as [(v1 & s1)|] eqn:Ll; [|discriminate L].
    destruct (lower G env h ONone r s1) as [(v2 & s2)|] eqn:Lr; [|discriminate L]. cbv zeta beta iota delta [new_id] in L.
    destruct (from_parser (sop_of op) (mty (sty G h ONone None l))) as [p|] eqn:Fp; [|discriminate L]. injection L as <- <-.
    unfold emit1. cbn [fst]. rewrite operators_app. rewrite (IHr _ _ _ _ _ _ _ Lr Rr Tr Sr), (IHl _ _ _ _ _ _ _ Ll Rl Tl Sl).
    replace (sop_of op) with (the_op op) in Fp by (destruct op; reflexivity). cbn [wanted operators flat_map]. rewrite Tl. rewrite (reading_type h _ _ _ _ _ Rl Tl).
    rewrite (C59_settled_type G h l An ONone _ ONone None). rewrite Fp. cbn. now rewrite !app_assoc.
  - destruct f as [| |f| | | | | | | | | | | | |]; try discriminate R. pose proof (FS f) as F.
    destruct (find G f) as [[t0 n|k ps r]|]; try discriminate R. destruct (is_assert f); [discriminate R|].
    match type of R with match ?x with Some _ => _ | None => _ end = _ => destruct x as [es'|] eqn:Re in R; [|discriminate R] end.
    injection R as <-. cbn [type_of] in T. rewrite F in T. unfold ret_type in T.
    match type of L with match ?x with Some _ => _ | None => _ end = _ => destruct x as [(vs & s1)|] eqn:Le in L; [|discriminate L] end.
    cbv zeta beta iota delta [new_id] in L. injection L as <- <-. unfold emit1. cbn [fst]. rewrite operators_app. cbn [operators flat_map]. rewrite app_nil_r.
    cbn [wanted]. assert (Ta : types_of_args V sg es' (map mty ps) = true).
    { destruct r; try discriminate T; match type of T with (if ?b then _ else _) = _ => destruct b; [|discriminate T]; reflexivity end. }
    clear F T. revert ps s vs s1 es' Le Re Ta. induction es as [|a es IHl]; intros ps s vs s1 es' Le Re Ta.
    + injection Le as <- <-. injection Re as <-. cbn. now rewrite app_nil_r.
    + cbn [forallb] in St. apply andb_prop in St as (Sa & Ses). inversion IHes as [|? ? IHa IHes']; subst.
      destruct (lower G env h (OArg (hd_error ps)) a s) as [(v1 & s2)|] eqn:La; [|discriminate Le].
      match type of Le with match ?x with Some _ => _ | None => _ end = _ => destruct x as [(vs2 & s3)|] eqn:Le2 in Le; [|discriminate Le] end.
      injection Le as <- <-.
      destruct (reading G h (OArg (hd_error ps)) (hd_error ps) a) as [a'|] eqn:Ra; [|discriminate Re].
      match type of Re with match ?x with Some _ => _ | None => _ end = _ => destruct x as [es2|] eqn:Re2 in Re; [|discriminate Re] end.
      injection Re as <-. destruct ps as [|p ps]; [discriminate Ta|]. cbn [map types_of_args tl hd_error] in *.
      destruct (type_of V sg a') as [ta|] eqn:Tya; [|discriminate Ta]. apply andb_prop in Ta as (_ & Ta).
      cbn [wanteds]. rewrite app_assoc. rewrite <- (IHa _ _ _ _ _ _ _ La Ra Tya Sa).
      exact (IHl IHes' Ses ps _ _ _ _ Le2 Re2 Ta).
  - destruct (reading G h ONone None a) as [a'|] eqn:Ra in R; [|discriminate R]. injection R as <-. cbn [type_of] in T.
    destruct (type_of V sg a') as [ta'|] eqn:Ta; [|discriminate T].
    destruct (lower G env h ONone a s) as [(v1 & s1)|] eqn:La; [|discriminate L]. injection L as <- <-. cbn [emit1 fst].
    rewrite operators_app. cbn [operators flat_map]. rewrite app_nil_r. cbn [wanted]. exact (IH _ _ _ _ _ _ _ La Ra Ta St).
  - exact (IH _ _ _ _ _ _ _ L R T St).
Qed.
End Ops.

(** In a checked expression whose left operands settle their types, every operator is compiled
    to the machine operator of the operand type that the checker finds.  Missing: left operands
    that begin with a literal without suffix, for which it is false (below). *)
Theorem C59_operators_match_partial : forall G V sg env h e o c v c0 c1 e' t,
  fits_scope G V sg ->
  lower G env h o e c0 = Some (v, c1) ->
  reading G h o c e = Some e' -> type_of V sg e' = Some t ->
  steady e = true ->
  operators (fst c1) = operators (fst c0) ++ wanted V sg e'.
Proof. intros until t. intros FS L R T St. exact (lower_operators G V sg FS env h e o c c0 v c1 e' t L R T St). Qed.

Open Scope string_scope.
Open Scope list_scope.
Definition exec (m : file) (fn : string) (args : list Z) (n : Z) : option (list (option Z)) :=
  match lower_file m m with
  | Some fs =>
    match optimize (no_opt some_hashes) fs with
    | Some ms => match compile ms with COk p => run_program 300 300 100 p fn args n | _ => None end
    | None => None
    end
  | None => None
  end.
Definition var (x : string) : Syn.expr := Syn.EId x.
Definition num (k : N) : Syn.expr := Syn.ELit k None.
(** [fn f(x: u32) -> bool { return x == 0 && x + 1 == 1; }] *)
Definition steady_fn : rfn :=
  Rfn [("x", YU32)] YBool [] (Syn.EBin BAnd (Syn.EBin BEq (var "x") (num 0)) (Syn.EBin BEq (Syn.EBin BAdd (var "x") (num 1)) (num 1))).
Example C59_case :
  let G := [("x", EnVar YU32 0)] in let e := r_val steady_fn in
  accepts [("f", steady_fn)] = true /\ steady e = true /\ fits_scope G (fun _ => TU32) [] /\
  exists v c1 e', lower G [0%nat] None ONone e ([], [TU32]) = Some (v, c1) /\ reading G None ONone None e = Some e' /\
    type_of (fun _ => TU32) [] e' = Some TBool /\
    operators (fst c1) = [MBin (Some U32Eq); MBin (Some U32Add); MBin (Some U32Eq); MBin (Some And)].
Proof.
  cbv zeta. split; [vm_compute; reflexivity|]. split; [reflexivity|]. split.
  - intro x. unfold find. destruct (String.eqb "x" x); reflexivity.
  - do 3 eexists. split; [vm_compute; reflexivity|]. split; [vm_compute; reflexivity|]. split; reflexivity.
Qed.

(** [fn f(x: u32) -> bool { return 0 == x; }]: the checker finds two u32 operands; the
    comparison that is compiled is the one for felts, which looks at the low half only. *)
Definition zero_eq : file := [("f", Rfn [("x", YU32)] YBool [] (Syn.EBin BEq (num 0) (var "x")))].
(** [fn f(x: u32) -> u32 { return 1 + x; }] *)
Definition one_plus : file := [("f", Rfn [("x", YU32)] YU32 [] (Syn.EBin BAdd (num 1) (var "x")))].
Theorem C59_operators_match_refuted :
  (exists fs, accepts zero_eq = true /\ read_file zero_eq zero_eq = Some fs /\ module_ok fs = true /\
     src_call fs 20 1 0 [VU32 65536] = ROk (Some (VBool false)) /\
     exec zero_eq "f" (flat_map vcells [VU32 65536]) 1 = Some [Some 1%Z]) /\
  (exists fs, accepts one_plus = true /\ read_file one_plus one_plus = Some fs /\ module_ok fs = true /\
     src_call fs 20 1 0 [VU32 65535] = ROk (Some (VU32 65536)) /\
     exec one_plus "f" (flat_map vcells [VU32 65535]) 2 = Some [Some 65536%Z; Some 0%Z] /\
     flat_map vcells [VU32 65536] = [0%Z; 1%Z]).
Proof.
  split; eexists; (split; [vm_compute; reflexivity|]); (split; [vm_compute; reflexivity|]); (split; [vm_compute; reflexivity|]);
    (split; [vm_compute; reflexivity|]).
  - vm_compute; reflexivity.
  - split; vm_compute; reflexivity.
Qed.
(** With the operands exchanged both are right. *)
Example C59_exchanged :
  exec [("f", Rfn [("x", YU32)] YBool [] (Syn.EBin BEq (var "x") (num 0)))] "f" [0; 1]%Z 1 = Some [Some 0%Z] /\
  exec [("f", Rfn [("x", YU32)] YU32 [] (Syn.EBin BAdd (var "x") (num 1)))] "f" [65535; 0]%Z 2 = Some [Some 0%Z; Some 1%Z].
Proof. split; vm_compute; reflexivity. Qed.

(** ** C60: literals take the type that is expected of them, and must fit it *)

(** A literal that initialises a variable with a declared type fits that type and keeps its
    value.  Missing: literals in other positions (false, below). *)
Theorem C60_annotated_literal_partial : forall m f x t v s G env h o c,
  accepts m = true -> In f m -> In (x, Some t, Syn.ELit v s) (r_lets (snd f)) -> t <> YErr ->
  ((t = YU32 /\ (v < 4294967296)%N) \/ (t = YFelt /\ (v <= 2147483647)%N)) /\
  lower G env h o (Syn.ELit v s) c = Some (Lit (LInt (Z.of_N v)), c).
Proof.
  intros m f x t v s G env h o c A If Il Ht. unfold accepts in A. rewrite forallb_forall in A. specialize (A _ If).
  unfold check_fn in A. rewrite !andb_true_iff in A. destruct A as ((A & _) & _).
  assert (K : (t = YU32 /\ (v < 4294967296)%N) \/ (t = YFelt /\ (v <= 2147483647)%N)).
  { revert A Il. generalize (add_params (globals_from 0 m) 0 (r_params (snd f))) as G0. generalize (length (r_params (snd f))) as n.
    induction (r_lets (snd f)) as [|((y & a) & e) ls IH]; intros n G0 A Il; [destruct Il|]. cbn [check_lets] in A.
    rewrite !andb_true_iff in A. destruct A as ((_ & A1) & A2). destruct Il as [E|Il]; [|exact (IH _ _ A2 Il)].
    injection E as -> -> ->. apply andb_prop in A1 as (B1 & B2). cbn [sty] in B1.
    destruct t; try congruence.
    - right. split; [reflexivity|]. cbn in B2. now apply N.leb_le in B2.
    - left. split; [reflexivity|]. cbn in B2. apply N.leb_le in B2. lia.
    - exfalso. destruct s as [s|]; [|discriminate B1]. unfold suffix_type in B1. destruct (String.eqb s "u32"); [discriminate B1|].
      destruct (String.eqb s "felt"); discriminate B1.
    - exfalso. destruct s as [s|]; [|discriminate B1]. unfold suffix_type in B1. destruct (String.eqb s "u32"); [discriminate B1|].
      destruct (String.eqb s "felt"); discriminate B1.
    - exfalso. destruct s as [s|]; [|discriminate B1]. unfold suffix_type in B1. destruct (String.eqb s "u32"); [discriminate B1|].
      destruct (String.eqb s "felt"); discriminate B1. }
  split; [exact K|]. cbn [lower]. rewrite Z.mod_small; [reflexivity|]. change (2 ^ 32)%Z with 4294967296%Z. destruct K as [(_ & K)|(_ & K)]; lia.
Qed.
Example C60_case : accepts [("f", Rfn [] YU32 [("a", Some YU32, num 4294967295)] (var "a"))] = true /\
  accepts [("f", Rfn [] YU32 [("a", Some YU32, num 4294967296)] (var "a"))] = false.
Proof. split; reflexivity. Qed.

(** [fn a() -> u32 { return 5; }] and [fn b() -> felt { return 5; }]: each is accepted by itself;
    a file with both is not, in either order, because the type of the first function is expected
    of every returned literal. *)
Definition ret5 (t : yty) : rfn := Rfn [] t [] (num 5).
Theorem C60_returned_literal_refuted :
  accepts [("a", ret5 YU32)] = true /\ accepts [("b", ret5 YFelt)] = true /\
  accepts [("a", ret5 YU32); ("b", ret5 YFelt)] = false /\ accepts [("b", ret5 YFelt); ("a", ret5 YU32)] = false.
Proof. repeat split; reflexivity. Qed.

(** [fn a() -> u32 { return 4294967297; }] is accepted and returns 1;
    [fn a() -> felt { let z: felt = 2147483647; return z; }] is accepted and returns 0. *)
Theorem C60_range_refuted :
  (exists m, m = [("a", Rfn [] YU32 [] (num 4294967297))] /\ accepts m = true /\ exec m "a" [] 2 = Some [Some 1%Z; Some 0%Z]) /\
  (exists m, m = [("a", Rfn [] YFelt [("z", Some YFelt, num 2147483647)] (var "z"))] /\ accepts m = true /\
     exec m "a" [] 1 = Some [Some 0%Z]).
Proof. split; eexists; (split; [reflexivity|]); (split; [reflexivity|]); vm_compute; reflexivity. Qed.

(** [fn g(x: u32) -> felt { return x as felt; } fn main() -> felt { let c = g(5); return c; }] is
    accepted; with [let c: felt = g(5)] the 5 is taken for a felt and the file is rejected,
    although [g] returns a felt and takes a u32. *)
Definition hinted (a : option yty) : file :=
  [("g", Rfn [("x", YU32)] YFelt [] (Syn.ECast (var "x") (TyName NFelt)));
   ("main", Rfn [] YFelt [("c", a, Syn.ECall (var "g") [num 5])] (var "c"))].
Theorem C60_annotation_of_result_refuted :
  accepts (hinted None) = true /\ exec (hinted None) "main" [] 1 = Some [Some 5%Z] /\ accepts (hinted (Some YFelt)) = false.
Proof. split; [reflexivity|]. split; [vm_compute; reflexivity|reflexivity]. Qed.

Print Assumptions C59_settled_type.
Print Assumptions C59_operators_match_partial.
Print Assumptions C59_operators_match_refuted.
Print Assumptions C60_annotated_literal_partial.
Print Assumptions C60_returned_literal_refuted.
Print Assumptions C60_range_refuted.
Print Assumptions C60_annotation_of_result_refuted.
