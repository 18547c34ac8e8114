(** Property C62: scalar replacement of aggregates. *)
From Coq Require Import ZArith Bool String List Lia.
From Verif Require Import M31 Mir MirSem MirSsa MirSim MirLegalFacts LowerFun MirSroa SroaSpec SroaWhole SroaFlat SroaCheck MirType
  Cg CgLink CgRun CgCheck CgVm CgWhole PipeLift Pipe PipeCheck PipeFacts PipeSource Prop_Compile Prop_Pipe.
Import ListNotations.
Open Scope string_scope.
Open Scope Z_scope.

(** ** C62: taking tuples and structs apart changes no result

    A function in SSA form with its phis first, whose ids come from its counter and whose
    aggregates have the types recorded for them ([well_formed]). *)

(** If everything the resulting function uses is still defined in it, and its arrays are
    still there, it does what the original does: same results, memory and failures, in
    every world and for every number of steps. *)
Theorem C62_closed_partial : forall f g, sroa_pass f = Some g -> well_formed f ->
  arrays_kept f g -> closed g -> same_behaviour f g.
Proof. intros f g E (A & B & C & D). exact (closed_same f g E A B C D). Qed.
Print Assumptions C62_closed_partial.

(** And everything it uses is defined whenever no tuple or struct is a member of another:
    for those functions the pass is correct. *)
Theorem C62_flat_partial : forall f g, sroa_pass f = Some g -> well_formed f ->
  arrays_kept f g -> flat f = true -> same_behaviour f g.
Proof. intros f g E (A & B & C & D). exact (flat_same f g E A B C D). Qed.
Print Assumptions C62_flat_partial.

(** Worlds without memory and with one function, which adds the members of a pair. *)
Definition sums : world unit :=
  World unit (fun _ _ _ _ _ => RStuck) (fun _ _ _ _ _ _ => RStuck) (fun _ _ _ _ _ => RStuck)
    (fun _ _ => RStuck)
    (fun _ vs s => match vs with
                   | [VTup [VFelt a; VFelt b]] => ROk ([VFelt (a + b)], s)
                   | [VStr [("pair", VTup [VFelt a; VFelt b]); ("z", VFelt _)]] => ROk ([VFelt (a + b)], s)
                   | _ => RStuck end).

Definition point : ty := TStruct "Point" [("x", TFelt); ("y", TFelt)].
Definition line : ty := TStruct "Line" [("start", point); ("end", point)].

(** The function of the snapshot tests nested_structs, as it is lowered: the squared length
    of a line with two points; nothing is left but arithmetic. *)
Definition nested_structs : func :=
  Func [Block [IMakeStruct 0 [("x", Lit (LInt 0)); ("y", Lit (LInt 0))] point;
               IMakeStruct 1 [("x", Lit (LInt 3)); ("y", Lit (LInt 4))] point;
               IMakeStruct 2 [("start", Op 0); ("end", Op 1)] line;
               IExtractField 3 (Op 2) "end" point; IExtractField 4 (Op 3) "x" TFelt;
               IExtractField 5 (Op 2) "start" point; IExtractField 6 (Op 5) "x" TFelt;
               IBinary Sub 7 (Op 4) (Op 6);
               IExtractField 8 (Op 2) "end" point; IExtractField 9 (Op 8) "y" TFelt;
               IExtractField 10 (Op 2) "start" point; IExtractField 11 (Op 10) "y" TFelt;
               IBinary Sub 12 (Op 9) (Op 11);
               IBinary Mul 13 (Op 7) (Op 7); IBinary Mul 14 (Op 12) (Op 12);
               IBinary Add 15 (Op 13) (Op 14)] (TReturn [Op 15]) []]
       0 [] [15%nat] 16
       (fun v => match v with
                 | 0 | 1 | 3 | 5 | 8 | 10 => Some point | 2 => Some line | _ => Some TFelt end)%nat.
Example C62_nested_structs : exists g, sroa_pass nested_structs = Some g /\ well_formed nested_structs /\
  arrays_kept nested_structs g /\ closed g /\ same_behaviour nested_structs g /\
  map b_instrs (f_blocks g) =
    [[IAssign 4 (Lit (LInt 3)) TFelt; IAssign 6 (Lit (LInt 0)) TFelt; IBinary Sub 7 (Op 4) (Op 6);
      IAssign 9 (Lit (LInt 4)) TFelt; IAssign 11 (Lit (LInt 0)) TFelt; IBinary Sub 12 (Op 9) (Op 11);
      IBinary Mul 13 (Op 7) (Op 7); IBinary Mul 14 (Op 12) (Op 12); IBinary Add 15 (Op 13) (Op 14)]] /\
  call_fn sums g 1 [] tt = ROk ([VFelt 25], tt).
Proof.
  eexists. split; [reflexivity|].
  assert (W : well_formed nested_structs) by (apply wf_ok_sound; reflexivity).
  split; [exact W|].
  match goal with |- arrays_kept _ ?g /\ _ =>
    assert (A : arrays_kept nested_structs g) by (apply arrays_ok_sound; reflexivity);
    assert (C : closed g) by (apply closed_ok_sound; reflexivity)
  end.
  split; [exact A|]. split; [exact C|].
  split; [refine (C62_closed_partial _ _ _ W A C); reflexivity|]. split; reflexivity.
Qed.

(** A pair that is updated, copied, passed and returned, with a branch: it is rebuilt where
    it is passed and where it is returned. *)
Definition pair : ty := TTuple [TFelt; TFelt].
Definition flat_pair : func :=
  Func [Block [IMakeTuple 1 [Op 0; Lit (LInt 2)]; IInsertTuple 2 (Op 1) 1 (Lit (LInt 7)) pair;
               IAssign 3 (Op 2) pair; ICall [4%nat] 0 [Op 3] [pair]; IExtractTuple 5 (Op 1) 1 TFelt;
               IBinary Eq 6 (Op 4) (Op 5)] (TIf (Op 6) 1 2) [];
        Block [IMakeTuple 7 [Op 5; Op 4]] (TReturn [Op 7]) [0%nat];
        Block [IMakeTuple 8 [Op 4; Op 5]; IInsertTuple 9 (Op 8) 0 (Lit (LInt 1)) pair] (TReturn [Op 9]) [0%nat]]
       0 [0%nat] [9%nat] 10
       (fun v => match v with 1 | 2 | 3 | 7 | 8 | 9 => Some pair | 6 => Some TBool | _ => Some TFelt end)%nat.
Example C62_flat_pair : exists g, sroa_pass flat_pair = Some g /\ well_formed flat_pair /\
  arrays_kept flat_pair g /\ flat flat_pair = true /\ same_behaviour flat_pair g /\
  map b_instrs (f_blocks g) =
    [[IMakeTuple 10 [Op 0; Lit (LInt 7)]; ICall [4%nat] 0 [Op 10] [pair]; IAssign 5 (Lit (LInt 2)) TFelt;
      IBinary Eq 6 (Op 4) (Op 5)];
     [IMakeTuple 11 [Op 5; Op 4]]; [IMakeTuple 12 [Lit (LInt 1); Op 5]]] /\
  call_fn sums g 2 [VFelt 3] tt = ROk ([VTup [VFelt 1; VFelt 2]], tt).
Proof.
  eexists. split; [reflexivity|].
  assert (W : well_formed flat_pair) by (apply wf_ok_sound; reflexivity).
  split; [exact W|].
  match goal with |- arrays_kept _ ?g /\ _ =>
    assert (A : arrays_kept flat_pair g) by (apply arrays_ok_sound; reflexivity)
  end.
  split; [exact A|]. split; [reflexivity|].
  split; [refine (C62_flat_partial _ _ _ W A _); reflexivity|]. split; reflexivity.
Qed.

(** ** From functions with structs to the machine

    A module whose functions use tuples and structs inside, with scalar parameters and
    results, compiled with the default pipeline: the machine returns what the functions
    return before any optimization.  Missing are the conditions of the other passes
    ([standard_ready]) and of code generation ([checked]), as in C53; they also say that no
    aggregate is left for the code generator. *)
Lemma typed_fits : forall ts vs, CgCheck.typed ts vs -> Forall2 SrcFacts.fits ts vs.
Proof.
  induction ts as [|t ts IH]; intros [|v vs] H; cbn [CgCheck.typed] in H; try contradiction; constructor; [apply H|].
  apply IH. apply H.
Qed.
Theorem C62_machine_partial : forall h ms ms' p FS lives, valid_hashes h ->
  optimize (standard h) ms = Some ms' -> compile ms' = COk p ->
  forallb (fun m => standard_ready h (sigs_of ms) (snd m)) ms = true -> checked ms' FS lives = true -> 0 < FS ->
  forall F n k fn f ps rs args rets, nth_error ms k = Some (fn, f) ->
    types_of f (f_params f) = Some ps -> types_of f (f_rets f) = Some rs ->
    CgCheck.typed ps args -> fits_memory p FS n (sizes ps + sizes rs) ->
    mir_call ms F n k args = ROk (rets, tt) ->
  exists N, forall fuel sfuel seg, (N <= fuel)%nat -> (N <= sfuel)%nat -> 1 <= seg ->
    run_program fuel sfuel seg p fn (flat_map vcells args) (sizes rs) = Some (map Some (flat_map vcells rets)).
Proof.
  intros h ms ms' p FS lives Vh O C R K PF F n k fn f ps rs args rets Kf TP TR Ta FM Hc.
  rewrite forallb_forall in R.
  pose proof (optimize_all (standard h) (fun f g => keeps False (sigs_of ms) f g /\ calls_fit (sigs_of ms) g = true /\ ids_below g /\ sig f = sig g /\ exists ps rs, sig f = (Some ps, Some rs)) ms ms') as OA.
  assert (OA' : Forall2 (fun m m' => fst m = fst m' /\ keeps False (sigs_of ms) (snd m) (snd m') /\ calls_fit (sigs_of ms) (snd m') = true /\ ids_below (snd m') /\ sig (snd m) = sig (snd m') /\
                   exists ps rs, sig (snd m) = (Some ps, Some rs)) ms ms').
  { apply OA; [|exact O]. intros f0 g0 Hf0 E0. apply in_map_iff in Hf0. destruct Hf0 as (m0 & <- & H0). exact (standard_keeps h _ _ _ Vh (R _ H0) E0). }
  clear OA R.
  destruct (LowerFun.forall2_nth _ _ _ OA' k (fn, f) Kf) as ([fn1 g] & Kg & Efn & _ & _ & _ & Sg & _). cbn [fst snd] in Efn, Sg. subst fn1.
  assert (MK : Forall2 (fun m m' => keeps False (sigs_of ms) (snd m) (snd m') /\ calls_fit (sigs_of ms) (snd m') = true) ms ms').
  { clear - OA'. revert OA'. generalize (sigs_of ms) as sg. intros sg OA'. induction OA' as [|a b l l' X OA IH]; constructor; [tauto | exact IH]. }
  assert (IB : forall fn f, In (fn, f) ms' -> ids_below f).
  { intros fn' f' Hin. clear - OA' Hin. revert OA'. generalize (sigs_of ms) as sg. intros sg OA'. induction OA' as [|a b l l' X OA IH]; [destruct Hin|]. destruct Hin as [->|Hin]; [|exact (IH Hin)]. apply X. }
  rewrite types_of_omap in TP, TR.
  assert (SK : option_map fst (nth_error (sigs_of ms) k) = Some (Some ps)).
  { unfold sigs_of. rewrite nth_error_map, Kf. cbn [option_map snd]. unfold sig. rewrite TP. reflexivity. }
  assert (TG : types_of g (f_params g) = Some ps /\ types_of g (f_rets g) = Some rs).
  { rewrite !types_of_omap. unfold sig in Sg. injection Sg as E1 E2. split; congruence. }
  destruct (module_keeps False ms ms' MK F n k ps args (ROk (rets, tt)) SK (typed_fits _ _ Ta) Logic.I Hc) as (M2 & HM2).
  exact (C47_results_partial ms' p FS lives M2 n k fn g ps rs args rets C IB K PF Kg (proj1 TG) (proj2 TG) Ta FM (HM2 M2 (le_n M2))).
Qed.
Print Assumptions C62_machine_partial.

(** A line given by its two ends, as nested structs: the squared length of the line from
    (0, 0) to (a, b), with the end moved by one. *)
Definition length2 : func :=
  Func [Block [IMakeStruct 2 [("x", Lit (LInt 0)); ("y", Lit (LInt 0))] point;
               IMakeStruct 3 [("x", Op 0); ("y", Op 1)] point;
               IMakeStruct 4 [("start", Op 2); ("end", Op 3)] line;
               IExtractField 5 (Op 4) "end" point; IExtractField 6 (Op 5) "x" TFelt;
               IBinary Add 7 (Op 6) (Lit (LInt 1)); IInsertField 8 (Op 5) "x" (Op 7) point;
               IInsertField 9 (Op 4) "end" (Op 8) line;
               IExtractField 10 (Op 9) "end" point; IExtractField 11 (Op 10) "x" TFelt;
               IExtractField 12 (Op 9) "start" point; IExtractField 13 (Op 12) "x" TFelt;
               IBinary Sub 14 (Op 11) (Op 13);
               IExtractField 15 (Op 10) "y" TFelt; IExtractField 16 (Op 12) "y" TFelt;
               IBinary Sub 17 (Op 15) (Op 16);
               IBinary Mul 18 (Op 14) (Op 14); IBinary Mul 19 (Op 17) (Op 17);
               IBinary Add 20 (Op 18) (Op 19)] (TReturn [Op 20]) []]
       0 [0%nat; 1%nat] [21%nat] 22
       (fun v => match v with
                 | 2 | 3 | 5 | 8 | 10 | 12 => Some point | 4 | 9 => Some line | _ => Some TFelt end)%nat.
Definition lines : funcs := [("length2", length2)].
Definition lines_opt : funcs := match optimize (standard some_hashes) lines with Some m => m | None => [] end.
Lemma lines_ok :
  optimize (standard some_hashes) lines = Some lines_opt /\ compile lines_opt = COk (prog_of lines_opt) /\
  forallb (fun m => standard_ready some_hashes (sigs_of lines) (snd m)) lines = true /\
  checked lines_opt 64 (find_lives lines_opt) = true.
Proof. split; [vm_compute; reflexivity|]. split; [vm_compute; reflexivity|]. split; vm_compute; reflexivity. Qed.
Example C62_machine_case : exists N, forall fuel sfuel seg, (N <= fuel)%nat -> (N <= sfuel)%nat -> 1 <= seg ->
  run_program fuel sfuel seg (prog_of lines_opt) "length2" [3; 5] 1 = Some [Some 41].
Proof.
  destruct lines_ok as (A & B & C & D).
  assert (FM : fits_memory (prog_of lines_opt) 64 1 3) by (split; vm_compute; discriminate).
  exact (C62_machine_partial some_hashes lines lines_opt _ 64 _ some_hashes_valid A B C D eq_refl
    1 1 0 "length2" length2 [TFelt; TFelt] [TFelt] [VFelt 3; VFelt 5] [VFelt 41] eq_refl eq_refl eq_refl
    (conj eq_refl (conj eq_refl (conj eq_refl (conj eq_refl Logic.I)))) FM eq_refl).
Qed.

(** ** Nested aggregates that are not only taken apart

    Each of the following functions has a meaning, and the pass takes it away: what it
    leaves uses a value it has dropped (in the compiler, code generation then fails). *)

(** [return ((1, 2), 3);]: the outer tuple is rebuilt, the inner one is not. *)
Definition nested_return : func :=
  Func [Block [IMakeTuple 0 [Lit (LInt 1); Lit (LInt 2)]; IMakeTuple 1 [Op 0; Lit (LInt 3)]]
              (TReturn [Op 1]) []]
       0 [] [1%nat] 2
       (fun v => match v with 0 => Some pair | 1 => Some (TTuple [pair; TFelt]) | _ => None end)%nat.
Theorem C62_nested_return_refuted : exists f g, sroa_pass f = Some g /\ well_formed f /\ arrays_kept f g /\
  call_fn sums f 1 [] tt = ROk ([VTup [VTup [VFelt 1; VFelt 2]; VFelt 3]], tt) /\
  call_fn sums g 1 [] tt = RStuck /\ ~ closed g.
Proof.
  exists nested_return. eexists. split; [reflexivity|]. split; [apply wf_ok_sound; reflexivity|].
  split; [apply arrays_ok_sound; reflexivity|]. split; [reflexivity|]. split; [reflexivity|].
  intro C. specialize (C _ 0%nat (or_introl eq_refl) (or_introl (ex_intro _ _ (conj (or_introl eq_refl) (or_introl eq_refl))))).
  cbn in C. destruct C as [[]|[C|[]]]. discriminate.
Qed.
Print Assumptions C62_nested_return_refuted.

(** [let p = ((1, 2), 3); let q = p.0; if c { return q.0; } return 0;]: [q] is dropped, and
    read in another block. *)
Definition nested_cross : func :=
  Func [Block [IMakeTuple 1 [Lit (LInt 1); Lit (LInt 2)]; IMakeTuple 2 [Op 1; Lit (LInt 3)];
               IExtractTuple 3 (Op 2) 0 pair] (TIf (Op 0) 1 2) [];
        Block [IExtractTuple 4 (Op 3) 0 TFelt] (TReturn [Op 4]) [0%nat];
        Block [] (TReturn [Lit (LInt 0)]) [0%nat]]
       0 [0%nat] [4%nat] 5
       (fun v => match v with
                 | 0 => Some TBool | 1 | 3 => Some pair | 2 => Some (TTuple [pair; TFelt]) | _ => Some TFelt end)%nat.
Theorem C62_nested_cross_refuted : exists f g, sroa_pass f = Some g /\ well_formed f /\ arrays_kept f g /\
  call_fn sums f 2 [VBool true] tt = ROk ([VFelt 1], tt) /\
  call_fn sums g 2 [VBool true] tt = RStuck.
Proof.
  exists nested_cross. eexists. split; [reflexivity|]. split; [apply wf_ok_sound; reflexivity|].
  split; [apply arrays_ok_sound; reflexivity|]. split; reflexivity.
Qed.
Print Assumptions C62_nested_cross_refuted.

(** [foo(S { pair: (1, 2), z: 3 })]: the struct is passed and kept, the tuple in it is not:
    only tuples are asked whether they can be taken apart. *)
Definition holder : ty := TStruct "S" [("pair", pair); ("z", TFelt)].
Definition tuple_in_struct : func :=
  Func [Block [IMakeTuple 0 [Lit (LInt 1); Lit (LInt 2)];
               IMakeStruct 1 [("pair", Op 0); ("z", Lit (LInt 3))] holder;
               ICall [2%nat] 0 [Op 1] [holder]] (TReturn [Op 2]) []]
       0 [] [2%nat] 3
       (fun v => match v with 0 => Some pair | 1 => Some holder | _ => Some TFelt end)%nat.
Theorem C62_tuple_in_struct_refuted : exists f g, sroa_pass f = Some g /\ well_formed f /\ arrays_kept f g /\
  call_fn sums f 1 [] tt = ROk ([VFelt 3], tt) /\ call_fn sums g 1 [] tt = RStuck.
Proof.
  exists tuple_in_struct. eexists. split; [reflexivity|]. split; [apply wf_ok_sound; reflexivity|].
  split; [apply arrays_ok_sound; reflexivity|]. split; reflexivity.
Qed.
Print Assumptions C62_tuple_in_struct_refuted.

(** A tuple in a tuple that is passed is kept, so this works (the test nested_tuples). *)
Definition tuple_in_tuple : func :=
  Func [Block [IMakeTuple 0 [Lit (LInt 3); Lit (LInt 4)];
               IMakeTuple 1 [Lit (LInt 1); Lit (LInt 2); Op 0];
               ICall [2%nat] 0 [Op 1] [TTuple [TFelt; TFelt; pair]]] (TReturn [Op 2]) []]
       0 [] [2%nat] 3
       (fun v => match v with 0 => Some pair | 1 => Some (TTuple [TFelt; TFelt; pair]) | _ => Some TFelt end)%nat.
Example C62_tuple_in_tuple : exists g, sroa_pass tuple_in_tuple = Some g /\ same_behaviour tuple_in_tuple g.
Proof.
  eexists. split; [reflexivity|].
  refine (C62_closed_partial _ _ _ (wf_ok_sound _ _) (arrays_ok_sound _ _ _) (closed_ok_sound _ _)); reflexivity.
Qed.

(** ** Arrays

    An array of structs holds the structs, one after the other; its members are changed in
    place.  Memory here is a list of arrays. *)
Definition get_field (n : string) (v : val) : res val :=
  match v with VStr fs => of_opt (find_field n fs) | _ => RStuck end.
Definition put_field (n : string) (x v : val) : res val :=
  match v with
  | VStr fs => ROk (VStr (map (fun g => if String.eqb (fst g) n then (fst g, x) else g) fs))
  | _ => RStuck
  end.
Definition arrays : world (list (list val)) :=
  World (list (list val))
    (fun s _ b ss _ =>
       match b with
       | VPtr a => match nth_error s (Z.to_nat a) with
                   | Some vs => match ss with
                                | [SIdx i] => of_opt (nth_error vs (Z.to_nat i))
                                | [SIdx i; SField n] => rbind (of_opt (nth_error vs (Z.to_nat i))) (get_field n)
                                | _ => RStuck
                                end
                   | None => RStuck
                   end
       | _ => RStuck
       end)
    (fun s _ b ss _ x =>
       match b with
       | VPtr a => match nth_error s (Z.to_nat a) with
                   | Some vs => match ss with
                                | [SIdx i] => ROk (set_nth (Z.to_nat a) (set_nth (Z.to_nat i) x vs) s)
                                | [SIdx i; SField n] =>
                                  rbind (of_opt (nth_error vs (Z.to_nat i))) (fun v =>
                                  rbind (put_field n x v) (fun v' =>
                                    ROk (set_nth (Z.to_nat a) (set_nth (Z.to_nat i) v' vs) s)))
                                | _ => RStuck
                                end
                   | None => RStuck
                   end
       | _ => RStuck
       end)
    (fun s _ vs _ _ => ROk (VPtr (Z.of_nat (length s)), (s ++ [vs])%list))
    (fun _ _ => RStuck) (fun _ _ _ => RStuck).

(** [let p = P { x: 1 }; let a = [p]; let b = [p]; a[0].x = 5; return b[0].x;] returns 1.
    After the pass it returns 5: both arrays share the state of [p], and the store changes
    that. *)
Definition box : ty := TStruct "P" [("x", TFelt)].
Definition shared_members : func :=
  Func [Block [IMakeStruct 0 [("x", Lit (LInt 1))] box; IMakeArray 1 [Op 0] box false; IMakeArray 3 [Op 0] box false;
               IStore (Place 1 [PIdx (Lit (LInt 0)); PField "x"]) (Lit (LInt 5)) TFelt;
               ILoad 2 (Place 3 [PIdx (Lit (LInt 0)); PField "x"]) TFelt] (TReturn [Op 2]) []]
       0 [] [2%nat] 4
       (fun v => match v with 0 => Some box | 1 | 3 => Some (TArr box 1) | _ => Some TFelt end)%nat.
Theorem C62_shared_members_refuted : exists f g s1 s2, sroa_pass f = Some g /\ well_formed f /\ closed g /\
  call_fn arrays f 1 [] [] = ROk ([VFelt 1], s1) /\
  call_fn arrays g 1 [] [] = ROk ([VFelt 5], s2).
Proof.
  exists shared_members. do 3 eexists. split; [reflexivity|]. split; [apply wf_ok_sound; reflexivity|].
  split; [apply closed_ok_sound; reflexivity|]. split; reflexivity.
Qed.
Print Assumptions C62_shared_members_refuted.

(** The struct itself changes too: [let p = P { x: 1 }; let a = [p]; a[0].x = 5; return p.x;]. *)
Definition shared_source : func :=
  Func [Block [IMakeStruct 0 [("x", Lit (LInt 1))] box; IMakeArray 1 [Op 0] box false;
               IStore (Place 1 [PIdx (Lit (LInt 0)); PField "x"]) (Lit (LInt 5)) TFelt;
               IExtractField 2 (Op 0) "x" TFelt] (TReturn [Op 2]) []]
       0 [] [2%nat] 3
       (fun v => match v with 0 => Some box | 1 => Some (TArr box 1) | _ => Some TFelt end)%nat.
Theorem C62_shared_source_refuted : exists f g s1 s2, sroa_pass f = Some g /\ well_formed f /\ closed g /\
  call_fn arrays f 1 [] [] = ROk ([VFelt 1], s1) /\
  call_fn arrays g 1 [] [] = ROk ([VFelt 5], s2).
Proof.
  exists shared_source. do 3 eexists. split; [reflexivity|]. split; [apply wf_ok_sound; reflexivity|].
  split; [apply closed_ok_sound; reflexivity|]. split; reflexivity.
Qed.
Print Assumptions C62_shared_source_refuted.

(** [fn f(p: P) -> felt { let a = [p]; return a[0].x; }]: the array is dropped, but the read
    goes through a struct the pass knows nothing about, and stays.  (The same happens with
    [let a = [p, p];] for a struct [p] built in the function: it is kept because it is found
    twice.) *)
Definition array_of_param : func :=
  Func [Block [IMakeArray 1 [Op 0] box false;
               ILoad 2 (Place 1 [PIdx (Lit (LInt 0)); PField "x"]) TFelt] (TReturn [Op 2]) []]
       0 [0%nat] [2%nat] 3
       (fun v => match v with 0 => Some box | 1 => Some (TArr box 1) | _ => Some TFelt end)%nat.
Theorem C62_array_of_param_refuted : exists f g s1, sroa_pass f = Some g /\ well_formed f /\
  call_fn arrays f 1 [VStr [("x", VFelt 7)]] [] = ROk ([VFelt 7], s1) /\
  call_fn arrays g 1 [VStr [("x", VFelt 7)]] [] = RStuck.
Proof.
  exists array_of_param. do 2 eexists. split; [reflexivity|]. split; [apply wf_ok_sound; reflexivity|].
  split; reflexivity.
Qed.
Print Assumptions C62_array_of_param_refuted.
Definition array_twice : func :=
  Func [Block [IMakeStruct 0 [("x", Lit (LInt 1))] box; IMakeArray 1 [Op 0; Op 0] box false;
               ILoad 2 (Place 1 [PIdx (Lit (LInt 1)); PField "x"]) TFelt] (TReturn [Op 2]) []]
       0 [] [2%nat] 3
       (fun v => match v with 0 => Some box | 1 => Some (TArr box 2) | _ => Some TFelt end)%nat.
Theorem C62_array_twice_refuted : exists f g s1, sroa_pass f = Some g /\ well_formed f /\
  call_fn arrays f 1 [] [] = ROk ([VFelt 1], s1) /\ call_fn arrays g 1 [] [] = RStuck.
Proof.
  exists array_twice. do 2 eexists. split; [reflexivity|]. split; [apply wf_ok_sound; reflexivity|].
  split; reflexivity.
Qed.
Print Assumptions C62_array_twice_refuted.

(** Where arrays are addresses, as in the generated code, [let b = a; b[0] = 5;] changes [a].
    The pass gives [b] a state of its own: afterwards [a[0]] is still 1. *)
Definition copied_array : func :=
  Func [Block [IMakeArray 0 [Lit (LInt 1)] TFelt false; IAssign 1 (Op 0) (TArr TFelt 1);
               IStore (Place 1 [PIdx (Lit (LInt 0))]) (Lit (LInt 5)) TFelt;
               ILoad 2 (Place 0 [PIdx (Lit (LInt 0))]) TFelt] (TReturn [Op 2]) []]
       0 [] [2%nat] 3
       (fun v => match v with 0 | 1 => Some (TArr TFelt 1) | _ => Some TFelt end)%nat.
Theorem C62_copied_array_refuted : exists f g s1 s2, sroa_pass f = Some g /\ well_formed f /\ closed g /\
  call_fn arrays f 1 [] [] = ROk ([VFelt 5], s1) /\
  call_fn arrays g 1 [] [] = ROk ([VFelt 1], s2).
Proof.
  exists copied_array. do 3 eexists. split; [reflexivity|]. split; [apply wf_ok_sound; reflexivity|].
  split; [apply closed_ok_sound; reflexivity|]. split; reflexivity.
Qed.
Print Assumptions C62_copied_array_refuted.
