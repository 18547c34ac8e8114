(** Properties C54-C57: reading source text, and formatting it. *)
From Coq Require Import NArith Bool Ascii String List.
From Verif Require Import Lex Syn SynSpec Fmt Parse ParseComb ParseFacts ParseStmt ParseSound LexFacts FmtFacts SynFacts.
Import ListNotations.
Open Scope string_scope.
Open Scope bool_scope.

(** ** C54: number literals mean what they say; comments do not matter *)

(** A literal in base 2, 8, 10 or 16, with or without a type suffix, is one token whose value
    is the number the digits denote; a literal of 2^64 or more is rejected. *)
Theorem C54_literal_read : forall prefix base digits suf text v,
  In (prefix, base) bases -> suffix suf text -> digits <> "" -> value base digits = Some v ->
  lex (prefix ++ digits ++ text) = if (v <? 2 ^ 64)%N then Some [TNum v suf] else None.
Proof.
  intros. apply suffix_of in H0 as [H0 ->]. apply (lex_literal prefix base digits suf v); assumption.
Qed.
(** Nothing else is read as a number with one of the suffixes of the language. *)
Theorem C54_literal_only : forall w v suf,
  allw w = true -> lex w = Some [TNum v suf] -> suffix_ok suf = true ->
  exists prefix base digits text, In (prefix, base) bases /\ suffix suf text /\ w = prefix ++ digits ++ text /\
    digits <> "" /\ value base digits = Some v /\ (v < 2 ^ 64)%N.
Proof. exact lex_literal_sound. Qed.
(** A comment up to the end of its line is read as nothing. *)
Theorem C54_comment_is_blank : forall before c after_,
  noslash before = true -> lastc before <> Some "/"%char -> comment c = true ->
  lex (before ++ c ++ String newline after_) = lex (before ++ String newline after_).
Proof. exact lex_comment. Qed.
(** Tabs, line breaks, carriage returns and spaces separate tokens and are nothing else. *)
Theorem C54_white_space : forall before c after_,
  noslash before = true -> In (N_of_ascii c) [9; 10; 13; 32]%N ->
  lex (before ++ String c after_) = match lex before, lex after_ with Some a, Some b => Some (a ++ b)%list | _, _ => None end.
Proof. exact lex_white. Qed.
Example C54_hex : lex "0xFFu32" = Some [TNum 255 (Some "u32")].
Proof. exact (C54_literal_read "0x" 16 "FF" (Some "u32") "u32" 255 ltac:(cbn; tauto) u32_suffix ltac:(discriminate) eq_refl). Qed.
Example C54_felt : lex "0xFEfelt" = Some [TNum 254 (Some "felt")].
Proof. exact (C54_literal_read "0x" 16 "FE" (Some "felt") "felt" 254 ltac:(cbn; tauto) felt_suffix ltac:(discriminate) eq_refl). Qed.
Example C54_too_big : lex "18446744073709551616" = None.
Proof. exact (C54_literal_read "" 10 "18446744073709551616" None "" 18446744073709551616 ltac:(cbn; tauto) no_suffix ltac:(discriminate) eq_refl). Qed.
Example C54_octal_digits : lex "0o18" = None.
Proof. reflexivity. Qed.
Example C54_comment : lex ("a + " ++ "// b /" ++ String newline "c") = Some [TId "a"; K KPlus; TId "c"].
Proof. reflexivity. Qed.

(** ** C55: the parser decides every text, and groups operators *)

(** The recursive descent never runs out of what bounds it: every token list is accepted or
    rejected. *)
Theorem C55_parse_total : forall ts, module_p ts <> PFuel.
Proof. exact module_p_total. Qed.
(** In an accepted program, operators of one level group to the left, and no operand holds
    together less tightly than its operator. *)
Theorem C55_grouping_partial : forall s m, parse_file s = Some m -> forallb grouped_item m = true.
Proof. intros s m H. exact (wfi_grouped m (parse_wf s m H)). Qed.
(** An accepted program is determined by its tokens in print: printing it and reading it back
    gives the same program, if it has none of the peculiarities excluded by [printable]. *)
Theorem C55_read_back_partial : forall s m, parse_file s = Some m -> printable m = true -> module_p (pm m) = POk m [].
Proof. intros s m H Hp. exact (module_rt m (parse_wf s m H) Hp). Qed.

Definition body (s : string) : option (list stmt) :=
  match parse_file ("fn f() { " ++ s ++ " }") with
  | Some [IFn f] => Some (f_body f)
  | _ => None
  end.
Example C55_grouping_example :
  body "let x = a - b - c * !d as u32;" =
  Some [SLet (PId "x") None
    (EBin BSub (EBin BSub (EId "a") (EId "b")) (EBin BMul (EId "c") (ECast (EUn UNot (EId "d")) (TyName NU32))))].
Proof. reflexivity. Qed.

(** The documented grammar lets [&&] bind tighter than [||], as in other languages.  The
    parser gives them one level: [a || b && c] is read as [(a || b) && c]. *)
Theorem C55_documented_precedence_refuted :
  body "return a || b && c;" = Some [SReturn (Some (EBin BAnd (EBin BOr (EId "a") (EId "b")) (EId "c")))] /\
  body "return a || b && c;" <> Some [SReturn (Some (EBin BOr (EId "a") (EBin BAnd (EId "b") (EId "c"))))].
Proof. split; [reflexivity | discriminate]. Qed.
(** A condition may not start with a parenthesis that does not enclose all of it. *)
Theorem C55_condition_refuted :
  body "return (a) && (b);" = Some [SReturn (Some (EBin BAnd (EPar (EId "a")) (EPar (EId "b"))))] /\
  body "if (a) && (b) { return; }" = None /\ body "while (a) && (b) { return; }" = None.
Proof. repeat split; reflexivity. Qed.
(** After a name, an empty block is read as a structure, and the statement that follows the
    block becomes the branch. *)
Theorem C55_empty_block_refuted :
  body "if x {} return 1;" = Some [SIf (EStruct "x" []) (SReturn (Some (ELit 1 None))) None] /\
  body "if (x) {} return 1;" = Some [SIf (EId "x") (SBlock []) None; SReturn (Some (ELit 1 None))].
Proof. split; reflexivity. Qed.

(** ** C56: formatting a file does not change the program *)

(** Every comment is one. *)
Definition comments_ok (cm : comments) : Prop :=
  forallb comment (cm_head cm) = true /\
  forall n, forallb comment (ic_lead (cm_item cm n)) = true /\ forallb comment (ic_trail (cm_item cm n)) = true /\
    forall i, forallb comment (fst (ic_stmt (cm_item cm n) i)) = true /\
              forallb comment (snd (ic_stmt (cm_item cm n) i)) = true.
Lemma comments_cmok cm m : comments_ok cm -> cmok cm m.
Proof.
  intros [H1 H2]. split; [apply comments_cok, H1|]. intros n i _. destruct (H2 n) as (A & B & C).
  split; [apply comments_cok, A|]. split; [apply comments_cok, B|]. intros j _. destruct (C j) as [D E].
  split; apply comments_cok; assumption.
Qed.
(** The formatted text is read back as the same program: for every line width, indentation,
    and any comments attached to any items and statements. *)
Theorem C56_format_preserves_partial : forall s m width indent cm,
  parse_file s = Some m -> printable m = true -> comments_ok cm ->
  parse_file (format_module width indent cm m) = Some m.
Proof. intros s m width indent cm H Hp Hc. apply format_parse; [exact (parse_wf s m H) | exact Hp | apply comments_cmok, Hc]. Qed.
(** Formatting twice is formatting once. *)
Theorem C56_format_idempotent_partial : forall s m width indent cm m',
  parse_file s = Some m -> printable m = true -> comments_ok cm ->
  parse_file (format_module width indent cm m) = Some m' ->
  format_module width indent cm m' = format_module width indent cm m.
Proof.
  intros s m width indent cm m' H Hp Hc H'. rewrite (C56_format_preserves_partial s m width indent cm H Hp Hc) in H'.
  injection H' as <-. reflexivity.
Qed.

Definition nl : string := String newline "".
Definition no_comments : icomments := Icm [] [] (fun _ => ([], [])).
Definition plain : comments := Cm [] (fun _ => no_comments).
Lemma plain_ok : comments_ok plain.
Proof. split; [reflexivity|]. intro n. repeat split; reflexivity. Qed.
(** Format a text: [None] if it does not parse. *)
Definition format_text (s : string) : option string := option_map (format_module 100 4 plain) (parse_file s).
(** A comment at the head of the file, and around the second statement. *)
Definition sample_comments : comments :=
  Cm ["// sample"] (fun n => Icm ["// item"] [] (fun i => if Nat.eqb i 1 then (["// second"], ["// after"]) else ([], []))).
Definition sample : string :=
  "fn main(a:u32,b : felt)->u32{let x=f(a,- b)as u32;while x<10u32{x=x+a.c[1].0;}"
  ++ "for(let i=0;i!=b;i=i+1){if i==2{break;}else{continue;}}return x;}".
Example C56_sample :
  option_map (fun m => (printable m, format_module 40 2 sample_comments m)) (parse_file sample) =
  Some (true,
    "// sample" ++ nl ++ "// item" ++ nl ++
    "fn main(a: u32, b: felt) -> u32 {" ++ nl ++
    "  let x = f(a, -b) as u32;" ++ nl ++
    "  // second" ++ nl ++
    "  while x < 10u32 {" ++ nl ++
    "    x = x + a.c[1].0;" ++ nl ++
    "  } // after" ++ nl ++
    "  for (let i = 0; i != b; i = i + 1) {" ++ nl ++
    "    if i == 2 {" ++ nl ++
    "      break;" ++ nl ++
    "    } else {" ++ nl ++
    "      continue;" ++ nl ++
    "    }" ++ nl ++
    "  }" ++ nl ++
    "  return x;" ++ nl ++
    "}" ++ nl).
Proof. vm_compute. reflexivity. Qed.
Lemma sample_comments_ok : comments_ok sample_comments.
Proof. split; [reflexivity|]. intro n. split; [reflexivity|]. split; [reflexivity|]. intro i. cbn. destruct (Nat.eqb i 1); split; reflexivity. Qed.
Example C56_sample_read_back : forall m, parse_file sample = Some m -> parse_file (format_module 40 2 sample_comments m) = Some m.
Proof.
  intros m H. refine (C56_format_preserves_partial sample m 40 2 sample_comments H _ sample_comments_ok).
  assert (E : option_map printable (parse_file sample) = Some true) by (vm_compute; reflexivity).
  rewrite H in E. cbn in E. injection E as E. exact E.
Qed.

(** Each thing that [printable] excludes does change the program. *)
(** The type of a constant is dropped. *)
Theorem C56_constant_type_refuted : exists m m', parse_file "const N: u32 = 1;" = Some m /\
  format_text "const N: u32 = 1;" = Some ("const N = 1;" ++ nl) /\ parse_file ("const N = 1;" ++ nl) = Some m' /\ m' <> m.
Proof. eexists _, _. repeat split; try reflexivity. discriminate. Qed.
(** A tuple with one element becomes its element, as a type and as a value. *)
Theorem C56_one_tuple_refuted : exists m m', parse_file "fn f() -> (felt,) { return (1,); }" = Some m /\
  parse_file (format_module 100 4 plain m) = Some m' /\ m' <> m.
Proof. eexists _, _. repeat split; try reflexivity. discriminate. Qed.
(** The import of a bare name becomes a text that is rejected. *)
Theorem C56_bare_import_refuted : exists m, parse_file "use foo;" = Some m /\
  format_text "use foo;" = Some ("use ::foo;" ++ nl) /\ parse_file ("use ::foo;" ++ nl) = None.
Proof. eexists. repeat split; reflexivity. Qed.
(** Two parenthesized operands in a condition: the formatted text is rejected. *)
Theorem C56_condition_refuted : exists m, parse_file "fn f() { if ((a) && (b)) { return; } }" = Some m /\
  parse_file (format_module 100 4 plain m) = None.
Proof. eexists. split; reflexivity. Qed.
(** A condition that is a name before an empty block: the meaning changes. *)
Theorem C56_empty_block_refuted : exists m m', parse_file "fn f() { if (x) {} return; }" = Some m /\
  parse_file (format_module 100 4 plain m) = Some m' /\ m' <> m.
Proof. eexists _, _. repeat split; try reflexivity. discriminate. Qed.
(** A branch that starts with a parenthesis, a bracket or a minus is taken into the
    condition. *)
Theorem C56_branch_refuted : exists m, parse_file "fn f() { if (x) (y); return; }" = Some m /\
  parse_file (format_module 100 4 plain m) <> Some m.
Proof. eexists. split; [reflexivity|]. vm_compute. discriminate. Qed.
(** Formatting twice is not formatting once. *)
Theorem C56_idempotent_refuted : exists m m' m'',
  parse_file "fn f() { if (((x))) { return; } }" = Some m /\
  parse_file (format_module 100 4 plain m) = Some m' /\ parse_file (format_module 100 4 plain m') = Some m'' /\
  format_module 100 4 plain m' <> format_module 100 4 plain m.
Proof. eexists _, _, _. repeat split; try reflexivity. vm_compute. discriminate. Qed.

(** ** C57: comments *)

(** The comments at the head of the file, those before and after an item, those before a
    statement of a function body, and the first one after it, are in the formatted text. *)
Theorem C57_comments_kept_partial : forall m width indent cm c,
  comments_ok cm ->
  (In c (cm_head cm) \/
   (exists n i, nth_error m n = Some i /\ (In c (ic_lead (cm_item cm n)) \/ In c (ic_trail (cm_item cm n)))) \/
   (exists n f k s, nth_error m n = Some (IFn f) /\ nth_error (f_body f) k = Some s /\
      (In c (fst (ic_stmt (cm_item cm n) k)) \/ In c (first_of (snd (ic_stmt (cm_item cm n) k)))))) ->
  exists p q, format_module width indent cm m = p ++ c ++ q.
Proof.
  intros m width indent cm c [Hh Hc] H. unfold format_module.
  destruct H as [H | [(n & i & Hn & H) | (n & f & k & s & Hn & Hk & H)]]; [exact (header_within _ _ _ H)|..]; apply within_app;
    (apply render_within; [apply wf_module | apply comment_cok |]); destruct (Hc n) as (A & B & C).
  - destruct H as [H | H]; [exact (forallb_in _ _ _ A H) | exact (forallb_in _ _ _ B H)].
  - apply (module_kept indent (cm_item cm) m n i _ Hn). apply item_kept, H.
  - destruct (C k) as [D E]. destruct H as [H | H]; [exact (forallb_in _ _ _ D H)|].
    apply (forallb_in _ _ _ E). destruct (snd (ic_stmt (cm_item cm n) k)); [destruct H | destruct H as [<- | []]; left; reflexivity].
  - apply (module_kept indent (cm_item cm) m n (IFn f) _ Hn). apply item_inner. exact (stmt_kept indent _ f k s c Hk H).
Qed.
(** Of several comments after a statement only the first is kept. *)
Theorem C57_second_comment_refuted : forall m width indent lead c d,
  let with_ cs := Cm [] (fun _ => Icm [] [] (fun _ => (lead, cs))) in
  format_module width indent (with_ [c; d]) m = format_module width indent (with_ [c]) m.
Proof. reflexivity. Qed.
Example C57_sample_kept : exists m f, parse_file sample = Some m /\ nth_error m 0 = Some (IFn f) /\
  exists p q, format_module 40 2 sample_comments m = p ++ "// after" ++ q.
Proof.
  destruct (parse_file sample) as [m|] eqn:H; [|vm_compute in H; discriminate].
  assert (E : match m with IFn f :: _ => match nth_error (f_body f) 1 with Some _ => true | None => false end | _ => false end = true).
  { assert (E : option_map (fun m => match m with IFn f :: _ => match nth_error (f_body f) 1 with Some _ => true | None => false end | _ => false end)
                           (parse_file sample) = Some true) by (vm_compute; reflexivity).
    rewrite H in E. cbn [option_map] in E. injection E as E. exact E. }
  destruct m as [|[f| | |] m]; try discriminate. exists (IFn f :: m)%list, f. split; [reflexivity|]. split; [reflexivity|].
  destruct (nth_error (f_body f) 1) as [s|] eqn:E1; [|discriminate].
  apply C57_comments_kept_partial; [exact sample_comments_ok|]. right. right. exists 0, f, 1, s. split; [reflexivity|]. split; [exact E1|].
  right. left. reflexivity.
Qed.

Print Assumptions C54_literal_read.
Print Assumptions C54_literal_only.
Print Assumptions C54_comment_is_blank.
Print Assumptions C54_white_space.
Print Assumptions C55_parse_total.
Print Assumptions C55_grouping_partial.
Print Assumptions C55_read_back_partial.
Print Assumptions C55_documented_precedence_refuted.
Print Assumptions C55_condition_refuted.
Print Assumptions C55_empty_block_refuted.
Print Assumptions C56_format_preserves_partial.
Print Assumptions C56_format_idempotent_partial.
Print Assumptions C56_constant_type_refuted.
Print Assumptions C56_one_tuple_refuted.
Print Assumptions C56_bare_import_refuted.
Print Assumptions C56_condition_refuted.
Print Assumptions C56_empty_block_refuted.
Print Assumptions C56_branch_refuted.
Print Assumptions C56_idempotent_refuted.
Print Assumptions C57_comments_kept_partial.
Print Assumptions C57_second_comment_refuted.
