(** Two conditions under which lowering is right, as checks on its input and its output. *)
From Coq Require Import ZArith Bool String List.
From Coq Require Import Permutation.
From Verif Require Import M31 Isa Mir Src Lower MirSem.
Import ListNotations.

(** No negation of a u32 anywhere. *)
Section Neg.
Variables (V : nat -> ty) (sg : sigs).
Fixpoint no_neg (e : expr) : bool :=
  match e with
  | ELit _ _ | EBool _ | EVar _ => true
  | EUn op a => no_neg a && match op, type_of V sg a with Neg, Some TU32 => false | _, _ => true end
  | ECast a _ => no_neg a
  | EBin _ l r => no_neg l && no_neg r
  | ECall _ args => no_negs args
  end
with no_negs (es : exprs) : bool :=
  match es with ENil => true | ECons e es' => no_neg e && no_negs es' end.
Fixpoint no_neg_stmt (c : stmt) : bool :=
  match c with
  | SSkip | SBreak | SContinue | SReturn None => true
  | SSeq a b => no_neg_stmt a && no_neg_stmt b
  | SLet _ e | SAssign _ e | SExpr e | SAssert e | SReturn (Some e) => no_neg e
  | SCall _ args => no_negs args
  | SIf e a b => no_neg e && no_neg_stmt a && no_neg_stmt b
  | SIf1 e a | SWhile e a => no_neg e && no_neg_stmt a
  | SLoop a => no_neg_stmt a
  | SFor i e s b => no_neg_stmt i && no_neg e && no_neg_stmt s && no_neg_stmt b
  end.
End Neg.
Definition module_no_neg (fs : list sfun) : bool :=
  forallb (fun f => no_neg_stmt (s_vars f) (map sig_of fs) (s_body f)) fs.

(** Every id that is used somewhere in the function is defined somewhere in it. *)
Definition defined (g : func) : list nat :=
  f_params g ++ flat_map (fun b => flat_map dests (b_instrs b)) (f_blocks g).
Definition used (g : func) : list nat :=
  flat_map (fun b => flat_map uses (b_instrs b) ++ term_uses (b_term b)) (f_blocks g).
Definition uses_defined (g : func) : bool :=
  forallb (fun i => mem_nat i (defined g)) (used g).
(** The entry block has no phi. *)
Definition entry_plain (g : func) : bool :=
  match nth_error (f_blocks g) (f_entry g) with
  | Some b => forallb (fun i => negb (is_phi i)) (b_instrs b)
  | None => false
  end.
Definition clean (g : func) : bool := uses_defined g && entry_plain g.

(** [ms] is a lowering of the module [fs]: function by function, for some iteration order of
    the compiler's hash maps in each. *)
Definition lowered (fs : list sfun) (ms : list (string * func)) : Prop :=
  Forall2 (fun f m => exists ord, (forall l, Permutation (ord l) l) /\
             lower_fun ord (map sig_of fs) f = Some (snd m)) fs ms.
(** The results of a source function, as a list. *)
Definition outs (r : option MirSem.val) : list MirSem.val := match r with Some v => [v] | None => [] end.
