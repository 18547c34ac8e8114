(** What an editor should show. *)
From Coq Require Import String List.
From Verif Require Import Server.
Import ListNotations.
Open Scope list_scope.

(** The text of each file as the user last saw it: opened, changed, or read from disk when
    its project was loaded. *)
Definition texts_known := string -> option string.
Definition know (p t : string) (d : texts_known) : texts_known := fun q => if String.eqb p q then Some t else d q.
Fixpoint know_new (disk : list (string * option string)) (d : texts_known) : texts_known :=
  match disk with
  | [] => d
  | (p, Some t) :: r => know_new r (match d p with None => know p t d | Some _ => d end)
  | (_, None) :: r => know_new r d
  end.
Definition seen (e : event) (d : texts_known) : texts_known :=
  match e with
  | EOpen p t => know p t d
  | EChange p t => match d p with Some _ => know p t d | None => d end
  | ELoad _ disk => know_new disk d
  | _ => d
  end.
Definition documents (es : list event) : texts_known := fold_left (fun d e => seen e d) es (fun _ => None).

(** What the compiler reports for the module of [p] in a project of the files [paths]. *)
Definition reports (check : list (string * string) -> string -> list string) (mname : string -> string -> string)
  (root : string) (paths : list string) (d : texts_known) (p : string) (r : list string) : Prop :=
  exists l, Forall2 (fun q e => fst e = mname root q /\ d q = Some (snd e)) paths l /\ r = check l (mname root p).

(** Nothing is left to do. *)
Definition idle (s : server) : Prop := queue s = [] /\ timers s = [].

(** Every file that is opened is in a project that is loaded later (opening a file asks for
    its project). *)
Fixpoint reloaded (es : list event) : Prop :=
  match es with
  | [] => True
  | EOpen p _ :: r => (exists root disk, In (ELoad root disk) r /\ In p (map fst disk)) /\ reloaded r
  | _ :: r => reloaded r
  end.
(** The project [root] with the files [disk] is the same whenever it is loaded, and the only one
    with the file [p]. *)
Definition project_of (es : list event) (root : string) (disk : list (string * option string)) (p : string) : Prop :=
  In (ELoad root disk) es /\ In p (map fst disk)
  /\ forall root' disk', In (ELoad root' disk') es -> (root' = root -> disk' = disk) /\ (In p (map fst disk') -> root' = root).

(** The claim, for some histories: when nothing is left to do, a file of a project is shown
    with what the compiler reports for the texts as they are. *)
Definition shows (check : list (string * string) -> string -> list string) (mname : string -> string -> string)
  (allowed : list event -> Prop) : Prop :=
  forall es s root disk p, allowed es -> history check mname es start = Some s -> idle s -> reloaded es ->
  project_of es root disk p ->
  exists r, get p (shown s) = Some r /\ reports check mname root (map fst disk) (documents es) p r.

(** Some kinds of histories. *)
Definition no_swap (es : list event) : Prop := ~ In ESwap es.
Definition no_change (es : list event) : Prop := forall p t, ~ In (EChange p t) es.
Definition one_project (es : list event) : Prop :=
  forall root disk root' disk', In (ELoad root disk) es -> In (ELoad root' disk') es -> root = root' /\ disk = disk'.
Definition opened (e : event) : list string := match e with EOpen p _ => [p] | _ => [] end.
Definition opened_once (es : list event) : Prop := NoDup (flat_map opened es).
Definition opened_as_is (es : list event) : Prop :=
  forall es1 p t es2, es = es1 ++ EOpen p t :: es2 -> documents es1 p = None \/ documents es1 p = Some t.
