(** What imports between modules mean, without the compiler's algorithms. *)
From Coq Require Import String List.
From Verif Require Import Syn.
Import ListNotations.

(** A project: module names with the items of each module. *)
Definition project := list (string * module).

(** Module [a] contains [use b::...;]. *)
Definition imports (c : project) (a b : string) : Prop :=
  exists m u, In (a, m) c /\ In (IUse u) m /\ u_path u <> [] /\ b = String.concat "::" (u_path u).

(** [a] imports [b] directly or through other modules. *)
Inductive depends (c : project) : string -> string -> Prop :=
| dep_one a b : imports c a b -> depends c a b
| dep_more a b d : imports c a b -> depends c b d -> depends c a d.

(** A closed chain of imports, as shown in the diagnostic: [a -> b -> ... -> a]. *)
Fixpoint chain (c : project) (l : list string) : Prop :=
  match l with
  | a :: ((b :: _) as r) => imports c a b /\ chain c r
  | _ => True
  end.
Definition import_cycle (c : project) (l : list string) : Prop :=
  exists a mid, l = a :: mid ++ [a] /\ chain c l /\ NoDup (a :: mid).

(** Every module after all the modules it imports. *)
Definition imports_first (c : project) (order : list string) : Prop :=
  forall before a after, order = before ++ a :: after -> forall b, imports c a b -> In b before.

(** The names an item introduces. *)
Definition introduces (i : item) : list string :=
  match i with
  | IFn f => [f_name f]
  | IStruct s => [s_name s]
  | IConst k => [c_name k]
  | IUse u => match u_items u with USingle x => [x] | UList xs => xs end
  end.
(** No name is introduced twice in a module. *)
Definition names_once (m : module) : Prop := NoDup (flat_map introduces m).

(** In module [a] the name [x] stands for the item [d] written in module [b]: [x] is an item
    of the module itself, or it is imported from a module in which it stands for [d]. *)
Inductive stands_for (c : project) : string -> string -> string -> item -> Prop :=
| sf_item a m d x :
    In (a, m) c -> In d m -> (forall u, d <> IUse u) -> In x (introduces d) -> stands_for c a x a d
| sf_use a m u x b d :
    In (a, m) c -> In (IUse u) m -> u_path u <> [] -> In x (introduces (IUse u)) ->
    stands_for c (String.concat "::" (u_path u)) x b d -> stands_for c a x b d.
