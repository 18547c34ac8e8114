(** What a project of several files says, by names: a call means the function that the name
    stands for in the module of the call (ImportsSpec.v), and runs with the names of the module
    in which it is written. *)
From Coq Require Import String List.
From Verif Require Import Mir MirSem SrcSem Syn ImportsSpec Named.
Import ListNotations.

Fixpoint file_of (c : project) (a : string) : option module :=
  match c with
  | [] => None
  | (b, m) :: r => if String.eqb b a then Some m else file_of r a
  end.

(** Knowing for each module and name the function it stands for, with its module. *)
Definition meanings := string -> string -> option (string * fdef).
Definition knows (c : project) (means : meanings) : Prop :=
  forall a x b d, means a x = Some (b, d) <-> stands_for c a x b (IFn d).

Definition params_in (means : meanings) (a f : string) : option (list Mir.ty) :=
  match means a f with Some (_, d) => types_named (f_params d) | None => None end.
(** Calling [f] in module [a]: [n] bounds the depth of calls, [F] the work of each. *)
Fixpoint project_call (c : project) (means : meanings) (F n : nat) (a f : string) (args : list val) : res (option val) :=
  match n with
  | O => RFuel
  | S n' =>
    match means a f with
    | Some (b, d) =>
      match file_of c b with
      | Some m => run_function (params_in means b) (project_call c means F n' b) m F d args
      | None => RStuck
      end
    | None => RStuck
    end
  end.

(** One way to know: follow the imports, at most [k] of them. *)
Fixpoint imported_from (m : module) (x : string) : option string :=
  match m with
  | [] => None
  | IUse u :: r =>
    if existsb (String.eqb x) (introduces (IUse u)) then
      match u_path u with [] => imported_from r x | p => Some (String.concat "::" p) end
    else imported_from r x
  | _ :: r => imported_from r x
  end.
Fixpoint follow (c : project) (k : nat) (a x : string) : option (string * fdef) :=
  match k with
  | O => None
  | S k' =>
    match file_of c a with
    | Some m =>
      match function m x with
      | Some d => Some (a, d)
      | None => match imported_from m x with Some b => follow c k' b x | None => None end
      end
    | None => None
    end
  end.
