(** Projects on disk: where the entry point is, which files belong to a project, and the names
    of its modules.

    Models crates/compiler/cairo-m-project/src/model.rs 24-27 (source_directory), 35-73
    (source_files), 90-130 (module_name_from_path), discovery.rs 122-185 (find_project_manifest,
    load_project_from_manifest) crates/compiler/semantic/src/db.rs 134-207
    (crate_from_project) and crates/cairo-m-ls/src/db/mod.rs 93-113.
    A path is the list of its components, an absolute path without [.] and [..]; names are
    valid UTF-8.  The walk over a directory is a list of the files below it. *)
From Coq Require Import Bool Ascii String List.
From Verif Require Import Imports.
Import ListNotations.
Open Scope string_scope.

Definition path := list string.
Definition dot : ascii := "."%char.

(** std::path, [rsplit_file_at_dot]: the last dot of a name, unless it is the first character. *)
Fixpoint last_dot (s : string) : option (string * string) :=
  match s with
  | EmptyString => None
  | String c r =>
    match last_dot r with
    | Some (b, a) => Some (String c b, a)
    | None => if Ascii.eqb c dot then Some (EmptyString, r) else None
    end
  end.
Definition split_name (n : string) : string * option string :=
  if String.eqb n ".." then (n, None)
  else match last_dot n with
       | None | Some (EmptyString, _) => (n, None)
       | Some (b, a) => (b, Some a)
       end.
(** [Path::file_stem] and [Path::extension] of the last component. *)
Definition file_stem (n : string) : string := fst (split_name n).
Definition extension (n : string) : option string := snd (split_name n).

(** [Path::strip_prefix]. *)
Fixpoint strip_prefix (p q : path) : option path :=
  match p, q with
  | [], _ => Some q
  | a :: p, b :: q => if String.eqb a b then strip_prefix p q else None
  | _ :: _, [] => None
  end.
Definition parent (p : path) : path := removelast p.

(** model.rs 24-27; [root] is the path of the entry point. *)
Definition source_directory (root : path) : path := parent root.

(** model.rs 90-130; [None] is an error. *)
Definition module_name_from_path (root p : path) : option string :=
  match strip_prefix (source_directory root) p with
  | None => None
  | Some rel =>
    match rev rel with
    | [] => None
    | name :: dirs =>
      match dirs with
      | [] => Some (file_stem name)
      | _ => Some (String.concat "::" (rev dirs) ++ "::" ++ file_stem name)
      end
    end
  end.
(** db/mod.rs 100-113: the name under which a file becomes a module. *)
Definition module_name (root p : path) : option string :=
  match module_name_from_path root p with
  | Some n => Some n
  | None => match rev p with [] => None | name :: _ => Some (file_stem name) end
  end.

(** model.rs 35-73; [walk] are the files below the source directory. *)
Definition is_source (p : path) : bool :=
  match rev p with [] => false | n :: _ => match extension n with Some e => String.eqb e "cm" | None => false end end.
Definition source_files (root : path) (walk : list path) : list path :=
  if String.eqb (last (source_directory root) "") "src" then
    match filter is_source walk with [] => [root] | l => l end
  else [root].

(** discovery.rs 122-143: the nearest directory with a manifest; [has] tells whether there is one. *)
Fixpoint find_manifest (has : path -> bool) (up : path) : option path :=
  if has (rev up) then Some (rev up)
  else match up with [] => None | _ :: r => find_manifest has r end.
Definition find_project_manifest (has : path -> bool) (dir : path) : option path := find_manifest has (rev dir).

(** 147-185: the entry point of a project in [folder]; [entry] is a relative path. *)
Definition entry_point (folder entry : path) : path :=
  match entry with
  | d :: _ => if String.eqb d "src" then folder ++ entry else folder ++ ["src"] ++ entry
  | [] => folder ++ ["src"]
  end%list.

(** semantic/src/db.rs 134-207: the modules of a project and its main module; [read] gives the text of
    a file.  [None]: a file cannot be read or has no name. *)
Fixpoint load_modules (root : path) (read : path -> option string) (files : list path) (m : list (string * string))
  : option (list (string * string)) :=
  match files with
  | [] => Some m
  | p :: r =>
    match module_name_from_path root p, read p with
    | Some n, Some t => load_modules root read r (insert n t m)
    | _, _ => None
    end
  end.
Definition crate_from_project (root : path) (read : path -> option string) (walk : list path)
  : option (list (string * string) * string) :=
  match load_modules root read (source_files root walk) [] with
  | Some m => Some (m, file_stem (last root ""))
  | None => None
  end.
