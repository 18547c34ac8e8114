(** The language server: open files, projects, the diagnostics task and its cache.

    Models crates/cairo-m-ls/src/backend.rs 135-400 (loading projects), 560-600 (delayed
    requests), 650-725 (opening and changing files), diagnostics/controller.rs 59-330,
    project/model.rs 92-330, db/mod.rs 84-127, db/swapper.rs 56-155 and
    crates/compiler/semantic/src/delta_diagnostics.rs 33-150.
    The server is a state machine; an event is one thing that a client, the file system, a
    timer or one of the tasks does, and any sequence of events is a history.
    Simplifications: a path stands for its URL; versions, sizes and limits are left out;
    the diagnostics of a module all belong to its file; a project that has a manifest and a
    single file without one are both loaded by [ELoad]; the maps [crates] and
    [project_crate_ids] of the project model, which are updated together, are one.
    Salsa: a new input gets the next identifier and does not change the revision, setting a
    field of an input makes a new revision, a new database starts at revision 1. *)
From Coq Require Import Bool Arith String List.
Import ListNotations.
Open Scope list_scope.

(** [HashMap]: association lists; [put] replaces the entry of a key. *)
Fixpoint get {A} (x : string) (l : list (string * A)) : option A :=
  match l with
  | [] => None
  | (y, a) :: r => if String.eqb y x then Some a else get x r
  end.
Fixpoint put {A} (x : string) (a : A) (l : list (string * A)) : list (string * A) :=
  match l with
  | [] => [(x, a)]
  | (y, b) :: r => if String.eqb y x then (y, a) :: r else (y, b) :: put x a r
  end.

Section server.
(** What the compiler reports for a module of a crate (db.rs 499-530,
    [module_all_diagnostics]), given the text of every module. *)
Variable check : list (string * string) -> string -> list string.
(** The module name of a path in a project (cairo-m-project, [module_name_from_path]). *)
Variable mname : string -> string -> string.

(** delta_diagnostics.rs 33-41.  A cached collection also carries the path of its file. *)
Record tracker : Type := Tracker {
  t_revs : list (string * nat);
  t_cache : list (string * (string * list string));
  t_last : option nat }.

(** diagnostics/controller.rs 19-28. *)
Inductive request : Type := RFile (p : string) | RProject (c : nat).

Record server : Type := Server {
  revision : nat;                                   (* the revision of the database *)
  texts : list string;                         (* [SourceFile] number -> text *)
  crates : list (string * list (string * nat));(* [ProjectCrate] number -> root and files *)
  sources : list (string * nat);               (* [Backend::source_files] *)
  roots : list (string * string);              (* [ProjectModel::file_to_project] *)
  current : list (string * nat);               (* [ProjectModel::project_crate_ids] *)
  track : tracker;
  timers : list string;                        (* [Backend::debounce_timers] *)
  queue : list request;                        (* the channel to the diagnostics task *)
  shown : list (string * list string);         (* what the client shows for a path *)
  snapshot : option (list (string * list (string * string))) }.

(** db/mod.rs 93-113: the modules of a crate, with their paths and texts; [None] if a file
    is not in the database (a panic). *)
Fixpoint contents (ts : list string) (files : list (string * nat)) : option (list (string * string)) :=
  match files with
  | [] => Some []
  | (p, i) :: r =>
    match nth_error ts i, contents ts r with
    | Some t, Some l => Some ((p, t) :: l)
    | _, _ => None
    end
  end.
Definition modules (root : string) (l : list (string * string)) : list (string * (string * string)) :=
  fold_left (fun m pt => put (mname root (fst pt)) pt m) l [].
Definition module_texts (m : list (string * (string * string))) : list (string * string) :=
  map (fun e => (fst e, snd (snd e))) m.

(** delta_diagnostics.rs 112-140: [has_module_changed]. *)
Definition changed (r : nat) (t : tracker) (m : string) : bool :=
  match get m (t_revs t) with Some last => Nat.ltb last r | None => true end.
(** 72-103: one module of the loop. *)
Definition recompute (r : nat) (ms : list (string * (string * string))) (t : tracker) (m p : string)
  : tracker * (string * list string) :=
  let d := (p, check (module_texts ms) m) in
  (Tracker (put m r (t_revs t)) (put m d (t_cache t)) (t_last t), d).
Definition one_module (r : nat) (ms : list (string * (string * string))) (t : tracker) (m p : string)
  : tracker * (string * list string) :=
  if changed r t m then recompute r ms t m p
  else match get m (t_cache t) with Some d => (t, d) | None => recompute r ms t m p end.
Fixpoint each_module (r : nat) (ms : list (string * (string * string))) (l : list (string * (string * string))) (t : tracker)
  : tracker * list (string * list string) :=
  match l with
  | [] => (t, [])
  | (m, (p, _)) :: rest =>
    let (t, d) := one_module r ms t m p in
    let (t, ds) := each_module r ms rest t in
    (t, d :: ds)
  end.
(** 52-109: [get_project_diagnostics]. *)
Definition project_diagnostics (r : nat) (ms : list (string * (string * string))) (t : tracker)
  : tracker * list (string * list string) :=
  if match t_last t with Some last => Nat.ltb last r | None => true end
  then let (t, ds) := each_module r ms ms t in (Tracker (t_revs t) (t_cache t) (Some r), ds)
  else (t, map snd (t_cache t)).

(** diagnostics/controller.rs 246-330: the diagnostics of the files of the project; those of
    other files are dropped. *)
Definition of_path (p : string) (ds : list (string * list string)) : list string :=
  flat_map (fun d => if String.eqb (fst d) p then snd d else []) ds.
Definition publish_files (files : list (string * nat)) (ds : list (string * list string))
  (sh : list (string * list string)) : list (string * list string) :=
  fold_left (fun sh f => put (fst f) (of_path (fst f) ds) sh) files sh.

(** 179-244: [compute_project_diagnostics_delta]; [None] is a panic of the task. *)
Definition publish (c : nat) (s : server) : option server :=
  match nth_error (crates s) c with
  | None => None
  | Some (root, files) =>
    match contents (texts s) files with
    | None => None
    | Some l =>
      let (t, ds) := project_diagnostics (revision s) (modules root l) (track s) in
      Some (Server (revision s) (texts s) (crates s) (sources s) (roots s) (current s) t (timers s) (queue s)
                   (publish_files files ds (shown s)) (snapshot s))
    end
  end.
Definition clear (p : string) (s : server) : server :=
  Server (revision s) (texts s) (crates s) (sources s) (roots s) (current s) (track s) (timers s) (queue s)
         (put p [] (shown s)) (snapshot s).
(** 64-113, 134-176 and model.rs 289-298. *)
Definition serve (q : request) (s : server) : option server :=
  match q with
  | RProject c => publish c s
  | RFile p =>
    match get p (roots s) with
    | None => Some (clear p s)
    | Some root => match get root (current s) with None => Some (clear p s) | Some c => publish c s end
    end
  end.

(** backend.rs 152-200: the source files of a project; [disk] is what reading a file gives. *)
Fixpoint prepare (disk : list (string * option string)) (ts : list string) (src : list (string * nat))
  : list string * list (string * nat) * list (string * nat) :=
  match disk with
  | [] => (ts, src, [])
  | (p, d) :: r =>
    match get p src with
    | Some i => match prepare r ts src with (ts, src, fs) => (ts, src, put p i fs) end
    | None =>
      match d with
      | Some t =>
        match prepare r (ts ++ [t]) (put p (length ts) src) with
          (ts', src', fs) => (ts', src', put p (length ts) fs) end
      | None => prepare r ts src
      end
    end
  end.

Fixpoint update (n : nat) (t : string) (l : list string) : list string :=
  match l, n with
  | [], _ => []
  | _ :: r, O => t :: r
  | a :: r, S n => a :: update n t r
  end.

Definition without (p : string) (l : list string) : list string := filter (fun q => negb (String.eqb q p)) l.
Definition set_queue (q : list request) (s : server) : server :=
  Server (revision s) (texts s) (crates s) (sources s) (roots s) (current s) (track s) (timers s) q (shown s) (snapshot s).

(** What can happen. *)
Inductive event : Type :=
| EOpen (p t : string)                                      (* did_open *)
| EChange (p t : string)                                    (* did_change *)
| ETimer (p : string)                                       (* a delayed request is sent *)
| ELoad (root : string) (disk : list (string * option string)) (* a project update arrives *)
| EServe                                                    (* the diagnostics task takes a request *)
| ESnapshot                                                 (* the swapper copies the texts *)
| ESwap.                                                    (* the swapper replaces the database *)

(** swapper.rs 65-90: the texts of all files of all projects. *)
Fixpoint copy_crates (s : server) (l : list (string * nat)) : option (list (string * list (string * string))) :=
  match l with
  | [] => Some []
  | (_, c) :: r =>
    match nth_error (crates s) c with
    | None => None
    | Some (root, files) =>
      match contents (texts s) files, copy_crates s r with
      | Some x, Some xs => Some ((root, x) :: xs)
      | _, _ => None
      end
    end
  end.
(** swapper.rs 92-143: the new database and the new identifiers. *)
Fixpoint number (n : nat) (l : list (string * string)) : list (string * nat) :=
  match l with [] => [] | (p, _) :: r => (p, n) :: number (S n) r end.
Fixpoint rebuild (l : list (string * list (string * string))) (ts : list string) (cs : list (string * list (string * nat)))
  (cur : list (string * nat)) : list string * list (string * list (string * nat)) * list (string * nat) :=
  match l with
  | [] => (ts, cs, cur)
  | (root, x) :: r =>
    rebuild r (ts ++ map snd x) (cs ++ [(root, number (length ts) x)]) (put root (length cs) cur)
  end.

Definition step (e : event) (s : server) : option server :=
  match e with
  | EOpen p t =>
    (* backend.rs 650-700 *)
    Some (Server (revision s) (texts s ++ [t]) (crates s) (put p (length (texts s)) (sources s)) (roots s) (current s)
                 (track s) (timers s) (queue s ++ [RFile p]) (shown s) (snapshot s))
  | EChange p t =>
    (* backend.rs 702-735; a file that is not in the database is an error that is logged *)
    match get p (sources s) with
    | None => Some s
    | Some i =>
      if Nat.ltb i (length (texts s)) then
        Some (Server (S (revision s)) (update i t (texts s)) (crates s) (sources s) (roots s) (current s) (track s)
                     (p :: without p (timers s)) (queue s) (shown s) (snapshot s))
      else Some s
    end
  | ETimer p =>
    (* backend.rs 556-600 *)
    if existsb (String.eqb p) (timers s) then
      Some (Server (revision s) (texts s) (crates s) (sources s) (roots s) (current s) (track s)
                   (without p (timers s)) (queue s ++ [RFile p]) (shown s) (snapshot s))
    else Some s
  | ELoad root disk =>
    (* backend.rs 137-265, model.rs 92-200: the files that belonged to another project are
       cleared *)
    match prepare disk (texts s) (sources s) with
    | (ts, src, files) =>
      let moved := filter (fun f => match get (fst f) (roots s) with
                                    | Some r => negb (String.eqb r root) | None => false end) files in
      Some (Server (revision s) ts (crates s ++ [(root, files)]) src
                   (fold_left (fun m f => put (fst f) root m) files (roots s))
                   (put root (length (crates s)) (current s)) (track s) (timers s)
                   (queue s ++ [RProject (length (crates s))])
                   (fold_left (fun sh f => put (fst f) [] sh) moved (shown s)) (snapshot s))
    end
  | EServe => match queue s with [] => Some s | q :: r => serve q (set_queue r s) end
  | ESnapshot =>
    match copy_crates s (current s) with
    | Some l => Some (Server (revision s) (texts s) (crates s) (sources s) (roots s) (current s) (track s) (timers s)
                             (queue s) (shown s) (Some l))
    | None => None
    end
  | ESwap =>
    match snapshot s with
    | None => Some s
    | Some l => match rebuild l [] [] [] with
                | (ts, cs, cur) => Some (Server 1 ts cs (sources s) (roots s) cur (track s) (timers s) (queue s) (shown s) None)
                end
    end
  end.

Definition start : server := Server 1 [] [] [] [] [] (Tracker [] [] None) [] [] [] None.
Fixpoint history (es : list event) (s : server) : option server :=
  match es with
  | [] => Some s
  | e :: r => match step e s with Some s' => history r s' | None => None end
  end.
End server.
