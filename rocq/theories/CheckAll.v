(** The parallel check of all exercises: tutorials/cairomlings/src/app_state.rs 412-513 [check_all_exercises_impl].
    Simplifications: running an exercise gives [works i] or an error (an error may depend on the schedule); the channel
    delivers messages in the order in which they were sent; failures of the terminal are left out. *)
From Coq Require Import List Bool Arith.
From Verif Require Import Progress.
Import ListNotations.
Open Scope nat_scope.
Open Scope list_scope.

(** term.rs: [CheckProgress]. *)
Inductive check : Set := CheckNone | Checking | CheckDone | CheckPending.
(** 431-460: where a thread is in its loop. *)
Inductive thread : Set := Idle | Took (i : nat) | Running (i : nat) | Stopped.
(** The counter shared by the threads, the threads, the channel, what the receiver has stored, and the exercises that were run. *)
Record sys : Set := Sys { counter : nat; threads : list thread; channel : list (nat * check); progresses : list check; started : list nat }.
Fixpoint put (i : nat) (v : check) (l : list check) : list check :=
  match l, i with [], _ => [] | _ :: l, 0 => v :: l | x :: l, S i => x :: put i v l end.
(** 447-451 *)
Definition verdict (o : option bool) : check :=
  match o with Some true => CheckDone | Some false => CheckPending | None => CheckNone end.
(** 418-426, with [n] exercises and [k] threads. *)
Definition start (n k : nat) : sys := Sys 0 (repeat Idle k) [] (repeat CheckNone n) [].
Inductive step (n : nat) (works : nat -> bool) : sys -> sys -> Prop :=
| Fetch l r c q p g : (** 433-437 *)
  step n works (Sys c (l ++ Idle :: r) q p g) (Sys (S c) (l ++ (if c <? n then Took c else Stopped) :: r) q p g)
| Announce l r i c q p g : (** 439-446 *)
  step n works (Sys c (l ++ Took i :: r) q p g) (Sys c (l ++ Running i :: r) (q ++ [(i, Checking)]) p (g ++ [i]))
| Report l r i o c q p g : o = None \/ o = Some (works i) -> (** 446-458 *)
  step n works (Sys c (l ++ Running i :: r) q p g) (Sys c (l ++ Idle :: r) (q ++ [(i, verdict o)]) p g)
| Receive i v c ts q p g : (** 467-470 *)
  step n works (Sys c ts ((i, v) :: q) p g) (Sys c ts q (put i v p) g).
Inductive reaches (n : nat) (works : nat -> bool) (s : sys) : sys -> Prop :=
| Here : reaches n works s s
| There t u : reaches n works s t -> step n works t u -> reaches n works s u.
(** The receiver ends when all threads have, and nothing is left in the channel. *)
Definition finished (s : sys) : Prop := Forall (fun t => t = Stopped) (threads s) /\ channel s = [].
(** 475-508: the pass over the results; [retry] is the run of an exercise without a result, [None] an error. *)
Fixpoint settle (retry : nat -> option bool) (ind : nat) (ps : list check) (a : progress) (first : option nat) : option (progress * option nat) :=
  match ps with
  | [] => Some (a, first)
  | p :: ps =>
    match (match p with CheckDone => Some true | CheckPending => Some false | _ => retry ind end) with
    | None => None
    | Some b =>
      match set_status ind b a with
      | None => None
      | Some (a, _) => settle retry (S ind) ps a (match first with Some f => Some f | None => if b then None else Some ind end)
      end
    end
  end.
