(** When an optimisation run must stop and what it must report: a run is a
    sequence of calls made by the minimiser; each call either meets a stopping
    rule or does not. *)
From Coq Require Import Reals.
From Verif.Model Require Import Base Dyn OptRun.
From Verif.Spec Require Import Evolution.
Local Open Scope R_scope.

Section Spec.
Context {A : Alg}.
Variable s : settings A.
(** derivative of the exponential *)
Variable dexp : Op A -> Op A -> Op A.
(** amplitudes that belong to a vector of optimisation variables *)
Variable decode : list R -> amps.
(** the target error, the limits, the time at which the run started *)
Variables (targ : R) (tc : termcond) (start : R).

(** Euclidean norm of an array. *)
Definition euclid (g : amps) : R := sqrt (fold_right Rplus 0 (map (fun x => x * x) (concat g))).

(** The stopping rule a call meets, [c] function evaluations having been made
    before it. *)
Inductive stops (c : nat) : event -> term -> Prop :=
| stops_goal x : fid_err_of s (decode x) <= targ -> stops c (EvF x) GoalT
| stops_calls x : targ < fid_err_of s (decode x) -> tc_calls tc < INR (S c) -> stops c (EvF x) FidCallT
| stops_grad x g : grad_is (dprop dexp s) s (decode x) g -> euclid g < tc_gradmin tc -> stops c (EvG x) GradT
| stops_wall t : tc_wall tc < t - start -> stops c (EvCb t) WallT.

Definition is_eval (e : event) : nat := match e with EvF _ => 1 | _ => 0 end.
Definition is_grad (e : event) : nat := match e with EvG _ => 1 | _ => 0 end.
Definition is_iter (e : event) : nat := match e with EvCb _ => 1 | _ => 0 end.
Definition total (f : event -> nat) (l : list event) : nat := fold_right (fun e k => (f e + k)%nat) 0%nat l.

(** Of the calls [evs] the minimiser would make, exactly [made] are made: all
    of them ([None]), or those up to the first that meets a stopping rule. *)
Inductive played : nat -> list event -> list event -> option term -> Prop :=
| pl_end c : played c [] [] None
| pl_stop c e evs t : stops c e t -> played c (e :: evs) [e] (Some t)
| pl_go c e evs made t : (forall t', ~ stops c e t') ->
    played (c + is_eval e) evs made t -> played c (e :: evs) (e :: made) t.

(** The last amplitudes evaluated (function or gradient); the last at which
    the gradient was evaluated. *)
Fixpoint last_point (a : amps) (l : list event) : amps :=
  match l with
  | [] => a
  | EvF x :: l' | EvG x :: l' => last_point (decode x) l'
  | EvCb _ :: l' => last_point a l'
  end.
Fixpoint last_grad (a : option amps) (l : list event) : option amps :=
  match l with
  | [] => a
  | EvG x :: l' => last_grad (Some (decode x)) l'
  | _ :: l' => last_grad a l'
  end.
End Spec.
