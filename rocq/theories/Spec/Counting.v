(** How many timeslots and amplitudes the updates of a history changed. *)
From Coq Require Import Reals.
From Verif.Model Require Import Base Dyn.
From Verif.Spec Require Import History.

Fixpoint slots_changed (a : amps) (ops : list op) : nat :=
  match ops with
  | [] => 0
  | UpdateAmps b :: ops' => diff_rows a b + slots_changed b ops'
  | _ :: ops' => slots_changed a ops'
  end.
Fixpoint amps_changed (a : amps) (ops : list op) : nat :=
  match ops with
  | [] => 0
  | UpdateAmps b :: ops' => diff_entries a b + amps_changed b ops'
  | _ :: ops' => amps_changed a ops'
  end.
