(** Vocabulary for the properties of pulse generators. *)
From Coq Require Import Reals List.
From RecordUpdate Require Import RecordUpdate.
From Verif.Model Require Import PulseGen.
Import ListNotations.
Local Open Scope R_scope.

(** The order on floats; nan is not comparable. *)
Definition fle (a b : flt) : Prop :=
  match a, b with
  | F x, F y => x <= y
  | FNan, _ | _, FNan => False
  | FNInf, _ | _, FInf => True
  | _, _ => False
  end.

(** [a] respects the lower / upper bound. *)
Definition at_least (b : battr) (a : flt) : Prop :=
  match b with BNo => True | BVal l => fle l a | BSeq _ => False end.
Definition at_most (b : battr) (a : flt) : Prop :=
  match b with BNo => True | BVal u => fle a u | BSeq _ => False end.
Definition within (lb ub : battr) (a : flt) : Prop := at_least lb a /\ at_most ub a.

(** A lower bound: None, a number or -inf; an upper bound: None, a number or
    inf. *)
Definition is_lb (b : battr) : Prop :=
  match b with BNo | BVal (F _) | BVal FNInf => True | _ => False end.
Definition is_ub (b : battr) : Prop :=
  match b with BNo | BVal (F _) | BVal FInf => True | _ => False end.
(** lbound <= ubound, either of which may be missing or infinite. *)
Definition ordered (lb ub : battr) : Prop :=
  is_lb lb /\ is_ub ub /\ match lb, ub with BVal l, BVal u => fle l u | _, _ => True end.
(** None or a finite number. *)
Definition tame (b : battr) : Prop :=
  match b with BNo => True | BVal (F _) => True | _ => False end.

Definition fin (a : flt) : Prop := exists x, a = F x.

(** The same generator with both bounds removed and no offset. *)
Definition unbounded (g : pgen) : pgen :=
  fold_left setattr [ALb BNo; AUb BNo; AOffset 0] g.

(** Numbers as np.random draws them. *)
Definition draws (rnd : nat -> R) : Prop := forall i, 0 <= rnd i < 1.

(** Start time of slot [k]. *)
Definition start_of (tau : list R) (k : nat) : R := fold_right Rplus 0 (firstn k tau).

(** One cycle of each periodic waveform; [r] runs from 0 to 1. *)
Definition cycle (c : cls) (r : R) : R :=
  match c with
  | CSquare => if Rlt_dec r (/ 2) then 1 else -1
  | CSaw => if Rlt_dec r (/ 2) then 2 * r else 2 * r - 2
  | CTri => if Rle_dec r (/ 4) then 4 * r else if Rle_dec r (3 / 4) then 2 - 4 * r else 4 * r - 4
  | _ => sin (2 * PI * r)
  end.

Definition total (tau : list R) : R := fold_right Rplus 0 tau.

(** The timeslot durations in force: the given ones, or equal slots. *)
Definition slots (g : pgen) : list R :=
  match p_tau g with Some l => l | None => repeat (p_T g / INR (p_n g)) (p_n g) end.

(** Element [k] of a list of numbers. *)
Definition at_ (v : list R) (k : nat) : R := nth k v 0.

(** A generator of class [c] as constructed (from a Dynamics object or not),
    with some attributes assigned since and not yet initialised. *)
Definition fresh (c : cls) (g : pgen) : Prop :=
  exists d ps ats, g = fold_left setattr ats (new_gen c d ps).
