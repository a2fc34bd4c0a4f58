(** Symplectic vocabulary. *)
From Coq Require Import Reals.
From Coquelicot Require Import Complex.
From Verif.Model Require Import Base Dyn Symplectic.
From Verif.Lib Require Import Csum Mat.
From Verif.Spec Require Import Evolution MatAlg.
Local Open Scope nat_scope.

(** n diagonal blocks [[0, 1], [-1, 0]]: row 2i has a 1 in column 2i+1, row
    2i+1 a -1 in column 2i. *)
Definition J (n : nat) : mat := tab (2 * n) (2 * n) (fun r c =>
  if Nat.even r && (c =? S r) then RtoC 1
  else if Nat.even c && (r =? S c) then RtoC (-1)
  else RtoC 0).

Definition real_matrix (x : mat) : Prop := forall i j, Im (ent x i j) = 0%R.
Definition symmetric (x : mat) : Prop := mtrans x = x.

(** X^T J + J X = 0. *)
Definition inf_symplectic (n : nat) (x : mat) : Prop :=
  madd (mmul (mtrans x) (J n)) (mmul (J n) x) = mzero (2 * n) (2 * n).
(** The form J evaluated on the columns of x. *)
Definition form_of (n : nat) (x : mat) : mat := mmul (mmul (mtrans x) (J n)) x.
Definition symplectic (n : nat) (x : mat) : Prop := matrix (2 * n) (2 * n) x /\ form_of n x = J n.

(** A problem of DynamicsSymplectic: symmetric generators (drift and controls),
    the phase set by the class. *)
Record symplectic_problem (n : nat) (r : routines) (pre : bool) (s : settings (MatAlg (2 * n) r)) : Prop := {
  yp_class : s_class s = GenMat;
  yp_symm : generators_all (2 * n) r (fun x => symmetric x) s;
  yp_app : s_phapp s = if pre then PreOp else PostOp;
  yp_phase : s_phase s = Some (PhOp (A := MatAlg (2 * n) r) (sympl_phase n pre));
}.

(** The values of [phase_application] the class knows besides 'custom'. *)
Definition known_app (o : sop) : Prop :=
  match o with
  | SetApplication v => v = "preop"%string \/ v = "postop"%string
  | _ => True
  end.
(** The drift keeps its size. *)
Definition same_size (o : sop) : Prop := match o with SetDrift _ => False | _ => True end.
(** The last value assigned, else the default. *)
Fixpoint last_app (dflt : string) (l : list sop) : string :=
  match l with
  | [] => dflt
  | SetApplication v :: l' => last_app v l'
  | _ :: l' => last_app dflt l'
  end.
(** The documented generator: 'postop' dyn_gen * -Omega, 'preop' Omega * dyn_gen
    (dynamics.py:1818-1823). *)
Definition documented (n : nat) (app : string) (g : mat) : mat :=
  if String.eqb app "preop" then mmul (J n) g else mmul g (mneg (J n)).
