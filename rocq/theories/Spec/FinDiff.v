(** Finite differences of the reported fidelity error. *)
From Coq Require Import Reals.
From Coquelicot Require Import Complex.
From Verif.Model Require Import Base Dyn Approx.
From Verif.Lib Require Import Csum Mat.
From Verif.Spec Require Import Evolution History MatAlg.
Local Open Scope nat_scope.

(** A new object with the settings [s] and amplitudes [a] reports the
    fidelity error [e]. *)
Definition reports {A : Alg} (s : settings A) (st : bool) (a : amps) (e : R) : Prop :=
  exists d d1, session s st a [] = Ok d /\ get_fid_err d = Ok (d1, e).

(** [g] is the array of forward difference quotients of the fidelity error at
    [a] with increment [eps]. *)
Definition difference_quotients {A : Alg} (s : settings A) (st : bool) (eps : R) (a g : amps) : Prop :=
  forall k j x, entry a k j = Some x -> exists y e0 e1,
    entry g k j = Some y /\ reports s st a e0 /\ reports s st (with_entry a k j (x + eps)) e1 /\
    y = ((e1 - e0) / eps)%R.

(** All given operators (drift, controls, initial operator and, if it is an
    operator, the phase) commute with each other. *)
Definition commuting_problem (N : nat) (r : routines) (s : settings (MatAlg N r)) : Prop :=
  exists S : mat -> Prop, (forall x, S x -> matrix N N x) /\
    (forall x y, S x -> S y -> mmul x y = mmul y x) /\
    generators_all N r S s /\ S (s_initial s) /\
    match s_phase s with Some (PhOp p) => S p | _ => True end.
