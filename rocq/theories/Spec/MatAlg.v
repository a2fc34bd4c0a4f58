(** Systems of dimension [N]: operators are complex matrices ([Lib/Mat.v]);
    the numerical routines of scipy/numpy are parameters, and what is assumed
    of them is stated here.

    [mexp] ([Lib/MExp.v]) is the matrix exponential, the sum of the series
    X^n / n!.  [der r c F x D] ([Lib/MCalc.v]) says that the r x c matrix
    valued function [F] of a real variable has the derivative [D] at [x],
    entry by entry (real and imaginary parts, Coquelicot's [is_derive]). *)
From Coq Require Import Reals.
From Coquelicot Require Import Coquelicot.
From Verif.Model Require Import Base Dyn.
From Verif.Lib Require Import Csum Mat MExp MCalc MDiag.
From Verif.Spec Require Import Evolution History.
Local Open Scope nat_scope.

Record routines := mkRoutines {
  r_expm : mat -> mat;                    (* scipy.linalg.expm *)
  r_frechet : mat -> mat -> mat * mat;    (* scipy.linalg.expm_frechet *)
  r_eigh : mat -> (nat -> R) * mat;       (* eigh *)
  r_inv : mat -> mat;                     (* scipy.linalg.inv *)
}.

Definition MatAlg (N : nat) (r : routines) : Alg := {|
  Op := mat;
  omul := mmul;
  oadd := madd;
  osub := msub;
  oscale := mscal;
  odag := mdag;
  otr := mtr;
  oinv := r_inv r;
  oexpm := r_expm r;
  ofrechet := r_frechet r;
  oaug := maug N;
  oblk00 := mblk00 N;
  oblk01 := mblk01 N;
  oeigh := r_eigh r;
  odiag := mdiag N;
  ohad := mhad;
  osquare := fun x => Nat.eqb (nr x) (nc x);
|}.

(** An r x c matrix (with nothing stored outside). *)
Definition matrix (r c : nat) (x : mat) : Prop := sized r c x /\ proper x.

(** The routines compute what they promise. *)
Record exact_routines (N : nat) (r : routines) : Prop := {
  ex_expm : forall n x, sized n n x -> r_expm r x = mexp x;
  (* the exponential and its derivative at x in direction e *)
  ex_frechet : forall x e, matrix N N x -> matrix N N e ->
    fst (r_frechet r x e) = mexp x /\ proper (snd (r_frechet r x e)) /\
    der N N (fun u => mexp (madd x (mscal (RtoC u) e))) 0%R (snd (r_frechet r x e));
  ex_inv_size : forall x, sized N N x -> sized N N (r_inv r x);
}.
(** Real eigenvalues and orthonormal eigenvectors of a Hermitian matrix. *)
Definition exact_eigh (N : nat) (r : routines) : Prop := forall h, matrix N N h -> hermitian h ->
  unitary N (snd (r_eigh r h)) /\
  h = mmul (mmul (snd (r_eigh r h)) (mdiag N (fun i => RtoC (fst (r_eigh r h) i)))) (mdag (snd (r_eigh r h))).

(** Left inverses of N x N matrices that have one. *)
Definition exact_inv (N : nat) (r : routines) : Prop := forall x y,
  matrix N N x -> matrix N N y -> mmul y x = mid N -> r_inv r x = y.

Section Problem.
Context (N : nat) (r : routines).
Notation A := (MatAlg N r).

Definition drift_all (P : mat -> Prop) (d : drift A) : Prop :=
  match d with DConst o => P o | DList l => Forall P l end.
Definition ctrls_all (P : mat -> Prop) (c : ctrls A) : Prop :=
  match c with CList l => Forall P l | CArr rows => Forall (Forall P) rows end.

(** All drift and control operators satisfy [P]. *)
Definition generators_all (P : mat -> Prop) (s : settings A) : Prop :=
  (forall d, eff_drift s = Some d -> drift_all P d) /\
  (forall c, eff_ctrls s = Some c -> ctrls_all P c).

(** Dimensions: generators N x N; initial and target N x q (q = N for
    operators, q = 1 for states); the phase is a number or an N x N matrix
    (or absent) and multiplies the generator from a side. *)
Record sized_problem (q : nat) (s : settings A) : Prop := {
  sp_gens : generators_all (matrix N N) s;
  sp_initial : matrix N q (s_initial s);
  sp_target : matrix N q (s_target s);
  sp_phase : match s_phase s with Some (PhOp p) => matrix N N p | _ => True end;
  sp_phapp : match s_phapp s with CustomApp _ => False | _ => True end;
}.

(** Unitary dynamics with Hamiltonians: Hermitian operators and the phase -i. *)
Record hamiltonian_problem (s : settings A) : Prop := {
  hp_herm : generators_all (fun x => hermitian x) s;
  hp_phase : s_phase s = Some (PhNum (- Ci)%C);
}.

(** The diagonalising propagator computer is only used for Hamiltonians. *)
Definition diag_suits (s : settings A) : Prop :=
  s_prop s = Diag -> hamiltonian_problem s /\ exact_eigh N r.

(** The phases lambda_i t of one slot: equal, or at least [prec] apart. *)
Definition separated (prec t : R) (lam : nat -> R) : Prop :=
  forall i j, i < N -> j < N ->
    lam i = lam j \/ (prec <= Rabs (lam j * t - lam i * t))%R.

(** For the diagonalising computer: at the amplitudes [a] the phases of every
    slot are separated by the rounding precision. *)
Definition diag_exact_at (s : settings A) (a : amps) : Prop :=
  s_prop s = Diag ->
  (0 < s_prec s)%R /\
  forall k t g, nth_error (s_tau s) k = Some t -> nth_error (gens_of s a) k = Some g ->
    separated (s_prec s) t (fst (r_eigh r g)).
End Problem.

(** Entry [k][j] of an array, and the array with that entry replaced. *)
Definition entry (a : amps) (k j : nat) : option R :=
  match nth_error a k with Some row => nth_error row j | None => None end.
Definition with_entry (a : amps) (k j : nat) (x : R) : amps :=
  match nth_error a k with Some row => upd a k (upd row j x) | None => a end.

(** Orthonormal columns: unitary operators (q = N), normalised states (q = 1). *)
Definition isometry (N q : nat) (x : mat) : Prop := matrix N q x /\ mmul (mdag x) x = mid q.

(** Sum of the squared moduli of the entries. *)
Definition sum_squares (r c : nat) (x : mat) : R :=
  rsum r (fun i => rsum c (fun j => (Cmod (ent x i j))^2)%R).
