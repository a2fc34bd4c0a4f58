(** What the simple GRAPE functions should compute, for systems of dimension
    [N] with matrix operators: slot propagators, their ordered products, the
    figure of merit, and the change of the figure under a small extra pulse. *)
From Coq Require Import Reals List.
From Coquelicot Require Import Coquelicot.
From Verif.Model Require Import Base Dyn Grape.
From Verif.Lib Require Import Csum Mat MExp MCalc.
From Verif.Spec Require Import MatAlg.
Local Open Scope nat_scope.

(** Amplitude of control [j] at grid point [m] in the pulse of iteration [r]. *)
Definition amplitude (us : list pulse) (r j m : nat) : option R :=
  match nth_error us r with Some u => entry u j m | None => None end.

Section Grapes.
Context (N : nat).

(** H0 + sum_j u_j(m) H_j and exp(-i dt H). *)
Definition control_part (u : pulse) (Hs : list mat) (m : nat) : mat :=
  fold_right (fun '(row, h) acc => madd (mscal (RtoC (nth m row 0%R)) h) acc) (mzero N N) (combine u Hs).
Definition slot_propagator (H0 : mat) (Hs : list mat) (dt : R) (u : pulse) (m : nat) : mat :=
  mexp (mscal (RtoC dt * - Ci)%C (madd H0 (control_part u Hs m))).
(** f (a+n-1) ... f (a+1) f a *)
Fixpoint ordered (f : nat -> mat) (a n : nat) : mat :=
  match n with O => mid N | S n => mmul (f (a + n)) (ordered f a n) end.
(** The evolution of a pulse on a grid of [M] points. *)
Definition pulse_unitary (H0 : mat) (Hs : list mat) (dt : R) (M : nat) (u : pulse) : mat :=
  ordered (slot_propagator H0 Hs dt u) 0 (M - 1).

(** tr(U^dagger F)/N: its real part, or its squared modulus. *)
Definition trace_overlap (U F : mat) : C := (mtr (mmul (mdag U) F) / RtoC (INR N))%C.
Definition figure (phase_sensitive : bool) (U F : mat) : R :=
  if phase_sensitive then Re (trace_overlap U F) else (Cmod (trace_overlap U F) ^ 2)%R.

(** The evolution with an additional pulse of control [h] and strength [s],
    of the length of a slot, applied just after slot [m]. *)
Definition nudged (H0 : mat) (Hs : list mat) (dt : R) (M : nat) (u : pulse) (m : nat) (h : mat) (s : R) : mat :=
  let f := slot_propagator H0 Hs dt u in
  mmul (ordered f (S m) (M - 2 - m)) (mmul (mexp (mscal (RtoC s) (mscal (RtoC dt * - Ci)%C h))) (ordered f 0 (S m))).

(** The operators of a problem are N x N, [times] has a first step [dt], and
    the amplitudes are used as they are (no interpolation). *)
Record matrix_args (g : gargs mat) : Prop := {
  ma_U : matrix N N (g_U g);
  ma_H0 : matrix N N (g_H0 g);
  ma_H : Forall (matrix N N) (g_H g);
  ma_interp : g_interp g = None;
}.
End Grapes.

(** The step: given, or 0.1 (2 pi) / times[-1]. *)
Definition step_is (e : option R) (times : list R) (eps : R) : Prop :=
  match e with Some x => eps = x | None => eps = (1/10 * (2 * PI) / last times 0)%R end.
Definition dt_is (times : list R) (dt : R) : Prop :=
  exists t0 t1 l, times = t0 :: t1 :: l /\ dt = (t1 - t0)%R.
(** Moved into the limits, if there are any. *)
Definition limited (lim : option (list R)) (x : R) : R :=
  match lim with Some [lo; hi] => Rmin hi (Rmax lo x) | _ => x end.
Definition penalty (w : option R) : R := match w with Some x => x | None => 0%R end.

(** The largest of 0 and the first [n] logged overlaps. *)
Definition best_so_far (log : list R) (n : nat) : R := fold_left Rmax (firstn n log) 0%R.
