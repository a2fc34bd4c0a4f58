(** How far the evolution can move when the pulse, the operators or the
    durations are a little off. *)
From Coq Require Import Reals.
From Coquelicot Require Import Complex.
From RecordUpdate Require Import RecordUpdate.
From Verif.Model Require Import Base Dyn.
From Verif.Lib Require Import Mat.
From Verif.Spec Require Import Evolution History MatAlg Physics.
Local Open Scope R_scope.

(** Root of the sum of the squared moduli of the entries, and the distance. *)
Definition size (r c : nat) (x : mat) : R := sqrt (sum_squares r c x).
Definition distance (r c : nat) (x y : mat) : R := size r c (msub x y).

(** [c] bounds the operator [x] of an [N]-dimensional system: nothing is
    stretched by more than [c]. *)
Definition bounds (N : nat) (c : R) (x : mat) : Prop :=
  0 <= c /\ forall q y, matrix N q y -> size N q (mmul x y) <= c * size N q y.

(** sum_j c_j |x_j|, and sum_j c_j |x_j - y_j|. *)
Definition weight (cs xs : list R) : R := total (map2 (fun c x => c * Rabs x) cs xs).
Definition weight_diff (cs xs ys : list R) : R := total (map3 (fun c x y => c * Rabs (x - y)) cs xs ys).
(** sum_k |t_k| e_k. *)
Definition over_slots (ts es : list R) : R := total (map2 (fun t e => Rabs t * e) ts es).

(** The amplitudes are off: sum_k |t_k| sum_j c_kj |a_kj - b_kj|. *)
Definition pulse_error (ts : list R) (cs : list (list R)) (a b : amps) : R := over_slots ts (map3 weight_diff cs a b).
(** The operators are off, the drift of slot k by at most d_k and control j by
    at most e_kj: sum_k |t_k| (d_k + sum_j e_kj |a_kj|). *)
Definition model_error (ts : list R) (ds : list R) (es : list (list R)) (a : amps) : R :=
  over_slots ts (map3 (fun d e row => d + weight e row) ds es a).
(** The durations are off: sum_k |t_k - t'_k| (d_k + sum_j c_kj |a_kj|). *)
Definition timing_error (ts ts' : list R) (ds : list R) (cs : list (list R)) (a : amps) : R :=
  model_error (map2 Rminus ts ts') ds cs a.

Section Robust.
Context (N : nat) (rt : routines).
Notation A := (MatAlg N rt).
(** [ds] and [cs] bound the drifts and the controls, slot by slot. *)
Definition bounds_drifts (ds : list R) (s : settings A) : Prop :=
  exists l, slot_drifts s = Some l /\ Forall2 (bounds N) ds (l : list mat).
Definition bounds_ctrls (cs : list (list R)) (s : settings A) : Prop :=
  exists l, slot_ctrls s = Some l /\ Forall2 (Forall2 (bounds N)) cs (l : list (list mat)).
(** ... and the differences of those of two problems. *)
Definition differ_by (c : R) (xy : mat * mat) : Prop := bounds N c (msub (fst xy) (snd xy)).
Definition bounds_diffs (ds : list R) (cs : list (list R)) (s s' : settings A) : Prop :=
  (exists l l', slot_drifts s = Some l /\ slot_drifts s' = Some l' /\ length l = length l' /\
    Forall2 differ_by ds (combine (l : list mat) l')) /\
  (exists l l', slot_ctrls s = Some l /\ slot_ctrls s' = Some l' /\
    Forall2 (fun (x y : list mat) => length x = length y) l l' /\
    Forall2 (Forall2 differ_by) cs (map2 (@combine mat mat) (l : list (list mat)) l')).

(** How much the reported error can differ for evolutions [e] apart: by [e]
    for the unitary fidelities, and for the trace difference by 4 q times the
    scale factor times [e]: twice [e] for operators and the default scale. *)
Definition error_limit (q : nat) (s : settings A) (e : R) : R :=
  match s_fid s with
  | FUnit => e
  | FTrace => 4 * INR q * Rabs (trace_scale s) * e
  end.
(** From and to orthonormal columns, with right inverses where they are used. *)
Definition gate_problem (q : nat) (s : settings A) : Prop :=
  isometry N q (s_initial s) /\ isometry N q (s_target s) /\ (0 < q)%nat /\ (s_class s = Unitary \/ exact_inv N rt).
End Robust.
