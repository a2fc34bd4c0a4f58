(** Words for C83-C85: the figures of merit written out, the areas of a pulse,
    and how far a pulse can drive at most. *)
From Coq Require Import Reals.
From Coquelicot Require Import Complex.
From RecordUpdate Require Import RecordUpdate.
From Verif.Model Require Import Base Dyn.
From Verif.Lib Require Import Mat.
From Verif.Spec Require Import Evolution History MatAlg Physics Robust.
Local Open Scope R_scope.

(** ** The figures of merit for an evolution [U], a target [T], [q] columns *)
Definition su_error (q : nat) (T U : mat) : R := 1 - Re (mtr (mmul (mdag T) U)) / INR q.
Definition psu_error (q : nat) (T U : mat) : R := 1 - Cmod (mtr (mmul (mdag T) U)) / INR q.
Definition diff_error (N q : nat) (c : R) (T U : mat) : R := c * sum_squares N q (msub T U).

Section Merit.
Context {A : Alg}.
(** The one the settings ask for. *)
Definition figure (N q : nat) (s : settings A) (T U : mat) : R :=
  match s_fid s, s_phopt s with
  | FUnit, SU => su_error q T U
  | FUnit, PSU => psu_error q T U
  | FTrace, _ => diff_error N q (trace_scale s) T U
  end.
(** The same evolution is computed, in whatever way, and compared with the
    same target by whatever figure. *)
Record same_evolution (s s' : settings A) : Prop := {
  se_class : s_class s' = s_class s;
  se_drifts : slot_drifts s' = slot_drifts s;
  se_ctrls : slot_ctrls s' = slot_ctrls s;
  se_initial : s_initial s' = s_initial s;
  se_target : s_target s' = s_target s;
  se_tau : s_tau s' = s_tau s;
  se_phase : s_phase s' = s_phase s;
  se_phapp : s_phapp s' = s_phapp s;
}.
(** The same start, target, phase and figure; other operators and slots. *)
Record same_task (s s' : settings A) : Prop := {
  st_class : s_class s' = s_class s;
  st_initial : s_initial s' = s_initial s;
  st_target : s_target s' = s_target s;
  st_phase : s_phase s' = s_phase s;
  st_phapp : s_phapp s' = s_phapp s;
  st_fid : s_fid s' = s_fid s;
  st_phopt : s_phopt s' = s_phopt s;
  st_scale : trace_scale s' = trace_scale s;
}.
(** The target multiplied by a number. *)
Definition towards (z : C) (s : settings A) : settings A := s <| s_target := oscale A z (s_target s) |>.
End Merit.

(** ** Areas *)
(** sum_k t_k a_kj. *)
Definition area (ts : list R) (a : amps) (j : nat) : R := total (map2 (fun t row => t * nth j row 0) ts a).

Section Areas.
Context (N : nat) (rt : routines).
Notation A := (MatAlg N rt).
(** The drift is [d] and the controls are [cs] in every timeslot. *)
Definition steady (d : mat) (cs : list mat) (s : settings A) : Prop :=
  slot_drifts s = Some (repeat (d : Op A) (length (s_tau s))) /\ slot_ctrls s = Some (repeat (cs : list (Op A)) (length (s_tau s))).
(** All of them commute, as far as they generate the evolution. *)
Definition commuting (d : mat) (cs : list mat) (s : settings A) : Prop :=
  forall x y, In x (d :: cs) -> In y (d :: cs) ->
    mmul (with_phase (A := A) s x) (with_phase (A := A) s y) = mmul (with_phase (A := A) s y) (with_phase (A := A) s x).
End Areas.

(** ** Drive *)
(** sum_k |t_k| (d_k + sum_j c_kj |a_kj|) for drifts bounded by d_k and
    controls bounded by c_kj. *)
Definition drive (ts : list R) (ds : list R) (cs : list (list R)) (a : amps) : R := model_error ts ds cs a.
