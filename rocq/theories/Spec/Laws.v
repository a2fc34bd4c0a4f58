(** Laws of the evolution: ways to combine control problems, and what a
    quantity that the operators conserve is. *)
From Coq Require Import Reals.
From Coquelicot Require Import Complex.
From RecordUpdate Require Import RecordUpdate.
From Verif.Model Require Import Base Dyn.
From Verif.Lib Require Import Mat.
From Verif.Spec Require Import Evolution History MatAlg Physics.
Local Open Scope nat_scope.

Section Laws.
Context {A : Alg}.

(** Another start. *)
Definition starting (x : Op A) (s : settings A) : settings A := s <| s_initial := x |>.

(** Drift, controls and durations listed slot by slot. *)
Definition with_slots (ds : option (list (Op A))) (cs : option (list (list (Op A)))) (ts : list R) (s : settings A) : settings A :=
  s <| s_drift := option_map (fun l => DList l) ds |> <| s_ctrls := option_map (fun l => CArr l) cs |> <| s_tau := ts |>.

(** The timeslots of [s] and then those of [s']. *)
Definition both {X} (x y : option (list X)) : option (list X) :=
  match x, y with Some l, Some l' => Some (l ++ l') | _, _ => None end.
Definition joined (s s' : settings A) : settings A :=
  with_slots (both (slot_drifts s) (slot_drifts s')) (both (slot_ctrls s) (slot_ctrls s')) (s_tau s ++ s_tau s') s.
(** Equal but for the timeslots, their operators and the start. *)
Record like (s s' : settings A) : Prop := {
  like_class : s_class s' = s_class s;
  like_prop : s_prop s' = s_prop s;
  like_target : s_target s' = s_target s;
  like_phase : s_phase s' = s_phase s;
  like_phapp : s_phapp s' = s_phapp s;
  like_fid : s_fid s' = s_fid s;
  like_phopt : s_phopt s' = s_phopt s;
  like_scale : trace_scale s' = trace_scale s;
  like_cache : s_cache_pg s' = s_cache_pg s;
}.

(** The timeslots in reverse order, with every operator negated. *)
Definition negated (x : Op A) : Op A := oscale A (RtoC (-1)) x.
Definition backwards (s : settings A) : settings A :=
  with_slots (option_map (fun l => rev (map negated l)) (slot_drifts s))
    (option_map (fun l => rev (map (map negated) l)) (slot_ctrls s)) (rev (s_tau s)) s.
End Laws.

Section Matrices.
Context (N : nat) (rt : routines).
Notation A := (MatAlg N rt).

(** [w] annihilates everything that generates the evolution from the left:
    the numbers [w x] are conserved (the trace of a density operator, for a
    Liouvillian). *)
Definition conserved (r : nat) (w : mat) (s : settings A) : Prop :=
  generators_all N rt (fun x => mmul w (with_phase (A := A) s x) = mzero r N) s.
(** The start is annihilated: a stationary (dark) state. *)
Definition stationary (q : nat) (s : settings A) : Prop :=
  generators_all N rt (fun x => mmul (with_phase (A := A) s x) (s_initial s) = mzero N q) s.

(** What the columns picked or combined by [e] are started from and meant to
    reach. *)
Definition combined (e : mat) (s : settings A) : settings A :=
  s <| s_initial := (mmul (s_initial s) e : Op A) |> <| s_target := (mmul (s_target s) e : Op A) |>.
(** The matrix with a single column, 1 at [j]: picks column [j] out of [q]. *)
Definition unit_column (q j : nat) : mat := tab q 1 (fun i _ => if (i =? j)%nat then RtoC 1 else RtoC 0).
End Matrices.

(** [w] carries the problem [s] into the problem [s'] of another size:
    the same durations, and [w] intertwines what generates the evolutions. *)
Record carries (N M : nat) (rt rt' : routines) (w : mat) (s : settings (MatAlg N rt)) (s' : settings (MatAlg M rt')) : Prop := {
  ca_tau : s_tau s' = s_tau s;
  ca_drifts : exists l l', slot_drifts s = Some l /\ slot_drifts s' = Some l' /\
    Forall2 (fun x x' : mat => mmul w (with_phase (A := MatAlg N rt) s x) = mmul (with_phase (A := MatAlg M rt') s' x') w) l l';
  ca_ctrls : exists l l', slot_ctrls s = Some l /\ slot_ctrls s' = Some l' /\
    Forall2 (Forall2 (fun x x' : mat => mmul w (with_phase (A := MatAlg N rt) s x) = mmul (with_phase (A := MatAlg M rt') s' x') w)) l l';
  ca_initial : s_initial s' = mmul w (s_initial s);
}.
