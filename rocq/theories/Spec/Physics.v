(** Different descriptions of the same physics: what a user reads off an
    object, and ways to restate a control problem. *)
From Coq Require Import Reals Permutation.
From Coquelicot Require Import Complex.
From RecordUpdate Require Import RecordUpdate.
From Verif.Model Require Import Base Dyn.
From Verif.Lib Require Import Mat MDiag.
From Verif.Spec Require Import Evolution History MatAlg.
Local Open Scope nat_scope.

Section Reports.
Context {A : Alg}.

(** A new object with the settings [s] that is initialised with [a] and goes
    through the calls [ops] then reports the final operator [U] (full_evo,
    after compute_evolution) and the fidelity error [v]. *)
Definition reports (s : settings A) (st : bool) (a : amps) (ops : list op) (U : Op A) (v : R) : Prop :=
  exists d d1 b d2 d3, session s st a ops = Ok d /\
    compute_evolution d = Ok (d1, b) /\ full_evo d1 = Ok (d2, U) /\
    get_fid_err d = Ok (d3, v).
(** ... and the gradient [g]. *)
Definition reports_gradient (s : settings A) (st : bool) (a : amps) (ops : list op) (g : amps) : Prop :=
  exists d d1, session s st a ops = Ok d /\ get_fid_err_gradient d = Ok (d1, g).

(** The same problem: the same operators in every timeslot, the same
    durations, start, target, phase and figure of merit.  How the operators
    are given (constant or per timeslot, as generators or as Hamiltonians),
    the propagator computer, its rounding precision, the operator data type
    and what is cached may differ. *)
Definition slot_drifts (s : settings A) : option (list (Op A)) := option_map (drift_ops (length (s_tau s))) (eff_drift s).
Definition slot_ctrls (s : settings A) : option (list (list (Op A))) := option_map (ctrl_ops (length (s_tau s))) (eff_ctrls s).
Record same_problem (s s' : settings A) : Prop := {
  same_class : s_class s' = s_class s;
  same_drifts : slot_drifts s' = slot_drifts s;
  same_ctrls : slot_ctrls s' = slot_ctrls s;
  same_initial : s_initial s' = s_initial s;
  same_target : s_target s' = s_target s;
  same_tau : s_tau s' = s_tau s;
  same_phase : s_phase s' = s_phase s;
  same_phapp : s_phapp s' = s_phapp s;
  same_fid : s_fid s' = s_fid s;
  same_phopt : s_phopt s' = s_phopt s;
  same_scale : trace_scale s' = trace_scale s;
}.

(** Other operators in place of the drift and the controls. *)
Definition with_ops (s : settings A) (fd : drift A -> drift A) (fc : ctrls A -> ctrls A) : settings A :=
  s <| s_drift := option_map fd (eff_drift s) |> <| s_ctrls := option_map fc (eff_ctrls s) |>.
Definition each_drift (f : Op A -> Op A) (d : drift A) : drift A :=
  match d with DConst o => DConst (f o) | DList l => DList (map f l) end.
Definition each_ctrl (f : Op A -> Op A) (c : ctrls A) : ctrls A :=
  match c with CList l => CList (map f l) | CArr rows => CArr (map (map f) rows) end.
Definition each_op (f : Op A -> Op A) (s : settings A) : settings A := with_ops s (each_drift f) (each_ctrl f).

(** The phase multiplied into the drift and the controls beforehand; handled
    as an object of class [k] with the propagator computer [p]. *)
Definition phase_folded (k : dclass) (p : propkind) (s : settings A) : settings A :=
  each_op (with_phase s) s <| s_class := k |> <| s_phase := None |> <| s_prop := p |>.

(** Other units of time: operators divided and durations multiplied by [x]. *)
Definition rescaled (x : R) (s : settings A) : settings A :=
  each_op (oscale A (RtoC (/ x))) s <| s_tau := map (Rmult x) (s_tau s) |>.

(** Every timeslot cut into pieces of the durations given for it. *)
Definition repeated {X} (parts : list (list R)) (l : list X) : list X :=
  concat (map2 (fun p x => repeat x (length p)) parts l).
Definition total (l : list R) : R := fold_right Rplus 0%R l.
Definition cut_drift (parts : list (list R)) (d : drift A) : drift A :=
  match d with DConst o => DConst o | DList l => DList (repeated parts l) end.
Definition cut_ctrls (parts : list (list R)) (c : ctrls A) : ctrls A :=
  match c with CList l => CList l | CArr rows => CArr (repeated parts rows) end.
Definition cut (parts : list (list R)) (s : settings A) : settings A :=
  with_ops s (cut_drift parts) (cut_ctrls parts) <| s_tau := concat parts |>.

(** The controls in another order: control [j] is what control [p[j]] was. *)
Definition pick {X} (p : list nat) (l : list X) : list X :=
  flat_map (fun i => match nth_error l i with Some x => [x] | None => [] end) p.
Definition on_rows (f : list (Op A) -> list (Op A)) (c : ctrls A) : ctrls A :=
  match c with CList l => CList (f l) | CArr rows => CArr (map f rows) end.
Definition reordered (p : list nat) (s : settings A) : settings A := with_ops s (fun d => d) (on_rows (pick p)).
(** A further control, after the others. *)
Definition extended (c : Op A) (s : settings A) : settings A := with_ops s (fun d => d) (on_rows (fun l => l ++ [c])).
End Reports.

Section Matrices.
Context (N : nat) (rt : routines).
Notation A := (MatAlg N rt).

(** What the theorems ask of an object and its history of calls (see
    [Spec/MatAlg.v]; [q]: number of columns of the initial operator). *)
Record ready (q : nat) (s : settings A) (n m : nat) (a : amps) (ops : list op) : Prop := {
  rd_well : well_posed s n m;
  rd_sized : sized_problem N rt q s;
  rd_suits : diag_suits N rt s;
  rd_shape : shape n m a;
  rd_calls : Forall (call_ok s n m) ops;
}.
(** ... and for the gradients: not the approximate computer, and no two
    distinct phases within the rounding precision of the diagonalising one. *)
Definition exact_gradients (s : settings A) (a : amps) : Prop := s_prop s <> Approx /\ diag_exact_at N rt s a.

Definition rotated_phase (V : mat) (ph : phase A) : phase A :=
  match ph with PhNum c => PhNum c | PhOp o => PhOp (mmul (mmul V o) (mdag V) : Op A) end.
(** The problem in another basis: [V] maps the old coordinates of a state to
    the new ones; [W] changes the basis of what the initial and the target
    operators act on (1 x 1, or omitted, for states). *)
Definition rotated (V W : mat) (s : settings A) : settings A :=
  each_op (A := A) (fun x => mmul (mmul V x) (mdag V)) s
    <| s_phase := option_map (rotated_phase V) (s_phase s) |>
    <| s_initial := (mmul (mmul V (s_initial s)) W : Op A) |>
    <| s_target := (mmul (mmul V (s_target s)) W : Op A) |>.

(** Equal but for a shift of the zero of energy. *)
Definition energy_shift (x x' : mat) : Prop := exists e, x' = madd x (mscal (RtoC e) (mid N)).
(** The same problem but for shifts of the zero of energy of the drift and of
    each control, which may be different in each timeslot. *)
Record shifted_problem (s s' : settings A) : Prop := {
  shift_class : s_class s' = s_class s;
  shift_drifts : exists l l', slot_drifts s = Some l /\ slot_drifts s' = Some l' /\ Forall2 energy_shift l l';
  shift_ctrls : exists l l', slot_ctrls s = Some l /\ slot_ctrls s' = Some l' /\ Forall2 (Forall2 energy_shift) l l';
  shift_initial : s_initial s' = s_initial s;
  shift_target : s_target s' = s_target s;
  shift_tau : s_tau s' = s_tau s;
  shift_phase : s_phase s' = s_phase s;
  shift_phapp : s_phapp s' = s_phapp s;
  shift_fid : s_fid s' = s_fid s;
  shift_phopt : s_phopt s' = s_phopt s;
}.
End Matrices.
