(** Model of src/qutip_qtrl/symplectic.py and of the phase handling of
    DynamicsSymplectic (src/qutip_qtrl/dynamics.py:1735-1826). *)
From Coq Require Import Reals.
From Coquelicot Require Import Complex.
From RecordUpdate Require Import RecordUpdate.
From Verif.Model Require Export Str Base Dyn.
From Verif.Lib Require Import Csum Mat.
Local Open Scope nat_scope.

(** symplectic.py:31-39 [calc_omega], entry [j, k]; [k == j - 1] over the
    integers is [k + 1 = j]. *)
Definition omega_entry (j k : nat) : R :=
  let x := (if k =? j + 1 then (1 + (-1) ^ j) / 2 else 0)%R in
  if k + 1 =? j then (- ((1 - (-1) ^ j) / 2))%R else x.
Definition calc_omega (n : nat) : mat := tab (2 * n) (2 * n) (fun j k => RtoC (omega_entry j k)).

(** [-omega]. *)
Definition mneg (x : mat) : mat := mscal (RtoC (-1)) x.

(** What the phase handling of a DynamicsSymplectic object looks at. *)
Record sympl := mkSympl {
  y_drift : nat;                (* size of drift_dyn_gen *)
  y_shape : option nat;         (* dyn_shape[0] *)
  y_omega : option mat;         (* _omega *)
  y_phase : option mat;         (* _dyn_gen_phase *)
  y_app : string;               (* _phase_application *)
  y_pre : option bool;          (* _apply_phase: not configured, pre (true) or post (false) *)
  y_init : bool;                (* _evo_initialized *)
}.
#[export] Instance eta_sympl : Settable _ := settable! mkSympl
  <y_drift; y_shape; y_omega; y_phase; y_app; y_pre; y_init>.

(** dynamics.py:1751-1758 [reset]; [_apply_phase] is then the class's method (906-914). *)
Definition new_sympl (dim : nat) : sympl := mkSympl dim None None None "postop" None false.

Definition lower_char (c : ascii) : ascii :=
  let n := nat_of_ascii c in
  if (65 <=? n) && (n <=? 90) then ascii_of_nat (n + 32) else c.
(** Python's [str.lower] on ASCII text. *)
Fixpoint lower (s : string) : string :=
  match s with
  | EmptyString => EmptyString
  | String c t => String (lower_char c) (lower t)
  end.

(** dynamics.py:873-898 [_config_phase_application] for a string argument. *)
Definition config_phase_application (v : string) (y : sympl) : Res sympl :=
  if String.eqb (lower v) "preop" then Ok (y <| y_pre := Some true |>)
  else if String.eqb (lower v) "postop" then Ok (y <| y_pre := Some false |>)
  else if String.eqb (lower v) "custom" then Ok y
  else Raise ValueError.

(** dynamics.py:1099-1116: the shape is read from the drift. *)
Definition refresh_shape (y : sympl) : sympl := y <| y_shape := Some (y_drift y) |>.
(** dynamics.py:1090-1097 [get_drift_dim]. *)
Definition drift_dim (y : sympl) : sympl * nat :=
  match y_shape y with Some d => (y, d) | None => (refresh_shape y, y_drift y) end.

(** dynamics.py:1784-1793 [_get_omega] (Qobj and ndarray not distinguished). *)
Definition get_omega (y : sympl) : sympl * mat :=
  match y_omega y with
  | Some o => (y, o)
  | None => let '(y, d) := drift_dim y in
            let o := calc_omega (d / 2) in (y <| y_omega := Some o |>, o)
  end.

(** dynamics.py:1802-1815 [_get_dyn_gen_phase]. *)
Definition get_dyn_gen_phase (y : sympl) : Res (sympl * option mat) :=
  if String.eqb (y_app y) "postop" then let '(y, o) := get_omega y in Ok (y, Some (mneg o))
  else if String.eqb (y_app y) "preop" then let '(y, o) := get_omega y in Ok (y, Some o)
  else if String.eqb (y_app y) "custom" then Ok (y, None)
  else Raise ValueError.

(** dynamics.py:1817-1826 [dyn_gen_phase]; the subclass defines no setter. *)
Definition read_phase (y : sympl) : Res (sympl * option mat) :=
  match y_phase y with
  | Some p => Ok (y, Some p)
  | None => '(y, p) <- get_dyn_gen_phase y;; Ok (y <| y_phase := p |>, p)
  end.

(** dynamics.py:869-871 and 1795-1800: assignment to [phase_application]. *)
Definition set_application (v : string) (y : sympl) : Res sympl :=
  y <- config_phase_application v y;;
  let y := y <| y_app := v |> in
  if y_init y
  then '(y, p) <- get_dyn_gen_phase y;;
       Ok (match p with Some _ => y <| y_phase := p |> | None => y end)
  else Ok y.

(** The part of [_init_evo] (dynamics.py:716-833) concerned: the shape is
    refreshed, [_init_phase] (900-904) reads the phase and configures. *)
Definition init_evo_phase (y : sympl) : Res sympl :=
  let y := refresh_shape y in
  '(y, p) <- read_phase y;;
  y <- match p with Some _ => config_phase_application (y_app y) y | None => Ok y end;;
  Ok (y <| y_init := true |>).

(** dynamics.py:906-938: what is exponentiated for the generator [g] (without
    a phase the generator itself, 1246-1253). *)
Definition phased_gen (y : sympl) (g : mat) : mat :=
  match y_phase y with
  | None => g
  | Some p => match y_pre y with
              | Some true => mmul p g
              | Some false => mmul g p
              | None => g
              end
  end.

Inductive sop :=
| SetDrift (dim : nat)            (* drift_dyn_gen = ... *)
| ReadPhase                       (* dyn_gen_phase *)
| ReadOmega                       (* omega *)
| SetApplication (v : string)     (* phase_application = v *)
| Initialise.                     (* initialize_controls *)

Definition sstep (o : sop) (y : sympl) : Res sympl :=
  match o with
  | SetDrift d => Ok (y <| y_drift := d |>)
  | ReadPhase => '(y, _) <- read_phase y;; Ok y
  | ReadOmega => Ok (fst (get_omega y))
  | SetApplication v => set_application v y
  | Initialise => init_evo_phase y
  end.
Fixpoint sruns (l : list sop) (y : sympl) : Res sympl :=
  match l with
  | [] => Ok y
  | o :: l' => y <- sstep o y;; sruns l' y
  end.

(** The settings of a DynamicsSymplectic object as seen by [Model/Dyn.v]: a
    generic-matrix problem whose phase is the operator above (dynamics.py:1751-1782). *)
Definition sympl_phase (n : nat) (pre : bool) : mat := if pre then calc_omega n else mneg (calc_omega n).
