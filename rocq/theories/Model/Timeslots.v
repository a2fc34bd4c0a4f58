(** Timeslot attributes of Dynamics: src/qutip_qtrl/dynamics.py:544-610.
    Simplification: the single precision of np.ones(.., dtype="f") at line 597
    is not modelled (all numbers are reals). *)
From Coq Require Import Reals.
From RecordUpdate Require Import RecordUpdate.
From Verif.Model Require Import Base.
Local Open Scope R_scope.

Record tslots := mkTs {
  ts_num : option nat;         (* _num_tslots *)
  ts_evo : option R;           (* _evo_time *)
  ts_tau : option (list R);    (* _tau *)
  ts_time : list R;            (* time *)
  ts_init : bool;              (* _timeslots_initialized *)
}.
#[export] Instance eta_tslots : Settable _ := settable! mkTs <ts_num; ts_evo; ts_tau; ts_time; ts_init>.

(** dynamics.py:363-366, 425 (reset). *)
Definition new_ts : tslots := mkTs None None None [] false.

(** dynamics.py:51-52. *)
Definition DEF_NUM_TSLOTS : nat := 10.
Definition DEF_EVO_TIME : R := 1.

Definition sumR (l : list R) : R := fold_right Rplus 0 l.   (* np.sum *)

(** dynamics.py:605-608: the loop [time[t+1] = time[t] + tau[t]]. *)
Fixpoint cumulate (t : R) (l : list R) : list R :=
  match l with
  | [] => [t]
  | x :: l' => t :: cumulate (t + x) l'
  end.

(** dynamics.py:581-610 [init_timeslots].  For num_tslots = 0 numpy divides an
    empty array, giving an empty array, as here. *)
Definition init_timeslots (d : tslots) : tslots :=
  let d := match ts_num d with None => d <| ts_num := Some DEF_NUM_TSLOTS |> | Some _ => d end in
  let d := match ts_evo d with None => d <| ts_evo := Some DEF_EVO_TIME |> | Some _ => d end in
  let d := match ts_tau d, ts_num d, ts_evo d with
           | None, Some n, Some T => d <| ts_tau := Some (repeat (1 * T / INR n) n) |>
           | Some l, _, _ => d <| ts_num := Some (length l) |> <| ts_evo := Some (sumR l) |>
           | _, _, _ => d
           end in
  let d := match ts_tau d with Some l => d <| ts_time := cumulate 0 l |> | None => d end in
  d <| ts_init := true |>.

(** Setters (dynamics.py:550-555, 563-568, 576-579).  [None] may be assigned. *)
Definition set_num_tslots (v : option nat) (d : tslots) : tslots :=
  let d := d <| ts_num := v |> in
  if ts_init d then init_timeslots (d <| ts_tau := None |>) else d.
Definition set_evo_time (v : option R) (d : tslots) : tslots :=
  let d := d <| ts_evo := v |> in
  if ts_init d then init_timeslots (d <| ts_tau := None |>) else d.
Definition set_tau_slots (v : option (list R)) (d : tslots) : tslots :=
  init_timeslots (d <| ts_tau := v |>).

(** Getters (dynamics.py:544-548, 557-561, 570-574) initialise on first use. *)
Definition touch (d : tslots) : tslots := if ts_init d then d else init_timeslots d.
Definition get_num_tslots (d : tslots) : tslots * option nat := let d := touch d in (d, ts_num d).
Definition get_evo_time (d : tslots) : tslots * option R := let d := touch d in (d, ts_evo d).
Definition get_tau (d : tslots) : tslots * option (list R) := let d := touch d in (d, ts_tau d).

Inductive ts_op :=
| SetNum (v : option nat) | SetEvo (v : option R) | SetTau (v : option (list R))
| ReadNum | ReadEvo | ReadTau.

Definition ts_step (d : tslots) (o : ts_op) : tslots :=
  match o with
  | SetNum v => set_num_tslots v d
  | SetEvo v => set_evo_time v d
  | SetTau v => set_tau_slots v d
  | ReadNum => fst (get_num_tslots d)
  | ReadEvo => fst (get_evo_time d)
  | ReadTau => fst (get_tau d)
  end.
Definition ts_run (ops : list ts_op) (d : tslots) : tslots := fold_left ts_step ops d.
