(** Model of src/qutip_qtrl/stats.py: the derived values computed by
    [calculate] and the resetting done by [clear] and [reset].  The counters
    themselves are advanced by the code modelled in [Model/Dyn.v] and
    [Model/OptRun.v].  The printed report and dyn_gen_name are left out. *)
From Coq Require Import Reals.
From RecordUpdate Require Import RecordUpdate.
From Verif.Model Require Export Base.
Local Open Scope R_scope.

(** A float that may be np.nan. *)
Inductive mean := Val (x : R) | NaN.

Record stats := mkAll {
  num_iter : nat;
  wall_time_optim_start : R;
  wall_time_optim_end : R;
  wall_time_optim : R;
  wall_time_dyn_gen_compute : R;
  wall_time_prop_compute : R;
  wall_time_fwd_prop_compute : R;
  wall_time_onwd_prop_compute : R;
  wall_time_gradient_compute : R;
  num_fidelity_func_calls : nat;
  num_grad_func_calls : nat;
  num_tslot_recompute : nat;
  num_fidelity_computes : nat;
  num_grad_computes : nat;
  num_ctrl_amp_updates : nat;
  mean_num_ctrl_amp_updates_per_iter : mean;
  num_timeslot_changes : nat;
  mean_num_timeslot_changes_per_update : mean;
  num_ctrl_amp_changes : nat;
  mean_num_ctrl_amp_changes_per_update : mean;
}.
#[export] Instance eta_all : Settable _ := settable! mkAll
  <num_iter; wall_time_optim_start; wall_time_optim_end; wall_time_optim; wall_time_dyn_gen_compute;
   wall_time_prop_compute; wall_time_fwd_prop_compute; wall_time_onwd_prop_compute;
   wall_time_gradient_compute; num_fidelity_func_calls; num_grad_func_calls; num_tslot_recompute;
   num_fidelity_computes; num_grad_computes; num_ctrl_amp_updates; mean_num_ctrl_amp_updates_per_iter;
   num_timeslot_changes; mean_num_timeslot_changes_per_update; num_ctrl_amp_changes;
   mean_num_ctrl_amp_changes_per_update>.

(** stats.py:113-136 [clear]: every attribute is assigned. *)
Definition clear (s : stats) : stats :=
  s <| num_iter := 0%nat |>
    <| wall_time_optim_start := 0 |> <| wall_time_optim_end := 0 |> <| wall_time_optim := 0 |>
    <| wall_time_dyn_gen_compute := 0 |> <| wall_time_prop_compute := 0 |>
    <| wall_time_fwd_prop_compute := 0 |> <| wall_time_onwd_prop_compute := 0 |>
    <| wall_time_gradient_compute := 0 |>
    <| num_fidelity_func_calls := 0%nat |> <| num_grad_func_calls := 0%nat |>
    <| num_tslot_recompute := 0%nat |> <| num_fidelity_computes := 0%nat |> <| num_grad_computes := 0%nat |>
    <| num_ctrl_amp_updates := 0%nat |> <| mean_num_ctrl_amp_updates_per_iter := Val 0 |>
    <| num_timeslot_changes := 0%nat |> <| mean_num_timeslot_changes_per_update := Val 0 |>
    <| num_ctrl_amp_changes := 0%nat |> <| mean_num_ctrl_amp_changes_per_update := Val 0 |>.

(** Division of counters; ZeroDivisionError for a zero denominator. *)
Definition ratio (a : R) (b : nat) : Res R :=
  if (b =? 0)%nat then Raise ZeroDivisionError else Ok (a / INR b).
(** [try: ... except Exception: np.nan]. *)
Definition or_nan (m : Res R) : mean := match m with Ok x => Val x | Raise _ => NaN end.

(** stats.py:138-169 [calculate]. *)
Definition calculate (s : stats) : stats :=
  let s := if Rlt_dec 0 (wall_time_optim_end s)
           then s <| wall_time_optim := wall_time_optim_end s - wall_time_optim_start s |> else s in
  let s := s <| mean_num_ctrl_amp_updates_per_iter := or_nan (ratio (INR (num_ctrl_amp_updates s)) (num_iter s)) |> in
  let s := s <| mean_num_timeslot_changes_per_update :=
                  or_nan (ratio (INR (num_timeslot_changes s)) (num_ctrl_amp_updates s)) |> in
  s <| mean_num_ctrl_amp_changes_per_update :=
         or_nan (ratio (INR (num_ctrl_amp_changes s)) (num_ctrl_amp_updates s)) |>.

(** StatsDynTsUpdate (stats.py:273-377). *)
Record dstats := mkDS {
  base : stats;
  num_dyn_gen_computes : nat;
  mean_num_dyn_gen_computes_per_update : R;
  mean_wall_time_dyn_gen_compute : R;
  num_prop_computes : nat;
  mean_num_prop_computes_per_update : R;
  mean_wall_time_prop_compute : R;
  num_fwd_prop_step_computes : nat;
  mean_num_fwd_prop_step_computes_per_update : R;
  mean_wall_time_fwd_prop_compute : R;
  num_onwd_prop_step_computes : nat;
  mean_num_onwd_prop_step_computes_per_update : R;
  mean_wall_time_onwd_prop_compute : R;
}.
#[export] Instance eta_ds : Settable _ := settable! mkDS
  <base; num_dyn_gen_computes; mean_num_dyn_gen_computes_per_update; mean_wall_time_dyn_gen_compute;
   num_prop_computes; mean_num_prop_computes_per_update; mean_wall_time_prop_compute;
   num_fwd_prop_step_computes; mean_num_fwd_prop_step_computes_per_update; mean_wall_time_fwd_prop_compute;
   num_onwd_prop_step_computes; mean_num_onwd_prop_step_computes_per_update; mean_wall_time_onwd_prop_compute>.

(** The subclass defines no [clear] of its own. *)
Definition clear_dyn (s : dstats) : dstats := s <| base := clear (base s) |>.
(** stats.py:324-341 [reset]. *)
Definition reset_dyn (s : dstats) : dstats := mkDS (clear (base s)) 0 0 0 0 0 0 0 0 0 0 0 0.

(** stats.py:343-377 [calculate] of the subclass: no [try] here. *)
Definition calculate_dyn (s : dstats) : Res dstats :=
  let s := s <| base := calculate (base s) |> in
  let upd := num_ctrl_amp_updates (base s) in
  x <- ratio (INR (num_dyn_gen_computes s)) upd;;
  let s := s <| mean_num_dyn_gen_computes_per_update := x |> in
  x <- ratio (wall_time_dyn_gen_compute (base s)) (num_dyn_gen_computes s);;
  let s := s <| mean_wall_time_dyn_gen_compute := x |> in
  x <- ratio (INR (num_prop_computes s)) upd;;
  let s := s <| mean_num_prop_computes_per_update := x |> in
  x <- ratio (wall_time_prop_compute (base s)) (num_prop_computes s);;
  let s := s <| mean_wall_time_prop_compute := x |> in
  x <- ratio (INR (num_fwd_prop_step_computes s)) upd;;
  let s := s <| mean_num_fwd_prop_step_computes_per_update := x |> in
  x <- ratio (wall_time_fwd_prop_compute (base s)) (num_fwd_prop_step_computes s);;
  let s := s <| mean_wall_time_fwd_prop_compute := x |> in
  x <- ratio (INR (num_onwd_prop_step_computes s)) upd;;
  let s := s <| mean_num_onwd_prop_step_computes_per_update := x |> in
  x <- ratio (wall_time_onwd_prop_compute (base s)) (num_onwd_prop_step_computes s);;
  Ok (s <| mean_wall_time_onwd_prop_compute := x |>).
