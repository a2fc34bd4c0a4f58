(** The phase_option of FidCompUnitary (src/qutip_qtrl/fidcomp.py:283-336):
    what is shown and what is used, over a history of assignments.  The
    normalisation of gradients (grad_norm_func) is assigned together with that
    of the fidelity; both are named by one [phopt]. *)
From Verif.Model Require Import Base Dyn Dump.
From Coq Require Import String.
From RecordUpdate Require Import RecordUpdate.
Local Open Scope string_scope.

Record phcomp := mkPh {
  pc_shown : pyval;          (* _phase_option *)
  pc_fid : option phopt;     (* fid_norm_func: normalize_PSU, normalize_SU *)
  pc_grad : option phopt;    (* grad_norm_func *)
}.
#[export] Instance eta_phcomp : Settable _ := settable! mkPh <pc_shown; pc_fid; pc_grad>.

(** fidcomp.py:320-336 [_init_phase_option]; an exception leaves what was
    assigned before it. *)
Definition assign_phase (v : pyval) (c : phcomp) : phcomp * option exn :=
  let c := c <| pc_shown := v |> in
  if is_str v "PSU" then (c <| pc_fid := Some PSU |> <| pc_grad := Some PSU |>, None)
  else if is_str v "SU" then (c <| pc_fid := Some SU |> <| pc_grad := Some SU |>, None)
  else (c, Some UsageError).

(** fidcomp.py:283-288 [reset] (the norm functions are None before it,
    fidcomp.py:138-139). *)
Definition new_phcomp : phcomp := fst (assign_phase (PStr "PSU") (mkPh PNone None None)).
(** The caller goes on after an exception. *)
Definition assign_phases (l : list pyval) (c : phcomp) : phcomp := fold_left (fun c v => fst (assign_phase v c)) l c.
(** fidcomp.py:338-346, the check in [init_comp]. *)
Definition phase_ready (c : phcomp) : bool := match pc_fid c, pc_grad c with Some _, Some _ => true | _, _ => false end.
