(** Constructor parameters: the attributes that a parameter cannot set because
    the constructor assigns them after applying the parameters for the last
    time. *)
From Verif.Model Require Import Construct.
Local Open Scope string_scope.
Local Open Scope list_scope.

Definition overwritten (c : cls) : list string :=
  match c with
  | DynBase => ["tslot_computer"; "fid_computer"; "prop_computer"; "ctrl_amps"; "evo_current"]
  | FidBase => ["fid_err"; "fidelity"; "fid_err_grad"; "grad_norm"; "fidelity_current"; "fid_err_grad_current"; "grad_norm"]
  | OptBFGS => ["id_text"]
  | OptLBFGSB => ["id_text"; "max_metric_corr"]
  | OptCrab => ["id_text"; "num_optim_vars"]
  | OptCrabFmin => ["id_text"; "num_optim_vars"; "id_text"; "xtol"; "ftol"]
  | PgCrabFourier true => ["freqs"; "randomize_freqs"; "fix_freqs"]
  | PgCrabFourier false => ["freqs"; "randomize_freqs"; "fix_freqs"; "num_basis_funcs"]
  | _ => []
  end.
(** The two classes whose constructor ignores its parameters altogether are
    abstract: PropagatorComputer here (TimeslotComputer is not modelled). *)
Definition ignores_params (c : cls) : Prop := c = PropBase.

(** [k] is a plain attribute that the class's property setters leave alone. *)
Definition plain (setter : string -> option (val -> dict -> Res dict)) (k : string) : Prop :=
  setter k = None /\
  forall k' f v o o', setter k' = Some f -> f v o = Ok o' -> dget o' k = dget o k.
