(** Where a method parameter goes and what the options are, in plain terms. *)
From Verif.Model Require Import Values.
Local Open Scope string_scope.
Local Open Scope list_scope.

(** The value the dictionary gives to a key: for distinct keys the order of
    the entries does not matter. *)
Definition distinct (d : dict) : Prop := NoDup (map fst d).
Definition says (d : dict) (k : string) (v : val) : Prop := In (k, v) d.

(** An optimiser whose termination conditions are an object with attributes
    [e]. *)
Definition term_conds (o e : dict) : Prop := dget o "termination_conditions" = Some (VObj e).
(** The options collected so far: none, or a dictionary. *)
Definition options_are (o mo : dict) : Prop :=
  (dget o "method_options" = Some VNone /\ mo = []) \/ dget o "method_options" = Some (VDict mo).
(** Termination conditions with numbers for the three limits. *)
Definition limits (e : dict) (it fc gn : R) : Prop :=
  dget e "max_iterations" = Some (VNum it) /\ dget e "max_fid_func_calls" = Some (VNum fc) /\
  dget e "min_gradient_norm" = Some (VNum gn).
(** A value that is added only if it is positive. *)
Definition positive (x : R) : option val := if Rlt_dec 0 x then Some (VNum x) else None.
(** First of two. *)
Definition or_else {X} (a b : option X) : option X := match a with Some _ => a | None => b end.
(** The names the code itself uses for its bookkeeping. *)
Definition bookkeeping (k : string) : Prop := k = "termination_conditions" \/ k = "method_options" \/ k = "method_params".

(** The option each of the optimiser's settings stands for: used only if the
    option itself was not given. *)
Definition derived (o e mo : dict) (it fc gn : R) (k : string) : option val :=
  if (k =? "maxcor")%string then or_else (dget mo "max_metric_corr") (dget o "max_metric_corr")
  else if (k =? "ftol")%string then or_else (dget mo "accuracy_factor") (dget e "accuracy_factor")
  else if (k =? "maxiter")%string then positive it
  else if (k =? "maxfev")%string then positive fc
  else if (k =? "gtol")%string then positive gn
  else if (k =? "disp")%string then dget o "disp_conv_msg"
  else None.
