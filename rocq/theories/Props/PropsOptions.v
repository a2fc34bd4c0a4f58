(** C25: method parameters and options. *)
From Coq Require Import Lra.
From Verif.Model Require Import Values Options.
From Verif.Spec Require Import OptionRules.
From Verif.Proofs Require Import OptionFacts.
Local Open Scope string_scope.
Local Open Scope list_scope.
Set Bullet Behavior "Strict Subproofs".

Section C25.
(** The names on the classes, and the properties with setters. *)
Variable cls tcls xcls : string -> bool.
Variable setter : string -> option (val -> dict -> Res dict).
Hypothesis no_class_corr : cls "max_metric_corr" = false.
Hypothesis no_class_accuracy : tcls "accuracy_factor" = false.
Notation hasattr := (hasattr cls).
Notation knows := (tc_knows tcls).
Notation apply_method_params := (apply_method_params cls tcls xcls setter).
Notation build_method_options := (build_method_options cls tcls xcls).
Notation start_run := (start_run cls tcls xcls setter).
Notation scipy_args := (scipy_args cls tcls xcls).

(** Parameters whose names are not the optimiser's own bookkeeping and not
    properties with a setter. *)
Definition ordinary (p : dict) : Prop :=
  distinct p /\ forall k, In k (map fst p) -> ~ bookkeeping k /\ setter k = None.

(** Each parameter goes to exactly one place, and nothing else changes. *)
Theorem C25_dispatch p o e mo :
  ordinary p -> p <> [] -> term_conds o e -> options_are o mo ->
  exists o' e' mo', apply_method_params (VDict p) o = Ok o' /\ term_conds o' e' /\ options_are o' mo' /\
    (forall k v, says p k v ->
       if hasattr o k then dget o' k = Some v /\ dget e' k = dget e k /\ dget mo' k = dget mo k
       else if knows e k then dget e' k = Some v /\ dget o' k = dget o k /\ dget mo' k = dget mo k
       else dget mo' k = Some v /\ dget o' k = dget o k /\ dget e' k = dget e k) /\
    (forall k, ~ In k (map fst p) -> ~ bookkeeping k ->
       dget o' k = dget o k /\ dget e' k = dget e k /\ dget mo' k = dget mo k).
Proof.
  intros [D H] N T Om. destruct (apply_ok cls tcls xcls setter p o e mo D N T Om H) as (o' & e' & mo' & E & T' & Om' & _ & A1 & A2 & A3).
  exists o', e', mo'. splits_and.
  - intros k v S. pose proof (dget_in p k v D S) as G.
    assert (B : ~ bookkeeping k) by (apply (in_map fst) in S; apply H in S; tauto).
    rewrite A1, A2, A3 by auto. rewrite G.
    destruct (hasattr o k), (knows e k); cbn; auto.
  - intros k Nk B. rewrite A1, A2, A3 by auto. rewrite (dget_notin p k Nk).
    destruct (hasattr o k), (knows e k); cbn; auto.
Qed.

(** The options handed to scipy: those given, unchanged, and for the missing
    ones the value of the corresponding setting. *)
Theorem C25_options o e mo it fc gn dv :
  term_conds o e -> options_are o mo -> limits e it fc gn -> dget o "disp_conv_msg" = Some dv ->
  exists o' mo', build_method_options o = Ok (o', mo') /\
    forall k, dget mo' k = match dget mo k with Some v => Some v | None => derived o e mo it fc gn k end.
Proof.
  intros T Om L Dv. destruct (build_ok cls tcls xcls o e mo it fc gn dv) as (mo' & E & G); auto.
  eexists _, mo'. split; [exact E|]. intros k. rewrite G. destruct (dget mo k); reflexivity.
Qed.

(** At the start of any run of any optimiser: an option given as a method
    parameter is among the options, whatever the limits say and whatever the
    options were before; a parameter naming an attribute is in the attribute. *)
Theorem C25_run o e mo p it fc gn dv :
  ordinary p -> p <> [] -> dget o "method_params" = Some (VDict p) ->
  (forall k, In k ["max_iterations"; "max_fid_func_calls"; "min_gradient_norm"; "disp_conv_msg"] -> dget p k = None) ->
  term_conds o e -> options_are o mo -> limits e it fc gn -> dget o "disp_conv_msg" = Some dv ->
  exists o' mo', start_run VNone o = Ok (o', mo') /\
    forall k v, says p k v ->
      if hasattr o k then dget o' k = Some v
      else if knows e k then exists e', term_conds o' e' /\ dget e' k = Some v
      else dget mo' k = Some v.
Proof.
  intros [D H] N Mp Hl T Om L Dv. unfold Options.start_run. cbn [is_none].
  assert (E0 : apply_method_params VNone o = apply_method_params (VDict p) o).
  { unfold Options.apply_method_params. cbn [truthy bind]. unfold getattr at 1. rewrite Mp. cbn [bind].
    destruct p; [contradiction|reflexivity]. }
  rewrite E0. destruct (apply_ok cls tcls xcls setter p o e mo D N T Om H) as (o1 & e1 & mo1 & E & T' & Om' & _ & A1 & A2 & A3).
  rewrite E. cbn [bind].
  assert (L' : limits e1 it fc gn).
  { destruct L as (L1 & L2 & L3). unfold limits. rewrite !A2, !Hl by (cbn; auto). cbn [or_else].
    repeat split; destruct (_ && _); auto. }
  assert (Dv' : dget o1 "disp_conv_msg" = Some dv).
  { rewrite A1 by (unfold bookkeeping; intuition discriminate). rewrite Hl by (cbn; auto). destruct (hasattr _ _); auto. }
  destruct (build_ok cls tcls xcls o1 e1 mo1 it fc gn dv) as (mo' & Eb & G); auto.
  eexists _, mo'. split; [exact Eb|]. intros k v S. pose proof (dget_in p k v D S) as Gk.
  assert (B : ~ bookkeeping k) by (apply (in_map fst) in S; apply H in S; tauto).
  destruct (hasattr o k) eqn:Hk; [|destruct (knows e k) eqn:Kk].
  - rewrite dget_ne by (intros ->; apply B; unfold bookkeeping; auto). rewrite A1, Hk, Gk; auto.
  - exists e1. split; [unfold term_conds; rewrite dget_ne by discriminate; exact T'|]. rewrite A2, Hk, Kk, Gk. reflexivity.
  - rewrite G, A3, Hk, Kk, Gk. reflexivity.
Qed.

(** Arguments of fmin_l_bfgs_b. *)
Theorem C25_lbfgsb_args o e mo it fc gn :
  term_conds o e -> limits e it fc gn ->
  exists a, scipy_args FminLbfgsb o mo = Ok a /\
    dget a "factr" = or_else (dget mo "accuracy_factor") (or_else (dget mo "ftol")
                       (or_else (dget e "accuracy_factor") (Some (VNum (10 ^ 7))))) /\
    dget a "m" = or_else (dget mo "max_metric_corr") (or_else (dget mo "maxcor")
                       (or_else (dget o "max_metric_corr") (Some (VNum 10)))) /\
    dget a "pgtol" = Some (VNum gn) /\ dget a "maxfun" = Some (VNum fc) /\ dget a "maxiter" = Some (VNum it).
Proof.
  intros T (L1 & L2 & L3). unfold Options.scipy_args. unfold getattr at 1. rewrite T. cbn [bind].
  unfold Options.hasattr, Options.tc_hasattr, tc_get, getattr, dmem. rewrite no_class_corr, no_class_accuracy, !orb_false_r, L1, L2, L3.
  destruct (dget mo "accuracy_factor"), (dget mo "ftol"), (dget e "accuracy_factor"), (dget mo "max_metric_corr"), (dget mo "maxcor"), (dget o "max_metric_corr");
    cbn [bind]; eexists; (split; [reflexivity|]); cbn; auto.
Qed.

(** ... so an iteration limit given as a method option does not reach
    fmin_l_bfgs_b, fmin_bfgs or fmin: the termination conditions override it. *)
Theorem C25_maxiter_refuted o e mo it fc gn x :
  term_conds o e -> limits e it fc gn -> dget mo "maxiter" = Some x -> x <> VNum it ->
  (exists a, scipy_args FminLbfgsb o mo = Ok a /\ dget a "maxiter" = Some (VNum it)) /\
  (exists a, scipy_args FminBfgs o mo = Ok a /\ dget a "maxiter" = Some (VNum it)) /\
  (forall v1 v2 v3, dget o "xtol" = Some v1 -> dget o "ftol" = Some v2 -> dget o "disp_conv_msg" = Some v3 ->
     exists a, scipy_args Fmin o mo = Ok a /\ dget a "maxiter" = Some (VNum it)) /\
  (forall m, dget o "method" = Some m ->
     exists a, scipy_args Minimize o mo = Ok a /\ dget a "options" = Some (VDict mo) /\ dget mo "maxiter" <> Some (VNum it)).
Proof.
  intros T L X Nx. split; [destruct (C25_lbfgsb_args o e mo it fc gn T L) as (a & E & H); exists a; tauto|].
  destruct L as (L1 & L2 & L3). unfold Options.scipy_args, tc_get, getattr. rewrite T. cbn [bind]. rewrite L1, L2, L3. cbn [bind].
  split; [eexists; split; reflexivity|]. split.
  - intros v1 v2 v3 -> -> ->. cbn [bind]. eexists. split; reflexivity.
  - intros m ->. cbn [bind]. eexists. split; [reflexivity|]. split; [reflexivity|]. congruence.
Qed.

(** A second run with other limits: the options still hold those of the first
    run, so scipy.optimize.minimize is given the old limit. *)
Theorem C25_second_run_refuted o e e2 mo it fc gn it2 fc2 gn2 dv :
  term_conds o e -> options_are o mo -> limits e it fc gn -> dget o "disp_conv_msg" = Some dv ->
  dget o "method_params" = Some VNone -> dget mo "maxiter" = None -> (0 < it)%R -> limits e2 it2 fc2 gn2 -> it2 <> it ->
  exists o1 mo1 o2 mo2, start_run VNone o = Ok (o1, mo1) /\ start_run (VObj e2) o1 = Ok (o2, mo2) /\
    term_conds o2 e2 /\ dget mo2 "maxiter" = Some (VNum it) /\ Some (VNum it) <> Some (VNum it2).
Proof.
  intros T Om L Dv Mp Nm Hit L2 Ne. unfold Options.start_run at 1. cbn [is_none].
  assert (E0 : forall x, dget x "method_params" = Some VNone -> apply_method_params VNone x = Ok x).
  { intros x Hx. unfold Options.apply_method_params. cbn [truthy bind]. unfold getattr. rewrite Hx. reflexivity. }
  rewrite E0 by auto. cbn [bind].
  destruct (build_ok cls tcls xcls o e mo it fc gn dv) as (mo1 & E1 & G1); auto.
  set (o1 := dset "method_options" (VDict mo1) o) in *.
  exists o1, mo1. unfold Options.start_run. cbn [is_none].
  rewrite E0 by (rewrite dget_ne by discriminate; unfold o1; rewrite dget_ne by discriminate; exact Mp). cbn [bind].
  destruct (build_ok cls tcls xcls (dset "termination_conditions" (VObj e2) o1) e2 mo1 it2 fc2 gn2 dv) as (mo2 & E2 & G2); auto.
  - unfold term_conds. now rewrite dget_eq.
  - right. rewrite dget_ne by discriminate. unfold o1. now rewrite dget_eq.
  - rewrite dget_ne by discriminate. unfold o1. now rewrite dget_ne by discriminate.
  - eexists _, mo2. split; [exact E1|]. split; [exact E2|]. split; [unfold term_conds; rewrite dget_ne by discriminate; now rewrite dget_eq|].
    split; [|congruence]. rewrite G2, G1, Nm. cbn. unfold positive. destruct (Rlt_dec 0 it); [reflexivity|contradiction].
Qed.
End C25.

(** A concrete optimiser: an L-BFGS-B optimiser with the default termination
    conditions (termcond.py:58-64), and parameters of all three kinds. *)
Definition ex_tc : dict :=
  [("fid_err_targ", VNum (/ 100000)); ("fid_goal", VNone); ("max_wall_time", VNum 3600);
   ("min_gradient_norm", VNum (/ 100000)); ("max_iterations", VNum 500); ("max_fid_func_calls", VNum 1000)].
Definition ex_opt : dict :=
  [("termination_conditions", VObj ex_tc); ("disp_conv_msg", VBool false); ("method", VStr "l_bfgs_b");
   ("method_params", VNone); ("method_options", VNone); ("max_metric_corr", VNum 10)].
Definition ex_params : dict := [("max_metric_corr", VNum 5); ("max_wall_time", VNum 60); ("accuracy_factor", VNum 100)].
Example C25_nonvacuous :
  ordinary (fun _ => None) ex_params /\ ex_params <> [] /\ term_conds ex_opt ex_tc /\ options_are ex_opt [] /\
  limits ex_tc 500 1000 (/ 100000) /\ dget ex_opt "disp_conv_msg" = Some (VBool false) /\ dget ex_opt "method_params" = Some VNone /\
  (0 < 500)%R /\ limits (dset "max_iterations" (VNum 7) ex_tc) 7 1000 (/ 100000) /\ (7 <> 500)%R.
Proof.
  splits_and; try reflexivity; try lra; try discriminate.
  - unfold ordinary, distinct. split.
    + cbn. repeat constructor; cbn; intuition discriminate.
    + cbn. unfold bookkeeping. intros k K. split; auto. intuition (subst; discriminate).
  - now left.
  - unfold limits. cbn. auto.
  - unfold limits. cbn. auto.
Qed.
Example C25_case :
  exists o, apply_method_params (fun _ => false) (fun _ => false) (fun _ => false) (fun _ => None) (VDict ex_params) ex_opt = Ok o /\
    dget o "max_metric_corr" = Some (VNum 5) /\ dget o "method_options" = Some (VDict [("accuracy_factor", VNum 100)]) /\
    (exists e, term_conds o e /\ dget e "max_wall_time" = Some (VNum 60)).
Proof. eexists. split; [reflexivity|]. cbn. splits_and. eexists. split; reflexivity. Qed.

(** Assumptions of all theorems of this file together (listed one by one in
    ASSUMPTIONS.txt). *)
Definition propsOptions :=
  (@C25_dispatch,
   @C25_options,
   @C25_run,
   @C25_lbfgsb_args,
   @C25_maxiter_refuted,
   @C25_second_run_refuted).
Print Assumptions propsOptions.
