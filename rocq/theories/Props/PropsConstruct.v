(** C52: constructor parameters. *)
From Verif.Model Require Import Construct.
From Verif.Spec Require Import OptionRules Constructed.
From Verif.Proofs Require Import OptionFacts ConstructFacts.
Local Open Scope string_scope.
Local Open Scope list_scope.
Set Bullet Behavior "Strict Subproofs".

Section C52.
Variable ev : nat -> val.
Variable check : string -> bool.
Variable setter : string -> option (val -> dict -> Res dict).

(** Every class, every parameter: the attribute holds the value given, unless
    it is one of those listed in [overwritten]. *)
Theorem C52_effect_partial (c : cls) (args p o : dict) (k : string) (v : val) :
  construct ev check setter c args (VDict p) = Ok o ->
  distinct p -> says p k v -> plain setter k -> plain setter "params" -> ~ In "params" (map fst p) ->
  ~ ignores_params c -> ~ In k (overwritten c) ->
  dget o k = Some v.
Proof.
  intros E D S P Pp Np Ni No. unfold construct in E.
  assert (Hp : dget (dset "params" (VDict p) args) "params" = Some (VDict p)) by apply dget_eq.
  assert (A : exists ns, after (program c) = Some ns /\ ~ In k ns /\ ~ In "params" (flat_map name_of (program c))).
  { assert (B : forallb (fun n => negb (n =? "params")%string) (flat_map name_of (program c)) = true ->
                ~ In "params" (flat_map name_of (program c))).
    { intros F I. rewrite forallb_forall in F. apply F in I. discriminate. }
    destruct c; try (exfalso; apply Ni; reflexivity);
      try (eexists; split; [vm_compute; reflexivity|]; split; [exact No|apply B; vm_compute; reflexivity]).
    destruct fix_freqs; (eexists; split; [vm_compute; reflexivity|]; split; [exact No|apply B; vm_compute; reflexivity]). }
  destruct A as (ns & A1 & A2 & A3).
  eapply (run_get ev check setter k p v P Pp D (dget_notin _ _ Np) (dget_in _ _ _ D S)); eauto.
Qed.

(** The classes for which nothing is excepted. *)
Theorem C52_effect (c : cls) (args p o : dict) (k : string) (v : val) :
  In c [DynGenMat; DynUnitary; DynSymplectic; FidUnitary; FidTraceDiff; FidTraceDiffApprox;
        PropApproxGrad; PropDiag; PropAugMat; PropFrechet; TslotUpdateAll; TslotDynUpdate; OptBase;
        PgBase; PgRandom; PgRndFourier; PgRndWaves; PgRndWalk1; PgRndWalk2; PgLinear; PgPeriodic; PgGaussian; PgGaussianEdge; PgCrab] ->
  construct ev check setter c args (VDict p) = Ok o ->
  distinct p -> says p k v -> plain setter k -> plain setter "params" -> ~ In "params" (map fst p) ->
  dget o k = Some v.
Proof.
  intros Ic E D S P Pp Np. eapply C52_effect_partial; eauto.
  - unfold ignores_params. intros ->. cbn in Ic. intuition discriminate.
  - cbn in Ic. repeat (destruct Ic as [<-|Ic]; [cbn; tauto|]). contradiction.
Qed.

(** The excepted ones hold a fixed value whatever the parameters are. *)
Theorem C52_overwritten_refuted (c : cls) (k : string) :
  In k (overwritten c) -> k <> "num_basis_funcs" -> plain setter k ->
  exists n, forall args params o, construct ev check setter c args params = Ok o -> dget o k = Some (ev n).
Proof.
  intros I N P.
  assert (F : exists n, final k (program c) = Some n).
  { destruct c; try destruct fix_freqs; cbn in I; try contradiction;
      repeat (destruct I as [<-|I]; [eexists; vm_compute; reflexivity|]); try contradiction.
    destruct I as [<-|[]]. contradiction. }
  destruct F as [n F]. exists n. intros args params o E. eapply final_ok; eauto.
Qed.
End C52.

(** The optimiser of the default method ignores [max_metric_corr], the CRAB
    optimiser its tolerances, and the CRAB generator its frequency options. *)
Theorem C52_named_refuted :
  let make c p := construct VOther (fun _ => true) (fun _ => None) c [] (VDict p) in
  (exists o n, make OptLBFGSB [("max_metric_corr", VNum 5); ("amp_lbound", VNum (-1))] = Ok o /\
     dget o "max_metric_corr" = Some (VOther n) /\ dget o "amp_lbound" = Some (VNum (-1))) /\
  (exists o n, make OptCrabFmin [("xtol", VNum 5)] = Ok o /\ dget o "xtol" = Some (VOther n)) /\
  (exists o n, make (PgCrabFourier true) [("randomize_freqs", VBool false); ("scaling", VNum 2)] = Ok o /\
     dget o "randomize_freqs" = Some (VOther n) /\ dget o "scaling" = Some (VNum 2)).
Proof. cbv zeta. repeat split; eexists; eexists; (split; [vm_compute; reflexivity|]); vm_compute; auto. Qed.
Example C52_nonvacuous :
  exists o, construct VOther (fun _ => true) (fun _ => None) DynUnitary [] (VDict [("ctrl_amps", VNum 3); ("oper_dtype", VStr "Qobj")]) = Ok o /\
    plain (fun _ => None) "ctrl_amps" /\ distinct [("ctrl_amps", VNum 3); ("oper_dtype", VStr "Qobj")] /\
    dget o "ctrl_amps" = Some (VNum 3) /\ dget o "oper_dtype" = Some (VStr "Qobj").
Proof.
  eexists. split; [vm_compute; reflexivity|]. split; [split; auto; discriminate|]. split.
  - unfold distinct. cbn. repeat constructor; cbn; intuition discriminate.
  - split; vm_compute; reflexivity.
Qed.

(** Assumptions of all theorems of this file together (listed one by one in
    ASSUMPTIONS.txt). *)
Definition propsConstruct :=
  (@C52_effect_partial,
   @C52_effect,
   @C52_overwritten_refuted,
   @C52_named_refuted).
Print Assumptions propsConstruct.
