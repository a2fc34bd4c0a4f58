(** The parts that [assemble] builds. *)
From Verif.Model Require Import Build.
From Verif.Spec Require Import OptionRules Constructed Builds.
From Verif.Proofs Require Import OptionFacts ConstructFacts BuildFacts.
Local Open Scope string_scope.
Local Open Scope list_scope.
Set Bullet Behavior "Strict Subproofs".

Tactic Notation "step" hyp(H) ident(x) ident(E) :=
  match type of H with bind ?m _ = _ => destruct m as [x|] eqn:E; [cbn [bind] in H|discriminate H] end.

Section Parts.
Variable make : klass -> list obj -> dict -> val -> Res dict.
Variable setter : klass -> string -> option (val -> dict -> Res dict).
Variable named : klass -> string -> bool.
Variable gen : nat -> obj -> Res (obj * val).
Notation new := (new make).
Notation assign := (assign setter).
Notation apply := (apply setter).
Notation apply_method := (apply_method setter named).
Notation plain c := (plain (setter c)).

Lemma new_class c os d p o : new c os d p = Ok o -> o_class o = c.
Proof. unfold Build.new. intros H. step H x E. injection H as <-. reflexivity. Qed.
Lemma assign_class k v o o' : assign k v o = Ok o' -> o_class o' = o_class o.
Proof. unfold Build.assign. intros H. step H x E. injection H as <-. reflexivity. Qed.
Lemma assign_get k k' v o o' : assign k' v o = Ok o' -> plain (o_class o) k ->
  dget (o_attrs o') k = if (k' =? k)%string then Some v else dget (o_attrs o) k.
Proof. unfold Build.assign. intros H P. step H x E. injection H as <-. cbn. now apply (setattr_get (setter (o_class o)) k k' v). Qed.
Lemma apply_class p o o' : apply p o = Ok o' -> o_class o' = o_class o.
Proof. unfold Build.apply. intros H. step H x E. injection H as <-. reflexivity. Qed.
Lemma apply_gives d k v o o' : apply (VDict d) o = Ok o' -> plain (o_class o) k -> distinct d -> dget d k = Some v ->
  dget (o_attrs o') k = Some v.
Proof.
  unfold Build.apply, apply_params. intros H P D G. step H x E. injection H as <-. cbn.
  destruct d as [|kv d]; [discriminate|]. cbn [truthy bind] in E. step E y E1.
  rewrite (set_all_get (setter (o_class o)) k (kv :: d) P D _ _ E), G. reflexivity.
Qed.

Inductive steps : list (string * val) -> obj -> obj -> Prop :=
| st_nil o : steps [] o o
| st_cons k v l o o1 o' : assign k v o = Ok o1 -> steps l o1 o' -> steps ((k, v) :: l) o o'.
Lemma steps_class l o o' : steps l o o' -> o_class o' = o_class o.
Proof. induction 1; auto. rewrite IHsteps. eapply assign_class; eauto. Qed.
Fixpoint final_of (l : list (string * val)) (k : string) : option val :=
  match l with [] => None | (q, v) :: l' => or_else (final_of l' k) (if (q =? k)%string then Some v else None) end.
Lemma steps_get l o o' : steps l o o' -> forall k, plain (o_class o) k ->
  dget (o_attrs o') k = or_else (final_of l k) (dget (o_attrs o) k).
Proof.
  induction 1 as [|q v l o o1 o' A S IH]; intros k P; [reflexivity|]. cbn [final_of].
  rewrite (IH k) by (rewrite (assign_class _ _ _ _ A); exact P). rewrite (assign_get k q v o o1 A P).
  destruct (final_of l k), (q =? k)%string; reflexivity.
Qed.
Lemma steps_app l l' o o1 o2 : steps l o o1 -> steps l' o1 o2 -> steps (l ++ l') o o2.
Proof. induction 1; cbn; auto. intros. econstructor; eauto. Qed.
Lemma final_none l k : ~ In k (map fst l) -> final_of l k = None.
Proof.
  induction l as [|[q v] l IH]; cbn; auto. intros N. rewrite IH by auto. destruct (String.eqb_spec q k); [exfalso; auto|reflexivity].
Qed.

Lemma same_class d c : (d = Frechet \/ d = Diag \/ d = TraceDiff \/ d = FidUnit) -> klass_eqb d c = true -> d = c.
Proof. intros [-> | [-> | [-> | ->]]]; destruct c; cbn; congruence. Qed.
Lemma replace_class w os o o' : replace_comp make w os o klass_eqb = Ok o' ->
  (o_class o = Frechet \/ o_class o = Diag \/ o_class o = TraceDiff \/ o_class o = FidUnit) ->
  o_class o' = match w with None => o_class o | Some c => c end.
Proof.
  unfold replace_comp. destruct w as [c|]; [|congruence]. intros H D. destruct (klass_eqb (o_class o) c) eqn:Q.
  - injection H as <-. now apply same_class.
  - eapply new_class; eauto.
Qed.

(** Dynamics and computers. *)
Lemma build_dyn_inv h a m pt it cfg dyn prop fid tslot : build_dyn make setter h a m pt it = Ok (cfg, dyn, prop, fid, tslot) ->
  exists c wp wf, choose_dyn (a_dyn_type a) = Ok c /\ choose_prop pt = Ok wp /\ choose_fid (a_fid_type a) = Ok wf /\
    (exists o1 o2, o_class o1 = c /\ apply (load h (a_dyn_params a)) o1 = Ok o2 /\
       steps [("_drift_dyn_gen_checked", VBool true); ("_ctrl_dyn_gen_checked", VBool true)] o2 dyn) /\
    (exists o, o_class o = match wp with None => default_prop c | Some k => k end /\ apply (load h (a_prop_params a)) o = Ok prop) /\
    (exists o, o_class o = match wf with None => default_fid c | Some k => k end /\ apply (load h (a_fid_params a)) o = Ok fid) /\
    (exists o, o_class o = UpdateAll /\ apply (load h (a_tslot_params a)) o = Ok tslot) /\
    (exists o, steps [("optim_method", m); ("dyn_type", a_dyn_type a); ("prop_type", pt); ("fid_type", a_fid_type a); ("init_pulse_type", it)] o cfg /\ o_class o = Config).
Proof.
  unfold build_dyn. intros H.
  step H c0 E0. step H c1 E1. step H c2 E2. step H c3 E3. step H c4 E4. step H c5 E5. step H c EC.
  step H d0 D0. step H t0 T0. step H p0 P0. step H f0 F0. step H d1 D1. step H d2 D2. step H d3 D3.
  step H wp WP. step H p1 P1. step H p2 P2. step H wf WF. step H f1 F1. step H f2 F2. step H t1 T1.
  injection H as <- <- <- <- <-. exists c, wp, wf. split; [auto|]. split; [auto|]. split; [auto|]. split; [|split; [|split; [|split]]].
  - exists d0, d1. split; [eapply new_class; eauto|]. split; [auto|]. econstructor; [exact D2|]. econstructor; [exact D3|]. constructor.
  - exists p1. split; [|auto]. apply new_class in P0. rewrite (replace_class _ _ _ _ P1), P0.
    + reflexivity.
    + rewrite P0. destruct c; cbn; auto.
  - exists f1. split; [|auto]. apply new_class in F0. rewrite (replace_class _ _ _ _ F1), F0.
    + reflexivity.
    + rewrite F0. destruct c; cbn; auto.
  - exists t0. split; [eapply new_class; eauto|auto].
  - exists c0. split; [|eapply new_class; eauto].
    econstructor; [exact E1|]. econstructor; [exact E2|]. econstructor; [exact E3|]. econstructor; [exact E4|]. econstructor; [exact E5|]. constructor.
Qed.

(** Optimiser. *)
Definition stat_steps (a : args) (g : bool) : list (string * val) := if g then [("stats", stats_of a)] else [].
Lemma build_opt_inv h a m cfg dyn dyn' opt : build_opt make setter named h a m cfg dyn = Ok (dyn', opt) ->
  exists c o0 o1 o2 tc0 tc o3 o4 g, choose_opt (a_alg a) m = Ok c /\ o_class o0 = c /\ make c [cfg; dyn] [] VNone = Ok (o_attrs o0) /\
    steps [("alg", a_alg a); ("method", m); ("amp_lbound", a_amp_lbound a); ("amp_ubound", a_amp_ubound a)] o0 o1 /\
    apply (load h (a_optim_params a)) o1 = Ok o2 /\ o_class tc0 = TermConds /\
    steps [("fid_err_targ", a_fid_err_targ a); ("min_gradient_norm", a_min_grad a); ("max_iterations", a_max_iter a); ("max_wall_time", a_max_wall_time a)] tc0 tc /\
    assign "termination_conditions" (VObj (o_attrs tc)) o2 = Ok o3 /\
    apply_method (load h (a_method_params a)) o3 = Ok o4 /\
    truthy (a_gen_stats a) = Ok g /\ steps (stat_steps a g) o4 opt /\ steps (stat_steps a g) dyn dyn'.
Proof.
  unfold build_opt. intros H. step H c EC. step H o0 E0. step H o1 E1. step H o2 E2. step H o3 E3. step H o4 E4. step H o5 E5.
  step H t0 T0. step H t1 T1. step H t2 T2. step H t3 T3. step H t4 T4. step H o6 E6. step H o7 E7. step H g G.
  exists c, o0, o4, o5, t0, t4, o6, o7, g. split; [auto|]. split; [eapply new_class; eauto|].
  split; [unfold Build.new in E0; step E0 y Ey; injection E0 as <-; auto|].
  split; [repeat (econstructor; [eassumption|]); constructor|]. split; [auto|]. split; [eapply new_class; eauto|].
  split; [repeat (econstructor; [eassumption|]); constructor|]. split; [auto|]. split; [auto|]. split; [auto|].
  destruct g; cbn [stat_steps].
  - step H d1 D1. step H o8 O8. injection H as <- <-. split; (econstructor; [eassumption|constructor]).
  - injection H as <- <-. split; constructor.
Qed.

(** System. *)
Definition system_steps (a : args) (ctrls : val) : list (string * val) :=
  [("drift_dyn_gen", a_drift a); ("ctrl_dyn_gen", ctrls); ("initial", a_initial a); ("target", a_target a)] ++
  (if is_none (a_tau a) then [("num_tslots", a_num_tslots a); ("evo_time", a_evo_time a)] else [("tau", a_tau a)]).
Lemma configure_inv a ctrls dyn dyn' : configure setter a ctrls dyn = Ok dyn' -> steps (system_steps a ctrls) dyn dyn'.
Proof.
  unfold configure. intros H. step H d1 D1. step H d2 D2. step H d3 D3. step H d4 D4.
  eapply steps_app; [repeat (econstructor; [eassumption|]); constructor|].
  destruct (is_none (a_tau a)).
  - destruct (divides _ _); [|discriminate]. step H d5 D5. econstructor; [exact D5|]. econstructor; [exact H|constructor].
  - econstructor; [exact H|constructor].
Qed.

Lemma assemble_inv h a ctrls n b : assemble make setter named gen h a ctrls n = Ok b ->
  exists m pt it dyn0 dyn1, alg_defaults a = Ok (m, pt, it) /\
    build_dyn make setter h a m pt it = Ok (b_cfg b, dyn0, b_prop b, b_fid b, b_tslot b) /\
    build_opt make setter named h a m (b_cfg b) dyn0 = Ok (dyn1, b_opt b) /\
    configure setter a ctrls dyn1 = Ok (b_dyn b) /\
    build_pgen make setter gen h a it (b_dyn b) n = Ok (b_pgen b).
Proof.
  unfold assemble. intros H. step H x E. destruct x as [[m pt] it]. step H x E1. destruct x as [[[[cfg dyn] prop] fid] tslot].
  step H x E2. destruct x as [dyn1 opt]. step H dyn2 E3. step H pg E4. injection H as <-. cbn.
  exists m, pt, it, dyn, dyn1. auto.
Qed.

(** ** Method parameters do not disturb the rest *)
Lemma dispatch_frame c (tn xn : string -> bool) k p : plain c k -> ~ In k (map fst p) -> k <> "termination_conditions" ->
  forall o un o' un', dispatch (named c) tn xn (setter c) p (o, un) = Ok (o', un') -> dget o' k = dget o k.
Proof.
  intros P. induction p as [|[q v] p IH]; cbn [map fst dispatch]; intros N T o un o' un' H.
  - injection H as <- <-. reflexivity.
  - step H s E. destruct s as [o1 un1]. rewrite (IH (fun I => N (or_intror I)) T _ _ _ _ H).
    destruct (hasattr _ o q).
    + step E o2 E2. injection E as <- <-. rewrite (setattr_get (setter c) k q v o o2 P E2).
      destruct (String.eqb_spec q k); [subst; exfalso; apply N; left; auto|auto].
    + step E t E2. destruct (tc_hasattr _ _ t q).
      * destruct t; try discriminate. injection E as <- <-. rewrite dget_ne; auto.
      * injection E as <- <-. reflexivity.
Qed.
Lemma dispatch_tc c (tn xn : string -> bool) p : plain c "termination_conditions" -> ~ In "termination_conditions" (map fst p) ->
  forall o un o' un' e, dispatch (named c) tn xn (setter c) p (o, un) = Ok (o', un') -> term_conds o e ->
  exists e', term_conds o' e' /\ forall k, ~ In k (map fst p) -> dget e' k = dget e k.
Proof.
  intros P. induction p as [|[q v] p IH]; cbn [map fst dispatch]; intros N o un o' un' e H T.
  - injection H as <- <-. exists e. auto.
  - step H s E. destruct s as [o1 un1].
    assert (T1 : exists e1, term_conds o1 e1 /\ forall k, k <> q -> dget e1 k = dget e k).
    { destruct (hasattr _ o q).
      - step E o2 E2. injection E as <- <-. exists e. split; [|auto]. unfold term_conds.
        rewrite (setattr_get (setter c) _ q v o o2 P E2). destruct (String.eqb_spec q "termination_conditions"); [subst; exfalso; apply N; left; auto|auto].
      - step E t E2. unfold getattr in E2. unfold term_conds in T. rewrite T in E2. injection E2 as <-. destruct (tc_hasattr _ _ _ q).
        + injection E as <- <-. exists (dset q v e). split; [unfold term_conds; now rewrite dget_eq|]. intros k Nk. now rewrite dget_ne.
        + injection E as <- <-. exists e. auto. }
    destruct T1 as (e1 & T1 & G1). destruct (IH (fun I => N (or_intror I)) _ _ _ _ _ H T1) as (e' & T' & G').
    exists e'. split; [auto|]. intros k Nk. cbn in Nk. rewrite G' by tauto. apply G1. intros ->. tauto.
Qed.
Lemma apply_method_frame d k o o' : apply_method (VDict d) o = Ok o' -> d <> [] -> plain (o_class o) k ->
  ~ In k (map fst d) -> ~ bookkeeping k -> o_class o' = o_class o /\ dget (o_attrs o') k = dget (o_attrs o) k.
Proof.
  unfold Build.apply_method, apply_method_params. intros H Nd P N B. step H x E. injection H as <-. cbn. split; [auto|].
  destruct d as [|kv d]; [contradiction|]. cbn [truthy bind] in E. step E s E1. destruct s as [o1 un].
  assert (G : dget o1 k = dget (o_attrs o) k).
  { rewrite (dispatch_frame _ _ _ k (kv :: d) P N) with (2 := E1); [|intros ->; apply B; left; auto].
    rewrite dget_ne; auto. intros ->. apply B. unfold bookkeeping; auto. }
  destruct (List.length un =? 0)%nat; [injection E as <-; auto|]. step E mo E2.
  assert (Nk : k <> "method_options") by (intros ->; apply B; unfold bookkeeping; auto).
  destruct mo; injection E as <-; rewrite dget_ne; auto.
Qed.
Lemma apply_method_tc d o o' e : apply_method (VDict d) o = Ok o' -> d <> [] -> plain (o_class o) "termination_conditions" ->
  ~ In "termination_conditions" (map fst d) -> term_conds (o_attrs o) e ->
  exists e', term_conds (o_attrs o') e' /\ forall k, ~ In k (map fst d) -> dget e' k = dget e k.
Proof.
  unfold Build.apply_method, apply_method_params. intros H Nd P N T. step H x E. injection H as <-. cbn.
  destruct d as [|kv d]; [contradiction|]. cbn [truthy bind] in E. step E s E1. destruct s as [o1 un].
  destruct (dispatch_tc _ _ _ (kv :: d) P N _ _ _ _ e E1) as (e' & T' & G).
  { unfold term_conds. now rewrite dget_ne. }
  exists e'. split; [|auto]. unfold term_conds.
  destruct (List.length un =? 0)%nat; [injection E as <-; auto|]. step E mo E2.
  destruct mo; injection E as <-; rewrite dget_ne; auto; discriminate.
Qed.
Lemma apply_method_stored d o o' : apply_method (VDict d) o = Ok o' -> d <> [] -> plain (o_class o) "method_params" ->
  ~ In "method_params" (map fst d) -> dget (o_attrs o') "method_params" = Some (VDict d).
Proof.
  unfold Build.apply_method, apply_method_params. intros H Nd P N. step H x E. injection H as <-. cbn.
  destruct d as [|kv d]; [contradiction|]. cbn [truthy bind] in E. step E s E1. destruct s as [o1 un].
  assert (G : dget o1 "method_params" = Some (VDict (kv :: d))).
  { rewrite (dispatch_frame _ _ _ _ (kv :: d) P N) with (2 := E1); [|discriminate]. apply dget_eq. }
  destruct (List.length un =? 0)%nat; [injection E as <-; auto|]. step E mo E2.
  destruct mo; injection E as <-; rewrite dget_ne; auto; discriminate.
Qed.

Lemma dispatch_named c (tn xn : string -> bool) k v p : plain c k -> named c k = true -> k <> "termination_conditions" -> distinct p -> dget p k = Some v ->
  forall o un o' un', dispatch (named c) tn xn (setter c) p (o, un) = Ok (o', un') -> dget o' k = Some v.
Proof.
  intros P Nk T. unfold distinct. induction p as [|[q w] p IH]; cbn [dget]; intros D G o un o' un' H; [discriminate|].
  cbn [map fst] in D. inversion D as [|x l Nq D' Eq]; subst. cbn [dispatch] in H. step H s E. destruct s as [o1 un1].
  destruct (String.eqb_spec q k) as [->|Nqk].
  - injection G as ->. rewrite (dispatch_frame _ _ _ k p P Nq T _ _ _ _ H). unfold hasattr in E. rewrite Nk in E.
    rewrite ?orb_true_r in E. cbn [orb] in E. step E o2 E2. injection E as <- <-. rewrite (setattr_get (setter c) k k v o o2 P E2), String.eqb_refl. reflexivity.
  - exact (IH D' G _ _ _ _ H).
Qed.
Lemma apply_method_named d k v o o' : apply_method (VDict d) o = Ok o' -> plain (o_class o) k -> named (o_class o) k = true ->
  ~ bookkeeping k -> distinct d -> dget d k = Some v -> dget (o_attrs o') k = Some v.
Proof.
  unfold Build.apply_method, apply_method_params. intros H P Nk B D G. step H x E. injection H as <-. cbn.
  destruct d as [|kv d]; [discriminate|]. cbn [truthy bind] in E. step E s E1. destruct s as [o1 un].
  assert (G1 : dget o1 k = Some v).
  { refine (dispatch_named _ _ _ k v (kv :: d) P Nk _ D G _ _ _ _ E1). intros ->. apply B. left. auto. }
  destruct (List.length un =? 0)%nat; [injection E as <-; auto|]. step E mo E2.
  assert (Nmo : k <> "method_options") by (intros ->; apply B; unfold bookkeeping; auto).
  destruct mo; injection E as <-; rewrite dget_ne; auto.
Qed.
(** Without parameters, a freshly built object stays as it is. *)
Lemma apply_other p k o o' h : apply (load h p) o = Ok o' -> keyed h -> plain (o_class o) k -> given h p k = None -> k <> "params" ->
  (forall v, dget (o_attrs o) "params" = Some v -> v = VNone) -> dget (o_attrs o') k = dget (o_attrs o) k.
Proof.
  unfold Build.apply, apply_params. intros H K P G Np F. step H x E. injection H as <-. cbn [o_attrs].
  change (dget x k = dget (o_attrs o) k).
  assert (Fr : forall y, (params <- getattr (o_attrs o) "params";; match params with VDict p => q <- setattr (setter (o_class o)) "params" params (o_attrs o);; set_all (setter (o_class o)) p q | _ => Ok (o_attrs o) end) = Ok y -> y = o_attrs o).
  { unfold getattr. destruct (dget (o_attrs o) "params") as [w|] eqn:Ew; [|discriminate]. rewrite (F w eq_refl). cbn. congruence. }
  destruct p as [r|[w|]]; cbn [load truthy bind] in E.
  - cbn in G. pose proof (K r) as D. destruct (at_ h r) as [|kv d]; cbn [bind] in E; [now rewrite (Fr _ E)|].
    step E y E1. rewrite (set_all_get (setter (o_class o)) k (kv :: d) P D _ _ E), G. cbn [or_else].
    rewrite (setattr_get (setter (o_class o)) k "params" _ _ _ P E1). destruct (String.eqb_spec "params" k); congruence.
  - injection E as <-. reflexivity.
  - now rewrite (Fr _ E).
Qed.
Lemma apply_method_other p k o o' h : apply_method (load h p) o = Ok o' -> plain (o_class o) k -> keyed h -> given h p k = None -> ~ bookkeeping k ->
  (forall v, dget (o_attrs o) "method_params" = Some v -> v = VNone) -> o_class o' = o_class o /\ dget (o_attrs o') k = dget (o_attrs o) k.
Proof.
  intros H P K G B F.
  assert (Fr : forall w, truthy w = Ok false -> apply_method w o = Ok o' -> o' = o).
  { intros w T. unfold Build.apply_method, apply_method_params. rewrite T. cbn [bind]. unfold getattr.
    destruct (dget (o_attrs o) "method_params") as [u|] eqn:Eu; [|discriminate]. rewrite (F u eq_refl). cbn [bind]. intros [= <-]. destruct o; reflexivity. }
  destruct p as [r|[w|]]; cbn [load] in H.
  - cbn in G. destruct (at_ h r) as [|kv d] eqn:Ed; [now rewrite (Fr (VDict []) eq_refl H)|].
    eapply apply_method_frame; eauto; [discriminate|]. intros I. apply in_map_iff in I as ([q v] & Hq & I). cbn in Hq. subst q.
    rewrite (dget_in (kv :: d) k v) in G; [discriminate| |exact I]. rewrite <- Ed. apply K.
  - unfold Build.apply_method, apply_method_params in H. cbn [truthy bind] in H. injection H as <-. destruct o; auto.
  - now rewrite (Fr VNone eq_refl H).
Qed.
Lemma apply_method_tc_other p o o' h e : apply_method (load h p) o = Ok o' -> plain (o_class o) "termination_conditions" -> keyed h ->
  given h p "termination_conditions" = None -> term_conds (o_attrs o) e ->
  (forall v, dget (o_attrs o) "method_params" = Some v -> v = VNone) ->
  exists e', term_conds (o_attrs o') e' /\ forall k, given h p k = None -> dget e' k = dget e k.
Proof.
  intros H P K G T F.
  assert (Fr : forall w, truthy w = Ok false -> apply_method w o = Ok o' -> o' = o).
  { intros w Tw. unfold Build.apply_method, apply_method_params. rewrite Tw. cbn [bind]. unfold getattr.
    destruct (dget (o_attrs o) "method_params") as [u|] eqn:Eu; [|discriminate]. rewrite (F u eq_refl). cbn [bind]. intros [= <-]. destruct o; reflexivity. }
  destruct p as [r|[w|]]; cbn [load] in H.
  - assert (Iff : forall k, dget (at_ h r) k = None -> ~ In k (map fst (at_ h r))).
    { intros k Gk I. apply in_map_iff in I as ([q v] & Hq & I). cbn in Hq. subst q. rewrite (dget_in _ k v (K r) I) in Gk. discriminate. }
    destruct (at_ h r) as [|kv d] eqn:Ed; [rewrite (Fr (VDict []) eq_refl H); eauto|].
    destruct (apply_method_tc _ _ _ e H ltac:(discriminate) P) as (e' & T' & G'); auto.
    + apply Iff. cbn [given] in G. rewrite Ed in G. exact G.
    + exists e'. split; [auto|]. intros k Gk. cbn [given] in Gk. rewrite Ed in Gk. auto.
  - unfold Build.apply_method, apply_method_params in H. cbn [truthy bind] in H. injection H as <-. exists e. destruct o; auto.
  - rewrite (Fr VNone eq_refl H). eauto.
Qed.

(** ** CRAB generators *)
Notation crab_late := crab_own.
Record crab_made (a : args) (dyn : obj) (nc ff ics cpp : val) (action : option val) (j : nat) (c : obj) : Prop := {
  cm_class : o_class c = CrabFourier;
  cm_made : exists d, make CrabFourier [dyn] [("num_coeffs", nc); ("fix_freqs", ff)] VNone = Ok d /\
    (is_dict cpp = false -> forall k, plain CrabFourier k -> ~ In k crab_late -> k <> "scaling" -> dget (o_attrs c) k = dget d k);
  cm_lbound : plain CrabFourier "lbound" -> exists lb, bound_for (a_amp_lbound a) j = Ok lb /\ dget (o_attrs c) "lbound" = Some lb;
  cm_ubound : plain CrabFourier "ubound" -> exists ub, bound_for (a_amp_ubound a) j = Ok ub /\ dget (o_attrs c) "ubound" = Some ub;
  cm_params : forall d k v, cpp = VDict d -> distinct d -> plain CrabFourier k -> ~ In k crab_late -> dget d k = Some v -> dget (o_attrs c) k = Some v;
  cm_scaling : is_dict cpp = false -> is_none ics = false -> plain CrabFourier "scaling" -> dget (o_attrs c) "scaling" = Some ics;
  cm_action : forall v, action = Some v -> truthy v = Ok true -> plain CrabFourier "guess_pulse_action" -> dget (o_attrs c) "guess_pulse_action" = Some v }.

Lemma crab_gen_inv a dyn nc ff ics cpp ramp j g c g' : crab_gen make setter gen a dyn nc ff ics cpp ramp j g = Ok (c, g') ->
  crab_made a dyn nc ff ics cpp (option_map snd g) j c /\ option_map snd g' = option_map snd g.
Proof.
  unfold crab_gen. intros H. step H c0 E0. step H c1 E1. step H c2 E2. step H lb LB. step H ub UB. step H c3 E3. step H c4 E4.
  step H x E5. destruct x as [c5 g5]. step H c6 E6. injection H as <- <-.
  pose proof (new_class _ _ _ _ _ E0) as C0.
  assert (C1 : o_class c1 = CrabFourier /\ (is_none ics = false -> plain CrabFourier "scaling" -> dget (o_attrs c1) "scaling" = Some ics)).
  { destruct (is_none ics).
    - injection E1 as <-. split; [auto|discriminate].
    - split; [rewrite (assign_class _ _ _ _ E1); auto|]. intros _ P. rewrite (assign_get "scaling" _ _ _ _ E1), String.eqb_refl by (rewrite C0; auto). reflexivity. }
  destruct C1 as [C1 S1].
  assert (C2 : o_class c2 = CrabFourier /\ (is_dict cpp = false -> c2 = c1) /\
     (forall d k v, cpp = VDict d -> distinct d -> plain CrabFourier k -> dget d k = Some v -> dget (o_attrs c2) k = Some v)).
  { destruct (is_dict cpp) eqn:Dc.
    - split; [rewrite (apply_class _ _ _ E2); auto|]. split; [discriminate|]. intros d k v -> D P G.
      eapply apply_gives; eauto. rewrite C1. auto.
    - injection E2 as <-. split; [auto|]. split; [auto|]. intros d k v -> _. discriminate. }
  destruct C2 as (C2 & N2 & G2).
  assert (C3 : o_class c3 = CrabFourier) by (rewrite (assign_class _ _ _ _ E3); auto).
  assert (C4 : o_class c4 = CrabFourier) by (rewrite (assign_class _ _ _ _ E4); auto).
  assert (G4 : forall k, plain CrabFourier k -> dget (o_attrs c4) k =
     if ("ubound" =? k)%string then Some ub else if ("lbound" =? k)%string then Some lb else dget (o_attrs c2) k).
  { intros k P. rewrite (assign_get k _ _ _ _ E4), (assign_get k _ _ _ _ E3) by (rewrite ?C3, ?C2; auto). reflexivity. }
  assert (C5 : o_class c5 = CrabFourier /\ option_map snd g5 = option_map snd g /\
     (forall k, plain CrabFourier k -> k <> "guess_pulse" -> k <> "guess_pulse_action" -> dget (o_attrs c5) k = dget (o_attrs c4) k) /\
     (forall v, option_map snd g = Some v -> truthy v = Ok true -> plain CrabFourier "guess_pulse_action" -> dget (o_attrs c5) "guess_pulse_action" = Some v)).
  { destruct g as [[gp act]|].
    - step E5 g1 A1. step E5 g2 A2. step E5 x A3. destruct x as [g3 pulse]. step E5 d1 A4. step E5 t A5. step E5 d2 A6. injection E5 as <- <-.
      assert (D1 : o_class d1 = CrabFourier) by (rewrite (assign_class _ _ _ _ A4); auto).
      destruct t.
      + split; [rewrite (assign_class _ _ _ _ A6); auto|]. split; [reflexivity|]. split.
        * intros k P N1 N3. rewrite (assign_get k _ _ _ _ A6), (assign_get k _ _ _ _ A4) by (rewrite ?D1, ?C4; auto).
          destruct (String.eqb_spec "guess_pulse_action" k); [congruence|]. destruct (String.eqb_spec "guess_pulse" k); [congruence|auto].
        * cbn. intros v [= <-] _ P. rewrite (assign_get _ _ _ _ _ A6), String.eqb_refl by (rewrite D1; auto). reflexivity.
      + injection A6 as <-. split; [auto|]. split; [reflexivity|]. split.
        * intros k P N1 N3. rewrite (assign_get k _ _ _ _ A4) by (rewrite C4; auto). destruct (String.eqb_spec "guess_pulse" k); [congruence|auto].
        * cbn. intros v [= <-]. congruence.
    - injection E5 as <- <-. split; [auto|]. split; [auto|]. split; [auto|discriminate]. }
  destruct C5 as (C5 & M5 & G5 & A5).
  assert (C6 : o_class c6 = CrabFourier /\ forall k, plain CrabFourier k -> k <> "ramping_pulse" -> dget (o_attrs c6) k = dget (o_attrs c5) k).
  { destruct ramp as [r|].
    - step E6 x A1. destruct x as [r1 pulse]. split; [rewrite (assign_class _ _ _ _ E6); auto|]. intros k P N.
      rewrite (assign_get k _ _ _ _ E6) by (rewrite C5; auto). destruct (String.eqb_spec "ramping_pulse" k); [congruence|auto].
    - injection E6 as <-. auto. }
  destruct C6 as [C6 G6].
  split; [|exact M5]. constructor; auto.
  - unfold Build.new in E0. step E0 d Ed. injection E0 as <-. exists d. split; [auto|]. intros Dc k P N Ns. unfold crab_own in N. cbn in N.
    rewrite G6 by (auto; intros ->; apply N; auto 10). rewrite G5 by (auto; intros ->; apply N; auto 10). rewrite G4 by auto.
    destruct (String.eqb_spec "ubound" k); [subst; exfalso; apply N; auto|]. destruct (String.eqb_spec "lbound" k); [subst; exfalso; apply N; auto|].
    rewrite (N2 Dc). destruct (is_none ics); [injection E1 as <-; reflexivity|]. rewrite (assign_get k _ _ _ _ E1) by auto.
    destruct (String.eqb_spec "scaling" k); [congruence|reflexivity].
  - intros P. exists lb. split; [auto|]. rewrite G6, G5, G4 by (auto; discriminate). reflexivity.
  - intros P. exists ub. split; [auto|]. rewrite G6, G5, G4 by (auto; discriminate). reflexivity.
  - intros d k v Ec D P N G. unfold crab_own in N. cbn in N.
    rewrite G6 by (auto; intros ->; apply N; auto 10). rewrite G5 by (auto; intros ->; apply N; auto 10). rewrite G4 by auto.
    destruct (String.eqb_spec "ubound" k); [subst; exfalso; apply N; auto|]. destruct (String.eqb_spec "lbound" k); [subst; exfalso; apply N; auto|].
    eapply G2; eauto.
  - intros Dc Ni P. rewrite G6, G5, G4 by (auto; discriminate). cbn. rewrite (N2 Dc). auto.
  - intros v Ha T P. rewrite G6 by (auto; discriminate). auto.
Qed.
Lemma crab_gens_inv a dyn nc ff ics cpp ramp js : forall g l, crab_gens make setter gen a dyn nc ff ics cpp ramp js g = Ok l ->
  Forall2 (crab_made a dyn nc ff ics cpp (option_map snd g)) js l.
Proof.
  induction js as [|j js IH]; cbn [crab_gens]; intros g l H; [injection H as <-; constructor|].
  step H x E. destruct x as [c g1]. step H l1 E1. injection H as <-. destruct (crab_gen_inv _ _ _ _ _ _ _ _ _ _ _ E) as [M A].
  constructor; auto. rewrite <- A. eauto.
Qed.
Definition opt_item (p : arg) (h : heap) (k : string) (d : val) : val := match given h p k with Some v => v | None => d end.
Lemma build_pgen_inv h a it dyn n pg : build_pgen make setter gen h a it dyn n = Ok pg ->
  if is_text (upper_safe (a_alg a)) "CRAB"
  then exists l action, pg = Many l /\ l <> [] /\
    Forall2 (crab_made a dyn (opt_item (a_alg_params a) h "num_coeffs" VNone) (opt_item (a_alg_params a) h "fix_frequency" (VBool true))
               (opt_item (a_alg_params a) h "init_coeff_scaling" VNone) (opt_item (a_alg_params a) h "crab_pulse_params" VNone) action) (range n) l /\
    (truthy it = Ok false -> action = None) /\
    (truthy it = Ok true -> action = Some (opt_item (a_init_pulse_params a) h "pulse_action" VNone) /\ exists c, choose_pulse it = Ok c)
  else exists p p0 c, pg = One p /\ choose_pulse it = Ok c /\ o_class p = c /\ o_class p0 = c /\
    make c [dyn] [] (load h (a_init_pulse_params a)) = Ok (o_attrs p0) /\
    steps [("scaling", a_pulse_scaling a); ("offset", a_pulse_offset a); ("lbound", a_amp_lbound a); ("ubound", a_amp_ubound a)] p0 p.
Proof.
  unfold build_pgen. intros H. step H t T. step H ramp R. destruct (is_text (upper_safe (a_alg a)) "CRAB").
  - cbv zeta in H. step H t2 T2. step H g G. step H l L. apply crab_gens_inv in L.
    exists l, (option_map snd g). split; [destruct l; congruence|]. split; [destruct l; congruence|]. split.
    + unfold opt_item, item in *. destruct (a_alg_params a); exact L.
    + destruct t2.
      * step G g0 G0. step G g1 G1. step G g2 G2. split; [discriminate|]. intros _.
        assert (Cp : exists c, choose_pulse it = Ok c) by (unfold create_pulse_gen in G0; step G0 c Ec; eauto).
        split; [|exact Cp]. destruct (a_init_pulse_params a) as [r|[v|]].
        -- step G g3 G3. injection G as <-. reflexivity.
        -- step G g3 G3. discriminate.
        -- injection G as <-. reflexivity.
      * injection G as <-. split; [auto|]. discriminate.
  - step H p0 P0. step H p1 P1. step H p2 P2. step H p3 P3. step H p4 P4. injection H as <-.
    unfold create_pulse_gen in P0. step P0 c Ec. pose proof (new_class _ _ _ _ _ P0) as C0. unfold Build.new in P0. step P0 d Ed. injection P0 as <-.
    exists p4, (Obj c d), c. split; [auto|]. split; [auto|].
    split; [rewrite (assign_class _ _ _ _ P4), (assign_class _ _ _ _ P3), (assign_class _ _ _ _ P2), (assign_class _ _ _ _ P1); auto|].
    split; [auto|]. split; [auto|]. repeat (econstructor; [eassumption|]). constructor.
Qed.
End Parts.
