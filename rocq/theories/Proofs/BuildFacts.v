(** Lemmas about Model/Build.v. *)
From Verif.Model Require Import Build.
From Verif.Spec Require Import OptionRules Constructed Builds.
From Verif.Proofs Require Import OptionFacts ConstructFacts.
Local Open Scope string_scope.
Local Open Scope list_scope.
Set Bullet Behavior "Strict Subproofs".

(** ** The heap *)
Lemma at_upd h r d q : at_ (upd h r d) q = if (r =? q)%nat then if (r <? List.length h)%nat then d else at_ h q else at_ h q.
Proof.
  unfold at_. revert r q. induction h as [|x h IH]; intros [|r] [|q]; cbn; auto.
  - destruct (r =? q)%nat; auto.
  - rewrite IH. reflexivity.
Qed.
Lemma upd_len {A} (h : list A) r d : List.length (upd h r d) = List.length h.
Proof. revert r. induction h; intros [|r]; cbn; auto. Qed.
Lemma at_app h d r : r < List.length h -> at_ (h ++ d) r = at_ h r.
Proof. intros. unfold at_. now apply app_nth1. Qed.
Lemma at_new h d : at_ (h ++ [d]) (List.length h) = d.
Proof. unfold at_. rewrite app_nth2, Nat.sub_diag by lia. reflexivity. Qed.
Lemma at_big h r : List.length h <= r -> at_ h r = [].
Proof. intros. unfold at_. now apply nth_overflow. Qed.

(** ** Writing a missing key *)
Definition keeps (ks : list string) (h h' : heap) : Prop :=
  List.length h <= List.length h' /\
  forall r k, r < List.length h -> dget (at_ h' r) k = dget (at_ h r) k \/ (In k ks /\ (dget (at_ h r) k = None \/ k = "scale_factor")).
Definition keyed (h : heap) : Prop := forall r, distinct (at_ h r).

Lemma keeps_refl ks h : keeps ks h h.
Proof. split; auto. Qed.
Lemma keeps_trans ks h1 h2 h3 : keeps ks h1 h2 -> keeps ks h2 h3 -> keeps ks h1 h3.
Proof.
  intros [L1 K1] [L2 K2]. split; [lia|]. intros r k Hr.
  destruct (K1 r k Hr) as [E|[I E]].
  - destruct (K2 r k) as [E2|[I2 E2]]; [lia| |]; rewrite ?E in *; auto.
  - right; auto.
Qed.
Lemma keeps_incl ks ks' h h' : incl ks ks' -> keeps ks h h' -> keeps ks' h h'.
Proof. intros I [L K]. split; auto. intros r k Hr. destruct (K r k Hr) as [E|[J E]]; auto. Qed.
Lemma keeps_given ks h h' p k : keeps ks h h' -> exists_ h p -> ~ In k ks -> given h' p k = given h p k.
Proof. intros [L K] W N. destruct p; cbn in *; auto. destruct (K r k W) as [E|[J _]]; [auto|tauto]. Qed.
Lemma keeps_exists ks h h' p : keeps ks h h' -> exists_ h p -> exists_ h' p.
Proof. intros [L _]. destruct p; cbn; auto. lia. Qed.
Lemma keyed_upd h r d : keyed h -> distinct d -> keyed (upd h r d).
Proof. intros K D q. rewrite at_upd. destruct (r =? q)%nat; auto. destruct (r <? _)%nat; auto. Qed.
Lemma keyed_app h d : keyed h -> distinct d -> keyed (h ++ [d]).
Proof.
  intros K D q. destruct (Nat.lt_trichotomy q (List.length h)) as [L|[->|L]].
  - rewrite at_app; auto.
  - now rewrite at_new.
  - rewrite at_big; [constructor|]. rewrite app_length. cbn. lia.
Qed.
Lemma distinct1 k v : distinct [(k, v)].
Proof. repeat constructor. cbn. tauto. Qed.

Lemma put_ok test key v p h h' p' : put_missing test key v p h = (h', p') ->
  (test = key \/ key = "scale_factor") -> exists_ h p -> keyed h ->
  keeps [key] h h' /\ exists_ h' p' /\ keyed h' /\
  (forall k, given h' p' k = if (key =? k)%string && negb (is_none v) && negb (match given h p test with Some _ => true | None => false end)
                             then Some v else given h p k).
Proof.
  unfold put_missing. intros E T W Kh. destruct (is_none v) eqn:Nv.
  { injection E as <- <-. split; [apply keeps_refl|]. split; [auto|]. split; [auto|]. intros k. rewrite andb_false_r. reflexivity. }
  destruct p as [r|w]; cbn [exists_ given] in *.
  - unfold dmem in E. destruct (dget (at_ h r) test) eqn:G.
    + injection E as <- <-. split; [apply keeps_refl|]. split; [auto|]. split; [auto|]. intros k. cbn [given]. cbn. rewrite andb_false_r. reflexivity.
    + injection E as <- <-. split; [|split; [|split]].
      * split; [rewrite upd_len; auto|]. intros q k Hq. rewrite at_upd.
        destruct (Nat.eqb_spec r q); [subst|auto]. destruct (Nat.ltb_spec q (List.length h)); [|lia].
        rewrite dget_set. destruct (String.eqb_spec key k); [subst|auto]. right. split; [left; auto|].
        destruct T as [->|T]; auto.
      * cbn. rewrite upd_len. auto.
      * apply keyed_upd; auto. now apply dset_distinct.
      * intros k. cbn [given]. rewrite at_upd, Nat.eqb_refl. destruct (Nat.ltb_spec r (List.length h)); [|lia].
        rewrite dget_set. cbn. destruct (key =? k)%string; auto.
  - injection E as <- <-. split; [|split; [|split]].
    + split; [rewrite app_length; lia|]. intros q k Hq. rewrite at_app; auto.
    + cbn. rewrite app_length. cbn. lia.
    + apply keyed_app; auto. apply distinct1.
    + intros k. cbn [given]. rewrite at_new. cbn. destruct (key =? k)%string; auto.
Qed.

(** ** The arguments as create_pulse_optimizer finally uses them *)
Lemma forwarded_nothing a h : deprecated (forwarded a) h = (h, forwarded a).
Proof. destruct a. vm_compute. reflexivity. Qed.
Lemma forwarded_idem a : forwarded (forwarded a) = forwarded a.
Proof. destruct a. vm_compute. reflexivity. Qed.

(** Fields that every function passes on unchanged. *)
Record passes (e : entry) (a a' : args) : Prop := {
  ps_drift : a_drift a' = a_drift a; ps_ctrls : a_ctrls a' = a_ctrls a; ps_initial : a_initial a' = a_initial a; ps_target : a_target a' = a_target a;
  ps_num_tslots : a_num_tslots a' = a_num_tslots a; ps_evo_time : a_evo_time a' = a_evo_time a; ps_tau : a_tau a' = a_tau a;
  ps_lbound : a_amp_lbound a' = a_amp_lbound a; ps_ubound : a_amp_ubound a' = a_amp_ubound a;
  ps_targ : a_fid_err_targ a' = a_fid_err_targ a; ps_iter : a_max_iter a' = a_max_iter a; ps_wall : a_max_wall_time a' = a_max_wall_time a;
  ps_grad : a_min_grad a' = if is_crab e then VNum 0 else a_min_grad a;
  ps_alg : a_alg a' = if is_crab e then VStr "CRAB" else a_alg a;
  ps_method : a_optim_method a' = if has_method_keywords e && negb (is_none (a_optim_alg a)) then a_optim_alg a else a_optim_method a;
  ps_optim_params : a_optim_params a' = a_optim_params a;
  ps_dyn_type : a_dyn_type a' = if has_types e then a_dyn_type a else VStr "UNIT";
  ps_prop_type : a_prop_type a' = if has_types e then a_prop_type a else VStr "DEF";
  ps_fid_type : a_fid_type a' = if has_types e then a_fid_type a else VStr "DEF";
  ps_dyn_params : a_dyn_params a' = a_dyn_params a; ps_prop_params : a_prop_params a' = a_prop_params a;
  ps_tslot_params : a_tslot_params a' = match e with Create => a_tslot_params a | _ => NoDict None end;
  ps_mode : a_amp_update_mode a' = match e with Create => a_amp_update_mode a | _ => VNone end;
  ps_pulse_type : a_init_pulse_type a' = a_init_pulse_type a;
  ps_scaling : a_pulse_scaling a' = if is_crab e then VNum 1 else a_pulse_scaling a;
  ps_offset : a_pulse_offset a' = if is_crab e then VNum 0 else a_pulse_offset a;
  ps_ramp_type : a_ramping_pulse_type a' = a_ramping_pulse_type a; ps_ramp_params : a_ramping_pulse_params a' = a_ramping_pulse_params a;
  ps_stats : a_gen_stats a' = a_gen_stats a;
  ps_alg_params : is_crab e = false -> a_alg_params a' = a_alg_params a;
  ps_pulse_params : is_crab e = false -> a_init_pulse_params a' = a_init_pulse_params a }.

Definition with_method (a : args) (p : arg) : args :=
  a <| a_optim_method := (if is_none (a_optim_alg a) then a_optim_method a else a_optim_alg a) |> <| a_method_params := p |>.
Definition with_mode (a : args) : args :=
  a <| a_tslot_type := (if is_none (a_amp_update_mode a) then a_tslot_type a
                        else if is_text (upper_safe (a_amp_update_mode a)) "ALL" then VStr "UPDATE_ALL" else a_amp_update_mode a) |>.
Lemma old_mode_eq a : old_mode a = with_mode a.
Proof.
  unfold old_mode, with_mode. destruct (is_none (a_amp_update_mode a)).
  - destruct a. vm_compute. reflexivity.
  - destruct (is_text _ _); reflexivity.
Qed.
Lemma old_method_ok a h : exists_ h (a_method_params a) -> keyed h ->
  exists h' p, old_method a h = (h', with_method a p) /\ keeps method_keys h h' /\ keyed h' /\ exists_ h' p /\
    forall k, given h' p k = or_else (given h (a_method_params a) k)
      (if (k =? "max_metric_corr")%string then not_none (a_max_metric_corr a)
       else if (k =? "accuracy_factor")%string then not_none (a_accuracy_factor a) else None).
Proof.
  intros W K. unfold old_method. cbv zeta.
  set (a1 := if is_none (a_optim_alg a) then a else a <| a_optim_method := a_optim_alg a |>).
  assert (A1 : a1 = a <| a_optim_method := (if is_none (a_optim_alg a) then a_optim_method a else a_optim_alg a) |>).
  { unfold a1. destruct (is_none (a_optim_alg a)); auto. destruct a. vm_compute. reflexivity. }
  assert (M1 : a_method_params a1 = a_method_params a) by (rewrite A1; reflexivity).
  assert (M2 : a_max_metric_corr a1 = a_max_metric_corr a) by (rewrite A1; reflexivity).
  assert (M3 : a_accuracy_factor a1 = a_accuracy_factor a) by (rewrite A1; reflexivity).
  rewrite M1, M2, M3.
  destruct (put_missing _ _ (a_max_metric_corr a) _ h) as [h1 p1] eqn:E1.
  destruct (put_ok _ _ _ _ _ _ _ E1) as (K1 & W1 & D1 & G1); auto.
  destruct (put_missing _ _ (a_accuracy_factor a) p1 h1) as [h2 p2] eqn:E2.
  destruct (put_ok _ _ _ _ _ _ _ E2) as (K2 & W2 & D2 & G2); auto.
  exists h2, p2. split; [rewrite A1; reflexivity|].
  split; [eapply keeps_trans; eapply keeps_incl; eauto; intros x; cbn; tauto|]. split; [auto|]. split; [auto|].
  intros k. rewrite G2, !G1. unfold not_none.
  rewrite !(String.eqb_sym _ k).
  destruct (String.eqb_spec k "max_metric_corr"); [subst|destruct (String.eqb_spec k "accuracy_factor"); [subst|]]; cbn.
  - destruct (is_none (a_max_metric_corr a)), (given h (a_method_params a) "max_metric_corr"); reflexivity.
  - destruct (is_none (a_accuracy_factor a)), (given h (a_method_params a) "accuracy_factor"); reflexivity.
  - destruct (given h _ k); reflexivity.
Qed.
Lemma old_fid_ok a h : exists_ h (a_fid_params a) -> keyed h ->
  exists h' p, old_fid a h = (h', a <| a_fid_params := p |>) /\ keeps fid_keys h h' /\ keyed h' /\ exists_ h' p /\
    (forall k, k <> "scale_factor" -> given h' p k = or_else (given h (a_fid_params a) k)
       (if (k =? "phase_option")%string then not_none (a_phase_option a) else None)) /\
    (given h' p "scale_factor" = match given h (a_fid_params a) "fid_err_scale_factor" with
                                 | Some _ => given h (a_fid_params a) "scale_factor"
                                 | None => or_else (not_none (a_fid_err_scale_factor a)) (given h (a_fid_params a) "scale_factor")
                                 end).
Proof.
  intros W K. unfold old_fid.
  destruct (put_missing _ _ (a_phase_option a) _ h) as [h1 p1] eqn:E1.
  destruct (put_ok _ _ _ _ _ _ _ E1) as (K1 & W1 & D1 & G1); auto.
  destruct (put_missing _ _ (a_fid_err_scale_factor a) p1 h1) as [h2 p2] eqn:E2.
  destruct (put_ok _ _ _ _ _ _ _ E2) as (K2 & W2 & D2 & G2); auto.
  exists h2, p2. split; [reflexivity|].
  split; [eapply keeps_trans; eapply keeps_incl; eauto; intros x; cbn; tauto|]. split; [auto|]. split; [auto|]. split.
  - intros k Nk. rewrite G2, !G1. unfold not_none.
    rewrite !(String.eqb_sym _ k).
    destruct (String.eqb_spec k "scale_factor"); [contradiction|]. cbn [andb].
    destruct (String.eqb_spec k "phase_option"); cbn.
    + subst. destruct (is_none (a_phase_option a)), (given h (a_fid_params a) "phase_option"); reflexivity.
    + destruct (given h _ k); reflexivity.
  - rewrite G2, !G1. unfold not_none. cbn.
    destruct (is_none (a_fid_err_scale_factor a)), (given h (a_fid_params a) "fid_err_scale_factor"); reflexivity.
Qed.
Lemma deprecated_ok a h : exists_ h (a_method_params a) -> exists_ h (a_fid_params a) -> keyed h ->
  exists h' p q, deprecated a h = (h', with_mode (with_method a p <| a_fid_params := q |>)) /\
    keeps (method_keys ++ fid_keys) h h' /\ keyed h' /\ exists_ h' p /\ exists_ h' q /\
    (forall k, ~ In k fid_keys -> given h' p k = method_setting Create a h k) /\
    (forall k, ~ In k method_keys -> k <> "scale_factor" -> given h' q k = fid_setting Create a h k) /\
    (given h' q "scale_factor" = match given h (a_fid_params a) "fid_err_scale_factor" with
                                 | Some _ => given h (a_fid_params a) "scale_factor"
                                 | None => or_else (not_none (a_fid_err_scale_factor a)) (given h (a_fid_params a) "scale_factor")
                                 end).
Proof.
  intros W1 W2 K. destruct (old_method_ok a h W1 K) as (h1 & p & E1 & K1 & D1 & X1 & G1).
  assert (W2' : exists_ h1 (a_fid_params (with_method a p))) by (eapply keeps_exists; [exact K1|exact W2]).
  destruct (old_fid_ok (with_method a p) h1 W2' D1) as (h2 & q & E2 & K2 & D2 & X2 & G2 & G3).
  unfold deprecated. rewrite E1, E2. exists h2, p, q. split; [now rewrite old_mode_eq|].
  split; [eapply keeps_trans; eapply keeps_incl; eauto; intros x; cbn; tauto|].
  split; [auto|]. split; [eapply keeps_exists; eauto|]. split; [auto|]. split; [|split].
  - intros k Nk. rewrite (keeps_given _ _ _ _ _ K2 X1 Nk). apply G1.
  - intros k Nk Ns. rewrite (G2 k Ns). change (a_fid_params (with_method a p)) with (a_fid_params a).
    change (a_phase_option (with_method a p)) with (a_phase_option a).
    rewrite (keeps_given _ _ _ _ _ K1 W2 Nk). unfold fid_setting. cbn [has_phase andb]. reflexivity.
  - rewrite G3. change (a_fid_params (with_method a p)) with (a_fid_params a).
    change (a_fid_err_scale_factor (with_method a p)) with (a_fid_err_scale_factor a).
    rewrite !(keeps_given _ _ _ _ _ K1 W2); [reflexivity| |]; cbn; intuition discriminate.
Qed.

(** What reaches create_pulse_optimizer's body from each function. *)
Record settled (e : entry) (a : args) (h : heap) (a' : args) (h' : heap) : Prop := {
  sd_passes : passes e a a';
  sd_fid_ex : exists_ h' (a_fid_params a');
  sd_fid : forall k, ~ In k (method_keys ++ alg_keys ++ guess_keys) -> k <> "scale_factor" ->
    given h' (a_fid_params a') k = fid_setting e a h k;
  sd_scale : match e with
             | Create | Optimize =>
               given h' (a_fid_params a') "scale_factor" =
                 match given h (a_fid_params a) "fid_err_scale_factor" with
                 | Some _ => given h (a_fid_params a) "scale_factor"
                 | None => or_else (not_none (a_fid_err_scale_factor a)) (given h (a_fid_params a) "scale_factor")
                 end
             | _ => given h' (a_fid_params a') "scale_factor" = given h (a_fid_params a) "scale_factor"
             end;
  sd_method_ex : exists_ h' (a_method_params a');
  sd_method : forall k, ~ In k (fid_keys ++ alg_keys ++ guess_keys) ->
    given h' (a_method_params a') k = method_setting e a h k;
  sd_alg_ex : exists_ h' (a_alg_params a');
  sd_alg : is_crab e = true -> exists r, a_alg_params a' = Dict r /\ forall k, ~ In k (method_keys ++ fid_keys ++ guess_keys) ->
    dget (at_ h' r) k = alg_setting a h k \/ (dget (at_ h' r) k = Some VNone /\ alg_setting a h k = None /\ In k alg_keys);
  sd_guess_ex : exists_ h' (a_init_pulse_params a');
  sd_guess : is_crab e = true -> truthy (a_init_pulse_type a) = Ok true ->
    exists r, a_init_pulse_params a' = Dict r /\ forall k, ~ In k (method_keys ++ fid_keys ++ alg_keys) ->
      dget (at_ h' r) k = guess_setting a h k }.

Ltac notin := cbn; intuition (try discriminate; try congruence).

Section Build.
Variable make : klass -> list obj -> dict -> val -> Res dict.
Variable setter : klass -> string -> option (val -> dict -> Res dict).
Variable named : klass -> string -> bool.
Variable gen : nat -> obj -> Res (obj * val).
Variable check_ctrls : val -> Res (val * nat).
Variable check_others : val -> val -> val -> Res unit.
Notation assemble := (assemble make setter named gen).
Notation create := (create make setter named gen check_ctrls check_others).
Notation optimize_pulse := (optimize_pulse make setter named gen check_ctrls check_others).
Notation optimize_pulse_unitary := (optimize_pulse_unitary make setter named gen check_ctrls check_others).
Notation opt_pulse_crab := (opt_pulse_crab make setter named gen check_ctrls check_others).
Notation opt_pulse_crab_unitary := (opt_pulse_crab_unitary make setter named gen check_ctrls check_others).
Notation call := (call make setter named gen check_ctrls check_others).

Definition reaches (e : entry) (a : args) (h : heap) (x : heap * Res built) : Prop :=
  keeps keyword_keys h (fst x) /\ keyed (fst x) /\
  forall b, snd x = Ok b -> exists a' ctrls n, check_ctrls (a_ctrls a) = Ok (ctrls, n) /\
    assemble (fst x) a' ctrls n = Ok b /\ settled e a h a' (fst x).

Lemma create_reaches a h : well_formed h a -> reaches Create a h (create a h).
Proof.
  intros W. destruct (deprecated_ok a h (wf_method _ _ W) (wf_fid _ _ W) (wf_keys _ _ W)) as (h' & p & q & E & K & D & Xp & Xq & Gp & Gq & Gs).
  unfold reaches, Build.create. destruct (check_ctrls (a_ctrls a)) as [[ctrls n]|] eqn:C.
  2:{ split; [apply keeps_refl|]. split; [exact (wf_keys _ _ W)|discriminate]. }
  destruct (check_others _ _ _).
  2:{ split; [apply keeps_refl|]. split; [exact (wf_keys _ _ W)|discriminate]. }
  rewrite E. cbn [fst snd].
  assert (K' : keeps keyword_keys h h') by (eapply keeps_incl; [|exact K]; intros x; cbn; tauto).
  split; [exact K'|]. split; [exact D|]. intros b Hb. exists (with_mode (with_method a p <| a_fid_params := q |>)), ctrls, n.
  split; [auto|]. split; [exact Hb|]. constructor; try (exact Xp || exact Xq || exact Gs).
  - constructor; try reflexivity. change (a_optim_method (with_mode (with_method a p <| a_fid_params := q |>))) with (if is_none (a_optim_alg a) then a_optim_method a else a_optim_alg a).
    cbn [has_method_keywords andb]. destruct (is_none (a_optim_alg a)); reflexivity.
  - intros k Nk Ns. apply Gq; auto. intros I. apply Nk. apply in_or_app; auto.
  - intros k Nk. apply Gp; auto. intros I. apply Nk. apply in_or_app; auto.
  - eapply keeps_exists; [exact K|apply (wf_alg _ _ W)].
  - discriminate.
  - eapply keeps_exists; [exact K|apply (wf_pulse _ _ W)].
  - discriminate.
Qed.

(** The inner call with nothing deprecated left. *)
Lemma inner_call a h h' r : optimize_pulse (forwarded a) h = (h', r) ->
  h' = h /\ forall b, r = Ok b -> exists ctrls n, check_ctrls (a_ctrls a) = Ok (ctrls, n) /\ assemble h (forwarded a) ctrls n = Ok b.
Proof.
  unfold Build.optimize_pulse. rewrite forwarded_nothing, forwarded_idem. unfold Build.create.
  change (a_ctrls (forwarded a)) with (a_ctrls a).
  destruct (check_ctrls (a_ctrls a)) as [[ctrls n]|]; [|intros [= <- <-]; split; [auto|discriminate]].
  destruct (check_others _ _ _); [|intros [= <- <-]; split; [auto|discriminate]].
  rewrite forwarded_nothing. intros [= <- <-]. split; [auto|]. intros b Hb. exists ctrls, n. split; [auto|].
  destruct (assemble h (forwarded a) ctrls n) as [b'|] eqn:A; [|discriminate]. cbn [bind] in Hb.
  unfold initial_pulses in Hb. destruct (b_pgen b') as [|[|]]; [destruct (is_text _ _)| |destruct (is_text _ _)]; congruence.
Qed.

Lemma optimize_inv a h h' r : optimize_pulse a h = (h', r) ->
  h' = fst (deprecated a h) /\ forall b, r = Ok b -> exists ctrls n, check_ctrls (a_ctrls (snd (deprecated a h))) = Ok (ctrls, n) /\
    assemble h' (forwarded (snd (deprecated a h))) ctrls n = Ok b.
Proof.
  unfold Build.optimize_pulse. destruct (deprecated a h) as [h1 a1]. cbn [fst snd]. unfold Build.create.
  change (a_ctrls (forwarded a1)) with (a_ctrls a1).
  destruct (check_ctrls (a_ctrls a1)) as [[ctrls n]|]; [|intros [= <- <-]; split; [auto|discriminate]].
  destruct (check_others _ _ _); [|intros [= <- <-]; split; [auto|discriminate]].
  rewrite forwarded_nothing. intros [= <- <-]. split; [auto|]. intros b Hb. exists ctrls, n. split; [auto|].
  destruct (assemble h1 (forwarded a1) ctrls n) as [b'|] eqn:A; [|discriminate]. cbn [bind] in Hb.
  unfold initial_pulses in Hb. destruct (b_pgen b') as [|[|]]; [destruct (is_text _ _)| |destruct (is_text _ _)]; congruence.
Qed.

Lemma optimize_reaches a h : well_formed h a -> reaches Optimize a h (optimize_pulse a h).
Proof.
  intros W. destruct (deprecated_ok a h (wf_method _ _ W) (wf_fid _ _ W) (wf_keys _ _ W)) as (h' & p & q & E & K & D & Xp & Xq & Gp & Gq & Gs).
  destruct (optimize_pulse a h) as [h1 r] eqn:O. apply optimize_inv in O. rewrite E in O. cbn [fst snd] in O. destruct O as [-> O].
  unfold reaches. cbn [fst snd].
  assert (K' : keeps keyword_keys h h') by (eapply keeps_incl; [|exact K]; intros x; cbn; tauto).
  split; [exact K'|]. split; [exact D|]. intros b Hb. destruct (O b Hb) as (ctrls & n & C & A).
  exists (forwarded (with_mode (with_method a p <| a_fid_params := q |>))), ctrls, n.
  split; [exact C|]. split; [exact A|]. constructor; try (exact Xp || exact Xq || exact Gs).
  - constructor; try reflexivity. change (a_optim_method (forwarded (with_mode (with_method a p <| a_fid_params := q |>)))) with (if is_none (a_optim_alg a) then a_optim_method a else a_optim_alg a).
    cbn [has_method_keywords andb]. destruct (is_none (a_optim_alg a)); reflexivity.
  - intros k Nk Ns. apply Gq; auto. intros I. apply Nk. apply in_or_app; auto.
  - intros k Nk. apply Gp; auto. intros I. apply Nk. apply in_or_app; auto.
  - eapply keeps_exists; [exact K|apply (wf_alg _ _ W)].
  - discriminate.
  - eapply keeps_exists; [exact K|apply (wf_pulse _ _ W)].
  - discriminate.
Qed.

Definition unitary_args (a : args) (p q : arg) : args :=
  with_mode (with_method a p) <| a_dyn_type := VStr "UNIT" |> <| a_prop_type := VStr "DEF" |> <| a_fid_type := VStr "DEF" |> <| a_fid_params := q |>.
Lemma unitary_inv a h : exists_ h (a_method_params a) -> exists_ h (a_fid_params a) -> keyed h ->
  let x := optimize_pulse_unitary a h in
  keeps (method_keys ++ ["phase_option"]) h (fst x) /\ keyed (fst x) /\
  forall b, snd x = Ok b -> exists p q ctrls n, check_ctrls (a_ctrls a) = Ok (ctrls, n) /\
    assemble (fst x) (forwarded (unitary_args a p q)) ctrls n = Ok b /\
    exists_ (fst x) p /\ exists_ (fst x) q /\
    (forall k, k <> "phase_option" -> given (fst x) p k = method_setting OptimizeUnitary a h k) /\
    (forall k, ~ In k method_keys -> given (fst x) q k = fid_setting OptimizeUnitary a h k).
Proof.
  intros W1 W2 Kh x. destruct (old_method_ok a h W1 Kh) as (h1 & p & E1 & K1 & D1 & X1 & G1).
  unfold x, Build.optimize_pulse_unitary. rewrite E1, old_mode_eq. cbv zeta.
  change (a_fid_params (with_mode (with_method a p))) with (a_fid_params a).
  change (a_phase_option (with_mode (with_method a p))) with (a_phase_option a).
  fold (unitary_args a p).
  assert (W2' : exists_ h1 (a_fid_params a)) by (eapply keeps_exists; eauto).
  assert (L : forall h2 q, keeps ["phase_option"] h1 h2 -> keyed h2 -> exists_ h2 q ->
     (forall k, ~ In k method_keys -> given h2 q k = fid_setting OptimizeUnitary a h k) ->
     let x := optimize_pulse (forwarded (unitary_args a p q)) h2 in
     keeps (method_keys ++ ["phase_option"]) h (fst x) /\ keyed (fst x) /\
     forall b, snd x = Ok b -> exists p q ctrls n, check_ctrls (a_ctrls a) = Ok (ctrls, n) /\
       assemble (fst x) (forwarded (unitary_args a p q)) ctrls n = Ok b /\
       exists_ (fst x) p /\ exists_ (fst x) q /\
       (forall k, k <> "phase_option" -> given (fst x) p k = method_setting OptimizeUnitary a h k) /\
       (forall k, ~ In k method_keys -> given (fst x) q k = fid_setting OptimizeUnitary a h k)).
  { intros h2 q K2 D2 X2 G2. cbv zeta. destruct (optimize_pulse (forwarded (unitary_args a p q)) h2) as [h3 r] eqn:O.
    apply inner_call in O. destruct O as [-> O]. cbn [fst snd].
    split; [eapply keeps_trans; eapply keeps_incl; eauto; intros y; cbn; tauto|]. split; [auto|].
    intros b Hb. destruct (O b Hb) as (ctrls & n & C & A). exists p, q, ctrls, n.
    split; [exact C|]. split; [exact A|]. split; [eapply keeps_exists; eauto|]. split; [auto|]. split; [|auto].
    intros k Nk. rewrite (keeps_given _ _ _ _ _ K2 X1) by (cbn; intuition congruence). apply G1. }
  assert (G0 : forall k, ~ In k method_keys -> given h1 (a_fid_params a) k = given h (a_fid_params a) k).
  { intros k Nk. now apply (keeps_given _ _ _ _ _ K1). }
  unfold fid_setting, not_none in L. cbn [has_phase andb] in L.
  unfold fid_setting, not_none. cbn [has_phase andb].
  destruct (is_none (a_phase_option a)) eqn:Np.
  { apply L; auto.
    - apply keeps_refl.
    - intros k Nk. rewrite G0 by auto. destruct (given _ _ _), (k =? "phase_option")%string; reflexivity. }
  destruct (a_fid_params a) as [r|[v|]] eqn:Ef.
  - cbn [exists_] in *. unfold dmem. destruct (dget (at_ h1 r) "phase_option") eqn:G.
    + apply L; auto.
      * apply keeps_refl.
      * intros k Nk. rewrite <- G0 by auto. cbn [given]. destruct (String.eqb_spec k "phase_option"); [subst; now rewrite G|].
        destruct (dget (at_ h1 r) k); reflexivity.
    + apply L; auto.
      * split; [rewrite upd_len; auto|]. intros q k Hq. rewrite at_upd.
        destruct (Nat.eqb_spec r q); [subst|auto]. destruct (Nat.ltb_spec q (List.length h1)); [|lia].
        rewrite dget_set. destruct (String.eqb_spec "phase_option" k); [subst|auto]. right. split; [left; auto|auto].
      * apply keyed_upd; auto. now apply dset_distinct.
      * cbn. rewrite upd_len. auto.
      * intros k Nk. rewrite <- G0 by auto. cbn [given]. rewrite at_upd, Nat.eqb_refl. destruct (Nat.ltb_spec r (List.length h1)); [|lia].
        rewrite dget_set, (String.eqb_sym _ k). destruct (String.eqb_spec k "phase_option"); [subst; now rewrite G|].
        destruct (dget (at_ h1 r) k); reflexivity.
  - cbn [fst snd]. split; [eapply keeps_incl; eauto; intros y; cbn; tauto|]. split; [auto|discriminate].
  - apply L.
    + split; [rewrite app_length; lia|]. intros q k Hq. rewrite at_app; auto.
    + apply keyed_app; auto. apply distinct1.
    + cbn. rewrite app_length. cbn. lia.
    + intros k Nk. cbn [given]. rewrite at_new. cbn [dget or_else]. rewrite (String.eqb_sym _ k). destruct (_ =? _)%string; reflexivity.
Qed.

Lemma unitary_reaches a h : well_formed h a -> reaches OptimizeUnitary a h (optimize_pulse_unitary a h).
Proof.
  intros W. destruct (unitary_inv a h (wf_method _ _ W) (wf_fid _ _ W) (wf_keys _ _ W)) as (K & D & O).
  unfold reaches. split; [eapply keeps_incl; [|exact K]; intros x; cbn; tauto|]. split; [exact D|].
  intros b Hb. destruct (O b Hb) as (p & q & ctrls & n & C & A & Xp & Xq & Gp & Gq).
  exists (forwarded (unitary_args a p q)), ctrls, n. split; [exact C|]. split; [exact A|].
  constructor; try (exact Xp || exact Xq).
  - constructor; try reflexivity. change (a_optim_method (forwarded (unitary_args a p q))) with (if is_none (a_optim_alg a) then a_optim_method a else a_optim_alg a).
    cbn [has_method_keywords andb]. destruct (is_none (a_optim_alg a)); reflexivity.
  - intros k Nk Ns. apply Gq. intros I. apply Nk. apply in_or_app; auto.
  - change (a_fid_params (forwarded (unitary_args a p q))) with q. rewrite Gq by notin.
    unfold fid_setting. cbn. destruct (given _ _ _); reflexivity.
  - intros k Nk. apply Gp. intros ->. apply Nk. cbn. auto.
  - eapply keeps_exists; [exact K|apply (wf_alg _ _ W)].
  - discriminate.
  - eapply keeps_exists; [exact K|apply (wf_pulse _ _ W)].
  - discriminate.
Qed.

(** Options of the CRAB functions. *)
Lemma crab_alg_ok a h h' p : crab_alg_params a h = (h', p) -> exists_ h (a_alg_params a) -> keyed h ->
  keeps alg_keys h h' /\ keyed h' /\ exists r, p = Dict r /\ r < List.length h' /\
  forall k, dget (at_ h' r) k = alg_setting a h k \/ (dget (at_ h' r) k = Some VNone /\ alg_setting a h k = None /\ In k alg_keys).
Proof.
  unfold crab_alg_params. intros E W K. destruct (a_alg_params a) as [r|v] eqn:Ea.
  - destruct (put_missing _ _ (a_num_coeffs a) _ h) as [h1 p1] eqn:E1.
    destruct (put_ok _ _ _ _ _ _ _ E1) as (K1 & W1 & D1 & G1); auto.
    destruct (put_ok _ _ _ _ _ _ _ E) as (K2 & W2 & D2 & G2); auto.
    split; [eapply keeps_trans; eapply keeps_incl; eauto; intros x; cbn; tauto|]. split; [auto|].
    assert (P1 : p1 = Dict r) by (unfold put_missing in E1; destruct (is_none _); congruence). subst p1.
    assert (P2 : p = Dict r) by (unfold put_missing in E; destruct (is_none _); congruence). subst p.
    exists r. split; [auto|]. split; [auto|]. intros k. left. cbn [given] in *. unfold alg_setting, not_none. rewrite Ea, G2, !G1. cbn [given].
    rewrite !(String.eqb_sym _ k).
    destruct (String.eqb_spec k "num_coeffs"); [subst|destruct (String.eqb_spec k "init_coeff_scaling"); [subst|]]; cbn.
    + destruct (is_none (a_num_coeffs a)), (dget (at_ h r) "num_coeffs"); reflexivity.
    + destruct (is_none (a_init_coeff_scaling a)), (dget (at_ h r) "init_coeff_scaling"); reflexivity.
    + destruct (dget _ k); reflexivity.
  - injection E as <- <-. split; [|split].
    + split; [rewrite app_length; lia|]. intros q k Hq. rewrite at_app; auto.
    + apply keyed_app; auto. unfold distinct. cbn. repeat constructor; notin.
    + exists (List.length h). split; [auto|]. split; [rewrite app_length; cbn; lia|]. intros k. rewrite at_new. unfold alg_setting, not_none. rewrite Ea.
      cbn [given or_else dget]. rewrite !(String.eqb_sym _ k).
      destruct (String.eqb_spec k "num_coeffs"); [subst|destruct (String.eqb_spec k "init_coeff_scaling"); [subst|]]; auto.
      * destruct (a_num_coeffs a); cbn; auto 10.
      * destruct (a_init_coeff_scaling a); cbn; auto 10.
Qed.
Lemma crab_guess_ok a h h' p : crab_guess_params a h = Ok (h', p) -> exists_ h (a_init_pulse_params a) -> keyed h ->
  keeps guess_keys h h' /\ keyed h' /\ exists_ h' p /\
  (truthy (a_init_pulse_type a) = Ok true -> exists r, p = Dict r /\ forall k, dget (at_ h' r) k = guess_setting a h k).
Proof.
  unfold crab_guess_params. intros E W K. destruct (truthy (a_init_pulse_type a)) as [t|]; [|discriminate]. cbn [bind] in E.
  destruct t.
  2:{ injection E as <- <-. split; [apply keeps_refl|]. split; [auto|]. split; [auto|discriminate]. }
  destruct (match a_init_pulse_params a with Dict r => (h, Dict r) | NoDict _ => (h ++ [[]], Dict (List.length h)) end) as [h0 p0] eqn:E0.
  assert (S0 : keeps [] h h0 /\ keyed h0 /\ exists_ h0 p0 /\ (exists r, p0 = Dict r) /\ forall k, given h0 p0 k = given h (a_init_pulse_params a) k).
  { destruct (a_init_pulse_params a) as [r|v]; injection E0 as <- <-.
    - split; [apply keeps_refl|]. split; [auto|]. split; [auto|]. split; [eauto|auto].
    - split; [split; [rewrite app_length; lia|]; intros q k Hq; rewrite at_app; auto|].
      split; [apply keyed_app; auto; constructor|]. split; [cbn; rewrite app_length; cbn; lia|]. split; [eauto|].
      intros k. cbn [given]. rewrite at_new. reflexivity. }
  destruct S0 as (K0 & D0 & X0 & [r ->] & G0).
  destruct (put_missing _ _ (a_guess_scaling a) _ h0) as [h1 p1] eqn:E1.
  destruct (put_ok _ _ _ _ _ _ _ E1) as (K1 & W1 & D1 & G1); auto.
  destruct (put_missing _ _ (a_guess_offset a) _ h1) as [h2 p2] eqn:E2.
  destruct (put_ok _ _ _ _ _ _ _ E2) as (K2 & W2 & D2 & G2); auto.
  assert (E3 : put_missing "pulse_action" "pulse_action" (a_guess_action a) p2 h2 = (h', p)) by congruence.
  destruct (put_ok _ _ _ _ _ _ _ E3) as (K3 & W3 & D3 & G3); auto.
  assert (P1 : p1 = Dict r) by (unfold put_missing in E1; destruct (is_none _); congruence). subst p1.
  assert (P2 : p2 = Dict r) by (unfold put_missing in E2; destruct (is_none (a_guess_offset a)); congruence). subst p2.
  assert (P3 : p = Dict r) by (unfold put_missing in E3; destruct (is_none (a_guess_action a)); congruence). subst p.
  split.
  { eapply keeps_trans; [eapply keeps_incl; [|exact K0]; intros x; cbn; tauto|].
    eapply keeps_trans; [eapply keeps_incl; [|exact K1]; intros x; cbn; tauto|].
    eapply keeps_trans; [eapply keeps_incl; [|exact K2]; intros x; cbn; tauto|].
    eapply keeps_incl; [|exact K3]; intros x; cbn; tauto. }
  split; [auto|]. split; [auto|]. intros _. exists r. split; [auto|]. intros k.
  change (dget (at_ h' r) k) with (given h' (Dict r) k). rewrite G3, !G2, !G1, !G0.
  unfold guess_setting, not_none. rewrite !(String.eqb_sym _ k).
  destruct (String.eqb_spec k "scaling"); [subst|destruct (String.eqb_spec k "offset"); [subst|destruct (String.eqb_spec k "pulse_action"); [subst|]]]; cbn.
  - destruct (is_none (a_guess_scaling a)), (given h (a_init_pulse_params a) "scaling"); reflexivity.
  - destruct (is_none (a_guess_offset a)), (given h (a_init_pulse_params a) "offset"); reflexivity.
  - destruct (is_none (a_guess_action a)), (given h (a_init_pulse_params a) "pulse_action"); reflexivity.
  - destruct (given _ _ k); reflexivity.
Qed.

Lemma crab_nothing a ap gp h : deprecated (crab_args a ap gp) h = (h, crab_args a ap gp).
Proof. destruct a. vm_compute. reflexivity. Qed.
Lemma crab_prepare a h : well_formed h a ->
  exists h1 ap, crab_alg_params a h = (h1, ap) /\ keeps alg_keys h h1 /\ keyed h1 /\
  forall h2 gp, crab_guess_params a h1 = Ok (h2, gp) ->
    keeps (alg_keys ++ guess_keys) h h2 /\ keyed h2 /\ exists_ h2 gp /\
    (exists r, ap = Dict r /\ r < List.length h2 /\ forall k, ~ In k guess_keys ->
       dget (at_ h2 r) k = alg_setting a h k \/ (dget (at_ h2 r) k = Some VNone /\ alg_setting a h k = None /\ In k alg_keys)) /\
    (truthy (a_init_pulse_type a) = Ok true -> exists r, gp = Dict r /\ forall k, ~ In k alg_keys -> dget (at_ h2 r) k = guess_setting a h k).
Proof.
  intros W. destruct (crab_alg_params a h) as [h1 ap] eqn:E1. exists h1, ap. split; [auto|].
  destruct (crab_alg_ok a h h1 ap E1 (wf_alg _ _ W) (wf_keys _ _ W)) as (K1 & D1 & r & -> & Lr & G1).
  split; [auto|]. split; [auto|]. intros h2 gp E2.
  assert (W1 : exists_ h1 (a_init_pulse_params a)) by (eapply keeps_exists; [exact K1|apply (wf_pulse _ _ W)]).
  destruct (crab_guess_ok a h1 h2 gp E2 W1 D1) as (K2 & D2 & X2 & G2).
  split; [eapply keeps_trans; eapply keeps_incl; eauto; intros x; cbn; tauto|]. split; [auto|]. split; [auto|]. split.
  - exists r. split; [auto|]. split; [destruct K2; lia|]. intros k Nk.
    change (dget (at_ h2 r) k) with (given h2 (Dict r) k). rewrite (keeps_given _ _ _ _ _ K2); auto. apply G1.
  - intros T. destruct (G2 T) as (q & -> & G3). exists q. split; [auto|]. intros k Nk. rewrite G3.
    unfold guess_setting. rewrite (keeps_given _ _ _ _ _ K1); [reflexivity|apply (wf_pulse _ _ W)|exact Nk].
Qed.

Lemma crab_reaches a h : well_formed h a -> reaches Crab a h (opt_pulse_crab a h).
Proof.
  intros W. destruct (crab_prepare a h W) as (h1 & ap & E1 & K1 & D1 & P).
  unfold Build.opt_pulse_crab. rewrite E1. destruct (crab_guess_params a h1) as [[h2 gp]|] eqn:E2.
  2:{ unfold reaches. cbn [fst snd]. split; [eapply keeps_incl; [|exact K1]; intros x; cbn; tauto|]. split; [auto|discriminate]. }
  destruct (P h2 gp eq_refl) as (K2 & D2 & X2 & (r & -> & Lr & G1) & G2).
  destruct (optimize_pulse (crab_args a (Dict r) gp) h2) as [h3 res] eqn:O.
  apply optimize_inv in O. rewrite crab_nothing in O. cbn [fst snd] in O. destruct O as [-> O].
  unfold reaches. cbn [fst snd]. split; [eapply keeps_incl; [|exact K2]; intros x; cbn; tauto|]. split; [auto|].
  intros b Hb. destruct (O b Hb) as (ctrls & n & C & A).
  exists (forwarded (crab_args a (Dict r) gp)), ctrls, n. split; [exact C|]. split; [exact A|]. constructor.
  - constructor; try reflexivity; discriminate.
  - eapply keeps_exists; [exact K2|apply (wf_fid _ _ W)].
  - intros k Nk _. change (a_fid_params (forwarded (crab_args a (Dict r) gp))) with (a_fid_params a).
    rewrite (keeps_given _ _ _ _ _ K2); [|apply (wf_fid _ _ W)|intros I; apply Nk; apply in_or_app; auto].
    unfold fid_setting. cbn [has_phase andb]. destruct (given _ _ k); reflexivity.
  - change (a_fid_params (forwarded (crab_args a (Dict r) gp))) with (a_fid_params a).
    apply (keeps_given _ _ _ _ _ K2); [apply (wf_fid _ _ W)|notin].
  - eapply keeps_exists; [exact K2|apply (wf_method _ _ W)].
  - intros k Nk. change (a_method_params (forwarded (crab_args a (Dict r) gp))) with (a_method_params a).
    rewrite (keeps_given _ _ _ _ _ K2); [|apply (wf_method _ _ W)|intros I; apply Nk; apply in_or_app; auto].
    unfold method_setting. cbn [has_method_keywords]. destruct (given _ _ k); reflexivity.
  - exact Lr.
  - intros _. exists r. split; [reflexivity|]. intros k Nk. apply G1. intros I. apply Nk. rewrite !in_app_iff; auto.
  - exact X2.
  - intros _ T. destruct (G2 T) as (q & -> & G3). exists q. split; [reflexivity|]. intros k Nk. apply G3. intros I. apply Nk. rewrite !in_app_iff; auto.
Qed.

Definition crab_unitary_args (a : args) (ap gp : arg) : args := crab_args a ap gp <| a_phase_option := a_phase_option a |>.
Lemma crab_unitary_fields a ap gp : let a2 := crab_unitary_args a ap gp in
  a_ctrls a2 = a_ctrls a /\ a_method_params a2 = a_method_params a /\ a_fid_params a2 = a_fid_params a /\
  a_phase_option a2 = a_phase_option a /\ a_max_metric_corr a2 = VNone /\ a_accuracy_factor a2 = VNone.
Proof. destruct a. vm_compute. repeat split. Qed.
Lemma crab_unitary_passes a ap gp p q : let a3 := forwarded (unitary_args (crab_unitary_args a ap gp) p q) in
  passes CrabUnitary a a3 /\ a_fid_params a3 = q /\ a_method_params a3 = p /\ a_alg_params a3 = ap /\ a_init_pulse_params a3 = gp.
Proof. destruct a. split; [constructor; vm_compute; try reflexivity; discriminate|]. vm_compute. repeat split. Qed.
Lemma crab_unitary_reaches a h : well_formed h a -> reaches CrabUnitary a h (opt_pulse_crab_unitary a h).
Proof.
  intros W. destruct (crab_prepare a h W) as (h1 & ap & E1 & K1 & D1 & P).
  unfold Build.opt_pulse_crab_unitary. rewrite E1. destruct (crab_guess_params a h1) as [[h2 gp]|] eqn:E2.
  2:{ unfold reaches. cbn [fst snd]. split; [eapply keeps_incl; [|exact K1]; intros x; cbn; tauto|]. split; [auto|discriminate]. }
  destruct (P h2 gp eq_refl) as (K2 & D2 & X2 & (r & -> & Lr & G1) & G2).
  fold (crab_unitary_args a (Dict r) gp).
  destruct (crab_unitary_fields a (Dict r) gp) as (F1 & F2 & F3 & F4 & F5 & F6).
  pose proof (crab_unitary_passes a (Dict r) gp) as F7. cbv zeta in F7.
  generalize dependent (crab_unitary_args a (Dict r) gp). intros a2 F1 F2 F3 F4 F5 F6 F7.
  assert (Wm : exists_ h2 (a_method_params a2)) by (rewrite F2; eapply keeps_exists; [exact K2|apply (wf_method _ _ W)]).
  assert (Wf : exists_ h2 (a_fid_params a2)) by (rewrite F3; eapply keeps_exists; [exact K2|apply (wf_fid _ _ W)]).
  destruct (unitary_inv a2 h2 Wm Wf D2) as (K3 & D3 & O).
  unfold reaches. destruct (optimize_pulse_unitary a2 h2) as [h3 res]. cbn [fst snd] in *.
  split; [eapply keeps_trans; eapply keeps_incl; [|exact K2| |exact K3]; intros x; cbn; tauto|]. split; [auto|].
  intros b Hb. destruct (O b Hb) as (p & q & ctrls & n & C & A & Xp & Xq & Gp & Gq).
  exists (forwarded (unitary_args a2 p q)), ctrls, n. split; [now rewrite <- F1|]. split; [exact A|].
  destruct (F7 p q) as (F8 & F9 & F10 & F11 & F12).
  constructor; rewrite ?F9, ?F10, ?F11, ?F12.
  - exact F8.
  - exact Xq.
  - intros k Nk _.
    rewrite Gq by (intros I; apply Nk; apply in_or_app; auto).
    unfold fid_setting. rewrite F3, F4.
    rewrite (keeps_given _ _ _ _ _ K2); [reflexivity|apply (wf_fid _ _ W)|intros I; apply Nk; apply in_or_app; auto].
  - rewrite Gq by notin.
    unfold fid_setting. rewrite F3.
    rewrite (keeps_given _ _ _ _ _ K2); [|apply (wf_fid _ _ W)|notin].
    cbn. destruct (given _ _ _); reflexivity.
  - exact Xp.
  - intros k Nk. rewrite Gp by (intros ->; apply Nk; cbn; auto).
    unfold method_setting. rewrite F2.
    rewrite (keeps_given _ _ _ _ _ K2); [|apply (wf_method _ _ W)|intros I; apply Nk; apply in_or_app; auto].
    cbn [has_method_keywords]. rewrite F5, F6.
    destruct (given _ _ k), (k =? "max_metric_corr")%string, (k =? "accuracy_factor")%string; reflexivity.
  - eapply keeps_exists; [exact K3|exact Lr].
  - intros _. exists r. split; [reflexivity|]. intros k Nk.
    change (dget (at_ h3 r) k) with (given h3 (Dict r) k). rewrite (keeps_given _ _ _ _ _ K3); [|exact Lr|].
    + apply G1. intros I. apply Nk. rewrite !in_app_iff; auto.
    + intros I. apply Nk. revert I. cbn. tauto.
  - eapply keeps_exists; [exact K3|exact X2].
  - intros _ T. destruct (G2 T) as (s & -> & G3). exists s. split; [reflexivity|]. intros k Nk.
    change (dget (at_ h3 s) k) with (given h3 (Dict s) k). rewrite (keeps_given _ _ _ _ _ K3); [|exact X2|].
    + apply G3. intros I. apply Nk. rewrite !in_app_iff; auto.
    + intros I. apply Nk. revert I. cbn. tauto.
Qed.

Lemma call_reaches e a h : well_formed h a -> reaches e a h (call e a h).
Proof.
  intros W. destruct e; cbn [Build.call]; auto using create_reaches, optimize_reaches, unitary_reaches, crab_reaches, crab_unitary_reaches.
Qed.
End Build.
