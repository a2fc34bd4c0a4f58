(** When nothing but the options can go wrong. *)
From Verif.Model Require Import Build.
From Verif.Spec Require Import OptionRules Constructed Builds.
From Verif.Proofs Require Import OptionFacts ConstructFacts BuildFacts BuildParts BuildCalls BuildSelect.
Local Open Scope string_scope.
Local Open Scope list_scope.
Set Bullet Behavior "Strict Subproofs".

Section Total.
Variable make : klass -> list obj -> dict -> val -> Res dict.
Variable setter : klass -> string -> option (val -> dict -> Res dict).
Variable named : klass -> string -> bool.
Variable gen : nat -> obj -> Res (obj * val).
Variable check_ctrls : val -> Res (val * nat).
Variable check_others : val -> val -> val -> Res unit.
Hypothesis T : tame make setter gen check_ctrls check_others.

Definition bare (o : obj) : Prop := dget (o_attrs o) "params" = Some VNone /\ dget (o_attrs o) "method_params" = Some VNone.
Lemma new_t c os d p : exists o, new make c os d p = Ok o /\ o_class o = c /\ (p = VNone -> bare o).
Proof. unfold new. destruct (tm_make _ _ _ _ _ T c os d p) as (o & -> & F). exists (Obj c o). auto. Qed.
Lemma assign_t k v o : assign setter k v o = Ok (o <| o_attrs := dset k v (o_attrs o) |>).
Proof. unfold assign, setattr. now rewrite (tm_setter _ _ _ _ _ T). Qed.
Lemma assign_bare k v o : bare o -> k <> "params" -> k <> "method_params" -> bare (o <| o_attrs := dset k v (o_attrs o) |>).
Proof. intros [B1 B2] N1 N2. split; cbn; rewrite dget_ne; auto. Qed.
Lemma apply_t o : bare o -> apply setter VNone o = Ok o.
Proof.
  intros [B _]. unfold apply, apply_params. cbn [truthy bind]. unfold getattr. rewrite B. cbn [bind]. destruct o. reflexivity.
Qed.
Lemma apply_method_t o : bare o -> apply_method setter named VNone o = Ok o.
Proof.
  intros [_ B]. unfold apply_method, apply_method_params. cbn [truthy bind]. unfold getattr. rewrite B. cbn [bind]. destruct o. reflexivity.
Qed.
Lemma replace_t w os o same : bare o -> exists o', replace_comp make w os o same = Ok o' /\ bare o'.
Proof.
  intros B. unfold replace_comp. destruct w as [c|]; [|eauto]. destruct (same _ _); [eauto|].
  destruct (new_t c os [] VNone) as (o' & -> & _ & B'). eauto.
Qed.
Ltac mk n := match goal with |- context [new make ?c ?os ?d ?p] => destruct (new_t c os d p) as (n & -> & ? & ?B); cbn [bind]; try specialize (B eq_refl) end.

Lemma build_dyn_t h a m pt it : simple a ->
  match choose_dyn (a_dyn_type a) with
  | Raise e => build_dyn make setter h a m pt it = Raise e
  | Ok c => match choose_prop pt with
            | Raise e => build_dyn make setter h a m pt it = Raise e
            | Ok _ => match choose_fid (a_fid_type a) with
                      | Raise e => build_dyn make setter h a m pt it = Raise e
                      | Ok _ => exists cfg dyn prop fid tslot, build_dyn make setter h a m pt it = Ok (cfg, dyn, prop, fid, tslot)
                      end
            end
  end.
Proof.
  intros S. unfold build_dyn. rewrite (sm_dyn_p _ S), (sm_prop_p _ S), (sm_fid_p _ S), (sm_tslot_p _ S). cbn [load].
  mk cfg. rewrite !assign_t. cbn [bind]. rewrite !assign_t. cbn [bind]. rewrite !assign_t. cbn [bind]. rewrite !assign_t. cbn [bind]. rewrite !assign_t. cbn [bind].
  destruct (choose_dyn _) as [c|]; [|reflexivity]. cbn [bind]. mk dyn. mk tslot. mk prop. mk fid.
  rewrite apply_t by auto. cbn [bind]. rewrite assign_t. cbn [bind]. rewrite assign_t. cbn [bind].
  destruct (choose_prop pt) as [wp|]; [|reflexivity]. cbn [bind]. 
  match goal with |- context [replace_comp make wp ?os prop _] => destruct (replace_t wp os prop klass_eqb ltac:(auto)) as (prop' & -> & Bp) end. cbn [bind].
  rewrite apply_t by auto. cbn [bind].
  destruct (choose_fid _) as [wf|]; [|reflexivity]. cbn [bind].
  match goal with |- context [replace_comp make wf ?os fid _] => destruct (replace_t wf os fid klass_eqb ltac:(auto)) as (fid' & -> & Bf) end. cbn [bind].
  rewrite apply_t by auto. cbn [bind]. rewrite apply_t by auto. cbn [bind]. eauto 10.
Qed.
Lemma build_opt_t h a m cfg dyn : simple a ->
  match choose_opt (a_alg a) m with
  | Raise e => build_opt make setter named h a m cfg dyn = Raise e
  | Ok _ => exists dyn' opt, build_opt make setter named h a m cfg dyn = Ok (dyn', opt)
  end.
Proof.
  intros S. unfold build_opt. rewrite (sm_opt_p _ S), (sm_method_p _ S), (sm_stats _ S). cbn [load truthy].
  destruct (choose_opt _ _) as [c|]; [|reflexivity]. cbn [bind]. mk opt. do 4 (rewrite assign_t; cbn [bind]).
  rewrite apply_t by (repeat (apply assign_bare; [|discriminate|discriminate]); auto). cbn [bind]. mk tc.
  do 5 (rewrite assign_t; cbn [bind]). rewrite apply_method_t by (repeat (apply assign_bare; [|discriminate|discriminate]); auto). cbn [bind]. eauto.
Qed.
Lemma configure_t a ctrls dyn : simple a -> exists dyn', configure setter a ctrls dyn = Ok dyn'.
Proof. intros S. unfold configure. rewrite (sm_tau _ S). do 4 (rewrite assign_t; cbn [bind]). rewrite assign_t. eauto. Qed.
Lemma crab_gens_t a dyn nc ff ics cpp : simple a -> cpp = VNone -> forall js g, (forall x, g = Some x -> snd x = VNone) ->
  exists l, crab_gens make setter gen a dyn nc ff ics cpp None js g = Ok l /\ List.length l = List.length js.
Proof.
  intros S ->. induction js as [|j js IH]; intros g Hg; [exists []; auto|]. cbn [crab_gens].
  assert (X : exists c g', crab_gen make setter gen a dyn nc ff ics VNone None j g = Ok (c, g') /\ forall x, g' = Some x -> snd x = VNone).
  { unfold crab_gen. mk c0. assert (Y : exists c1, (if is_none ics then Ok c0 else assign setter "scaling" ics c0) = Ok c1) by (destruct (is_none ics); rewrite ?assign_t; eauto).
    destruct Y as (c1 & ->). cbn [bind is_dict]. rewrite (sm_lbound _ S), (sm_ubound _ S). cbn [bound_for truthy bind]. do 2 (rewrite assign_t; cbn [bind]).
    destruct g as [[gp act]|].
    - pose proof (Hg _ eq_refl) as Ha. cbn in Ha. subst act. do 2 (rewrite assign_t; cbn [bind]).
      match goal with |- context [gen j ?o] => destruct (tm_gen _ _ _ _ _ T j o) as (gp' & pulse & ->) end. cbn [bind]. rewrite assign_t. cbn [bind truthy].
      do 2 eexists. split; [reflexivity|]. intros x [= <-]. reflexivity.
    - cbn [bind]. do 2 eexists. split; [reflexivity|discriminate]. }
  destruct X as (c & g' & -> & Hg'). cbn [bind]. destruct (IH g' Hg') as (l & -> & L). cbn [bind]. exists (c :: l). split; [auto|]. cbn. auto.
Qed.
Lemma build_pgen_t h a it dyn n : simple a -> textual it ->
  if crab_chosen a
  then (truthy it = Ok true -> match choose_pulse it with Raise e => build_pgen make setter gen h a it dyn (S n) = Raise e
                               | Ok _ => exists p, build_pgen make setter gen h a it dyn (S n) = Ok p end) /\
       (truthy it = Ok false -> exists p, build_pgen make setter gen h a it dyn (S n) = Ok p)
  else match choose_pulse it with Raise e => build_pgen make setter gen h a it dyn (S n) = Raise e
       | Ok _ => exists p, build_pgen make setter gen h a it dyn (S n) = Ok p end.
Proof.
  intros S Tx. unfold build_pgen, crab_chosen. rewrite (sm_ramp _ S), (sm_pulse_p _ S), (sm_alg_p _ S). cbn [truthy bind load]. cbv zeta.
  destruct (is_text _ _).
  - assert (X : forall g, (forall x, g = Some x -> snd x = VNone) -> exists p, (l <- crab_gens make setter gen a dyn VNone (VBool true) VNone VNone None (range (Datatypes.S n)) g;;
                match l with [] => Raise IndexError | _ => Ok (Many l) end) = Ok p).
    { intros g Hg. destruct (crab_gens_t a dyn VNone (VBool true) VNone VNone S eq_refl (range (Datatypes.S n)) g Hg) as (l & -> & L). cbn [bind].
      unfold range in L. rewrite seq_length in L. destruct l; [discriminate|eauto]. }
    split; intros Ht; rewrite Ht; cbn [bind].
    + unfold create_pulse_gen. destruct (choose_pulse it) as [c|]; [|reflexivity]. cbn [bind]. mk g. do 2 (rewrite assign_t; cbn [bind]). apply X. intros x [= <-]. reflexivity.
    + apply X. discriminate.
  - unfold create_pulse_gen. destruct (choose_pulse it) as [c|]; [|reflexivity]. cbn [bind]. mk p. do 4 (rewrite assign_t; cbn [bind]). eauto.
Qed.

(** Errors of the choices, for text. *)
Lemma nd_text v : textual v -> exists b, none_or_def v = Ok b.
Proof. intros [-> | (s & ->)]; cbn; eauto. Qed.
Lemma choose_dyn_err t e : textual t -> choose_dyn t = Raise e -> e = UsageError.
Proof. intros [-> | (s & ->)]; unfold choose_dyn, no_option; cbn [is_text is_none orb]; [discriminate|]; texts; cbn [orb]; congruence. Qed.
Lemma choose_prop_err t e : textual t -> choose_prop t = Raise e -> e = UsageError.
Proof. intros [-> | (s & ->)]; unfold choose_prop, no_option; cbn [is_text is_none orb]; [discriminate|]; texts; cbn [orb]; congruence. Qed.
Lemma choose_fid_err t e : textual t -> choose_fid t = Raise e -> e = UsageError.
Proof. intros [-> | (s & ->)]; unfold choose_fid, no_option; cbn [upper_safe is_text is_none orb]; [discriminate|]; texts; cbn [orb]; congruence. Qed.
Lemma choose_opt_err alg m e : choose_opt alg m = Raise e -> e = UsageError.
Proof. unfold choose_opt. cbv zeta. repeat match goal with |- context [if ?b then _ else _] => destruct b end; congruence. Qed.
Lemma choose_pulse_err t e : choose_pulse t = Raise e -> e = ValueError.
Proof. unfold choose_pulse. repeat match goal with |- context [if ?b then _ else _] => destruct b end; congruence. Qed.
Lemma alg_defaults_t a : simple a ->
  (exists m pt it, alg_defaults a = Ok (m, pt, it)) \/
  (alg_defaults a = Raise UsageError /\ ~ alg_is (a_alg a) "GRAPE" /\ ~ alg_is (a_alg a) "CRAB").
Proof.
  intros S. unfold alg_defaults. cbv zeta. destruct (nd_text _ (sm_method_t _ S)) as (b1 & E1), (nd_text _ (sm_prop_t _ S)) as (b2 & E2), (nd_text _ (sm_pulse_t _ S)) as (b3 & E3).
  rewrite E1, E2, E3. cbn [bind].
  destruct (sm_alg_t _ S) as [Ha | (s & Ha)]; rewrite Ha; cbn [is_none upper_safe is_text].
  - right. split; [auto|]. split; intros (t & H & _); discriminate.
  - destruct (String.eqb_spec (upper s) "GRAPE"); [left; eauto|]. destruct (String.eqb_spec (upper s) "CRAB"); [left; eauto|].
    right. split; [auto|]. split; intros (t & [= <-] & H); congruence.
Qed.
Lemma deprecated_t a h : simple a -> deprecated a h = (h, a).
Proof.
  intros S. destruct (sm_old _ S) as (K1 & K2 & K3 & K4 & _). rewrite deprecated_pure, old_method_pure. unfold fid_put. rewrite K1, K2, K3, K4.
  cbn [put_missing is_none fst snd]. apply (f_equal (pair h)). unfold with_method, with_mode. pose proof (sm_mode _ S) as M. pose proof (sm_optim_alg _ S) as O. 
  destruct a. cbn in M, O. subst. vm_compute. reflexivity.
Qed.
Lemma alg_text a : crab_chosen a = true -> alg_is (a_alg a) "CRAB".
Proof. unfold crab_chosen. destruct (a_alg a); try discriminate. cbn. intros H. apply String.eqb_eq in H. exists s. auto. Qed.
Lemma create_t a h : simple a ->
  match snd (create make setter named gen check_ctrls check_others a h) with
  | Ok _ => types_ok a /\ pulse_ok a
  | Raise UsageError => ~ types_ok a
  | Raise ValueError => types_ok a /\ ~ pulse_ok a
  | Raise _ => False
  end.
Proof.
  intros S. unfold create. destruct (tm_ctrls _ _ _ _ _ T (a_ctrls a)) as (ctrls & n & ->). rewrite (tm_others _ _ _ _ _ T). rewrite (deprecated_t a h S). cbn [snd].
  unfold assemble. destruct (alg_defaults_t a S) as [(m & pt & it & Ad) | (Ad & N1 & N2)]; rewrite Ad; cbn [bind].
  2: { intros [[H | H] _]; contradiction. }
  apply alg_defaults_inv in Ad. destruct Ad as (crab & bm & bi & Hc & Ha & Hm & -> & Hi & -> & Hp). fold (crab_chosen a) in Hc.
  set (pl := if bi then if crab then VNone else VStr "RND" else a_init_pulse_type a).
  assert (Tp : textual pt).
  { pose proof (sm_prop_t _ S). destruct crab; [|congruence]. destruct Hp as ([|] & _ & ->); [right; eauto|auto]. }
  assert (Tpl : textual pl).
  { unfold pl. pose proof (sm_pulse_t _ S). destruct bi; [destruct crab; [left|right]; eauto|auto]. }
  set (mt := if bm then VStr (if crab then "FMIN" else "FMIN_L_BFGS_B") else a_optim_method a).
  pose proof (build_dyn_t h a mt pt pl S) as D.
  destruct (choose_dyn (a_dyn_type a)) as [c|e] eqn:Cd.
  2: { rewrite D. cbn [bind]. rewrite (choose_dyn_err _ _ (sm_dyn_t _ S) Cd). intros (_ & d & p & f & o & Hd & _). apply choose_dyn_iff in Hd. congruence. }
  destruct (choose_prop pt) as [wp|e] eqn:Cp.
  2: { rewrite D. cbn [bind]. rewrite (choose_prop_err _ _ Tp Cp). intros (_ & d & p & f & o & _ & Hd & _). rewrite Hc in Hd.
       apply (prop_sel crab d (a_prop_type a) pt p Hp) in Hd. destruct Hd as (w & Hw & _). congruence. }
  destruct (choose_fid (a_fid_type a)) as [wf|e] eqn:Cf.
  2: { rewrite D. cbn [bind]. rewrite (choose_fid_err _ _ (sm_fid_t _ S) Cf). intros (_ & d & p & f & o & _ & _ & Hd & _). apply choose_fid_iff in Hd. destruct Hd as (w & Hw & _). congruence. }
  destruct D as (cfg & dyn & prop & fid & tslot & ->). cbn [bind].
  pose proof (build_opt_t h a mt cfg dyn S) as O.
  destruct (choose_opt (a_alg a) mt) as [co|e] eqn:Co.
  2: { rewrite O. cbn [bind]. rewrite (choose_opt_err _ _ _ Co). intros (_ & d & p & f & o & _ & _ & _ & Hd). rewrite Hc in Hd.
       apply (choose_opt_iff crab (a_alg a) (a_optim_method a) o Hc) in Hd. destruct Hd as (b & Hb & H). rewrite Hm in Hb. injection Hb as <-. unfold mt in Co. congruence. }
  destruct O as (dyn' & opt & ->). cbn [bind]. destruct (configure_t a ctrls dyn' S) as (dyn2 & ->). cbn [bind].
  assert (TO : types_ok a).
  { split; [destruct Ha as [Ha | Ha]; [right; apply alg_text; congruence|auto]|]. rewrite Hc.
    exists c. do 3 eexists. split; [apply choose_dyn_iff, Cd|]. split; [apply (prop_sel crab c _ pt _ Hp); eauto|]. split; [apply choose_fid_iff; eauto|].
    apply (choose_opt_iff crab (a_alg a)); [exact Hc|]. exists bm. split; [exact Hm|exact Co]. }
  pose proof (build_pgen_t h a pl dyn2 n S Tpl) as P. rewrite Hc in P. unfold pulse_ok. rewrite Hc. destruct crab.
  - unfold pl in *. destruct bi.
    + destruct P as [_ P]. destruct (P eq_refl) as (p & ->). cbn [bind]. split; [auto|]. left. now apply nd_true.
    + apply nd_false in Hi. destruct Hi as (s & Hs & U). rewrite Hs in P |- *. cbn [truthy] in P. destruct (String.eqb_spec s "") as [->|N].
      * destruct P as [_ P]. destruct (P eq_refl) as (p & ->). cbn [bind]. split; [auto|]. right; left; auto.
      * destruct P as [P _]. specialize (P eq_refl). destruct (choose_pulse (VStr s)) as [k|e] eqn:Ck.
        -- destruct P as (p & ->). cbn [bind]. split; [auto|]. right; right. exists s, k. split; [auto|]. now apply choose_pulse_iff.
        -- rewrite P. cbn [bind]. rewrite (choose_pulse_err _ _ Ck). split; [auto|]. intros [[X | (s' & [= <-] & X)] | [[= X] | (s' & k & [= <-] & X)]]; try congruence.
           apply choose_pulse_iff in X. congruence.
  - unfold pl in *. destruct bi.
    + cbn in P. destruct P as (p & ->). cbn [bind]. split; [auto|]. exists Random. left. split; [now apply nd_true|auto].
    + apply nd_false in Hi. destruct Hi as (s & Hs & U). rewrite Hs in P |- *. destruct (choose_pulse (VStr s)) as [k|e] eqn:Ck.
      * destruct P as (p & ->). cbn [bind]. split; [auto|]. exists k. right. exists s. split; [auto|]. now apply choose_pulse_iff.
      * rewrite P. cbn [bind]. rewrite (choose_pulse_err _ _ Ck). split; [auto|]. intros (k & [[[X | (s' & [= <-] & X)] _] | (s' & [= <-] & X)]); try congruence.
        apply choose_pulse_iff in X. congruence.
Qed.
End Total.
