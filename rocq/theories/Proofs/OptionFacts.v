(** Lemmas about Model/Values.v and Model/Options.v. *)
From Verif.Model Require Import Values Options.
From Verif.Spec Require Import OptionRules.
Local Open Scope string_scope.
Local Open Scope list_scope.
Set Bullet Behavior "Strict Subproofs".

Ltac splits_and := repeat match goal with |- _ /\ _ => split end; auto.

Lemma dget_eq k v d : dget (dset k v d) k = Some v.
Proof.
  induction d as [|[k' v'] d IH]; cbn; [now rewrite String.eqb_refl|].
  destruct (String.eqb_spec k' k); cbn; [now rewrite String.eqb_refl|].
  apply String.eqb_neq in n. now rewrite n.
Qed.
Lemma dget_ne k k' v d : k' <> k -> dget (dset k v d) k' = dget d k'.
Proof.
  intros N. induction d as [|[q v'] d IH]; cbn.
  - destruct (String.eqb_spec k k'); congruence.
  - destruct (String.eqb_spec q k); cbn.
    + subst. destruct (String.eqb_spec k k'); congruence.
    + destruct (String.eqb_spec q k'); auto.
Qed.
Lemma dget_set k k' v d : dget (dset k v d) k' = if (k =? k')%string then Some v else dget d k'.
Proof. destruct (String.eqb_spec k k'); [subst; apply dget_eq|apply dget_ne; auto]. Qed.
Lemma dget_in d k v : distinct d -> In (k, v) d -> dget d k = Some v.
Proof.
  unfold distinct. induction d as [|[q u] d IH]; cbn; [tauto|]. intros N [H|H]; inversion N; subst.
  - injection H as -> ->. now rewrite String.eqb_refl.
  - destruct (String.eqb_spec q k); auto. subst. exfalso. apply H2. apply (in_map fst) in H. exact H.
Qed.
Lemma dget_notin d k : ~ In k (map fst d) -> dget d k = None.
Proof.
  induction d as [|[q u] d IH]; cbn; auto. intros N. destruct (String.eqb_spec q k); [exfalso; auto|apply IH; auto].
Qed.
Lemma dget_some_in d k v : dget d k = Some v -> In (k, v) d.
Proof.
  induction d as [|[q u] d IH]; cbn; [discriminate|]. destruct (String.eqb_spec q k); [intros [= ->]; subst; auto|auto].
Qed.
Lemma dupdate_get e : distinct e -> forall d k, dget (dupdate d e) k = or_else (dget e k) (dget d k).
Proof.
  unfold distinct, dupdate. induction e as [|[q u] e IH]; cbn; intros N d k; auto. inversion N; subst.
  rewrite IH by auto. rewrite dget_set. destruct (String.eqb_spec q k); auto. subst.
  now rewrite (dget_notin e k).
Qed.
Lemma dset_keys k v d : forall x, In x (map fst (dset k v d)) <-> x = k \/ In x (map fst d).
Proof.
  induction d as [|[q u] d IH]; cbn; intros x; [intuition|]. destruct (String.eqb_spec q k); cbn; [subst; intuition|].
  rewrite IH. intuition.
Qed.
Lemma dset_distinct k v d : distinct d -> distinct (dset k v d).
Proof.
  unfold distinct. induction d as [|[q u] d IH]; cbn; intros N; [repeat constructor; auto|].
  inversion N; subst. destruct (String.eqb_spec q k); cbn; [subst; constructor; auto|].
  constructor; auto. rewrite dset_keys. intros [->|]; auto.
Qed.
Lemma dmem_some d k : dmem d k = true <-> exists v, dget d k = Some v.
Proof. unfold dmem. destruct (dget d k); split; eauto; try discriminate. intros [? [=]]. Qed.
Lemma dmem_none d k : dmem d k = false <-> dget d k = None.
Proof. unfold dmem. destruct (dget d k); split; congruence. Qed.
Lemma or_assoc {X} (a b c : option X) : or_else (or_else a b) c = or_else a (or_else b c).
Proof. destruct a; auto. Qed.

Section Opts.
Variable cls tcls xcls : string -> bool.
Variable setter : string -> option (val -> dict -> Res dict).
Notation hasattr := (hasattr cls).
Notation tc_hasattr := (tc_hasattr tcls xcls).
Notation dispatch := (dispatch cls tcls xcls setter).
Notation apply_method_params := (apply_method_params cls tcls xcls setter).
Notation build_method_options := (build_method_options cls tcls xcls).
Notation start_run := (start_run cls tcls xcls setter).
Notation scipy_args := (scipy_args cls tcls xcls).

Definition tc_knows (e : dict) (k : string) : bool := dmem e k || tcls k.

Lemma hasattr_set o k v k' : hasattr o k = true -> hasattr (dset k v o) k' = hasattr o k'.
Proof.
  unfold Options.hasattr, dmem. intros H. rewrite dget_set. destruct (String.eqb_spec k k'); auto. subst.
  destruct (dget o k'); auto.
Qed.
Lemma hasattr_tc o v k' w : dget o "termination_conditions" = Some w -> hasattr (dset "termination_conditions" v o) k' = hasattr o k'.
Proof.
  intros H. unfold Options.hasattr, dmem. rewrite dget_set. destruct (String.eqb_spec "termination_conditions" k'); auto. subst. now rewrite H.
Qed.
Lemma knows_set e k v k' : tc_knows e k = true -> tc_knows (dset k v e) k' = tc_knows e k'.
Proof.
  unfold tc_knows, dmem. intros H. rewrite dget_set. destruct (String.eqb_spec k k'); auto. subst.
  destruct (dget e k'); auto.
Qed.

(** The loop: what ends up where. *)
Lemma dispatch_ok p : distinct p -> forall o e un,
  term_conds o e -> ~ In "termination_conditions" (map fst p) -> (forall k, In k (map fst p) -> setter k = None) ->
  distinct un ->
  exists o' e' un', dispatch p (o, un) = Ok (o', un') /\ term_conds o' e' /\ distinct un' /\
    (forall k, k <> "termination_conditions" -> dget o' k = if hasattr o k then or_else (dget p k) (dget o k) else dget o k) /\
    (forall k, dget e' k = if negb (hasattr o k) && tc_knows e k then or_else (dget p k) (dget e k) else dget e k) /\
    (forall k, dget un' k = if hasattr o k || tc_knows e k then dget un k else or_else (dget p k) (dget un k)).
Proof.
  unfold distinct at 1. induction p as [|[q u] p IH]; intros N o e un T NT NS Du.
  - exists o, e, un. cbn. split; auto. split; auto. split; auto. repeat split; intros k.
    + destruct (hasattr o k); auto.
    + destruct (_ && _); auto.
    + destruct (_ || _); auto.
  - cbn [map fst] in N, NT, NS. inversion N as [|? ? N1 N2]; subst. cbn [Options.dispatch].
    assert (NT' : ~ In "termination_conditions" (map fst p)) by (intros K; apply NT; cbn; auto).
    assert (NS' : forall k, In k (map fst p) -> setter k = None) by (intros k K; apply NS; cbn; auto).
    destruct (hasattr o q) eqn:Hq.
    + unfold setattr. rewrite NS by (cbn; auto). cbn [bind].
      assert (Q : q <> "termination_conditions") by (intros ->; apply NT; cbn; auto).
      destruct (IH N2 (dset q u o) e un) as (o' & e' & un' & E & T' & D' & A1 & A2 & A3); auto.
      { unfold term_conds. rewrite dget_ne; auto. }
      exists o', e', un'. split; [exact E|]. split; [exact T'|]. split; [exact D'|]. repeat split; intros k.
      * intros Hk. rewrite A1, hasattr_set, dget_set by auto. cbn [dget].
        destruct (String.eqb_spec q k); auto. subst. rewrite Hq, (dget_notin p k); auto.
      * rewrite A2, hasattr_set by auto. cbn [dget].
        destruct (String.eqb_spec q k); auto. subst. rewrite Hq. auto.
      * rewrite A3, hasattr_set by auto. cbn [dget].
        destruct (String.eqb_spec q k); auto. subst. rewrite Hq. auto.
    + unfold getattr. rewrite T. cbn [bind Options.tc_hasattr]. fold (tc_knows e q).
      destruct (tc_knows e q) eqn:Kq.
      * cbn [bind]. destruct (IH N2 (dset "termination_conditions" (VObj (dset q u e)) o) (dset q u e) un) as (o' & e' & un' & E & T' & D' & A1 & A2 & A3); auto.
        { unfold term_conds. now rewrite dget_eq. }
        exists o', e', un'. split; [exact E|]. split; [exact T'|]. split; [exact D'|]. repeat split; intros k.
        -- intros Hk. rewrite A1, (hasattr_tc _ _ _ _ T), dget_ne by auto. cbn [dget].
           destruct (String.eqb_spec q k); auto. subst. rewrite Hq. auto.
        -- rewrite A2, (hasattr_tc _ _ _ _ T), knows_set, dget_set by auto. cbn [dget].
           destruct (String.eqb_spec q k); auto. subst. rewrite Hq, Kq, (dget_notin p k); auto.
        -- rewrite A3, (hasattr_tc _ _ _ _ T), knows_set by auto. cbn [dget].
           destruct (String.eqb_spec q k); auto. subst. rewrite Hq, Kq. auto.
      * cbn [bind]. destruct (IH N2 o e (dset q u un)) as (o' & e' & un' & E & T' & D' & A1 & A2 & A3); auto.
        { now apply dset_distinct. }
        exists o', e', un'. split; [exact E|]. split; [exact T'|]. split; [exact D'|]. repeat split; intros k.
        -- intros Hk. rewrite A1 by auto. cbn [dget].
           destruct (String.eqb_spec q k); auto. subst. rewrite Hq. auto.
        -- rewrite A2. cbn [dget].
           destruct (String.eqb_spec q k); auto. subst. rewrite Hq, Kq. auto.
        -- rewrite A3, dget_set. cbn [dget].
           destruct (String.eqb_spec q k); auto. subst. rewrite Hq, Kq, (dget_notin p k); auto.
Qed.

Lemma opts_get o mo k : options_are o mo -> exists m, dget o "method_options" = Some m /\
  (forall un, distinct un -> dget match m with VDict d => dupdate d un | _ => un end k = or_else (dget un k) (dget mo k)).
Proof.
  intros [[H ->]|H]; rewrite H; eexists; (split; [reflexivity|]); intros un D.
  - destruct (dget un k); auto.
  - now apply dupdate_get.
Qed.

(** [apply_method_params(p)] as a whole. *)
Lemma apply_ok p o e mo : distinct p -> p <> [] -> term_conds o e -> options_are o mo ->
  (forall k, In k (map fst p) -> ~ bookkeeping k /\ setter k = None) ->
  exists o' e' mo', apply_method_params (VDict p) o = Ok o' /\ term_conds o' e' /\ options_are o' mo' /\
    dget o' "method_params" = Some (VDict p) /\
    (forall k, ~ bookkeeping k -> dget o' k = if hasattr o k then or_else (dget p k) (dget o k) else dget o k) /\
    (forall k, dget e' k = if negb (hasattr o k) && tc_knows e k then or_else (dget p k) (dget e k) else dget e k) /\
    (forall k, dget mo' k = if hasattr o k || tc_knows e k then dget mo k else or_else (dget p k) (dget mo k)).
Proof.
  intros Dp Np T Om H. unfold Options.apply_method_params. cbn [truthy].
  destruct p as [|kv p0]; [contradiction|]. set (p := kv :: p0) in *. cbn [bind].
  destruct (dispatch_ok p Dp (dset "method_params" (VDict p) o) e []) as (o1 & e' & un & E & T' & Du & A1 & A2 & A3).
  - unfold term_conds. now rewrite dget_ne.
  - intros K. apply H in K. apply K. now left.
  - intros k K. apply H. auto.
  - constructor.
  - match goal with |- context [dispatch p ?s] => replace (dispatch p s) with (@Ok (dict * dict) (o1, un)) by (symmetry; exact E) end. cbn [bind].
    assert (HA : forall k, ~ bookkeeping k -> hasattr (dset "method_params" (VDict p) o) k = hasattr o k).
    { intros k Hk. unfold Options.hasattr, dmem. rewrite dget_ne; auto. intros ->. apply Hk. unfold bookkeeping; auto. }
    assert (PB : forall k, bookkeeping k -> dget p k = None).
    { intros k B. apply dget_notin. intros K. apply H in K. tauto. }
    assert (M1 : dget o1 "method_options" = dget o "method_options").
    { rewrite A1 by discriminate. rewrite (PB "method_options") by (unfold bookkeeping; auto). cbn [or_else].
      rewrite dget_ne by discriminate. destruct (hasattr _ _); auto. }
    assert (M2 : dget o1 "method_params" = Some (VDict p)).
    { rewrite A1 by discriminate. rewrite (PB "method_params") by (unfold bookkeeping; auto). cbn [or_else].
      rewrite dget_eq. destruct (hasattr _ _); auto. }
    assert (A1' : forall k, ~ bookkeeping k -> dget o1 k = if hasattr o k then or_else (dget p k) (dget o k) else dget o k).
    { intros k Hk. rewrite A1 by (intros ->; apply Hk; now left). rewrite HA by auto. rewrite dget_ne; auto.
      intros ->. apply Hk. unfold bookkeeping; auto. }
    assert (A2' : forall k, dget e' k = if negb (hasattr o k) && tc_knows e k then or_else (dget p k) (dget e k) else dget e k).
    { intros k. rewrite A2. destruct (string_dec k "method_params") as [->|Nk].
      - rewrite PB by (unfold bookkeeping; auto). cbn. destruct (_ && _), (_ && _); auto.
      - destruct (dget p k) eqn:Ep.
        + rewrite HA; auto. apply dget_some_in in Ep. apply (in_map fst) in Ep. apply H in Ep. tauto.
        + cbn. destruct (_ && _), (_ && _); auto. }
    assert (A3' : forall k, dget un k = if hasattr o k || tc_knows e k then None else dget p k).
    { intros k. rewrite A3. cbn [dget]. destruct (dget p k) eqn:Ep.
      - rewrite HA; auto. apply dget_some_in in Ep. apply (in_map fst) in Ep. apply H in Ep. tauto.
      - cbn. destruct (_ || _), (_ || _); auto. }
    assert (Fin : forall o2 mo2, (o2 = o1 /\ un = [] /\ mo2 = mo) \/ (exists m, dget o "method_options" = Some m /\ mo2 = match m with VDict d => dupdate d un | _ => un end /\ o2 = dset "method_options" (VDict mo2) o1) ->
       term_conds o2 e' /\ options_are o2 mo2 /\ dget o2 "method_params" = Some (VDict p) /\
       (forall k, ~ bookkeeping k -> dget o2 k = if hasattr o k then or_else (dget p k) (dget o k) else dget o k) /\
       (forall k, dget mo2 k = if hasattr o k || tc_knows e k then dget mo k else or_else (dget p k) (dget mo k))).
    { intros o2 mo2 [(-> & -> & ->)|(m & Hm & -> & ->)].
      - split; [auto|]. split; [unfold options_are; rewrite M1; auto|]. split; [auto|]. split; [auto|].
        intros k. specialize (A3' k). cbn [dget] in A3'. destruct (_ || _); auto. unfold or_else. destruct (dget p k); [discriminate|auto].
      - split; [unfold term_conds; rewrite dget_ne by discriminate; auto|].
        split; [right; now rewrite dget_eq|]. split; [rewrite dget_ne by discriminate; auto|].
        split.
        + intros k Hk. rewrite dget_ne; auto. intros ->. apply Hk. unfold bookkeeping; auto.
        + intros k. destruct (opts_get o mo k Om) as (m' & Hm' & X). replace m' with m in X by congruence.
          rewrite (X un Du), A3'. destruct (_ || _); auto. }
    destruct (Nat.eqb_spec (List.length un) 0) as [Lu|Lu].
    + destruct un; [|discriminate]. destruct (Fin o1 mo) as (F1 & F2 & F3 & F4 & F5); [left; auto|].
      exists o1, e', mo. splits_and.
    + unfold getattr. rewrite M1. destruct (opts_get o mo "" Om) as (m & Hm & _). rewrite Hm. cbn [bind].
      set (mo2 := match m with VDict d => dupdate d un | _ => un end).
      destruct (Fin (dset "method_options" (VDict mo2) o1) mo2) as (F1 & F2 & F3 & F4 & F5); [right; exists m; auto|].
      exists (dset "method_options" (VDict mo2) o1), e', mo2. split; [destruct m; reflexivity|]. splits_and.
Qed.

Lemma add_get b k v mo x : dget (add_if (b && negb (dmem mo k)) k v mo) x =
  or_else (dget mo x) (if (k =? x)%string then if b then Some v else None else None).
Proof.
  unfold add_if, dmem. destruct b; cbn [andb].
  - destruct (dget mo k) eqn:E; cbn [negb].
    + destruct (String.eqb_spec k x); [subst; now rewrite E|]. destruct (dget mo x); auto.
    + rewrite dget_set. destruct (String.eqb_spec k x); [subst; now rewrite E|]. destruct (dget mo x); auto.
  - destruct (_ =? _)%string; destruct (dget mo x); auto.
Qed.

Ltac dcases := repeat match goal with
  | |- context [dget ?a ?b] => destruct (dget a b)
  | |- context [Rlt_dec ?a ?b] => destruct (Rlt_dec a b)
  end; reflexivity.

Lemma build_ok o e mo it fc gn dv :
  cls "max_metric_corr" = false -> tcls "accuracy_factor" = false ->
  term_conds o e -> options_are o mo -> limits e it fc gn -> dget o "disp_conv_msg" = Some dv ->
  exists mo', build_method_options o = Ok (dset "method_options" (VDict mo') o, mo') /\
    forall k, dget mo' k = or_else (dget mo k) (derived o e mo it fc gn k).
Proof.
  intros C1 C2 T Om (L1 & L2 & L3) Dv. unfold Options.build_method_options.
  unfold getattr at 1. rewrite T. cbn [bind].
  assert (M : exists m, getattr o "method_options" = Ok m /\ match m with VNone => Ok [] | VDict d => Ok d | _ => Raise TypeError end = Ok mo).
  { destruct Om as [[H ->]|H]; unfold getattr; rewrite H; eauto. }
  destruct M as (m & -> & M). cbn [bind]. rewrite M. cbn [bind].
  (* maxcor *)
  set (c1 := if dmem mo "max_metric_corr" && _ then _ else _).
  assert (S1 : exists m1, c1 = Ok m1 /\ forall k, dget m1 k = or_else (dget mo k)
     (if (k =? "maxcor")%string then or_else (dget mo "max_metric_corr") (dget o "max_metric_corr") else None)).
  { unfold c1, Options.hasattr, dmem, getattr. rewrite C1, orb_false_r.
    destruct (dget mo "maxcor") as [w|] eqn:Ew.
    - rewrite !andb_false_r. exists mo. split; auto. intros k. destruct (String.eqb_spec k "maxcor"); [subst; now rewrite Ew|].
      destruct (dget mo k); auto.
    - cbn [negb]. rewrite !andb_true_r.
      destruct (dget mo "max_metric_corr") as [w|] eqn:Em.
      + eexists. split; [reflexivity|]. intros k. rewrite dget_set, (String.eqb_sym k). destruct (String.eqb_spec "maxcor" k).
        * subst. now rewrite Ew.
        * destruct (dget mo k); auto.
      + destruct (dget o "max_metric_corr") as [w|] eqn:Eo; cbn [bind].
        * eexists. split; [reflexivity|]. intros k. rewrite dget_set, (String.eqb_sym k). destruct (String.eqb_spec "maxcor" k).
          -- subst. now rewrite Ew.
          -- destruct (dget mo k); auto.
        * exists mo. split; auto. intros k. destruct (_ =? _)%string; destruct (dget mo k); auto. }
  destruct S1 as (m1 & -> & G1). cbn [bind].
  set (c2 := if dmem m1 "accuracy_factor" && _ then _ else _).
  assert (S2 : exists m2, c2 = Ok m2 /\ forall k, dget m2 k = or_else (dget m1 k)
     (if (k =? "ftol")%string then or_else (dget mo "accuracy_factor") (dget e "accuracy_factor") else None)).
  { assert (Q : dget m1 "accuracy_factor" = dget mo "accuracy_factor") by (rewrite G1; destruct (dget mo "accuracy_factor"); reflexivity).
    unfold c2, Options.tc_hasattr, tc_get, dmem, getattr. rewrite C2, orb_false_r, Q.
    destruct (dget m1 "ftol") as [w|] eqn:Ew.
    - rewrite !andb_false_r. exists m1. split; auto. intros k. destruct (String.eqb_spec k "ftol"); [subst; now rewrite Ew|].
      destruct (dget m1 k); auto.
    - cbn [negb]. rewrite !andb_true_r.
      destruct (dget mo "accuracy_factor") as [w|] eqn:Em.
      + eexists. split; [reflexivity|]. intros k. rewrite dget_set, (String.eqb_sym k). destruct (String.eqb_spec "ftol" k).
        * subst. now rewrite Ew.
        * destruct (dget m1 k); auto.
      + destruct (dget e "accuracy_factor") as [w|] eqn:Eo; cbn [bind].
        * eexists. split; [reflexivity|]. intros k. rewrite dget_set, (String.eqb_sym k). destruct (String.eqb_spec "ftol" k).
          -- subst. now rewrite Ew.
          -- destruct (dget m1 k); auto.
        * exists m1. split; auto. intros k. destruct (_ =? _)%string; destruct (dget m1 k); auto. }
  destruct S2 as (m2 & -> & G2). cbn [bind].
  unfold tc_get at 1, getattr at 1. rewrite L1. cbn [bind gt0].
  set (m3 := add_if _ "maxiter" _ _).
  unfold tc_get at 1, getattr at 1. rewrite L2. cbn [bind gt0].
  set (m4 := add_if _ "maxfev" _ _).
  unfold tc_get at 1, getattr at 1. rewrite L3. cbn [bind gt0].
  set (m5 := add_if _ "gtol" _ _).
  assert (G5 : forall k, dget m5 k = or_else (dget mo k) (if (k =? "disp")%string then None else derived o e mo it fc gn k)).
  { intros k. unfold m5, m4, m3. rewrite !add_get, G2, G1. unfold derived, positive. rewrite !(String.eqb_sym k).
    destruct (String.eqb_spec "maxcor" k); [subst; cbn [String.eqb Ascii.eqb Bool.eqb]; dcases|].
    destruct (String.eqb_spec "ftol" k); [subst; cbn [String.eqb Ascii.eqb Bool.eqb]; dcases|].
    destruct (String.eqb_spec "maxiter" k); [subst; cbn [String.eqb Ascii.eqb Bool.eqb]; dcases|].
    destruct (String.eqb_spec "maxfev" k); [subst; cbn [String.eqb Ascii.eqb Bool.eqb]; dcases|].
    destruct (String.eqb_spec "gtol" k); [subst; cbn [String.eqb Ascii.eqb Bool.eqb]; dcases|].
    destruct (String.eqb_spec "disp" k); [subst; cbn [String.eqb Ascii.eqb Bool.eqb]; dcases|].
    dcases. }
  unfold dmem, getattr. rewrite Dv. cbn [bind].
  destruct (dget m5 "disp") as [w|] eqn:Ed; cbn [negb bind].
  - exists m5. split; auto. intros k. rewrite G5. destruct (String.eqb_spec k "disp"); auto. subst.
    rewrite G5 in Ed. cbn in Ed. destruct (dget mo "disp"); [reflexivity|discriminate].
  - eexists. split; [reflexivity|]. intros k. rewrite dget_set, G5, (String.eqb_sym k). destruct (String.eqb_spec "disp" k); auto. subst.
    rewrite G5 in Ed. cbn in Ed. destruct (dget mo "disp"); [discriminate|]. cbn. now rewrite Dv.
Qed.
End Opts.
