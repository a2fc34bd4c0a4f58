(** Property C90: logging changes no result. *)
From Coq Require Import Reals Lra.
From Coquelicot Require Import Complex.
From RecordUpdate Require Import RecordUpdate.
From Verif.Model Require Import Base Dyn Verbose.
From Verif.Lib Require Import Lists.
From Verif.Spec Require Import Evolution History Scalar Loud.
From Verif.Proofs Require Import DynInv DynRun DynHist DynHistory DynProps DynFrame ScalarFacts VerboseFacts.
Local Open Scope nat_scope.
Set Bullet Behavior "Strict Subproofs".

(** ** C90 *)

(** Above DEBUG in dynamics and above DEBUG_INTENSE in tslotcomp, and with no
    check asked for, every history of calls on every object does the same. *)
Theorem C90_quiet {A : Alg} (unit : Op A -> bool) lv (s : settings A) st a ops :
  6 < lv_tslot lv -> 10 < lv_dyn lv -> lv_check lv = 0 ->
  session_v unit lv s st a ops = session s st a ops.
Proof. intros H1 H2 H3. unfold session_v, session. apply bind_ext. intros d _. now apply run_quiet. Qed.

(** At any level, what is returned is right: a call that returns gives the
    answer, and leaves the object, of the plain call; a history that runs to
    its end ends in the same state. *)
Theorem C90_answers {A : Alg} (unit : Op A -> bool) lv :
  (forall (d d' : dyn A) e, fid_err_v unit lv d = Ok (d', e) -> get_fid_err d = Ok (d', e)) /\
  (forall (d d' : dyn A) f, fidelity_v unit lv d = Ok (d', f) -> get_fidelity d = Ok (d', f)) /\
  (forall (d d' : dyn A) g, gradient_v unit lv d = Ok (d', g) -> get_fid_err_gradient d = Ok (d', g)) /\
  (forall (d d' : dyn A) b, evolution_v unit lv d = Ok (d', b) -> compute_evolution d = Ok (d', b)) /\
  (forall (s : settings A) st a ops d, session_v unit lv s st a ops = Ok d -> session s st a ops = Ok d).
Proof.
  splits; intros.
  - eapply fid_err_le; eauto.
  - eapply fidelity_le; eauto.
  - eapply gradient_le; eauto.
  - eapply evolution_le; eauto.
  - revert H. apply le_bind; [apply le_refl|]. intros; apply run_le.
Qed.

(** For problems that can be solved at all, exactly which histories end with
    an exception that is not there without logging, and which. *)
Theorem C90_exactly {A : Alg} (unit : Op A -> bool) lv (s : settings A) n m st a ops :
  well_posed s n m -> routines_ok s n m -> shape n m a -> Forall (call_ok s n m) ops ->
  (exists d, session s st a ops = Ok d) /\
  session_v unit lv s st a ops =
  match first_complaint unit lv s false a ops with Some e => Raise e | None => session s st a ops end.
Proof.
  intros W RO Sa F. split; [|now apply (session_complaint s n m)].
  destruct (session_ok s n m W RO st a ops Sa F) as (d & E & _). eauto.
Qed.

(** So logging is harmless, at any level, if propagators are not computed
    along with their gradients and the propagators are unitary, or diagonalised;
    for other classes than DynamicsUnitary, if no check is asked for. *)
Theorem C90_harmless {A : Alg} (unit : Op A -> bool) lv (s : settings A) n m st a ops :
  well_posed s n m -> routines_ok s n m -> shape n m a -> Forall (call_ok s n m) ops ->
  6 < lv_tslot lv \/ s_prop s = Approx \/ s_cache_pg s = false ->
  match s_class s with
  | GenMat => lv_check lv = 0
  | Unitary => s_prop s = Diag \/
               lv_check lv <= 1 /\ forall b p, shape n m b -> In p (props_of s b) -> unit p = true
  end ->
  session_v unit lv s st a ops = session s st a ops.
Proof.
  intros W RO Sa F H1 H2. rewrite (session_complaint s n m unit lv W RO st a ops Sa F).
  assert (C : forall b, shape n m b -> complaint unit lv s b = None).
  { intros b Sb. unfold complaint, exact_cached.
    assert (E1 : (lv_tslot lv <=? 6) && match s_prop s with Approx => false | _ => s_cache_pg s end = false).
    { destruct H1 as [H1|[->| ->]]; [|apply andb_false_r|destruct (s_prop s); apply andb_false_r].
      destruct (Nat.leb_spec (lv_tslot lv) 6); [lia|reflexivity]. }
    rewrite E1. destruct (s_class s); [now rewrite H2|].
    set (level := if lv_dyn lv <=? 10 then 1 else lv_check lv). destruct (level =? 0); [reflexivity|].
    destruct H2 as [->|[H2 H3]]; [reflexivity|].
    assert (E2 : (1 <? level) || negb (forallb unit (props_of s b)) = false).
    { assert (L : level <= 1) by (unfold level; destruct (lv_dyn lv <=? 10); lia).
      destruct (Nat.ltb_spec 1 level); [lia|]. cbn. apply negb_false_iff. apply forallb_forall. intros p Hp. eapply H3; eauto. }
    rewrite E2. destruct (s_prop s); reflexivity. }
  assert (N : forall l cur b, shape n m b -> Forall (call_ok s n m) l -> first_complaint unit lv s cur b l = None).
  { induction l as [|o l IH]; intros cur b Sb Fl; [reflexivity|]. inversion Fl as [|? ? Ho Fl']; subst.
    destruct o; cbn [first_complaint needs_evolution andb]; auto; destruct cur; cbn [negb]; rewrite ?(C b Sb); auto. }
  now rewrite (N ops false a Sa F).
Qed.

(** The first call that needs the evolution, after any updates and accesses. *)
Lemma first_call {A : Alg} (unit : Op A -> bool) lv (s : settings A) pre o post : forall cur a,
  Forall (fun p => needs_evolution p = false) pre -> needs_evolution o = true -> cur = false ->
  first_complaint unit lv s cur a (pre ++ o :: post) =
  match complaint unit lv s (latest a pre) with
  | Some e => Some e
  | None => first_complaint unit lv s true (latest a pre) post
  end.
Proof.
  induction pre as [|p pre IH]; intros cur a F Ho ->; cbn [app].
  - destruct o; try discriminate; reflexivity.
  - inversion F as [|? ? Hp F']; subst. destruct p; try discriminate Hp; cbn [first_complaint needs_evolution andb latest];
    apply IH; auto. now destruct (list_eq_dec _ _ _).
Qed.

(** The message with the propagators makes the first such call fail, whatever
    the problem, if exact gradients are computed along (the default). *)
Theorem C90_intense {A : Alg} (unit : Op A -> bool) lv (s : settings A) n m st a pre o post :
  well_posed s n m -> routines_ok s n m -> shape n m a -> Forall (call_ok s n m) (pre ++ o :: post) ->
  lv_tslot lv <= 6 -> s_prop s <> Approx -> s_cache_pg s = true ->
  Forall (fun p => needs_evolution p = false) pre -> needs_evolution o = true ->
  session_v unit lv s st a (pre ++ o :: post) = Raise AttributeError /\
  exists d, session s st a (pre ++ o :: post) = Ok d.
Proof.
  intros W RO Sa F L HA Hc Fp Ho.
  destruct (C90_exactly unit lv s n m st a _ W RO Sa F) as (E & ->). split; auto.
  rewrite first_call by auto. unfold complaint, exact_cached.
  destruct (Nat.leb_spec (lv_tslot lv) 6); [|lia]. rewrite Hc. destruct (s_prop s); try reflexivity. congruence.
Qed.

(** The level DEBUG makes it fail if some propagator is not unitary, unless
    generators are diagonalised; above DEBUG nothing happens. *)
Theorem C90_debug {A : Alg} (unit : Op A -> bool) lv (s : settings A) n m st a pre o post p :
  well_posed s n m -> routines_ok s n m -> shape n m a -> Forall (call_ok s n m) (pre ++ o :: post) ->
  6 < lv_tslot lv -> s_class s = Unitary -> s_prop s <> Diag ->
  In p (props_of s (latest a pre)) -> unit p = false ->
  Forall (fun p => needs_evolution p = false) pre -> needs_evolution o = true ->
  (lv_dyn lv <= 10 -> session_v unit lv s st a (pre ++ o :: post) = Raise TypeError) /\
  (10 < lv_dyn lv -> lv_check lv = 0 -> exists d, session_v unit lv s st a (pre ++ o :: post) = Ok d).
Proof.
  intros W RO Sa F L Hc HD Hp Hu Fp Ho.
  destruct (C90_exactly unit lv s n m st a _ W RO Sa F) as (E & E2). split.
  - intros Ld. rewrite E2, first_call by auto. unfold complaint. rewrite Hc.
    destruct (Nat.leb_spec (lv_tslot lv) 6); [lia|]. cbn [andb].
    destruct (Nat.leb_spec (lv_dyn lv) 10); [|lia]. cbn [Nat.eqb Nat.ltb Nat.leb orb].
    assert (X : forallb unit (props_of s (latest a pre)) = false).
    { destruct (forallb unit _) eqn:X; auto. rewrite forallb_forall in X. rewrite (X p Hp) in Hu. discriminate. }
    rewrite X. destruct (s_prop s); try reflexivity. congruence.
  - intros Ld L0. now rewrite C90_quiet.
Qed.

(** *** An example: a decaying level *)
Definition decay : settings ScalarAlg :=
  sc_settings Unitary 1 (Some (PhNum (- Ci)%C : phase ScalarAlg)) Frechet FUnit <| s_drift := Some (DConst ((0, -1)%R : Op ScalarAlg)) |>.
Definition of_norm1 (z : Op ScalarAlg) : bool := if Req_EM_T (Cmod z) 1 then true else false.
Lemma decay_wp : well_posed decay 1 1.
Proof. constructor; cbn; auto; try discriminate; eexists; split; reflexivity. Qed.
Lemma decay_ro : routines_ok decay 1 1.
Proof. split; [|split]; cbn; intros; try congruence. apply sc_frechet. Qed.
Lemma decay_prop : exists p, props_of decay [[0%R]] = [p] /\ of_norm1 p = false.
Proof.
  eexists. split; [reflexivity|]. unfold of_norm1. destruct (Req_EM_T _ _) as [E|]; auto. exfalso. revert E.
  assert (P : propagator decay 1 (lincomb ((0, -1)%R : Op ScalarAlg) [0%R] [(RtoC 1 : Op ScalarAlg)]) = RtoC (exp (-1))).
  { unfold propagator. cbn. match goal with |- cexp ?z = _ => assert (Z : z = RtoC (-1)) end.
    - unfold Cmult, Cplus, Copp, Ci, RtoC; cbn. f_equal; ring.
    - rewrite Z. unfold cexp, RtoC, Re, Im; cbn. rewrite cos_0, sin_0. f_equal; ring. }
  match goal with |- Cmod ?z = _ -> _ => change z with (propagator decay 1 (lincomb ((0, -1)%R : Op ScalarAlg) [0%R] [(RtoC 1 : Op ScalarAlg)])) end.
  rewrite P, Cmod_R, Rabs_right by (left; apply exp_pos). pose proof (exp_increasing (-1) 0 ltac:(lra)) as H.
  rewrite exp_0 in H. intros E. rewrite E in H. lra.
Qed.

(** "The log level does not change the outcome" is false in both places. *)
Theorem C90_intense_refuted :
  exists (A : Alg) (s : settings A) n m unit a, well_posed s n m /\ routines_ok s n m /\ shape n m a /\
    session_v unit (Build_levels 6 20 0) s false a [GetFidErr] = Raise AttributeError /\
    exists d, session_v unit (Build_levels 7 20 0) s false a [GetFidErr] = Ok d.
Proof.
  exists ScalarAlg, decay, 1, 1, of_norm1, [[0%R]].
  assert (Sa : shape 1 1 [[0%R]]) by (split; auto).
  split; [apply decay_wp|split; [apply decay_ro|split; [exact Sa|split]]].
  - assert (Q : session_v of_norm1 (Build_levels 6 20 0) decay false [[0%R]] ([] ++ GetFidErr :: []) = Raise AttributeError); [|exact Q].
    eapply C90_intense; [apply decay_wp|apply decay_ro|exact Sa|repeat constructor|apply le_n|discriminate|reflexivity|constructor|reflexivity].
  - rewrite C90_quiet by (cbn [lv_tslot lv_dyn lv_check]; auto; lia).
    destruct (session_ok decay 1 1 decay_wp decay_ro false [[0%R]] [GetFidErr] Sa) as (d & E & _); [repeat constructor|eauto].
Qed.
Theorem C90_debug_refuted :
  exists (A : Alg) (s : settings A) n m unit a, well_posed s n m /\ routines_ok s n m /\ shape n m a /\
    session_v unit (Build_levels 20 10 0) s false a [GetFidErr] = Raise TypeError /\
    exists d, session_v unit (Build_levels 20 11 0) s false a [GetFidErr] = Ok d.
Proof.
  exists ScalarAlg, decay, 1, 1, of_norm1, [[0%R]].
  assert (Sa : shape 1 1 [[0%R]]) by (split; auto).
  destruct decay_prop as (p & Ep & Hp).
  assert (Q : forall l, 10 = 10 -> _) by (intros l _; exact (C90_debug of_norm1 (Build_levels 20 l 0) decay 1 1 false [[0%R]] [] GetFidErr [] p
     decay_wp decay_ro Sa ltac:(repeat constructor) ltac:(cbn; lia) eq_refl ltac:(discriminate) ltac:(cbn [latest]; rewrite Ep; left; reflexivity) Hp ltac:(constructor) eq_refl)).
  split; [apply decay_wp|split; [apply decay_ro|split; [exact Sa|split]]].
  - destruct (Q 10 eq_refl) as [Q1 _]. cbn [app] in Q1. apply Q1. cbn [lv_dyn]. lia.
  - destruct (Q 11 eq_refl) as [_ Q1]. cbn [app] in Q1. apply Q1; cbn [lv_dyn lv_check]; auto; lia.
Qed.

(** The conditions of [C90_harmless] can hold at the loudest level. *)
Example C90_harmless_case : exists d,
  session_v of_norm1 (Build_levels 6 6 0) (decay <| s_cache_pg := false |> <| s_class := GenMat |>) false [[0%R]]
    [GetFidErr; UpdateAmps [[1%R]]; GetGradient] = Ok d.
Proof.
  set (s := decay <| s_cache_pg := false |> <| s_class := GenMat |>).
  assert (W : well_posed s 1 1) by (constructor; cbn; auto; try discriminate; eexists; split; reflexivity).
  assert (RO : routines_ok s 1 1) by (split; [|split]; cbn; intros; try congruence; apply sc_frechet).
  assert (Sa : forall u, shape 1 1 [[u]]) by (intros; split; auto).
  assert (F : Forall (call_ok s 1 1) [GetFidErr; UpdateAmps [[1%R]]; GetGradient]) by (repeat constructor; cbn; auto; discriminate).
  rewrite (C90_harmless of_norm1 _ s 1 1 false [[0%R]] _ W RO (Sa 0%R) F); [|auto|reflexivity].
  destruct (session_ok s 1 1 W RO false [[0%R]] _ (Sa 0%R) F) as (d & E & _). eauto.
Qed.

(** *** The configuration message of the entry functions *)

(** Above INFO the start is that of the object alone. *)
Theorem C90_start {A : Alg} level (s : settings A) st a : 20 < level ->
  start_v level s st a = (d <- session s st a [];; Ok (d, None)).
Proof.
  intros H. unfold start_v, session. rewrite bind_assoc. apply bind_ext. intros d _. cbn.
  unfold INFO. destruct (Nat.leb_spec level 20); [lia|reflexivity].
Qed.

(** At INFO, with the same controls in all slots, the drift (of the first
    slot), every control in order, and the initial and target operators are
    shown, and the start is the same. *)
Theorem C90_message_constant {A : Alg} level (s : settings A) n m st a cs dr o :
  well_posed s n m -> routines_ok s n m -> shape n m a -> level <= 20 ->
  eff_ctrls s = Some (CList cs) -> eff_drift s = Some dr -> nth_error (drift_ops n dr) 0 = Some o ->
  exists d, session s st a [] = Ok d /\
    start_v level s st a = Ok (d, Some (Shown o :: map Shown cs ++ [Shown (s_initial s); Shown (s_target s)])).
Proof.
  intros W RO Sa Hl Hc Hd Ho. destruct (session_ok s n m W RO st a [] Sa ltac:(constructor)) as (d & E & G & _).
  exists d. split; auto. unfold start_v. unfold session in E. apply bind_inv in E. destruct E as (d0 & -> & [= ->]). cbn [bind].
  unfold INFO. destruct (Nat.leb_spec level 20); [|lia].
  destruct (good_num s n m W RO a d G) as (Hn & Hs & _). unfold message. rewrite Hn. cbn [bind].
  rewrite Hs, settled_drift, settled_ctrls, settled_initial, settled_target, Hc, Hd.
  assert (Lc : length cs = m).
  { destruct (wp_ctrls _ _ _ W) as (c & Ec & Fc). rewrite Hc in Ec. injection Ec as <-. exact Fc. }
  assert (D : match dr with DConst o0 => Ok [Shown o0] | DList l => o0 <- get l 0;; Ok [Shown o0] end = Ok [Shown o]).
  { pose proof (wp_pos _ _ _ W). destruct n as [|n']; [lia|]. destruct dr as [o0|[|x l]]; cbn in Ho; try discriminate; injection Ho as <-; reflexivity. }
  rewrite D. cbn [bind]. unfold range.
  rewrite (collect (fun j => o <- get cs j;; Ok (Shown o)) cs Shown); [|intros j x Hx; now rewrite (get_ok _ _ _ Hx)|lia].
  cbn [bind skipn app]. rewrite firstn_all2 by lia. reflexivity.
Qed.

(** With controls given slot by slot, whole slots are shown in place of the
    controls, and the start fails if there are more controls than slots. *)
Theorem C90_message_rows {A : Alg} level (s : settings A) n m st a rows dr o :
  well_posed s n m -> routines_ok s n m -> shape n m a -> level <= 20 ->
  eff_ctrls s = Some (CArr rows) -> eff_drift s = Some dr -> nth_error (drift_ops n dr) 0 = Some o ->
  exists d, session s st a [] = Ok d /\
    (n < m -> start_v level s st a = Raise IndexError) /\
    (m <= n -> start_v level s st a =
       Ok (d, Some (Shown o :: map ShownRow (firstn m rows) ++ [Shown (s_initial s); Shown (s_target s)]))).
Proof.
  intros W RO Sa Hl Hc Hd Ho. destruct (session_ok s n m W RO st a [] Sa ltac:(constructor)) as (d & E & G & _).
  exists d. split; auto. unfold start_v. unfold session in E. apply bind_inv in E. destruct E as (d0 & -> & [= ->]). cbn [bind].
  unfold INFO. destruct (Nat.leb_spec level 20); [|lia].
  destruct (good_num s n m W RO a d G) as (Hn & Hs & _). unfold message. rewrite Hn. cbn [bind].
  rewrite Hs, settled_drift, settled_ctrls, settled_initial, settled_target, Hc, Hd.
  assert (Lc : length rows = n).
  { destruct (wp_ctrls _ _ _ W) as (c & Ec & Fc). rewrite Hc in Ec. injection Ec as <-. apply Fc. }
  assert (D : match dr with DConst o0 => Ok [Shown o0] | DList l => o0 <- get l 0;; Ok [Shown o0] end = Ok [Shown o]).
  { pose proof (wp_pos _ _ _ W). destruct n as [|n']; [lia|]. destruct dr as [o0|[|x l]]; cbn in Ho; try discriminate; injection Ho as <-; reflexivity. }
  rewrite D. cbn [bind]. unfold range.
  assert (Hx : forall j x, nth_error rows j = Some x -> (r <- get rows j;; Ok (ShownRow (A := A) r)) = Ok (ShownRow x)).
  { intros j x Hx. now rewrite (get_ok _ _ _ Hx). }
  split; intros Hnm.
  - rewrite (collect_raise (fun j => r <- get rows j;; Ok (ShownRow r)) rows ShownRow Hx); [reflexivity| |lia].
    unfold get. assert (X : nth_error rows (length rows) = None) by now apply nth_error_None. now rewrite X.
  - rewrite (collect (fun j => r <- get rows j;; Ok (ShownRow r)) rows ShownRow Hx) by lia. reflexivity.
Qed.

(** One slot, two controls given for it: at INFO the start fails. *)
Definition one_slot : settings ScalarAlg :=
  decay <| s_ctrls := Some (CArr [[(RtoC 1 : Op ScalarAlg); (RtoC 2 : Op ScalarAlg)]]) |>.
Theorem C90_message_refuted :
  exists (A : Alg) (s : settings A) n m a, well_posed s n m /\ routines_ok s n m /\ shape n m a /\
    start_v 20 s false a = Raise IndexError /\ exists d, start_v 21 s false a = Ok (d, None).
Proof.
  exists ScalarAlg, one_slot, 1, 2, [[0%R; 0%R]].
  assert (W : well_posed one_slot 1 2).
  { constructor; cbn; auto; try discriminate; [eexists; split; reflexivity|].
    eexists; split; [reflexivity|]. split; [reflexivity|repeat constructor]. }
  assert (RO : routines_ok one_slot 1 2) by (split; [|split]; cbn; intros; try congruence; apply sc_frechet).
  assert (Sa : shape 1 2 [[0%R; 0%R]]) by (split; auto).
  destruct (C90_message_rows 20 one_slot 1 2 false [[0%R; 0%R]] _ _ ((0, -1)%R : Op ScalarAlg) W RO Sa (le_n _) eq_refl eq_refl eq_refl) as (d & E & F & _).
  split; [exact W|split; [exact RO|split; [exact Sa|split; [apply F; lia|]]]]. exists d. rewrite C90_start by lia. now rewrite E.
Qed.

(** Assumptions of all theorems of this file together (listed one by one in
    ASSUMPTIONS.txt). *)
Definition propsVerbose :=
  (@C90_quiet,
   @C90_answers,
   @C90_exactly,
   @C90_harmless,
   @C90_intense,
   @C90_debug,
   @C90_intense_refuted,
   @C90_debug_refuted,
   @C90_start,
   @C90_message_constant,
   @C90_message_rows,
   @C90_message_refuted).
Print Assumptions propsVerbose.
