(** Which classes are selected. *)
From Verif.Model Require Import Build.
From Verif.Spec Require Import OptionRules Constructed Builds.
From Verif.Proofs Require Import OptionFacts ConstructFacts BuildFacts BuildParts BuildCalls.
Local Open Scope string_scope.
Local Open Scope list_scope.
Set Bullet Behavior "Strict Subproofs".

Ltac texts := repeat match goal with
  | |- context [(?s =? ?t)%string] => destruct (String.eqb_spec s t)
  | H : context [(?s =? ?t)%string] |- _ => destruct (String.eqb_spec s t)
  end.

Lemma nd_true v : none_or_def v = Ok true <-> by_default v.
Proof.
  unfold none_or_def, by_default. destruct v; cbn; try (split; [discriminate|intros [H | (s' & H & _)]; discriminate]).
  - split; auto.
  - split; [|intros [H | (s' & [= <-] & ->)]; [discriminate|reflexivity]]. intros [= H]. apply String.eqb_eq in H. eauto.
Qed.
Lemma nd_false v : none_or_def v = Ok false <-> exists s, v = VStr s /\ upper s <> "DEF".
Proof.
  unfold none_or_def. destruct v; cbn; try (split; [discriminate|intros (s' & H & _); discriminate]). split.
  - intros [= H]. exists s. split; [auto|]. now apply String.eqb_neq.
  - intros (s' & [= <-] & N). apply String.eqb_neq in N. now rewrite N.
Qed.
Lemma choose_dyn_iff t c : choose_dyn t = Ok c <-> selects_dyn t c.
Proof.
  unfold choose_dyn, selects_dyn, blank, dyn_table, no_option. destruct t; cbn.
  2-3,5-9: split; [discriminate|intros [[[H | H] _] | (s' & H & _)]; discriminate].
  - split; [intros [= <-]; auto|intros [[_ ->] | (s & H & _)]; [reflexivity|discriminate]].
  - split.
    + texts; cbn; try discriminate; intros [= <-]; subst; auto; right; eexists; split; eauto.
    + intros [[[H | H] ->] | (s' & H & I)]; try discriminate; injection H as ->; [reflexivity|].
      repeat (destruct I as [[= <- <-]|I]; [reflexivity|]). contradiction.
Qed.
Lemma choose_pulse_iff s c : choose_pulse (VStr s) = Ok c <-> In (s, c) pulse_table.
Proof.
  unfold choose_pulse, pulse_table. cbn [is_text]. split.
  - texts; try discriminate; intros [= <-]; subst; cbn; auto 20.
  - cbn [In]. intros I. repeat (destruct I as [[= <- <-]|I]; [reflexivity|]). contradiction.
Qed.
Lemma choose_fid_iff d t c : (exists w, choose_fid t = Ok w /\ match w with None => default_fid d | Some k => k end = c) <-> selects_fid d t c.
Proof.
  unfold choose_fid, selects_fid, blank, by_default, fid_table, no_option. destruct t; cbn [upper_safe is_text is_none orb].
  2-3,5-9: split; [intros (w & H & _); discriminate|intros [[[[H | H] | [H | (s' & H & _)]] _] | (s' & H & _)]; discriminate].
  - split; [intros (w & [= <-] & <-); left; destruct d; auto|intros [[_ ->] | (s & H & _)]; [|discriminate]]. exists None. destruct d; auto.
  - split.
    + intros (w & H & <-). revert H. destruct (String.eqb_spec (upper s) "DEF"); [|destruct (String.eqb_spec (upper s) "")]; cbn [orb].
      * intros [= <-]. left. split; [right; right; eauto|destruct d; auto].
      * intros [= <-]. left. split; [left; right; f_equal|destruct d; auto]. destruct s; [auto|discriminate].
      * texts; try discriminate; intros [= <-]; right; exists s; split; auto; cbn; intuition congruence.
    + intros [[[[H | H] | [H | (s' & H & U)]] ->] | (s' & H & I)]; try discriminate; injection H as ->.
      * exists None. split; [reflexivity|destruct d; reflexivity].
      * rewrite U. exists None. split; [reflexivity|destruct d; reflexivity].
      * cbn in I. exists (Some c). split; [|auto]. destruct I as [I | [I | [I | []]]]; injection I as E <-; rewrite <- E; reflexivity.
Qed.
Lemma choose_prop_iff d t c : (exists w, choose_prop t = Ok w /\ match w with None => default_prop d | Some k => k end = c) <->
  ((blank t \/ t = VStr "DEF") /\ c = match d with Unitary => Diag | _ => Frechet end) \/ (exists s, t = VStr s /\ In (s, c) prop_table).
Proof.
  unfold choose_prop, blank, prop_table, no_option. destruct t; cbn [is_text is_none orb].
  2-3,5-9: split; [intros (w & H & _); discriminate|intros [[[[H | H] | H] _] | (s' & H & _)]; discriminate].
  - split; [intros (w & [= <-] & <-); left; destruct d; auto|intros [[_ ->] | (s & H & _)]; [|discriminate]]. exists None. destruct d; auto.
  - split.
    + intros (w & H & <-). revert H. destruct (String.eqb_spec s "DEF"); [|destruct (String.eqb_spec s "")]; cbn [orb].
      * intros [= <-]. subst. left. destruct d; auto.
      * intros [= <-]. subst. left. destruct d; auto.
      * texts; try discriminate; intros [= <-]; right; exists s; split; auto; cbn; intuition congruence.
    + intros [[[[H | H] | H] ->] | (s' & H & I)]; try discriminate; injection H as ->.
      * exists None. split; [reflexivity|destruct d; reflexivity].
      * exists None. split; [reflexivity|destruct d; reflexivity].
      * exists (Some c). split; [|auto]. cbn [In] in I. repeat (destruct I as [[= <- <-]|I]; [reflexivity|]). contradiction.
Qed.
(** With the default of the algorithm. *)
Lemma choose_opt_iff (crab : bool) alg m c : is_text (upper_safe alg) "CRAB" = crab ->
  (exists b, none_or_def m = Ok b /\ choose_opt alg (if b then VStr (if crab then "FMIN" else "FMIN_L_BFGS_B") else m) = Ok c) <-> selects_opt crab m c.
Proof.
  intros Hc. unfold choose_opt. rewrite Hc. unfold selects_opt. split.
  - intros (b & Hb & H). destruct b.
    + apply nd_true in Hb. left. split; [auto|]. destruct crab; cbn in H; injection H as <-; reflexivity.
    + apply nd_false in Hb. destruct Hb as (s & -> & N). right. exists s. split; [auto|]. cbn [upper_safe is_none is_text orb] in H.
      destruct (String.eqb_spec (upper s) ""); [discriminate|]. destruct (String.eqb_spec (upper s) "FMIN_BFGS"); [injection H as <-; auto|].
      destruct (String.eqb_spec (upper s) "LBFGSB"); [injection H as <-; right; left; cbn; auto|].
      destruct (String.eqb_spec (upper s) "FMIN_L_BFGS_B"); [injection H as <-; right; left; cbn; auto|]. cbn [orb] in H.
      destruct (String.eqb_spec (upper s) "FMIN").
      * destruct crab; [injection H as <-; auto 10|discriminate].
      * right; right; right. split; [cbn; intuition congruence|]. destruct crab; congruence.
  - intros [[D ->] | (s & -> & H)].
    + exists true. split; [now apply nd_true|]. destruct crab; reflexivity.
    + assert (Nd : upper s <> "DEF").
      { intros E. rewrite E in H. destruct H as [[H _] | [[H _] | [[H _] | [H _]]]]; try discriminate; cbn in H; intuition discriminate. }
      exists false. split; [apply nd_false; eauto|]. cbn [upper_safe is_none is_text orb].
      destruct H as [[H ->] | [[H ->] | [(H & -> & ->) | [H ->]]]].
      * rewrite H. reflexivity.
      * cbn in H. destruct H as [H | [H | []]]; rewrite <- H; reflexivity.
      * rewrite H. reflexivity.
      * cbn in H. destruct (String.eqb_spec (upper s) ""); [intuition congruence|]. destruct (String.eqb_spec (upper s) "FMIN_BFGS"); [intuition congruence|].
        destruct (String.eqb_spec (upper s) "LBFGSB"); [intuition congruence|]. destruct (String.eqb_spec (upper s) "FMIN_L_BFGS_B"); [intuition congruence|].
        destruct (String.eqb_spec (upper s) "FMIN"); [intuition congruence|]. destruct crab; reflexivity.
Qed.
(** The defaults. *)
Lemma alg_defaults_inv a m pt it : alg_defaults a = Ok (m, pt, it) ->
  exists (crab : bool) bm bi, is_text (upper_safe (a_alg a)) "CRAB" = crab /\ (crab = true \/ alg_is (a_alg a) "GRAPE") /\
    none_or_def (a_optim_method a) = Ok bm /\ m = (if bm then VStr (if crab then "FMIN" else "FMIN_L_BFGS_B") else a_optim_method a) /\
    none_or_def (a_init_pulse_type a) = Ok bi /\ it = (if bi then if crab then VNone else VStr "RND" else a_init_pulse_type a) /\
    if crab then exists bp, none_or_def (a_prop_type a) = Ok bp /\ pt = (if bp then VStr "APPROX" else a_prop_type a) else pt = a_prop_type a.
Proof.
  unfold alg_defaults. cbv zeta. destruct (is_none (a_alg a)); [discriminate|].
  destruct (is_text (upper_safe (a_alg a)) "GRAPE") eqn:G; [|destruct (is_text (upper_safe (a_alg a)) "CRAB") eqn:C; [|discriminate]].
  - intros H. assert (X : alg_is (a_alg a) "GRAPE" /\ is_text (upper_safe (a_alg a)) "CRAB" = false).
    { destruct (a_alg a); try discriminate. cbn in G. apply String.eqb_eq in G. split; [exists s; auto|]. cbn. now rewrite G. }
    destruct X as [X1 X2]. step H bm Hm. step H bi Hi. injection H as <- <- <-. exists false, bm, bi. auto 10.
  - intros H. step H bm Hm. step H bp Hp. step H bi Hi. injection H as <- <- <-. exists true, bm, bi. do 6 (split; [auto|]). eauto.
Qed.
(** The propagator computer, with the default of the algorithm. *)
Lemma prop_sel (crab : bool) d t pt c :
  (if crab then exists bp, none_or_def t = Ok bp /\ pt = (if bp then VStr "APPROX" else t) else pt = t) ->
  (exists w, choose_prop pt = Ok w /\ match w with None => default_prop d | Some k => k end = c) <-> selects_prop crab d t c.
Proof.
  intros Hp. rewrite choose_prop_iff. unfold selects_prop. destruct crab.
  - destruct Hp as (bp & Hb & ->). destruct bp.
    + apply nd_true in Hb. split.
      * intros [[[[X | X] | X] _] | (s & [= <-] & I)]; try discriminate. left. cbn in I. intuition congruence.
      * intros [(_ & _ & ->) | [([X | X] & _) | (s & -> & I)]]; [right; exists "APPROX"; cbn; auto|discriminate|contradiction|].
        destruct Hb as [Hb | (s' & [= <-] & U)]; [discriminate|]. exfalso. cbn in I. repeat (destruct I as [[= <- _]|I]; [discriminate|]). contradiction.
    + apply nd_false in Hb. destruct Hb as (s & -> & U). assert (N : ~ by_default (VStr s)) by (intros [X | (s' & [= <-] & X)]; congruence || discriminate).
      split.
      * intros [[X1 X2] | X]; [right; left; auto|auto].
      * intros [(_ & X & _) | [(_ & X1 & X2) | X]]; [contradiction|auto|auto].
  - subst pt. split.
    + intros [[X1 X2] | X]; auto.
    + intros [(X & _) | [(_ & X1 & X2) | X]]; [discriminate|auto|auto].
Qed.
