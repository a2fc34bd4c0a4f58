(** Property C91: a pulse generator is of the type asked for, starts from the
    documented defaults and takes the parameters it is given.  Vocabulary in
    Spec/PulseNew.v; [create_pulse_gen], [reset], [apply_params] model the
    function and the methods of the same name, [setattr] an assignment to an
    attribute. *)
From Coq Require Import Reals List String Lra.
From RecordUpdate Require Import RecordUpdate.
From Verif.Model Require Import PulseGen.
From Verif.Spec Require Import PulseNew.
From Verif.Proofs Require Import PulseNewFacts.
Import ListNotations.
Local Open Scope R_scope.
Set Bullet Behavior "Strict Subproofs".

Lemma crab_eq d ps : new_crab d None ps true = reset (blank CCrab d ps) <| p_fix := true |>.
Proof.
  unfold new_crab. change (blank CCrab d ps <| p_ncoef := None |>) with (blank CCrab d ps).
  now generalize (reset (blank CCrab d ps)).
Qed.

(** A listed name gives a generator of its class, with the Dynamics object
    and parameters handed over; any other text is a ValueError. *)
Theorem C91_kind ty d ps :
  (exists c g, In (ty, c) kinds /\ create_pulse_gen ty d ps = Ok g /\ p_cls g = c /\ p_parent g = d /\ p_params g = ps /\ p_ready g = false)
  \/ (~ In ty (map fst kinds) /\ create_pulse_gen ty d ps = Raise ValueError).
Proof.
  assert (X : forall c g, reset (blank c d ps) = g \/ reset (blank c d ps) <| p_fix := true |> = g ->
    p_cls g = c /\ p_parent g = d /\ p_params g = ps /\ p_ready g = false).
  { intros c g H. destruct (reset_fixed (blank c d ps)) as (A & B & C). pose proof (reset_ready (blank c d ps)).
    destruct H as [<-|<-]; auto. }
  assert (Y : forall c r, In (ty, c) kinds -> r = new_gen c d ps \/ c = CCrab /\ r = new_crab d None ps true ->
    exists c g, In (ty, c) kinds /\ Ok r = Ok g /\ p_cls g = c /\ p_parent g = d /\ p_params g = ps /\ p_ready g = false).
  { intros c r I H. exists c, r. split; [exact I|]. split; [reflexivity|]. apply X.
    destruct H as [->|[-> ->]]; [now left|right; symmetry; apply crab_eq]. }
  clear X. unfold create_pulse_gen.
  repeat match goal with
  | |- context [String.eqb ty ?s] => destruct (String.eqb_spec ty s) as [E|?]
  end;
  try (left; eapply Y; [rewrite E; unfold kinds; repeat ((left; reflexivity) || right)|];
       match goal with |- new_gen _ _ _ = _ \/ _ => left; reflexivity | _ => right; split; reflexivity end).
  right. split; auto. cbn. intuition congruence.
Qed.

(** The class of a name is unique. *)
Theorem C91_one_class ty c c' : In (ty, c) kinds -> In (ty, c') kinds -> c = c'.
Proof.
  unfold kinds. cbn. intros H H'.
  repeat (destruct H as [H|H]; [injection H as <- <-; repeat (destruct H' as [H'|H']; [congruence|]); destruct H'|]). destruct H.
Qed.

Lemma create_is ty c d ps g : In (ty, c) kinds -> create_pulse_gen ty d ps = Ok g ->
  c <> CCrab /\ g = reset (blank c d ps) \/ c = CCrab /\ g = reset (blank c d ps) <| p_fix := true |>.
Proof.
  unfold kinds. cbn. intros H E.
  repeat (destruct H as [H|H]; [injection H as <- <-; unfold create_pulse_gen in E; cbn [String.eqb Ascii.eqb Bool.eqb] in E; injection E as <-; ((left; split; [discriminate|match goal with |- new_gen _ _ _ = _ => reflexivity end]) || (right; split; [reflexivity|apply crab_eq]))|]). destruct H.
Qed.

Lemma fix_keeps h b a : name_of a <> "fix_freqs"%string -> holds h a -> holds (h <| p_fix := b |>) a.
Proof. intros N H. destruct a; try exact H. now destruct N. Qed.

(** The value of a parameter is the value of the attribute, whatever the type
    of the pulse; randomize_freqs and fix_freqs of CRAB_FOURIER are the
    exceptions. *)
Theorem C91_given ty c d ps g a : In (ty, c) kinds -> create_pulse_gen ty d ps = Ok g ->
  given ps a -> (c = CCrab -> name_of a <> "randomize_freqs" /\ name_of a <> "fix_freqs")%string -> holds g a.
Proof.
  intros K E G N. assert (H : holds (reset (blank c d ps)) a).
  { apply reset_given; [exact G|]. intros Hc. now apply N. }
  destruct (create_is _ _ _ _ _ K E) as [[_ ->]|[Hc ->]]; auto.
  destruct (N Hc) as [_ M]. now apply fix_keeps.
Qed.

(** An attribute of the class without parameter has its documented value: the
    timeslots, scaling and offset of the Dynamics object if there is one, and
    what depends on the pulse time follows the pulse time in force. *)
Theorem C91_default ty c d ps g a : In (ty, c) kinds -> create_pulse_gen ty d ps = Ok g ->
  In a (defaults d c (p_T g)) -> absent ps a -> holds g a.
Proof.
  intros K E I N.
  assert (T : p_T g = p_T (reset (blank c d ps))) by (destruct (create_is _ _ _ _ _ K E) as [[_ ->]|[_ ->]]; [reflexivity|now generalize (reset (blank c d ps))]).
  rewrite T in I. assert (H : holds (reset (blank c d ps)) a) by now apply reset_default.
  destruct (create_is _ _ _ _ _ K E) as [[_ ->]|[Hc ->]]; [exact H|]. subst c. apply fix_keeps; [|exact H].
  revert I. generalize (p_T (reset (blank CCrab d ps))). intros x I Q. clear - I Q.
  destruct d; cbn in I; repeat (destruct I as [<-|I]; [discriminate Q|]); destruct I.
Qed.

(** The claim that parameters are always applied is false of these two: the
    generator randomises and fixes its frequencies whatever it is told. *)
Theorem C91_given_refuted d ps g : create_pulse_gen "CRAB_FOURIER" d ps = Ok g -> p_randf g = true /\ p_fix g = true.
Proof.
  intros E. destruct (create_is "CRAB_FOURIER" CCrab d ps g) as [[N _]|[_ ->]]; [cbn; tauto|exact E|now destruct N|].
  rewrite reset_crab_eq by reflexivity. now generalize (twice (blank CCrab d ps)).
Qed.

(** After reset() every generator, whatever has been assigned or computed
    since it was made, is back at its parameters and defaults and has to be
    initialised again. *)
Theorem C91_reset g :
  p_cls (reset g) = p_cls g /\ p_parent (reset g) = p_parent g /\ p_params (reset g) = p_params g /\ p_ready (reset g) = false /\
  (forall a, given (p_params g) a -> (p_cls g = CCrab -> name_of a <> "randomize_freqs"%string) -> holds (reset g) a) /\
  (forall a, In a (defaults (p_parent g) (p_cls g) (p_T (reset g))) -> absent (p_params g) a -> holds (reset g) a).
Proof.
  destruct (reset_fixed g) as (A & B & C). pose proof (reset_ready g).
  repeat (split; auto); intros a; [apply reset_given|apply reset_default].
Qed.

(** Parameters handed to apply_params take effect, leave other attributes
    alone and are the ones later resets use; without argument the stored ones
    are applied again. *)
Theorem C91_apply ps g a :
  (given ps a -> holds (apply_params ps g) a) /\
  (ps <> [] -> absent ps a -> holds g a -> holds (apply_params ps g) a) /\
  (ps <> [] -> p_params (apply_params ps g) = ps) /\
  (given (p_params g) a -> holds (apply_params [] g) a) /\
  (absent (p_params g) a -> holds g a -> holds (apply_params [] g) a).
Proof.
  assert (E : ps <> [] -> apply_params ps g = fold_left setattr ps (g <| p_params := ps |>)) by (destruct ps; [now intros []|reflexivity]).
  split; [|split; [|split; [|split]]].
  - intros G. rewrite E; [now apply fold_given|]. destruct G as (l & r & -> & _). now destruct l.
  - intros N A H. rewrite E by exact N. apply fold_keeps; [exact A|]. destruct a; exact H.
  - intros N. rewrite E; auto. now destruct (fold_fixed ps (g <| p_params := ps |>)) as (-> & _).
  - intros G. rewrite apply_fold. now apply fold_given.
  - intros N H. rewrite apply_fold. now apply fold_keeps.
Qed.

Definition freed (h : pgen) : pgen := h <| p_fix := false |> <| p_nbasis := S (p_nbasis h) |>.
Definition finish (fix_freqs : bool) (h : pgen) : pgen :=
  let g := h <| p_fix := fix_freqs |> in if negb (p_fix g) then g <| p_nbasis := S (p_nbasis g) |> else g.
Lemma new_crab_finish d n ps b : new_crab d n ps b = finish b (reset (blank CCrab d ps <| p_ncoef := n |>)).
Proof. unfold new_crab, finish. set (k := blank CCrab d ps <| p_ncoef := n |>). clearbody k. set (h := reset k). clearbody h. reflexivity. Qed.
Lemma finish_free h : finish false h = freed h.
Proof. reflexivity. Qed.
Lemma free_eq d n ps : exists k, p_cls k = CCrab /\ p_parent k = d /\ p_params k = ps /\
  new_crab d n ps false = freed (reset k).
Proof.
  exists (blank CCrab d ps <| p_ncoef := n |>). split; [reflexivity|]. split; [reflexivity|]. split; [reflexivity|].
  rewrite new_crab_finish. apply finish_free.
Qed.

(** With its frequencies free, a CRAB_FOURIER generator has one basis function
    more than the parameters or the default say; reset() forgets it while the
    frequencies stay free. *)
Theorem C91_free_frequencies d n ps :
  let g := new_crab d n ps false in
  p_fix g = false /\
  (absent ps (ANumBasis 2) -> p_nbasis g = 3%nat) /\
  (forall m, given ps (ANumBasis m) -> p_nbasis g = S m).
Proof.
  intros g. destruct (free_eq d n ps) as (k & Kc & Kd & Kp & E). fold g in E. clearbody g. subst g.
  pose proof (reset_default k) as D. pose proof (reset_given k) as G. rewrite Kc, Kd, Kp in D. rewrite Kc, Kp in G.
  revert D G. generalize (reset k). intros h D G.
  split; [reflexivity|]. split.
  - intros N. exact (f_equal S (D (ANumBasis 2) ltac:(apply in_or_app; right; right; right; right; now left) N)).
  - intros m N. exact (f_equal S (G (ANumBasis m) N ltac:(discriminate))).
Qed.
Theorem C91_reset_refuted d n ps : absent ps (ANumBasis 2) -> absent ps (AFixFreqs true) ->
  let g := new_crab d n ps false in p_nbasis g = 3%nat /\ p_nbasis (reset g) = 2%nat /\ p_fix (reset g) = false.
Proof.
  intros N M g. destruct (C91_free_frequencies d n ps) as (F & B & _). fold g in F, B.
  assert (K : p_cls g = CCrab /\ p_parent g = d /\ p_params g = ps).
  { destruct (free_eq d n ps) as (k & Kc & Kd & Kp & E). fold g in E.
    destruct (reset_fixed k) as (A1 & A2 & A3). rewrite Kc in A2. rewrite Kd in A3. rewrite Kp in A1.
    rewrite E. clear E. revert A1 A2 A3. generalize (reset k). intros h A1 A2 A3. cbn. auto. }
  clearbody g. destruct K as (K1 & K2 & K3). split; [now apply B|]. split.
  - apply (reset_default g (ANumBasis 2)); [|now rewrite K3]. rewrite K1. apply in_or_app. right. right; right; right; now left.
  - rewrite reset_fix; auto. now rewrite K3.
Qed.

(** The claim that the defaults follow the pulse time holds when it is a
    parameter; an assignment later leaves mean and decay time behind. *)
Theorem C91_later_time_refuted d g x : create_pulse_gen "GAUSSIAN" d [] = Ok g ->
  p_mean (setattr g (ATime x)) = p_T g / 2 /\ p_T (setattr g (ATime x)) = x.
Proof.
  intros E. split; [|reflexivity]. change (holds g (AMean (p_T g / 2))).
  apply (C91_default "GAUSSIAN" CGauss d [] g); [cbn; tauto|exact E| |intros []].
  apply in_or_app. right. right; right; right; now left.
Qed.

Ltac other := let H := fresh in intros H; cbn in H; repeat (destruct H as [H|H]; [discriminate H|]); destruct H.

(** A ramp for four slots of a Dynamics object with a pulse time given twice. *)
Example C91_case :
  let d := Some (mkParent 4 8 (1/2) 3 [2; 2; 2; 2] 2) in
  let ps := [ATime 5; AOffset 1; ATime 20] in
  exists g, create_pulse_gen "GAUSSIAN_EDGE" d ps = Ok g /\
    p_n g = 4%nat /\ p_T g = 20 /\ p_scale g = 1/2 /\ p_offset g = 1 /\ p_tau g = Some [2; 2; 2; 2] /\ p_decay g = 20 / 10.
Proof.
  intros d ps. destruct (C91_kind "GAUSSIAN_EDGE" d ps) as [(c & g & K & E & Hc & _)|[N _]]; [|destruct N; cbn; tauto].
  exists g. split; auto. assert (K' : In ("GAUSSIAN_EDGE"%string, CEdge) kinds) by (cbn; tauto).
  rewrite (C91_one_class _ _ _ K K') in *. clear K Hc c.
  assert (T : p_T g = 20).
  { apply (C91_given _ _ _ _ _ (ATime 20) K' E); [|discriminate]. exists [ATime 5; AOffset 1], []. split; [reflexivity|other]. }
  split; [apply (C91_default _ _ _ _ _ (ANum 4) K' E); [now left|other]|].
  split; [exact T|].
  split; [apply (C91_default _ _ _ _ _ (AScale (1/2)) K' E); [cbn; tauto|other]|].
  split; [apply (C91_given _ _ _ _ _ (AOffset 1) K' E); [|discriminate]; exists [ATime 5], [ATime 20]; split; [reflexivity|other]|].
  split; [apply (C91_default _ _ _ _ _ (ATau (Some [2; 2; 2; 2])) K' E); [cbn; tauto|other]|].
  rewrite <- T. apply (C91_default _ _ _ _ _ (ADecay (p_T g / 10)) K' E); [cbn; tauto|other].
Qed.

(** Assumptions of all theorems of this file together (listed one by one in
    ASSUMPTIONS.txt). *)
Definition propsPulseNew :=
  (@C91_kind,
   @C91_one_class,
   @C91_given,
   @C91_default,
   @C91_given_refuted,
   @C91_reset,
   @C91_apply,
   @C91_free_frequencies,
   @C91_reset_refuted,
   @C91_later_time_refuted).
Print Assumptions propsPulseNew.
