(** Proofs for C91. *)
From Coq Require Import Reals List String Lra.
From RecordUpdate Require Import RecordUpdate.
From Verif.Model Require Import PulseGen.
From Verif.Spec Require Import PulseNew.
Import ListNotations.
Local Open Scope R_scope.
Set Bullet Behavior "Strict Subproofs".

Lemma set_holds g a : holds (setattr g a) a.
Proof. destruct a; reflexivity. Qed.
Lemma set_keeps g a b : name_of b <> name_of a -> holds g a -> holds (setattr g b) a.
Proof. destruct b; destruct a; cbn; intros N H; auto; now destruct N. Qed.

Lemma fold_keeps ps g a : absent ps a -> holds g a -> holds (fold_left setattr ps g) a.
Proof.
  revert g. induction ps as [|b ps IH]; intros g N H; cbn; auto.
  apply IH; [intros I; apply N; now right|]. apply set_keeps; auto. intros E. apply N. now left.
Qed.
Lemma fold_given ps g a : given ps a -> holds (fold_left setattr ps g) a.
Proof. intros (l & r & -> & N). rewrite fold_left_app. cbn. apply fold_keeps; auto. apply set_holds. Qed.

Lemma given_or_absent ps a : absent ps a \/ exists b, name_of b = name_of a /\ given ps b.
Proof.
  induction ps as [|x ps IH]; [left; now intros []|].
  destruct IH as [N|(b & E & l & r & -> & M)].
  - destruct (String.string_dec (name_of x) (name_of a)) as [E|E].
    + right. exists x. split; auto. exists [], ps. split; auto. now rewrite E.
    + left. intros [I|I]; auto.
  - right. exists b. split; auto. now exists (x :: l), r.
Qed.
Lemma named_time b x : name_of b = name_of (ATime x) -> exists y, b = ATime y.
Proof. destruct b; cbn; try discriminate; eauto. Qed.

(** Applying the parameters again leaves the pulse time as it is. *)
Lemma fold_time ps g h : p_T h = p_T (fold_left setattr ps g) -> p_T (fold_left setattr ps h) = p_T h.
Proof.
  intros E. destruct (given_or_absent ps (ATime (p_T h))) as [N|(b & Eb & G)].
  - apply (fold_keeps ps h (ATime (p_T h))); auto. reflexivity.
  - destruct (named_time _ _ Eb) as (y & ->).
    pose proof (fold_given ps g _ G) as A. pose proof (fold_given ps h _ G) as B. cbn in A, B. congruence.
Qed.

Lemma fold_fixed ps : forall g, p_params (fold_left setattr ps g) = p_params g /\ p_cls (fold_left setattr ps g) = p_cls g /\
  p_parent (fold_left setattr ps g) = p_parent g /\ p_ready (fold_left setattr ps g) = p_ready g.
Proof.
  induction ps as [|a ps IH]; intros g; cbn; auto. destruct (IH (setattr g a)) as (-> & -> & -> & ->). destruct a; cbn; auto.
Qed.
Lemma params_self g : g <| p_params := p_params g |> = g.
Proof. now destruct g. Qed.
Lemma apply_fold g : apply_params [] g = fold_left setattr (p_params g) g.
Proof.
  unfold apply_params. destruct (p_params g) as [|a l] eqn:E; auto. f_equal. rewrite <- E. apply params_self.
Qed.

(** What [reset_base] leaves. *)
Definition base_of (g : pgen) : pgen :=
  match p_parent g with
  | Some d => g <| p_n := pa_n d |> <| p_T := pa_T d |> <| p_scale := pa_scale d |>
                <| p_offset := pa_offset d |> <| p_tau := Some (pa_tau d) |>
  | None => g <| p_n := 100%nat |> <| p_T := 1 |> <| p_scale := 1 |> <| p_tau := None |>
              <| p_offset := 0 |>
  end <| p_uses_time := false |> <| p_time := None |> <| p_ready := false |>
      <| p_lb := BNo |> <| p_ub := BNo |> <| p_ramp := None |>.
Lemma base_fixed g : p_params (base_of g) = p_params g /\ p_cls (base_of g) = p_cls g /\
  p_parent (base_of g) = p_parent g /\ p_ready (base_of g) = false.
Proof. unfold base_of. destruct (p_parent g) eqn:E; cbn; auto. Qed.
Lemma reset_base_eq g : reset_base g = fold_left setattr (p_params g) (base_of g).
Proof.
  transitivity (apply_params [] (base_of g)); [unfold reset_base, base_of; now destruct (p_parent g)|].
  rewrite apply_fold. f_equal. apply base_fixed.
Qed.

(** Every [reset] is: base, parameters, the attributes of the class, parameters. *)
Definition extra (c : cls) (g : pgen) : pgen :=
  match c with
  | CZero | CRnd => g
  | CFourier => g <| p_uses_time := true |> <| p_minwl := p_T g / 10 |>
  | CWaves => g <| p_uses_time := true |> <| p_comp := 20%nat |> <| p_minwl := p_T g / 10 |> <| p_maxwl := 2 * p_T g |>
  | CWalk1 => g <| p_maxd := / 10 |>
  | CWalk2 => g <| p_maxd2 := / 100 |>
  | CLin => g <| p_grad := None |> <| p_start := Some (-1) |> <| p_end := Some 1 |>
  | CSine | CSquare | CSaw | CTri => g <| p_waves := None |> <| p_freq := Some 1 |> <| p_wlen := None |> <| p_phase := 0 |>
  | CGauss => g <| p_uses_time := true |> <| p_mean := / 2 * p_T g |> <| p_var := / 2 * p_T g |>
  | CEdge => g <| p_uses_time := true |> <| p_decay := p_T g / 10 |>
  | CCrab => g <| p_uses_time := true |> <| p_time := None |> <| p_nbasis := 2%nat |>
               <| p_nvars := 0%nat |> <| p_coeffs := None |> <| p_randc := true |>
               <| p_action := Some "MODULATE"%string |> <| p_guess := None |> <| p_gfun := None |>
  end.
Lemma extra_fixed c g : p_params (extra c g) = p_params g /\ p_T (extra c g) = p_T g /\ p_ready (extra c g) = p_ready g.
Proof. destruct c; cbn; auto. Qed.
Lemma base_params g : p_params (reset_base g) = p_params g.
Proof.
  rewrite reset_base_eq. destruct (fold_fixed (p_params g) (base_of g)) as (-> & _). apply base_fixed.
Qed.
Definition twice (g : pgen) : pgen :=
  fold_left setattr (p_params g) (extra (p_cls g) (reset_base g)).
Lemma apply_extra c g : apply_params [] (extra c (reset_base g)) = fold_left setattr (p_params g) (extra c (reset_base g)).
Proof. rewrite apply_fold. f_equal. destruct (extra_fixed c (reset_base g)) as (-> & _). apply base_params. Qed.
Lemma reset_eq g : p_cls g <> CZero -> p_cls g <> CCrab -> reset g = twice g.
Proof.
  intros N M. unfold twice. rewrite <- apply_extra. unfold reset. generalize (reset_base g). intros h.
  destruct (p_cls g) eqn:E; try congruence; unfold extra; f_equal.
Qed.
Lemma reset_crab_eq g : p_cls g = CCrab -> reset g = twice g <| p_freqs := None |> <| p_randf := true |>.
Proof.
  intros E. unfold twice. rewrite <- apply_extra. unfold reset, reset_crab. rewrite E. generalize (reset_base g). intros h.
  unfold extra. f_equal.
Qed.
Lemma reset_zero_eq g : p_cls g = CZero -> reset g = fold_left setattr (p_params g) (base_of g).
Proof. intros E. unfold reset. rewrite E. apply reset_base_eq. Qed.

Lemma twice_time g : p_T (twice g) = p_T (reset_base g).
Proof.
  unfold twice. rewrite (fold_time _ (base_of g)); [apply extra_fixed|].
  destruct (extra_fixed (p_cls g) (reset_base g)) as (_ & -> & _). now rewrite reset_base_eq.
Qed.
Lemma reset_time g : p_T (reset g) = p_T (reset_base g).
Proof.
  destruct (p_cls g) eqn:E; try (rewrite reset_eq by congruence; apply twice_time).
  - now rewrite reset_zero_eq, reset_base_eq.
  - rewrite reset_crab_eq by auto. cbn. apply twice_time.
Qed.
Lemma twice_ready g : p_ready (twice g) = false.
Proof.
  unfold twice. destruct (fold_fixed (p_params g) (extra (p_cls g) (reset_base g))) as (_ & _ & _ & ->).
  destruct (extra_fixed (p_cls g) (reset_base g)) as (_ & _ & ->). rewrite reset_base_eq.
  destruct (fold_fixed (p_params g) (base_of g)) as (_ & _ & _ & ->). apply base_fixed.
Qed.
Lemma reset_ready g : p_ready (reset g) = false.
Proof.
  destruct (p_cls g) eqn:E; try (rewrite reset_eq by congruence; apply twice_ready).
  - rewrite reset_zero_eq by auto. destruct (fold_fixed (p_params g) (base_of g)) as (_ & _ & _ & ->). apply base_fixed.
  - rewrite reset_crab_eq by auto. cbn. apply twice_ready.
Qed.
Lemma extra_same c h : p_cls (extra c h) = p_cls h /\ p_parent (extra c h) = p_parent h.
Proof. destruct c; cbn; auto. Qed.
Lemma reset_fixed g : p_params (reset g) = p_params g /\ p_cls (reset g) = p_cls g /\ p_parent (reset g) = p_parent g.
Proof.
  assert (T : p_params (twice g) = p_params g /\ p_cls (twice g) = p_cls g /\ p_parent (twice g) = p_parent g).
  { unfold twice. destruct (fold_fixed (p_params g) (extra (p_cls g) (reset_base g))) as (-> & -> & -> & _).
    destruct (extra_fixed (p_cls g) (reset_base g)) as (-> & _). destruct (extra_same (p_cls g) (reset_base g)) as (-> & ->).
    rewrite reset_base_eq. destruct (fold_fixed (p_params g) (base_of g)) as (-> & -> & -> & _).
    destruct (base_fixed g) as (-> & -> & -> & _). auto. }
  destruct (p_cls g) eqn:E; try (rewrite reset_eq by congruence; exact T).
  - rewrite reset_zero_eq by auto. destruct (fold_fixed (p_params g) (base_of g)) as (-> & -> & -> & _).
    destruct (base_fixed g) as (-> & -> & -> & _). auto.
  - rewrite reset_crab_eq by auto. exact T.
Qed.

Lemma reset_given g a : given (p_params g) a -> (p_cls g = CCrab -> name_of a <> "randomize_freqs"%string) -> holds (reset g) a.
Proof.
  intros G N. destruct (p_cls g) eqn:E; try (rewrite reset_eq by congruence; apply fold_given, G).
  - rewrite reset_zero_eq by auto. apply fold_given, G.
  - rewrite reset_crab_eq by auto. pose proof (fold_given _ (extra (p_cls g) (reset_base g)) _ G) as H. fold (twice g) in H.
    specialize (N eq_refl). destruct a; cbn in *; auto; now destruct N.
Qed.

Definition base_defaults (d : option parent) : list attr :=
  match d with
  | Some p => [ANum (pa_n p); ATime (pa_T p); AScale (pa_scale p); AOffset (pa_offset p); ATau (Some (pa_tau p))]
  | None => [ANum 100; ATime 1; AScale 1; AOffset 0; ATau None]
  end ++ [ALb BNo; AUb BNo; ARamp None].
Lemma base_holds g a : In a (base_defaults (p_parent g)) -> holds (base_of g) a.
Proof.
  unfold base_defaults, base_of. destruct (p_parent g); cbn; intros I;
    repeat (destruct I as [<-|I]; [reflexivity|]); destruct I.
Qed.
Lemma extra_base c h d a : In a (base_defaults d) -> holds h a -> holds (extra c h) a.
Proof.
  unfold base_defaults. destruct d; cbn; intros I H;
    repeat (destruct I as [<-|I]; [destruct c; exact H|]); destruct I.
Qed.
Definition own (c : cls) (T : R) : list attr := skipn 8 (defaults None c T).
Lemma own_split d c T a : In a (defaults d c T) -> In a (base_defaults d) \/ In a (own c T).
Proof.
  unfold defaults, base_defaults, own. intros I. rewrite app_assoc in I. apply in_app_or in I as [I|I]; auto.
Qed.
Lemma own_holds c h a : In a (own c (p_T h)) -> a = ARandFreqs true \/ holds (extra c h) a.
Proof.
  destruct c; unfold own; cbn; intros I;
    repeat (destruct I as [<-|I]; [try (left; reflexivity); right; cbn; lra || reflexivity|]); destruct I.
Qed.

Lemma reset_default g a : In a (defaults (p_parent g) (p_cls g) (p_T (reset g))) -> absent (p_params g) a -> holds (reset g) a.
Proof.
  rewrite reset_time. intros I N.
  assert (B : In a (base_defaults (p_parent g)) -> holds (reset_base g) a).
  { intros J. rewrite reset_base_eq. apply fold_keeps; auto. now apply base_holds. }
  assert (T : a = ARandFreqs true \/ holds (twice g) a).
  { destruct (own_split _ _ _ _ I) as [J|J].
    - right. apply fold_keeps; auto. apply (extra_base _ _ _ _ J), B, J.
    - destruct (own_holds _ _ _ J) as [->|H]; auto. right. now apply fold_keeps. }
  destruct (p_cls g) eqn:E; try (rewrite reset_eq by congruence; destruct T as [->|T]; auto;
    exfalso; destruct (p_parent g); cbn in I; repeat (destruct I as [I|I]; [discriminate|]); exact I).
  - replace (reset g) with (reset_base g) by (unfold reset; now rewrite E). apply B.
    destruct (own_split _ _ _ _ I) as [J|J]; [exact J|destruct J].
  - rewrite reset_crab_eq by auto. destruct T as [->|T]; [reflexivity|].
    destruct a; try exact T. destruct (p_parent g); cbn in I;
      repeat (destruct I as [I|I]; [(discriminate I || injection I as <-; reflexivity)|]); destruct I.
Qed.

Lemma fold_fix ps : forall g, absent ps (AFixFreqs true) -> p_fix (fold_left setattr ps g) = p_fix g.
Proof.
  induction ps as [|b ps IH]; intros g N; cbn [fold_left]; auto. rewrite IH; [|intros I; apply N; now right].
  destruct b; try reflexivity. destruct N. now left.
Qed.
Lemma extra_fix c h : p_fix (extra c h) = p_fix h.
Proof. destruct c; reflexivity. Qed.
Lemma base_fix g : p_fix (base_of g) = p_fix g.
Proof. unfold base_of. destruct (p_parent g); reflexivity. Qed.
Lemma twice_fix g : absent (p_params g) (AFixFreqs true) -> p_fix (twice g) = p_fix g.
Proof. intros N. unfold twice. rewrite fold_fix, extra_fix, reset_base_eq, fold_fix by auto. apply base_fix. Qed.
Lemma freqs_fix h : p_fix (h <| p_freqs := None |> <| p_randf := true |>) = p_fix h.
Proof. reflexivity. Qed.
Lemma reset_fix g : p_cls g = CCrab -> absent (p_params g) (AFixFreqs true) -> p_fix (reset g) = p_fix g.
Proof. intros C N. rewrite reset_crab_eq by auto. etransitivity; [apply freqs_fix|now apply twice_fix]. Qed.
