(** Lemmas about the pulse generators of [Model/PulseGen.v]. *)
From Coq Require Import Reals Lra Lia List FunctionalExtensionality.
From RecordUpdate Require Import RecordUpdate.
From Verif.Model Require Import PulseGen.
From Verif.Spec Require Import Pulses.
From Verif.Lib Require Import Lists.
Import ListNotations.
Set Bullet Behavior "Strict Subproofs".
Local Open Scope R_scope.

(** * Comparisons *)
Lemma Rltb_spec a b : Rltb a b = true <-> a < b.
Proof. unfold Rltb. destruct (Rlt_dec a b); split; intros; auto; discriminate. Qed.
Lemma Rleb_spec a b : Rleb a b = true <-> a <= b.
Proof. unfold Rleb. destruct (Rle_dec a b); split; intros; auto; discriminate. Qed.
Lemma Rltb_false a b : Rltb a b = false <-> b <= a.
Proof. unfold Rltb. destruct (Rlt_dec a b); split; intros; try discriminate; auto; lra. Qed.
Lemma Rleb_false a b : Rleb a b = false <-> b < a.
Proof. unfold Rleb. destruct (Rle_dec a b); split; intros; try discriminate; auto; lra. Qed.

Lemma fleb_spec a b : fleb a b = true <-> fle a b.
Proof.
  destruct a, b; cbn; try (split; intros; auto; discriminate || contradiction).
  apply Rleb_spec.
Qed.

(** * Maximum and minimum of a finite pulse *)
Lemma pymax_F x l : exists M, pymax (map F (x :: l)) = Ok (F M) /\ In M (x :: l)
                              /\ Forall (fun y => y <= M) (x :: l).
Proof.
  cbn [map pymax].
  assert (H : forall l x, exists M, fold_left (fun m y => if fltb m y then y else m) (map F l) (F x) = F M
              /\ In M (x :: l) /\ Forall (fun y => y <= M) (x :: l)).
  { clear. induction l as [|y l IH]; intros x.
    - exists x. cbn. repeat split; auto. constructor; [lra|constructor].
    - cbn [map fold_left]. destruct (Rltb x y) eqn:E; cbn [fltb]; rewrite E.
      + apply Rltb_spec in E. destruct (IH y) as (M & HM & Hi & HF).
        exists M. repeat split; auto. { right. auto. }
        inversion HF; subst. constructor; auto. lra.
      + apply Rltb_false in E. destruct (IH x) as (M & HM & Hi & HF).
        exists M. repeat split; auto. { destruct Hi; [left|right; right]; auto. }
        inversion HF; subst. constructor; [lra|constructor]; auto. lra. }
  destruct (H l x) as (M & HM & R1). exists M. rewrite HM. auto.
Qed.
Lemma pymin_F x l : exists M, pymin (map F (x :: l)) = Ok (F M) /\ In M (x :: l)
                              /\ Forall (fun y => M <= y) (x :: l).
Proof.
  cbn [map pymin].
  assert (H : forall l x, exists M, fold_left (fun m y => if fltb y m then y else m) (map F l) (F x) = F M
              /\ In M (x :: l) /\ Forall (fun y => M <= y) (x :: l)).
  { clear. induction l as [|y l IH]; intros x.
    - exists x. cbn. repeat split; auto. constructor; [lra|constructor].
    - cbn [map fold_left]. destruct (Rltb y x) eqn:E; cbn [fltb]; rewrite E.
      + apply Rltb_spec in E. destruct (IH y) as (M & HM & Hi & HF).
        exists M. repeat split; auto. { right. auto. }
        inversion HF; subst. constructor; auto. lra.
      + apply Rltb_false in E. destruct (IH x) as (M & HM & Hi & HF).
        exists M. repeat split; auto. { destruct Hi; [left|right; right]; auto. }
        inversion HF; subst. constructor; [lra|constructor]; auto. lra. }
  destruct (H l x) as (M & HM & R1). exists M. rewrite HM. auto.
Qed.

Lemma shift_F o l : shift (F o) (map F l) = map (fun x => F (x + o)) l.
Proof. unfold shift. rewrite map_map. reflexivity. Qed.

Lemma Forall_map' {X Y} (P : Y -> Prop) (f : X -> Y) l : Forall P (map f l) <-> Forall (fun x => P (f x)) l.
Proof. rewrite Forall_map. reflexivity. Qed.

(** The result of [_apply_bounds_and_offset] on a finite pulse: inside the
    bounds; an affine image [x |-> c*x + d] of the pulse with 0 <= c <= 1 when
    the bounds are finite; the pulse plus the offset when that is inside. *)
Lemma bounded g x l :
  ordered (p_lb g) (p_ub g) ->
  exists p, apply_bounds_and_offset g (map F (x :: l)) = Ok p /\
    length p = S (length l) /\ Forall (within (p_lb g) (p_ub g)) p /\
    (Forall (fun y => within (p_lb g) (p_ub g) (F (y + p_offset g))) (x :: l) ->
     p = map (fun y => F (y + p_offset g)) (x :: l)) /\
    (tame (p_lb g) -> tame (p_ub g) ->
     exists c d, 0 <= c <= 1 /\ p = map (fun y => F (c * y + d)) (x :: l)).
Proof.
  intros (Ul & Uu & O).
  set (P := x :: l) in *.
  destruct (pymax_F x l) as (M & HM & HiM & HFM).
  destruct (pymin_F x l) as (m & Hm & Him & HFm).
  fold P in HM, HiM, HFM, Hm, Him, HFm.
  assert (LP : length P = S (length l)) by reflexivity.
  rewrite Forall_forall in HFM, HFm.
  assert (Eoff : map (fun y => F (y + p_offset g)) P = map (fun y => F (1 * y + p_offset g)) P).
  { apply map_ext. intros y. f_equal. lra. }
  unfold apply_bounds_and_offset.
  destruct (p_lb g) as [|lo|?]; destruct (p_ub g) as [|hi|?]; try (cbn in Ul, Uu; contradiction).
  - rewrite shift_F. exists (map (fun y => F (y + p_offset g)) P). repeat split.
    + rewrite map_length. auto.
    + rewrite Forall_map'. apply Forall_forall. intros. split; exact I.
    + intros _ _. exists 1, (p_offset g). split; [lra|exact Eoff].
  - rewrite HM, Hm. cbn [bind andb]. rewrite Bool.andb_true_r.
    destruct (fleb (fadd (F M) (F (p_offset g))) hi) eqn:E.
    + rewrite shift_F. exists (map (fun y => F (y + p_offset g)) P). repeat split; auto.
      * rewrite map_length. auto.
      * rewrite Forall_map'. apply Forall_forall. intros y Hy. split; [exact I|]. cbn.
        apply fleb_spec in E. cbn in E. destruct hi; cbn in *; auto. specialize (HFM y Hy). lra.
      * intros _ _. exists 1, (p_offset g). split; [lra|exact Eoff].
    + exists (map (fun a => fsub (fadd a hi) (F M)) (map F P)). rewrite map_map. repeat split; auto.
      * rewrite map_length. auto.
      * rewrite Forall_map'. apply Forall_forall. intros y Hy. split; [exact I|]. cbn.
        destruct hi; cbn in *; auto; try discriminate. specialize (HFM y Hy). lra.
      * intros HW. exfalso. rewrite Forall_forall in HW. specialize (HW M HiM). destruct HW as [_ HW].
        cbn in HW. assert (fleb (F (M + p_offset g)) hi = true) by (apply fleb_spec; exact HW).
        cbn [fadd] in E. congruence.
      * intros _ T. destruct hi; cbn in T; try contradiction. exists 1, (x0 - M). split; [lra|].
        apply map_ext. intros y. cbn. f_equal. lra.
  - rewrite HM, Hm. cbn [bind andb].
    destruct (fleb lo (fadd (F m) (F (p_offset g)))) eqn:E.
    + rewrite shift_F. exists (map (fun y => F (y + p_offset g)) P). repeat split; auto.
      * rewrite map_length. auto.
      * rewrite Forall_map'. apply Forall_forall. intros y Hy. split; [|exact I]. cbn.
        apply fleb_spec in E. cbn in E. destruct lo; cbn in *; auto. specialize (HFm y Hy). lra.
      * intros _ _. exists 1, (p_offset g). split; [lra|exact Eoff].
    + exists (map (fun a => fsub (fadd a lo) (F m)) (map F P)). rewrite map_map. repeat split; auto.
      * rewrite map_length. auto.
      * rewrite Forall_map'. apply Forall_forall. intros y Hy. split; [|exact I]. cbn.
        destruct lo; cbn in *; auto; try discriminate. specialize (HFm y Hy). lra.
      * intros HW. exfalso. rewrite Forall_forall in HW. specialize (HW m Him). destruct HW as [HW _].
        cbn in HW. assert (fleb lo (F (m + p_offset g)) = true) by (apply fleb_spec; exact HW).
        cbn [fadd] in E. congruence.
      * intros T _. destruct lo; cbn in T; try contradiction. exists 1, (x0 - m). split; [lra|].
        apply map_ext. intros y. cbn. f_equal. lra.
  - rewrite HM, Hm. cbn [bind].
    destruct (fleb (fadd (F M) (F (p_offset g))) hi && fleb lo (fadd (F m) (F (p_offset g))))%bool eqn:E.
    + apply Bool.andb_true_iff in E. destruct E as [Eu El]. apply fleb_spec in Eu, El. cbn in Eu, El.
      rewrite shift_F. exists (map (fun y => F (y + p_offset g)) P). repeat split; auto.
      * rewrite map_length. auto.
      * rewrite Forall_map'. apply Forall_forall. intros y Hy. split; cbn.
        -- destruct lo; cbn in *; auto. specialize (HFm y Hy). lra.
        -- destruct hi; cbn in *; auto. specialize (HFM y Hy). lra.
      * intros _ _. exists 1, (p_offset g). split; [lra|exact Eoff].
    + assert (NW : ~ Forall (fun y => within (BVal lo) (BVal hi) (F (y + p_offset g))) P).
      { intros HW. rewrite Forall_forall in HW.
        destruct (HW M HiM) as [_ Hu]. destruct (HW m Him) as [Hl _].
        change (fle (F (M + p_offset g)) hi) in Hu. change (fle lo (F (m + p_offset g))) in Hl.
        apply fleb_spec in Hu, Hl. cbn [fadd] in E. rewrite Hu, Hl in E. discriminate. }
      assert (SH : exists c, 0 <= c <= 1 /\
         (if fltb (fsub hi lo) (fsub (F M) (F m))
          then map (fun a => fdiv (fmul a (fsub hi lo)) (fsub (F M) (F m))) (map F P)
          else map F P) = map (fun y => F (c * y)) P /\
         (forall hi', hi = F hi' -> forall lo', lo = F lo' -> c * (M - m) <= hi' - lo')).
      { assert (ID : map F P = map (fun y => F (1 * y)) P) by (apply map_ext; intros; f_equal; lra).
        specialize (HFM m Him).
        destruct hi as [h| | |]; destruct lo as [o| | |]; cbn in O; try contradiction; try congruence;
          cbn [fsub fadd fopp fltb];
          try (exists 1; split; [lra|]; split; [exact ID|]; intros; discriminate).
        destruct (Rltb (h + - o) (M + - m)) eqn:Er.
        - apply Rltb_spec in Er. exists ((h - o) / (M - m)).
          assert (P1 : 0 < M - m) by lra.
          assert (P2 : 0 <= / (M - m)) by (left; apply Rinv_0_lt_compat; lra).
          split; [split|].
          + unfold Rdiv. apply Rmult_le_pos; lra.
          + apply Rmult_le_reg_r with (M - m); [lra|]. unfold Rdiv. rewrite Rmult_assoc, Rinv_l; lra.
          + split.
            * rewrite map_map. apply map_ext. intros y. cbn. destruct (Req_EM_T (M + - m) 0); [lra|].
              f_equal. field. lra.
            * intros h' Eh o' Eo. injection Eh as <-. injection Eo as <-.
              unfold Rdiv. rewrite Rmult_assoc, Rinv_l; lra.
        - apply Rltb_false in Er. exists 1. split; [lra|]. split; [exact ID|].
          intros h' Eh o' Eo. injection Eh as <-. injection Eo as <-. lra. }
      destruct SH as (c & Hc & Es & Hr). rewrite Es.
      destruct (pymin_F (c * x) (map (fun y => c * y) l)) as (k & Hk & Hik & HFk).
      assert (EM : map (fun y => F (c * y)) P = map F (c * x :: map (fun y => c * y) l)).
      { unfold P. cbn [map]. rewrite map_map. reflexivity. }
      rewrite EM, Hk. cbn [bind].
      eexists. split; [reflexivity|].
      assert (Ek : k = c * m).
      { rewrite Forall_forall in HFk.
        assert (Hin : In k (map (fun y => c * y) P)) by exact Hik.
        apply in_map_iff in Hin. destruct Hin as (y & <- & Hy).
        apply Rle_antisym.
        - apply HFk. change (In (c * m) (map (fun y => c * y) P)). apply in_map. exact Him.
        - apply Rmult_le_compat_l; [lra|]. apply HFm. exact Hy. }
      subst k. rewrite <- EM.
      rewrite map_map.
      assert (Q : forall y, In y P -> 0 <= c * y - c * m <= c * (M - m)).
      { intros y Hy. specialize (HFm y Hy). specialize (HFM y Hy).
        split.
        - assert (c * m <= c * y) by (apply Rmult_le_compat_l; lra). lra.
        - assert (c * y <= c * M) by (apply Rmult_le_compat_l; lra). lra. }
      repeat split.
      * rewrite map_length. auto.
      * apply Forall_map'. apply Forall_forall. intros y Hy. specialize (Q y Hy). split; cbn.
        -- destruct lo as [o| | |]; cbn in *; try exact I; try contradiction. lra.
        -- destruct hi as [h| | |]; destruct lo as [o| | |]; cbn in *; try exact I; try congruence; try contradiction.
           specialize (Hr h eq_refl o eq_refl). lra.
      * intros HW. contradiction.
      * intros T1 T2. destruct lo as [o| | |]; cbn in T1; try contradiction.
        exists c, (o - c * m). split; [lra|]. apply map_ext. intros y. cbn. f_equal. lra.
Qed.

(** * The bounds and the offset do not influence the raw pulse *)
Definition set_b (l u : battr) (o : R) (g : pgen) : pgen :=
  g <| p_lb := l |> <| p_ub := u |> <| p_offset := o |>.
Definition nb (b : battr) : battr := match b with BVal x => if fisinf x then BNo else BVal x | b => b end.
Definition rmap {X Y} (f : X -> Y) (m : Res X) : Res Y := match m with Ok x => Ok (f x) | Raise e => Raise e end.

Lemma unbounded_eq g : unbounded g = set_b BNo BNo 0 g.
Proof. destruct g. reflexivity. Qed.

Lemma nb_usable b : is_lb b \/ is_ub b -> norm_bound b = Ok (nb b).
Proof. destruct b as [|[]|]; cbn; intros []; auto; contradiction. Qed.

Lemma nb_ordered l u : ordered l u -> match nb u, nb l with BVal u, BVal l => fltb u l = false | _, _ => True end.
Proof.
  intros (Ul & Uu & O). destruct l as [|[]|], u as [|[]|]; cbn in *; auto; try contradiction; try congruence.
  apply Rltb_false. lra.
Qed.

Lemma init_base_b l u o g : ordered l u ->
  init_base (set_b l u o g) = rmap (set_b (nb l) (nb u) o) (init_base (set_b BNo BNo 0 g)).
Proof.
  intros O. pose proof (nb_ordered l u O) as NO. destruct O as (Ul & Uu & _).
  pose proof (nb_usable l (or_introl Ul)) as Ul'. pose proof (nb_usable u (or_intror Uu)) as Uu'.
  clear Ul Uu. rename Ul' into Ul. rename Uu' into Uu.
  unfold init_base.
  destruct g. unfold set_b. cbn -[norm_bound nb times].
  destruct p_uses_time.
  - destruct p_tau; cbn -[norm_bound nb times].
    + destruct (times 0 l0 p_n); cbn -[norm_bound nb times]; auto.
      rewrite Ul. cbn -[norm_bound nb times]. rewrite Uu. cbn -[norm_bound nb times].
      destruct (nb u), (nb l); auto. rewrite NO. auto.
    + destruct (times 0 _ p_n); cbn -[norm_bound nb times]; auto.
      rewrite Ul. cbn -[norm_bound nb times]. rewrite Uu. cbn -[norm_bound nb times].
      destruct (nb u), (nb l); auto. rewrite NO. auto.
  - destruct p_tau; cbn -[norm_bound nb times].
    + rewrite Ul. cbn -[norm_bound nb times]. rewrite Uu. cbn -[norm_bound nb times].
      destruct (nb u), (nb l); auto. rewrite NO. auto.
    + rewrite Ul. cbn -[norm_bound nb times]. rewrite Uu. cbn -[norm_bound nb times].
      destruct (nb u), (nb l); auto. rewrite NO. auto.
Qed.

Lemma init_linear_b a b c l u o g : ordered l u ->
  init_linear a b c (set_b l u o g) = rmap (set_b (nb l) (nb u) o) (init_linear a b c (set_b BNo BNo 0 g)).
Proof.
  intros O. unfold init_linear. rewrite (init_base_b _ _ _ _ O).
  destruct (init_base (set_b BNo BNo 0 g)) as [g1|e]; cbn [rmap bind]; auto.
  destruct g1. unfold set_b, last_tau. cbn -[nb fdiv].
  destruct b as [s|], c as [e|]; cbn -[nb fdiv]; try (destruct p_start, p_end; cbn -[nb fdiv]; auto);
    try (destruct p_tau; cbn -[nb fdiv]; auto; destruct (rev l0); cbn -[nb fdiv]; auto).
Qed.

Lemma init_periodic_b a b c d l u o g : ordered l u ->
  init_periodic a b c d (set_b l u o g) = rmap (set_b (nb l) (nb u) o) (init_periodic a b c d (set_b BNo BNo 0 g)).
Proof.
  intros O. unfold init_periodic. rewrite (init_base_b _ _ _ _ O).
  destruct (init_base (set_b BNo BNo 0 g)) as [g1|e]; cbn [rmap bind]; auto.
  set (G := match d with Some x => g1 <| p_phase := x |> | None => g1 end).
  assert (EG : match d with Some x => set_b (nb l) (nb u) o g1 <| p_phase := x |>
               | None => set_b (nb l) (nb u) o g1 end = set_b (nb l) (nb u) o G)
    by (unfold G; destruct d, g1; reflexivity).
  cbn zeta. rewrite EG. clear EG. clearbody G. clear g1.
  set (H := match a, b, c with
            | None, None, None => G
            | _, _, _ => G <| p_waves := a |> <| p_wlen := b |> <| p_freq := c |> end).
  assert (EH : match a, b, c with
            | None, None, None => set_b (nb l) (nb u) o G
            | _, _, _ => set_b (nb l) (nb u) o G <| p_waves := a |> <| p_wlen := b |> <| p_freq := c |> end
            = set_b (nb l) (nb u) o H)
    by (unfold H; destruct a, b, c, G; reflexivity).
  rewrite EH. clear EH. clearbody H. destruct H. unfold set_b. cbn -[nb pydiv].
  destruct p_waves as [w|].
  - destruct (pydiv w p_T); cbn -[nb pydiv]; auto. destruct (pydiv 1 a0); cbn -[nb]; auto.
  - destruct p_wlen as [w|].
    + destruct (pydiv 1 w); cbn -[nb]; auto.
    + destruct p_freq; cbn -[nb pydiv]; auto. destruct (pydiv 1 r); cbn -[nb]; auto.
Qed.

Lemma cls_set_b l u o g : p_cls (set_b l u o g) = p_cls g.
Proof. destruct g. reflexivity. Qed.

Lemma init_pulse_b rnd l u o g : p_cls g <> CCrab -> ordered l u ->
  init_pulse rnd INone (set_b l u o g) = rmap (set_b (nb l) (nb u) o) (init_pulse rnd INone (set_b BNo BNo 0 g)).
Proof.
  intros Hc O. unfold init_pulse. rewrite !cls_set_b.
  destruct (p_cls g); try congruence;
    first [apply init_base_b | apply init_linear_b | apply init_periodic_b]; assumption.
Qed.

(** The bounds after a call are the given ones, or, when the call initialised
    the object, the given ones without the infinities. *)
Definition kept (l u l' u' : battr) : Prop := (l' = l /\ u' = u) \/ (l' = nb l /\ u' = nb u).

Lemma ensure_b rnd l u o g : p_cls g <> CCrab -> ordered l u ->
  exists l' u', kept l u l' u' /\
  (p_ready g = false -> l' = nb l /\ u' = nb u) /\
  ensure rnd (set_b l u o g) = rmap (set_b l' u' o) (ensure rnd (set_b BNo BNo 0 g)).
Proof.
  intros Hc O. unfold ensure.
  assert (E : forall l u o, p_ready (set_b l u o g) = p_ready g) by (intros; destruct g; reflexivity).
  rewrite !E. destruct (p_ready g).
  - exists l, u. split; [left; auto|]. split; [discriminate|]. destruct g. reflexivity.
  - exists (nb l), (nb u). split; [right; auto|]. split; auto. apply init_pulse_b; auto.
Qed.

Lemma nb_nb b : nb (nb b) = nb b.
Proof. destruct b as [|[]|]; reflexivity. Qed.

Lemma nb_ord l u : ordered l u -> ordered (nb l) (nb u).
Proof.
  intros (A & B & C). destruct l as [|[]|], u as [|[]|]; cbn in *; try contradiction; try congruence;
    repeat split; auto; discriminate.
Qed.

Lemma set_b_set_b l u o l' u' o' g : set_b l u o (set_b l' u' o' g) = set_b l u o g.
Proof. destruct g. reflexivity. Qed.

Lemma bind_rmap {X Y Z} (f : X -> Y) (m : Res X) (k : Y -> Res Z) :
  bind (rmap f m) k = bind m (fun x => k (f x)).
Proof. destruct m; reflexivity. Qed.

Definition on_fst {X Y} (f : X -> X) (p : X * Y) : X * Y := (f (fst p), snd p).


Lemma kept_trans l u l1 u1 l2 u2 : kept l u l1 u1 -> kept l1 u1 l2 u2 -> kept l u l2 u2.
Proof.
  intros [[-> ->]|[-> ->]] [[-> ->]|[-> ->]]; unfold kept; rewrite ?nb_nb; auto.
Qed.

Lemma kept_ordered l u l' u' : ordered l u -> kept l u l' u' -> ordered l' u'.
Proof. intros O [[-> ->]|[-> ->]]; auto. apply nb_ord. auto. Qed.

Lemma no_ordered : ordered BNo BNo.
Proof. repeat split. Qed.

(** A step that treats the bounds and the offset as [init_pulse] does. *)
Definition steps_b {X} (set : battr -> battr -> R -> X -> X) (k : pgen -> Res X) : Prop :=
  forall l u o g, ordered l u -> p_cls g <> CCrab ->
  exists l' u', kept l u l' u' /\ k (set_b l u o g) = rmap (set l' u' o) (k (set_b BNo BNo 0 g)).

Definition set_b2 l u o (x : pgen * list flt) : pgen * list flt := on_fst (set_b l u o) x.

Lemma steps_bind (k1 : pgen -> Res pgen) (k2 : pgen -> Res (pgen * list flt)) :
  steps_b set_b k1 ->
  (forall g g', k1 g = Ok g' -> p_cls g' = p_cls g) ->
  steps_b set_b2 k2 -> steps_b set_b2 (fun g => bind (k1 g) k2).
Proof.
  intros H1 C1 H2 l u o g O Hc.
  destruct (H1 l u o g O Hc) as (l1 & u1 & K1 & E1). rewrite E1, bind_rmap.
  destruct (H1 BNo BNo 0 g no_ordered Hc) as (l0 & u0 & K0 & E0).
  assert (Z : l0 = BNo /\ u0 = BNo) by (destruct K0 as [[-> ->]|[-> ->]]; auto). destruct Z as [-> ->].
  case_eq (k1 (set_b BNo BNo 0 g)).
  - intros g2 E2. rewrite E2 in E0. cbn [rmap] in E0. injection E0 as E0. cbn [bind rmap].
    apply C1 in E2. rewrite cls_set_b in E2.
    destruct (H2 l1 u1 o g2) as (l2 & u2 & K2 & E3); [eapply kept_ordered; eauto|congruence|].
    exists l2, u2. split; [eapply kept_trans; eauto|]. rewrite E3, <- E0. reflexivity.
  - intros e E2. exists l1, u1. split; auto.
Qed.

Lemma steps_pure (k : pgen -> Res (pgen * list flt)) :
  (forall l u o g, k (set_b l u o g) = rmap (on_fst (set_b l u o)) (k g)) -> steps_b set_b2 k.
Proof.
  intros H l u o g O Hc. exists l, u. split; [left; auto|]. rewrite !H.
  destruct (k g) as [[]|]; cbn; auto.
Qed.

Lemma steps_ensure rnd : steps_b set_b (ensure rnd).
Proof.
  intros l u o g O Hc. destruct (ensure_b rnd l u o g Hc O) as (l' & u' & K & _ & E). eauto.
Qed.

Lemma init_base_cls g g' : init_base g = Ok g' -> p_cls g' = p_cls g.
Proof.
  intros H. unfold init_base in H. repeat (apply bind_inv in H; destruct H as (? & ? & H)).
  assert (p_cls x = p_cls g).
  { destruct g. cbn -[times] in *. destruct p_uses_time.
    - destruct p_tau; cbn -[times] in H0; apply bind_inv in H0; destruct H0 as (? & ? & H0); injection H0 as <-; reflexivity.
    - destruct p_tau; injection H0 as <-; reflexivity. }
  rewrite <- H3. clear - H. destruct x. cbn in *. destruct x1, x0; try (injection H as <-; reflexivity).
  destruct (fltb x x0); [discriminate|]. injection H as <-; reflexivity.
Qed.

Lemma init_linear_cls a b c g g' : init_linear a b c g = Ok g' -> p_cls g' = p_cls g.
Proof.
  intros H. unfold init_linear in H. apply bind_inv in H. destruct H as (g1 & E1 & H).
  apply init_base_cls in E1. rewrite <- E1. clear E1 g. destruct g1. cbn -[fdiv last_tau] in *.
  destruct b, c; cbn -[fdiv last_tau] in H; try (destruct p_start, p_end); try (injection H as <-; reflexivity);
    apply bind_inv in H; destruct H as (? & ? & H); injection H as <-; reflexivity.
Qed.

Lemma init_periodic_cls a b c d g g' : init_periodic a b c d g = Ok g' -> p_cls g' = p_cls g.
Proof.
  intros H. unfold init_periodic in H. apply bind_inv in H. destruct H as (g1 & E1 & H).
  apply init_base_cls in E1. rewrite <- E1. clear E1 g. cbn zeta in H.
  set (G := match d with Some x => g1 <| p_phase := x |> | None => g1 end) in *.
  assert (E : p_cls G = p_cls g1) by (unfold G; destruct d, g1; reflexivity). rewrite <- E. clearbody G. clear E g1.
  set (K := match a, b, c with
            | None, None, None => G
            | _, _, _ => G <| p_waves := a |> <| p_wlen := b |> <| p_freq := c |> end) in *.
  assert (E : p_cls K = p_cls G) by (unfold K; destruct a, b, c, G; reflexivity). rewrite <- E. clearbody K. clear E G.
  destruct K. cbn -[pydiv] in *.
  destruct p_waves; [|destruct p_wlen; [|destruct p_freq]]; try discriminate;
    repeat (apply bind_inv in H; destruct H as (? & ? & H)); injection H as <-; reflexivity.
Qed.

Lemma init_crab_cls rnd nc v g g' : init_crab rnd nc v g = Ok g' -> p_cls g' = p_cls g.
Proof.
  intros H. unfold init_crab in H.
  apply bind_inv in H. destruct H as (g1 & E1 & H). apply init_base_cls in E1. rewrite <- E1. clear E1 g.
  apply bind_inv in H. destruct H as (g2 & E2 & H).
  assert (p_cls g2 = p_cls g1).
  { unfold init_coeffs in E2. destruct v.
    - unfold set_coeffs in E2. destruct g1. destruct nc as [[]|]; cbn in E2;
        apply bind_inv in E2; destruct E2 as (? & ? & E2); injection E2 as <-; reflexivity.
    - destruct g1. destruct nc as [[]|]; cbn in E2; injection E2 as <-; reflexivity. }
  rewrite <- H0. clear E2 H0 g1.
  apply bind_inv in H. destruct H as (g3 & E3 & H).
  assert (p_cls g3 = p_cls g2).
  { destruct (p_guess g2); [|injection E3 as <-; auto]. unfold init_guess in E3. destruct g2. cbn -[upper String.eqb] in *.
    destruct p_action; [|discriminate].
    repeat match type of E3 with (if ?b then _ else _) = _ => destruct b end; try discriminate;
      injection E3 as <-; reflexivity. }
  rewrite <- H0. clear E3 H0 g2.
  apply bind_inv in H. destruct H as (g4 & E4 & H).
  assert (p_cls g4 = p_cls g3).
  { unfold init_bounds in E4. destruct (p_lb g3), (p_ub g3); try discriminate;
      try (injection E4 as <-; destruct g3; reflexivity);
      apply bind_inv in E4; destruct E4 as (? & E4 & E5); injection E5 as <-;
      (match type of E4 with (if ?b then _ else _) = _ => destruct b end;
       [injection E4 as <-; destruct g3; reflexivity|
        apply bind_inv in E4; destruct E4 as (? & ? & E4); injection E4 as <-; destruct g3; reflexivity]). }
  rewrite <- H0. unfold init_freqs in H. apply bind_inv in H. destruct H as (? & ? & H).
  injection H as <-. destruct g4. reflexivity.
Qed.

Lemma init_pulse_cls rnd ia g g' : init_pulse rnd ia g = Ok g' -> p_cls g' = p_cls g.
Proof.
  unfold init_pulse. intros H.
  destruct (p_cls g) eqn:E; destruct ia; try discriminate; rewrite <- E;
  eauto using init_base_cls, init_linear_cls, init_periodic_cls, init_crab_cls.
Qed.

Lemma ensure_cls rnd g g' : ensure rnd g = Ok g' -> p_cls g' = p_cls g.
Proof.
  unfold ensure. destruct (p_ready g); [intros H; injection H as <-; auto|apply init_pulse_cls].
Qed.

Lemma steps_init_linear (b0 : bool) a b c : steps_b set_b (fun g => if b0 then init_linear a b c g else Ok g).
Proof.
  intros l u o g O Hc. destruct b0.
  - exists (nb l), (nb u). split; [right; auto|]. apply init_linear_b. auto.
  - exists l, u. split; [left; auto|]. cbn. rewrite set_b_set_b. auto.
Qed.
Lemma steps_init_periodic (b0 : bool) a b c d : steps_b set_b (fun g => if b0 then init_periodic a b c d g else Ok g).
Proof.
  intros l u o g O Hc. destruct b0.
  - exists (nb l), (nb u). split; [right; auto|]. apply init_periodic_b. auto.
  - exists l, u. split; [left; auto|]. cbn. rewrite set_b_set_b. auto.
Qed.


Lemma steps_pre (f : pgen -> pgen) (k : pgen -> Res (pgen * list flt)) :
  (forall l u o g, f (set_b l u o g) = set_b l u o (f g)) -> (forall g, p_cls (f g) = p_cls g) ->
  steps_b set_b2 k -> steps_b set_b2 (fun g => k (f g)).
Proof.
  intros Hf Hc Hk l u o g O Hg. rewrite !Hf. apply Hk; auto. rewrite Hc. auto.
Qed.

Lemma steps_if (b : pgen -> bool) e k :
  (forall l u o g, b (set_b l u o g) = b g) -> steps_b set_b2 k ->
  steps_b set_b2 (fun g => if b g then Raise e else k g).
Proof.
  intros Hb Hk l u o g O Hg. rewrite !Hb. destruct (b g); [|apply Hk; auto].
  exists l, u. split; [left; auto|reflexivity].
Qed.


Ltac pure := apply steps_pure; intros ? ? ? g2; destruct g2.
Ltac dres := repeat match goal with |- context [bind ?m _] => destruct m; cbn [bind rmap]; auto end.

Lemma st_fourier fuel rnd m : steps_b set_b2 (gen_fourier fuel rnd m).
Proof.
  apply (steps_pre (fun g => g <| p_minwl := or_keep m (p_minwl g) |>)
    (fun g => if Rltb (p_T g) (p_minwl g) then Raise ValueError else
              g <- ensure rnd g;; fourier_pulse fuel rnd g)).
  - intros l u o []. reflexivity.
  - intros []. reflexivity.
  - apply steps_if; [intros ? ? ? []; reflexivity|].
    apply steps_bind; [apply steps_ensure|apply ensure_cls|].
    pure. unfold fourier_pulse, tau_of, time_of.
    cbn -[wavelens add_waves fourier_waves Rmult]. dres.
Qed.
Lemma st_waves rnd n m x : steps_b set_b2 (gen_waves rnd n m x).
Proof.
  apply (steps_pre (fun g => g <| p_comp := or_keep n (p_comp g) |> <| p_minwl := or_keep m (p_minwl g) |>
             <| p_maxwl := or_keep x (p_maxwl g) |>)
    (fun g => if Rltb (p_T g) (p_minwl g) then Raise ValueError else
              if Rleb (p_maxwl g) (p_minwl g) then Raise ValueError else
              g <- ensure rnd g;; waves_pulse rnd g)).
  - intros l u o []. reflexivity.
  - intros []. reflexivity.
  - apply steps_if; [intros ? ? ? []; reflexivity|].
    apply steps_if; [intros ? ? ? []; reflexivity|].
    apply steps_bind; [apply steps_ensure|apply ensure_cls|].
    pure. unfold waves_pulse, tau_of, time_of.
    cbn -[add_waves random_waves Rmult]. dres.
Qed.
Lemma st_walk1 rnd d : steps_b set_b2 (gen_walk1 rnd d).
Proof.
  apply (steps_pre (fun g => g <| p_maxd := or_keep d (p_maxd g) |>) (fun g => g <- ensure rnd g;; walk1_pulse rnd g)).
  - intros l u o []. reflexivity.
  - intros []. reflexivity.
  - apply steps_bind; [apply steps_ensure|apply ensure_cls|].
    pure. unfold walk1_pulse, tau_of. cbn -[walk1 Rmult]. dres.
Qed.
Lemma st_walk2 rnd d : steps_b set_b2 (gen_walk2 rnd d).
Proof.
  apply (steps_pre (fun g => g <| p_maxd2 := or_keep d (p_maxd2 g) |>) (fun g => g <- ensure rnd g;; walk2_pulse rnd g)).
  - intros l u o []. reflexivity.
  - intros []. reflexivity.
  - apply steps_bind; [apply steps_ensure|apply ensure_cls|].
    pure. unfold walk2_pulse, tau_of. cbn -[walk2 Rmult]. dres.
Qed.
Lemma st_linear rnd a b c : steps_b set_b2 (gen_linear rnd a b c).
Proof.
  unfold gen_linear. apply steps_bind; [apply steps_init_linear| |].
  - intros g g'. destruct (_ || _)%bool; [apply init_linear_cls|intros H; injection H as <-; auto].
  - apply steps_bind; [apply steps_ensure|apply ensure_cls|].
    pure. unfold linear_pulse, tau_of. cbn -[along fmul fadd].
    destruct p_n; auto. destruct p_grad, p_start; auto. dres.
Qed.
Lemma st_periodic rnd a b c d : steps_b set_b2 (gen_periodic rnd a b c d).
Proof.
  apply (steps_pre (fun g => g <| p_phase := or_keep d (p_phase g) |>)
     (fun g => g <- (if given a || given b || given c then init_periodic a b c d g else Ok g);;
               g <- ensure rnd g;; periodic_pulse g)).
  - intros l u o []. reflexivity.
  - intros []. reflexivity.
  - apply steps_bind; [apply steps_init_periodic| |].
    + intros g g'. destruct (_ || _)%bool; [apply init_periodic_cls|intros H; injection H as <-; auto].
    + apply steps_bind; [apply steps_ensure|apply ensure_cls|].
      pure. unfold periodic_pulse, tau_of. cbn -[along periodic_value].
      destruct p_n; auto. destruct p_freq; auto. dres.
Qed.
Lemma st_gauss rnd a b : steps_b set_b2 (gen_gauss rnd a b).
Proof.
  unfold gen_gauss. apply steps_bind; [apply steps_ensure|apply ensure_cls|].
  pure. unfold gauss_pulse, time_of. cbn -[fmul fexp fdiv truthy]. dres.
Qed.
Lemma st_edge rnd a : steps_b set_b2 (gen_edge rnd a).
Proof.
  unfold gen_edge. apply steps_bind; [apply steps_ensure|apply ensure_cls|].
  pure. unfold edge_pulse, time_of. cbn -[fmul fexp fdiv fsub truthy]. dres.
Qed.
Lemma st_zero : steps_b set_b2 gen_zero.
Proof. pure. reflexivity. Qed.
Lemma st_random rnd : steps_b set_b2 (gen_random rnd).
Proof. pure. reflexivity. Qed.

Lemma gen_raw_b fuel rnd ga : steps_b set_b2 (gen_raw fuel rnd ga).
Proof.
  intros l u o g O Hc. unfold gen_raw. rewrite !cls_set_b.
  assert (TR : forall e, exists l' u', kept l u l' u' /\
     @Raise (pgen * list flt) e = rmap (set_b2 l' u' o) (Raise e)).
  { intros e. exists l, u. split; [left; auto|]. reflexivity. }
  assert (FIN : forall k, steps_b set_b2 k -> exists l' u', kept l u l' u' /\
     k (set_b l u o g) = rmap (set_b2 l' u' o) (k (set_b BNo BNo 0 g))) by (intros k H; apply H; auto).
  clear Hc.
  destruct (p_cls g); destruct ga; try exact (TR _); lazymatch goal with
  | |- context [gen_zero] => exact (FIN _ st_zero)
  | |- context [gen_random rnd] => exact (FIN _ (st_random rnd))
  | |- context [gen_fourier _ _ ?m] => exact (FIN _ (st_fourier fuel rnd m))
  | |- context [gen_waves _ ?a ?b ?c] => exact (FIN _ (st_waves rnd a b c))
  | |- context [gen_walk1 _ ?m] => exact (FIN _ (st_walk1 rnd m))
  | |- context [gen_walk2 _ ?m] => exact (FIN _ (st_walk2 rnd m))
  | |- context [gen_linear _ ?a ?b ?c] => exact (FIN _ (st_linear rnd a b c))
  | |- context [gen_periodic _ ?a ?b ?c ?d] => exact (FIN _ (st_periodic rnd a b c d))
  | |- context [gen_gauss _ ?a ?b] => exact (FIN _ (st_gauss rnd a b))
  | |- context [gen_edge _ ?a] => exact (FIN _ (st_edge rnd a))
  end.
Qed.

Lemma gen_pulse_std fuel rnd ga g : p_cls g <> CCrab ->
  gen_pulse fuel rnd ga g =
  ('(g, p) <- gen_raw fuel rnd ga g;; p <- apply_bounds_and_offset g p;; Ok (g, p)).
Proof. intros H. unfold gen_pulse. destruct (p_cls g); try congruence; reflexivity. Qed.

Lemma lb_set_b l u o g : p_lb (set_b l u o g) = l. Proof. destruct g. reflexivity. Qed.
Lemma ub_set_b l u o g : p_ub (set_b l u o g) = u. Proof. destruct g. reflexivity. Qed.
Lemma off_set_b l u o g : p_offset (set_b l u o g) = o. Proof. destruct g. reflexivity. Qed.

Lemma set_b_self g : set_b (p_lb g) (p_ub g) (p_offset g) g = g.
Proof. destruct g. reflexivity. Qed.

Lemma raw_unbounded fuel rnd ga g g0 raw : p_cls g <> CCrab ->
  gen_pulse fuel rnd ga (unbounded g) = Ok (g0, map F raw) ->
  exists raw', gen_raw fuel rnd ga (set_b BNo BNo 0 g) = Ok (g0, map F raw') /\ map F raw = shift (F 0) (map F raw')
   /\ p_lb g0 = BNo /\ p_ub g0 = BNo /\ p_offset g0 = 0.
Proof.
  intros Hc H. rewrite unbounded_eq, gen_pulse_std in H by (rewrite cls_set_b; auto).
  apply bind_inv in H. destruct H as ([g1 p1] & E1 & H). apply bind_inv in H. destruct H as (p2 & E2 & H).
  injection H as <- ->.
  destruct (gen_raw_b fuel rnd ga BNo BNo 0 g no_ordered Hc) as (l' & u' & K & E).
  assert (Z : l' = BNo /\ u' = BNo) by (destruct K as [[-> ->]|[-> ->]]; auto). destruct Z as [-> ->].
  rewrite E1 in E. cbn [rmap] in E. injection E as E.
  assert (Z : p_lb g1 = BNo /\ p_ub g1 = BNo /\ p_offset g1 = 0) by (rewrite E; destruct g1; auto).
  destruct Z as (Z1 & Z2 & Z3). unfold apply_bounds_and_offset in E2. rewrite Z1, Z2, Z3 in E2. injection E2 as E2.
  assert (exists raw', p1 = map F raw').
  { clear - E2. unfold shift in E2. revert raw E2. induction p1 as [|a p1 IH]; intros raw H.
    - exists []. reflexivity.
    - destruct raw as [|r raw]; [discriminate|]. cbn in H. injection H as Ha H.
      destruct a; cbn in Ha; try discriminate. destruct (IH raw H) as (q & ->). exists (x :: q). reflexivity. }
  destruct H as (raw' & ->). exists raw'. repeat split; auto.
Qed.

(** What the bounds do to a pulse, at the level of [gen_pulse]. *)
Lemma gen_bounded fuel rnd ga g g0 raw : p_cls g <> CCrab -> ordered (p_lb g) (p_ub g) ->
  gen_pulse fuel rnd ga (unbounded g) = Ok (g0, map F raw) -> raw <> [] ->
  exists g' p, gen_pulse fuel rnd ga g = Ok (g', p) /\ length p = length raw /\
    Forall (within (p_lb g) (p_ub g)) p /\
    (Forall (fun y => within (p_lb g) (p_ub g) (F (y + p_offset g))) raw ->
     p = map (fun y => F (y + p_offset g)) raw) /\
    (tame (p_lb g) -> tame (p_ub g) ->
     exists c d, 0 <= c <= 1 /\ p = map (fun y => F (c * y + d)) raw).
Proof.
  intros Hc O H Hne.
  destruct (raw_unbounded _ _ _ _ _ _ Hc H) as (raw' & E1 & Er & Z1 & Z2 & Z3).
  rewrite shift_F in Er.
  assert (Er' : raw = raw').
  { clear - Er. revert raw' Er. induction raw as [|x raw IH]; intros [|y raw'] E; cbn in E; try discriminate; auto.
    injection E as Ex E. f_equal; auto. lra. }
  subst raw'. clear Er.
  rewrite gen_pulse_std by auto.
  destruct (gen_raw_b fuel rnd ga (p_lb g) (p_ub g) (p_offset g) g O Hc) as (l' & u' & K & E).
  rewrite set_b_self, E1 in E. cbn [rmap] in E. unfold set_b2, on_fst in E. cbn [fst snd] in E.
  rewrite E. cbn [bind].
  destruct raw as [|x l]; [congruence|].
  destruct (bounded (set_b l' u' (p_offset g) g0) x l) as (p & Ep & Lp & Wp & Ip & Ap).
  { assert (p_lb (set_b l' u' (p_offset g) g0) = l' /\ p_ub (set_b l' u' (p_offset g) g0) = u') as [-> ->]
      by (destruct g0; auto). eapply kept_ordered; eauto. }
  assert (Y : p_lb (set_b l' u' (p_offset g) g0) = l' /\ p_ub (set_b l' u' (p_offset g) g0) = u'
              /\ p_offset (set_b l' u' (p_offset g) g0) = p_offset g) by (destruct g0; auto).
  destruct Y as (Y1 & Y2 & Y3). rewrite Y1, Y2, Y3 in *.
  rewrite Ep. cbn [bind]. eexists. exists p. split; [reflexivity|]. split; [exact Lp|].
  destruct K as [[-> ->]|[-> ->]]; [repeat split; auto|].
  destruct O as (Ol & Ou & OO).
  assert (T : tame (nb (p_lb g)) /\ tame (nb (p_ub g))).
  { destruct (p_lb g) as [|[]|], (p_ub g) as [|[]|]; cbn in *; try contradiction; auto. }
  destruct T as [T1 T2]. destruct (Ap T1 T2) as (c & d & Hcd & Ea).
  assert (Fp : Forall fin p).
  { rewrite Ea. apply Forall_map'. apply Forall_forall. intros y _. eexists. reflexivity. }
  assert (WE : forall a, fin a -> within (p_lb g) (p_ub g) a <-> within (nb (p_lb g)) (nb (p_ub g)) a).
  { intros a (r & ->). unfold within. destruct (p_lb g) as [|[]|], (p_ub g) as [|[]|]; cbn in *; try contradiction; tauto. }
  repeat split.
  - apply Forall_forall. intros a Ha. rewrite Forall_forall in Wp, Fp. apply WE; auto.
  - intros HW. apply Ip. apply Forall_forall. intros y Hy. rewrite Forall_forall in HW. apply WE; auto. eexists; reflexivity.
  - intros _ _. exists c, d. split; auto.
Qed.

(** When the object has not been initialised and its class initialises it, infinite bounds are harmless. *)
Lemma init_base_tame g g' : init_base g = Ok g' -> ordered (p_lb g) (p_ub g) -> tame (p_lb g') /\ tame (p_ub g').
Proof.
  intros H O. rewrite <- (set_b_self g) in H. rewrite (init_base_b _ _ _ _ O) in H.
  destruct (init_base (set_b BNo BNo 0 g)) as [g1|]; [|discriminate]. cbn in H. injection H as <-.
  rewrite lb_set_b, ub_set_b. destruct O as (A & B & _).
  destruct (p_lb g) as [|[]|], (p_ub g) as [|[]|]; cbn in *; auto; contradiction.
Qed.

Lemma init_b_tame (k : pgen -> Res pgen) g g' :
  (forall l u o g, ordered l u -> k (set_b l u o g) = rmap (set_b (nb l) (nb u) o) (k (set_b BNo BNo 0 g))) ->
  k g = Ok g' -> ordered (p_lb g) (p_ub g) -> tame (p_lb g') /\ tame (p_ub g').
Proof.
  intros Hk H O. rewrite <- (set_b_self g) in H. rewrite (Hk _ _ _ _ O) in H.
  destruct (k (set_b BNo BNo 0 g)) as [g1|]; [|discriminate]. cbn in H. injection H as <-.
  rewrite lb_set_b, ub_set_b. destruct O as (A & B & _).
  destruct (p_lb g) as [|[]|], (p_ub g) as [|[]|]; cbn in *; auto; contradiction.
Qed.

Lemma ensure_tame rnd g g' : p_cls g <> CCrab -> p_ready g = false -> ensure rnd g = Ok g' ->
  ordered (p_lb g) (p_ub g) -> tame (p_lb g') /\ tame (p_ub g').
Proof.
  intros Hc Hr H O. unfold ensure in H. rewrite Hr in H.
  apply (init_b_tame (fun x => if match p_cls x with CCrab => true | _ => false end then Raise TypeError else init_pulse rnd INone x) g g').
  - intros l u o x Ox. rewrite !cls_set_b. destruct (p_cls x) eqn:E; cbn [rmap]; try reflexivity;
      (apply init_pulse_b; [congruence|auto]).
  - destruct (p_cls g); auto; congruence.
  - auto.
Qed.

Lemma init_base_ready g g' : init_base g = Ok g' -> p_ready g' = true.
Proof.
  intros H. unfold init_base in H. repeat (apply bind_inv in H; destruct H as (? & ? & H)).
  clear - H. destruct x. cbn in *. destruct x1, x0; try (injection H as <-; reflexivity).
  destruct (fltb x x0); [discriminate|]. injection H as <-; reflexivity.
Qed.

Definition self_init (c : cls) : Prop := c <> CCrab /\ c <> CZero /\ c <> CRnd.

Lemma gen_raw_tame fuel rnd ga g g' p : self_init (p_cls g) -> p_ready g = false ->
  gen_raw fuel rnd ga g = Ok (g', p) -> ordered (p_lb g) (p_ub g) -> tame (p_lb g') /\ tame (p_ub g').
Proof.
  intros (H1 & H2 & H3) Hr H O.
  assert (FR : forall g1 (k : pgen -> Res (pgen * list flt)),
     (forall x y q, k x = Ok (y, q) -> y = x) -> p_cls g1 = p_cls g -> p_ready g1 = false ->
     p_lb g1 = p_lb g -> p_ub g1 = p_ub g ->
     bind (ensure rnd g1) k = Ok (g', p) -> tame (p_lb g') /\ tame (p_ub g')).
  { intros g1 k Hk C R L U E. apply bind_inv in E. destruct E as (g2 & E2 & E).
    apply Hk in E. subst g'. eapply (ensure_tame rnd g1 g2); eauto; congruence. }
  assert (IN : forall g2 (k : pgen -> Res (pgen * list flt)),
     (forall x y q, k x = Ok (y, q) -> y = x) -> p_ready g2 = true -> tame (p_lb g2) /\ tame (p_ub g2) ->
     bind (ensure rnd g2) k = Ok (g', p) -> tame (p_lb g') /\ tame (p_ub g')).
  { intros g2 k Hk R T E. unfold ensure in E. rewrite R in E. cbn [bind] in E. apply Hk in E. subst. auto. }
  assert (K1 : forall x y q, fourier_pulse fuel rnd x = Ok (y, q) -> y = x).
  { intros x y q E. unfold fourier_pulse in E. repeat (apply bind_inv in E; destruct E as (? & ? & E)). injection E; auto. }
  assert (K2 : forall x y q, waves_pulse rnd x = Ok (y, q) -> y = x).
  { intros x y q E. unfold waves_pulse in E. repeat (apply bind_inv in E; destruct E as (? & ? & E)). injection E; auto. }
  assert (K3 : forall x y q, walk1_pulse rnd x = Ok (y, q) -> y = x).
  { intros x y q E. unfold walk1_pulse in E. repeat (apply bind_inv in E; destruct E as (? & ? & E)). injection E; auto. }
  assert (K4 : forall x y q, walk2_pulse rnd x = Ok (y, q) -> y = x).
  { intros x y q E. unfold walk2_pulse in E. repeat (apply bind_inv in E; destruct E as (? & ? & E)). injection E; auto. }
  assert (K5 : forall x y q, linear_pulse x = Ok (y, q) -> y = x).
  { intros x y q E. unfold linear_pulse in E. destruct (p_n x); [injection E; auto|].
    destruct (p_grad x), (p_start x); try discriminate.
    repeat (apply bind_inv in E; destruct E as (? & ? & E)). injection E; auto. }
  assert (K6 : forall x y q, periodic_pulse x = Ok (y, q) -> y = x).
  { intros x y q E. unfold periodic_pulse in E. destruct (p_n x); [injection E; auto|].
    destruct (p_freq x); try discriminate.
    repeat (apply bind_inv in E; destruct E as (? & ? & E)). injection E; auto. }
  assert (K7 : forall a b x y q, gauss_pulse a b x = Ok (y, q) -> y = x).
  { intros a b x y q E. unfold gauss_pulse in E. repeat (apply bind_inv in E; destruct E as (? & ? & E)). injection E; auto. }
  assert (K8 : forall a x y q, edge_pulse a x = Ok (y, q) -> y = x).
  { intros a x y q E. unfold edge_pulse in E. repeat (apply bind_inv in E; destruct E as (? & ? & E)). injection E; auto. }
  assert (KL : forall a b c, gen_linear rnd a b c g = Ok (g', p) -> tame (p_lb g') /\ tame (p_ub g')).
  { intros a b c E. unfold gen_linear in E. destruct (_ || _)%bool.
    - apply bind_inv in E. destruct E as (g1 & E1 & E). eapply (IN g1 _ K5); [| |exact E].
      + unfold init_linear in E1. apply bind_inv in E1. destruct E1 as (g2 & E2 & E1). apply init_base_ready in E2.
        rewrite <- E2. clear - E1. destruct g2. cbn -[fdiv last_tau] in *.
        destruct b, c; cbn -[fdiv last_tau] in E1; try (destruct p_start, p_end); try (injection E1 as <-; reflexivity);
        apply bind_inv in E1; destruct E1 as (? & ? & E1); injection E1 as <-; reflexivity.
      + eapply (init_b_tame (init_linear a b c)); eauto. intros; apply init_linear_b; auto.
    - cbn [bind] in E. eapply (FR g _ K5); [| | | |exact E]; auto. }
  assert (KP : forall a b c d, gen_periodic rnd a b c d g = Ok (g', p) -> tame (p_lb g') /\ tame (p_ub g')).
  { intros a b c d E. unfold gen_periodic in E. destruct (_ || _)%bool.
    - apply bind_inv in E. destruct E as (g1 & E1 & E). eapply (IN g1 _ K6); [| |exact E].
      + clear - E1. unfold init_periodic in E1. apply bind_inv in E1. destruct E1 as (g2 & E2 & E1). apply init_base_ready in E2.
        rewrite <- E2. clear E2 g. cbn zeta in E1.
        set (G := match d with Some x => g2 <| p_phase := x |> | None => g2 end) in *.
        assert (E : p_ready G = p_ready g2) by (unfold G; destruct d, g2; reflexivity). rewrite <- E. clearbody G. clear E g2.
        set (K := match a, b, c with
            | None, None, None => G
            | _, _, _ => G <| p_waves := a |> <| p_wlen := b |> <| p_freq := c |> end) in *.
        assert (E : p_ready K = p_ready G) by (unfold K; destruct a, b, c, G; reflexivity). rewrite <- E. clearbody K. clear E G.
        destruct K. cbn -[pydiv] in *.
        destruct p_waves; [|destruct p_wlen; [|destruct p_freq]]; try discriminate;
        repeat (apply bind_inv in E1; destruct E1 as (? & ? & E1)); injection E1 as <-; reflexivity.
      + eapply (init_b_tame (init_periodic a b c d)); [|exact E1|].
        * intros; apply init_periodic_b; auto.
        * destruct g; exact O.
    - cbn [bind] in E. eapply (FR _ _ K6); [| | | |exact E]; destruct g; auto. }
  unfold gen_raw in H. destruct (p_cls g) eqn:EC; try congruence; destruct ga; try discriminate;
    try (apply KL in H; exact H); try (apply KP in H; exact H).
  1-2: unfold gen_fourier in H; cbn zeta in H; destruct (Rltb _ _); [discriminate|]; eapply (FR _ _ K1); [| | | |exact H]; destruct g; auto.
  1-2: unfold gen_waves in H; cbn zeta in H; destruct (Rltb _ _); [discriminate|]; destruct (Rleb _ _); [discriminate|];
       eapply (FR _ _ K2); [| | | |exact H]; destruct g; auto.
  1-2: eapply (FR _ _ K3); [| | | |exact H]; destruct g; auto.
  1-2: eapply (FR _ _ K4); [| | | |exact H]; destruct g; auto.
  1-2: eapply (FR _ _ (K7 _ _)); [| | | |exact H]; auto.
  1-2: eapply (FR _ _ (K8 _)); [| | | |exact H]; auto.
Qed.
