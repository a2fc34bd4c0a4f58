(** Facts for [Props/PropsWhere.v]. *)
From Coq Require Import String List Bool.
From RecordUpdate Require Import RecordUpdate.
From Verif.Model Require Import Base Dyn Str Dump DumpDir PhaseOption.
From Verif.Spec Require Import Where.
Local Open Scope string_scope.
Local Open Scope list_scope.
Set Bullet Behavior "Strict Subproofs".

Lemma assign_names v c : assign_phase v c =
  match names v with Some o => (mkPh v (Some o) (Some o), None) | None => (mkPh v (pc_fid c) (pc_grad c), Some UsageError) end.
Proof.
  destruct c as [sh f g]. destruct v as [s| |]; [|reflexivity|reflexivity]. unfold assign_phase, is_str, names.
  destruct (String.eqb_spec s "PSU") as [->|N1]; [reflexivity|]. destruct (String.eqb_spec s "SU") as [->|N2]; [reflexivity|].
  cbn. repeat match goal with |- context [match ?x with _ => _ end] => is_var x; destruct x; cbn; auto end; try (destruct N1; reflexivity); try (destruct N2; reflexivity).
Qed.
Lemma assign_none l : forall c, Forall (fun v => names v = None) l ->
  pc_fid (assign_phases l c) = pc_fid c /\ pc_grad (assign_phases l c) = pc_grad c.
Proof.
  induction l as [|v l IH]; intros c F; [auto|]. inversion F as [|? ? Hv F']; subst. change (assign_phases (v :: l) c) with (assign_phases l (fst (assign_phase v c))).
  destruct (IH (fst (assign_phase v c)) F') as [-> ->]. rewrite assign_names, Hv. cbn. auto.
Qed.

Section Where.
Variable mkdir : nat -> string -> bool * string.
Variable dd : string.
Notation step := (wstep mkdir dd).
Notation runs := (wruns mkdir dd).

(** What is cached for a kind. *)
Definition cache (k : kind) (w : where_) : option string :=
  match k with KSummary => w_sum w | KErr => w_err w | KNorm => w_norm w | KGrad _ => None end.

Lemma create_same w k : let w' := fst (create_dump_dir mkdir dd w) in
  w_base w' = w_base w /\ w_ext w' = w_ext w /\ cache k w' = cache k w /\ (w_write w = false -> w_write w' = false).
Proof.
  destruct w. unfold create_dump_dir. cbn. destruct (mkdir _ _) as [[|] path]; destruct k; cbn; auto.
Qed.
Lemma get_same w k : let w' := fst (get_dump_dir mkdir dd w) in
  w_base w' = w_base w /\ w_ext w' = w_ext w /\ cache k w' = cache k w /\ (w_write w = false -> w_write w' = false).
Proof. unfold get_dump_dir. case_eq (w_dir w); cbn; intros; auto. apply create_same. Qed.
Lemma set_same v w k : let w' := set_dump_dir mkdir dd v w in
  w_base w' = w_base w /\ w_ext w' = w_ext w /\ cache k w' = cache k w /\ (w_write w = false -> w_write w' = false).
Proof.
  unfold set_dump_dir. pose proof (create_same (w <| w_dir := v |>) k) as H. destruct (create_dump_dir mkdir dd _) as [w1 [|]]; cbn in *.
  - destruct w, k; cbn in *; auto.
  - destruct w, w1, k; cbn in *; auto.
Qed.
Lemma path_same k w : let '(w', p) := path_of mkdir dd k w in
  w_base w' = w_base w /\ w_ext w' = w_ext w /\ (w_write w = false -> w_write w' = false) /\
  (forall k', k' <> k -> cache k' w' = cache k' w) /\ (one_file k -> cache k w' = Some p) /\
  (forall p', cache k w = Some p' -> p = p').
Proof.
  assert (D : forall w1 : where_, w1 = fst (get_dump_dir mkdir dd w) ->
     w_base w1 = w_base w /\ w_ext w1 = w_ext w /\ (forall k, cache k w1 = cache k w) /\ (w_write w = false -> w_write w1 = false)).
  { intros w1 ->. destruct (get_same w KErr) as (H1 & H2 & _ & H4). repeat split; auto. intros k'. apply get_same. }
  unfold path_of. fold (cache k w). case_eq (cache k w).
  - intros p E. repeat split; auto. intros p' [= ->]. auto.
  - intros E. destruct (get_dump_dir mkdir dd w) as [w1 dir]. destruct (D w1 eq_refl) as (H1 & H2 & H3 & H4).
    destruct k; cbn; repeat split; auto; try discriminate; try (intros k' N; rewrite <- H3; destruct k'; cbn; congruence); intros [].
Qed.
Lemma path_fresh k w : cache k w = None ->
  snd (path_of mkdir dd k w) = path_join (snd (get_dump_dir mkdir dd w)) (w_base w ++ "-" ++ title k ++ "." ++ w_ext w).
Proof.
  intros E. unfold path_of. fold (cache k w). rewrite E. destruct (get_dump_dir mkdir dd w). destruct k; reflexivity.
Qed.

Lemma start_same w k : let w' := fst (step Start w) in w_base w' = w_base w /\ w_ext w' = w_ext w /\ cache k w' = cache k w.
Proof.
  cbn [wstep fst]. set (w1 := fst (create_dump_dir mkdir dd (w <| w_write := true |>))).
  destruct (get_same w1 k) as (H1 & H2 & H3 & _). destruct (create_same (w <| w_write := true |>) k) as (G1 & G2 & G3 & _). fold w1 in G1, G2, G3.
  rewrite H1, H2, H3, G1, G2, G3. destruct w, k; cbn; auto.
Qed.
Lemma step_names c w : w_base (fst (step c w)) = last_base (w_base w) [c] /\ w_ext (fst (step c w)) = last_ext (w_ext w) [c].
Proof.
  destruct c as [v| |s|s|b|s| |k]; try (cbn; auto; fail).
  - cbn [wstep fst last_base last_ext]. split; apply (set_same v w KErr).
  - cbn [wstep fst last_base last_ext]. split; apply (get_same w KErr).
  - split; apply (start_same w KErr).
  - cbn. destruct (w_write w); [|auto]. pose proof (path_same k w) as H. destruct (path_of mkdir dd k w). cbn. tauto.
Qed.
Lemma runs_names l : forall w, w_base (runs l w) = last_base (w_base w) l /\ w_ext (runs l w) = last_ext (w_ext w) l.
Proof.
  induction l as [|c l IH]; intros w; [cbn; auto|]. change (runs (c :: l) w) with (runs l (fst (step c w))).
  destruct (IH (fst (step c w))) as [-> ->]. destruct (step_names c w) as [-> ->]. destruct c; cbn; auto.
Qed.
Lemma step_unused c w k : elsewhere k c -> cache k w = None -> cache k (fst (step c w)) = None.
Proof.
  intros H E. destruct c as [v| |s|s|b|s| |k'].
  - cbn [wstep fst]. destruct (set_same v w k) as (_ & _ & -> & _). auto.
  - cbn [wstep fst]. destruct (get_same w k) as (_ & _ & -> & _). auto.
  - destruct k; cbn; auto.
  - destruct k; cbn; auto.
  - destruct k; cbn; auto.
  - destruct k; cbn in *; auto. destruct H; auto.
  - destruct (start_same w k) as (_ & _ & ->). auto.
  - cbn. destruct (w_write w); [|auto]. pose proof (path_same k' w) as P. destruct (path_of mkdir dd k' w). cbn. destruct P as (_ & _ & _ & P & _).
    rewrite P; auto.
Qed.
Lemma runs_unused l k : forall w, Forall (elsewhere k) l -> cache k w = None -> cache k (runs l w) = None.
Proof.
  induction l as [|c l IH]; intros w F E; [auto|]. inversion F as [|? ? Hc F']; subst. change (runs (c :: l) w) with (runs l (fst (step c w))).
  apply IH; auto. apply step_unused; auto.
Qed.
Lemma step_fixed c w k p : no_rename k c -> cache k w = Some p -> cache k (fst (step c w)) = Some p.
Proof.
  intros H E. destruct c as [v| |s|s|b|s| |k'].
  - cbn [wstep fst]. destruct (set_same v w k) as (_ & _ & -> & _). auto.
  - cbn [wstep fst]. destruct (get_same w k) as (_ & _ & -> & _). auto.
  - destruct k; cbn in *; auto. destruct H; auto.
  - destruct k; cbn; auto.
  - destruct k; cbn; auto.
  - destruct k; cbn in *; auto. destruct H; auto.
  - destruct (start_same w k) as (_ & _ & ->). auto.
  - cbn. destruct (w_write w); [|auto]. pose proof (path_same k' w) as P. unfold path_of in *. fold (cache k' w) in *.
    destruct (cache k' w) as [q|] eqn:Eq; [cbn; auto|]. destruct (get_dump_dir mkdir dd w) as [w1 dir]. destruct P as (_ & _ & _ & P & _).
    cbn in *. rewrite P; auto. intros ->. congruence.
Qed.
Lemma runs_fixed l k p : forall w, Forall (no_rename k) l -> cache k w = Some p -> cache k (runs l w) = Some p.
Proof.
  induction l as [|c l IH]; intros w F E; [auto|]. inversion F as [|? ? Hc F']; subst. change (runs (c :: l) w) with (runs l (fst (step c w))).
  apply IH; auto. apply step_fixed; auto.
Qed.
Lemma step_off c w : not_on c -> w_write w = false -> w_write (fst (step c w)) = false /\ snd (step c w) = None.
Proof.
  intros H E. destruct c as [v| |s|s|[|]|s| |k']; try contradiction; try (cbn; auto; fail).
  - cbn [wstep fst snd]. split; auto. apply (set_same v w KErr); auto.
  - cbn [wstep fst snd]. split; auto. apply (get_same w KErr); auto.
  - cbn. rewrite E. auto.
Qed.
Lemma opened_off l : forall w, Forall not_on l -> w_write w = false -> opened mkdir dd l w = [].
Proof.
  induction l as [|c l IH]; intros w F E; cbn [opened]; auto. inversion F as [|? ? Hc F']; subst.
  destruct (step_off c w Hc E) as [H1 H2]. destruct (step c w) as [w1 q]. cbn in *. subst q. auto.
Qed.
Lemma log_some k w p : snd (step (Log k) w) = Some p -> w_write w = true /\ snd (path_of mkdir dd k w) = p /\ fst (step (Log k) w) = fst (path_of mkdir dd k w).
Proof. cbn. destruct (w_write w); [|discriminate]. destruct (path_of mkdir dd k w). cbn. intros [= ->]. auto. Qed.
End Where.
