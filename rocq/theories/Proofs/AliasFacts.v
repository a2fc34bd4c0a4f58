(** Aliasing in Model/Alias.v. *)
From Coq Require Import Reals.
From RecordUpdate Require Import RecordUpdate.
From Verif.Model Require Import Base Dyn Alias.
From Verif.Spec Require Import Owners.
Local Open Scope nat_scope.
Local Set Bullet Behavior "Strict Subproofs".
Ltac splits := repeat match goal with |- _ /\ _ => split end.

Lemma vals_app : forall w w' a, a_buf a < length (heap w) -> (exists x, heap w' = heap w ++ x) -> vals w' a = vals w a.
Proof. intros w w' a H [x E]. unfold vals. rewrite E. now apply app_nth1. Qed.
Lemma vals_new : forall (h : list (list R)) v b, b = length h -> nth b (h ++ [v]) [] = v.
Proof. intros h v b ->. rewrite app_nth2 by lia. now rewrite Nat.sub_diag. Qed.
Lemma differ_false : forall u v, differ u v = false -> u = v.
Proof. intros u v. unfold differ. destruct (list_eq_dec _ _ _); [auto|discriminate]. Qed.
Lemma differ_refl : forall u, differ u u = false.
Proof. intros u. unfold differ. now destruct (list_eq_dec _ _ _). Qed.
Lemma set_buf_length : forall h b i x, length (set_buf h b i x) = length h.
Proof. induction h as [|v h IH]; intros [|b] i x; cbn; auto. Qed.
Lemma set_buf_other : forall h b i x k, k <> b -> nth k (set_buf h b i x) [] = nth k h [].
Proof. induction h as [|v h IH]; intros [|b] i x [|k] Hk; cbn; auto; congruence. Qed.

Section Facts.
Variable fid_of : list R -> R.
Variable grad_of : list R -> list R.
Variable crab : option ((list R -> list R) * list nat).
Notation func_wrapper := (func_wrapper fid_of crab).
Notation grad_wrapper := (grad_wrapper grad_of crab).
Notation step := (step fid_of grad_of crab).
Notation amps_for := (amps_for crab).

Definition extends (w w' : world) : Prop := exists x, heap w' = heap w ++ x.
Lemma ext_refl : forall w, extends w w.
Proof. intros w. exists []. now rewrite app_nil_r. Qed.
Lemma ext_trans : forall a b c, extends a b -> extends b c -> extends a c.
Proof. intros a b c [x Hx] [y Hy]. exists (x ++ y). rewrite Hy, Hx. now rewrite app_assoc. Qed.
Lemma ext_len : forall a b, extends a b -> length (heap a) <= length (heap b).
Proof. intros a b [x ->]. rewrite app_length. lia. Qed.

(** Caches hold what belongs to the stored amplitudes; nothing dangles. *)
Definition coherent (w : world) : Prop :=
  (forall a, stored w = Some a -> a_buf a < length (heap w)) /\
  (forall e, fid_cache w = Some e -> exists a, stored w = Some a /\ e = fid_of (vals w a)) /\
  (forall g, grad_cache w = Some g -> a_buf g < length (heap w) /\ exists a, stored w = Some a /\ vals w g = grad_of (vals w a)).

Lemma coherent_ext : forall w w', coherent w -> extends w w' ->
  stored w' = stored w -> fid_cache w' = fid_cache w -> grad_cache w' = grad_cache w -> coherent w'.
Proof.
  intros w w' (C1 & C2 & C3) X E1 E2 E3. pose proof (ext_len _ _ X). unfold coherent. rewrite E1, E2, E3. splits.
  - intros a Ha. specialize (C1 a Ha). lia.
  - intros e He. destruct (C2 e He) as (a & Ha & ->). exists a. split; auto. rewrite (vals_app w w'); auto.
  - intros g Hg. destruct (C3 g Hg) as (Hl & a & Ha & Hv). split; [lia|]. exists a. split; auto.
    rewrite !(vals_app w w'); auto.
Qed.

Lemma alloc_spec : forall v sh w a w', alloc v sh w = (a, w') ->
  extends w w' /\ a_buf a = length (heap w) /\ length (heap w') = S (length (heap w)) /\ vals w' a = v /\ a_shape a = sh /\
  stored w' = stored w /\ fid_cache w' = fid_cache w /\ grad_cache w' = grad_cache w.
Proof.
  intros v sh w a w' E. unfold alloc in E. injection E as <- <-. cbn. splits; auto.
  - now exists [v].
  - rewrite app_length. cbn. lia.
  - unfold vals. cbn. now apply vals_new.
Qed.

Lemma update_spec : forall new w w', update new w = Ok w' -> coherent w -> a_buf new < length (heap w) ->
  heap w' = heap w /\ coherent w' /\
  (exists a, stored w' = Some a /\ vals w' a = vals w new /\ (a = new \/ stored w = Some a)) /\
  (grad_cache w' = grad_cache w \/ grad_cache w' = None).
Proof.
  intros new w w' E C Hl. unfold update in E.
  assert (S : forall w', Ok (w <| stored := Some new |> <| fid_cache := None |> <| grad_cache := None |>) = Ok w' ->
     heap w' = heap w /\ coherent w' /\
     (exists a, stored w' = Some a /\ vals w' a = vals w new /\ (a = new \/ stored w = Some a)) /\
     (grad_cache w' = grad_cache w \/ grad_cache w' = None)).
  { intros w0 [= <-]. cbn. splits; auto.
    - unfold coherent. cbn. splits; try discriminate. now intros a [= <-].
    - exists new. auto. }
  destruct (stored w) as [old|] eqn:Eo; [|now apply S].
  destruct (list_eq_dec _ _ _); [|discriminate].
  destruct (differ _ _) eqn:Ed; [now apply S|]. injection E as <-. apply differ_false in Ed.
  splits; auto. exists old. splits; auto.
Qed.

Lemma fid_spec : forall w e w', get_fid_err fid_of w = Ok (e, w') -> coherent w ->
  heap w' = heap w /\ stored w' = stored w /\ grad_cache w' = grad_cache w /\ coherent w' /\
  exists a, stored w = Some a /\ e = fid_of (vals w a).
Proof.
  intros w e w' E C. unfold get_fid_err in E. destruct (fid_cache w) as [e0|] eqn:Ef.
  - injection E as <- <-. splits; auto. now apply C.
  - destruct (stored w) as [a|] eqn:Es; [|discriminate]. cbn in E. injection E as <- <-. cbn.
    destruct C as (C1 & C2 & C3). splits; auto; [|now exists a].
    unfold coherent. cbn. rewrite Es. splits.
    + intros a0 H0. apply C1. congruence.
    + intros e [= <-]. now exists a.
    + intros g Hg. destruct (C3 g Hg) as (Hl & a0 & Ha & Hv). rewrite Es in Ha. split; eauto.
Qed.

Lemma grad_spec : forall w g w', get_gradient grad_of w = Ok (g, w') -> coherent w ->
  extends w w' /\ stored w' = stored w /\ coherent w' /\ grad_cache w' = Some g /\
  (a_buf g = length (heap w) \/ grad_cache w = Some g) /\ a_buf g < length (heap w') /\
  exists a, stored w = Some a /\ vals w' g = grad_of (vals w a).
Proof.
  intros w g w' E C. unfold get_gradient in E. destruct (grad_cache w) as [g0|] eqn:Eg.
  - injection E as <- <-. splits; auto using ext_refl; apply C in Eg; tauto.
  - destruct (stored w) as [a|] eqn:Es; [|discriminate]. cbn [some_or bind] in E.
    destruct (alloc _ _ w) as [g1 w1] eqn:Ea. injection E as <- <-.
    destruct (alloc_spec _ _ _ _ _ Ea) as (X & A1 & A2 & A3 & A4 & A5 & A6 & A7).
    assert (C' : coherent w1) by (eapply coherent_ext; eauto).
    splits; auto; cbn.
    + congruence.
    + destruct C' as (C1 & C2 & C3). unfold coherent. cbn. splits; auto.
      intros g [= <-]. change (heap (w1 <| grad_cache := Some g1 |>)) with (heap w1). split; [lia|].
      exists a. split; [congruence|].
      change (vals w1 g1 = grad_of (vals w1 a)). rewrite A3. f_equal.
      symmetry. apply vals_app; auto. apply (proj1 C); auto.
    + rewrite A2, A1. lia.
    + exists a. split; auto.
Qed.

Lemma amps_spec : forall v w a w', get_ctrl_amps crab v w = Ok (a, w') -> a_buf v < length (heap w) ->
  extends w w' /\ vals w' a = amps_for (vals w v) /\ a_buf a < length (heap w') /\
  (a_buf a = a_buf v \/ a_buf a = length (heap w)) /\
  stored w' = stored w /\ fid_cache w' = fid_cache w /\ grad_cache w' = grad_cache w.
Proof.
  intros v w a w' E Hl. unfold get_ctrl_amps in E. unfold Owners.amps_for. destruct crab as [[ex sh]|].
  - destruct (alloc _ sh w) as [a1 w1] eqn:Ea. injection E as <- <-.
    destruct (alloc_spec _ _ _ _ _ Ea) as (X & A1 & A2 & A3 & A4 & A5 & A6 & A7). splits; auto. lia.
  - destruct (stored w) as [st|] eqn:Es; [|discriminate]. cbn [some_or bind] in E.
    unfold reshape in E. destruct (_ =? _); [|discriminate]. cbn [bind] in E. injection E as <- <-. cbn.
    splits; auto using ext_refl.
Qed.

(** The part both wrappers have in common. *)
Lemma wrapper_spec : forall v w c w1 a w2 w3, copy v w = (c, w1) -> get_ctrl_amps crab c w1 = Ok (a, w2) -> update a w2 = Ok w3 ->
  coherent w ->
  extends w w3 /\ coherent w3 /\
  (exists st, stored w3 = Some st /\ vals w3 st = amps_for (vals w v) /\ (length (heap w) <= a_buf st \/ stored w = Some st)) /\
  (grad_cache w3 = grad_cache w \/ grad_cache w3 = None).
Proof.
  intros v w c w1 a w2 w3 Ec Ea Eu C. unfold copy in Ec.
  destruct (alloc_spec _ _ _ _ _ Ec) as (X & A1 & A2 & A3 & A4 & A5 & A6 & A7).
  assert (C1 : coherent w1) by (eapply coherent_ext; eauto).
  destruct (amps_spec _ _ _ _ Ea ltac:(lia)) as (X2 & B1 & B2 & B3 & B4 & B5 & B6).
  assert (C2 : coherent w2) by (eapply coherent_ext; eauto).
  destruct (update_spec _ _ _ Eu C2 B2) as (U1 & U2 & (st & U3 & U4 & U5) & U6).
  splits; auto.
  - eapply ext_trans; [exact X|]. eapply ext_trans; [exact X2|]. exists []. now rewrite app_nil_r.
  - exists st. splits; auto.
    + now rewrite U4, B1, A3.
    + destruct U5 as [->|U5]; [left; destruct B3; lia|right; congruence].
  - rewrite B6, A7 in U6. exact U6.
Qed.

Lemma func_spec : forall v w e w', func_wrapper v w = Ok (e, w') -> coherent w ->
  extends w w' /\ coherent w' /\ e = fid_of (amps_for (vals w v)) /\
  (exists st, stored w' = Some st /\ vals w' st = amps_for (vals w v) /\ (length (heap w) <= a_buf st \/ stored w = Some st)) /\
  (grad_cache w' = grad_cache w \/ grad_cache w' = None).
Proof.
  intros v w e w' E C. unfold Alias.func_wrapper in E. destruct (copy v w) as [c w1] eqn:Ec.
  destruct (get_ctrl_amps crab c w1) as [[a w2]|] eqn:Ea; [|discriminate]. cbn [bind] in E.
  destruct (update a w2) as [w3|] eqn:Eu; [|discriminate]. cbn [bind] in E.
  destruct (wrapper_spec _ _ _ _ _ _ _ Ec Ea Eu C) as (X & C3 & (st & S1 & S2 & S3) & G).
  destruct (fid_spec _ _ _ E C3) as (F1 & F2 & F3 & F4 & st' & F5 & F6).
  rewrite S1 in F5. injection F5 as <-. splits; auto.
  - eapply ext_trans; [exact X|]. exists []. now rewrite app_nil_r.
  - now rewrite F6, S2.
  - exists st. splits; auto; [congruence|]. unfold vals in *. now rewrite F1.
  - now rewrite F3.
Qed.
Lemma gradw_spec : forall v w g w', grad_wrapper v w = Ok (g, w') -> coherent w ->
  extends w w' /\ coherent w' /\ vals w' g = grad_of (amps_for (vals w v)) /\
  length (heap w) <= a_buf g < length (heap w') /\
  (exists st, stored w' = Some st /\ vals w' st = amps_for (vals w v) /\ (length (heap w) <= a_buf st \/ stored w = Some st)
              /\ a_buf st <> a_buf g) /\
  (exists c, grad_cache w' = Some c /\ (length (heap w) <= a_buf c \/ grad_cache w = Some c) /\ a_buf c <> a_buf g).
Proof.
  intros v w g w' E C. unfold Alias.grad_wrapper in E. destruct (copy v w) as [c w1] eqn:Ec.
  destruct (get_ctrl_amps crab c w1) as [[a w2]|] eqn:Ea; [|discriminate]. cbn [bind] in E.
  destruct (update a w2) as [w3|] eqn:Eu; [|discriminate]. cbn [bind] in E.
  destruct (wrapper_spec _ _ _ _ _ _ _ Ec Ea Eu C) as (X & C3 & (st & S1 & S2 & S3) & G).
  destruct (get_gradient grad_of w3) as [[g0 w4]|] eqn:Eg; [|discriminate]. cbn [bind] in E.
  destruct (grad_spec _ _ _ Eg C3) as (X4 & G1 & G2 & G3 & G4 & G5 & st' & G6 & G7).
  rewrite S1 in G6. injection G6 as <-.
  unfold flatten in E.
  destruct (alloc _ _ w4) as [g5 w5] eqn:Ef. injection E as <- <-.
  destruct (alloc_spec _ _ _ _ _ Ef) as (X5 & A1 & A2 & A3 & A4 & A5 & A6 & A7).
  pose proof (ext_len _ _ X). pose proof (ext_len _ _ X4).
  assert (Hst : a_buf st < length (heap w3)) by (apply (proj1 C3); auto).
  splits; auto; try lia.
  - eapply ext_trans; [exact X|]. eapply ext_trans; eauto.
  - eapply coherent_ext; eauto.
  - now rewrite A3, G7, S2.
  - exists st. splits; auto; try congruence; try lia.
    rewrite <- S2. rewrite (vals_app w4 w5); [apply vals_app; auto| |auto]. lia.
  - exists g0. splits; try congruence; try lia.
    destruct G4 as [G4|G4]; [left; lia|]. destruct G as [G|G]; [right; congruence|congruence].
Qed.

(** A minimiser that writes only what it owns. *)
Definition safe (ks : list nat) (s : world * list nat) : Prop :=
  coherent (fst s) /\ Forall (fun b => b < length (heap (fst s))) (snd s) /\
  (forall a, stored (fst s) = Some a -> ~ In (a_buf a) (snd s)) /\
  (forall g, grad_cache (fst s) = Some g -> ~ In (a_buf g) (snd s)) /\
  (forall k, In k ks -> k < length (heap (fst s)) /\ ~ In k (snd s)).
Definition kept (ks : list nat) (w w' : world) : Prop := forall k, In k ks -> nth k (heap w') [] = nth k (heap w) [].

Lemma own_grow : forall own n m, Forall (fun b => b < n) own -> n <= m -> Forall (fun b => b < m) own.
Proof. intros own n m H Hm. eapply Forall_impl; [|exact H]. cbn. intros. lia. Qed.
Lemma not_own : forall own n b, Forall (fun b => b < n) own -> n <= b -> ~ In b own.
Proof. intros own n b H Hb Hi. rewrite Forall_forall in H. specialize (H b Hi). cbn in H. lia. Qed.
Lemma kept_ext : forall ks w w' own, safe ks (w, own) -> extends w w' -> kept ks w w'.
Proof.
  intros ks w w' own (_ & _ & _ & _ & H) [x E] k Hk. rewrite E. apply app_nth1. now apply H.
Qed.

Lemma step_safe : forall ks e s, safe ks s -> match e with Write b _ _ => In b (snd s) | _ => True end ->
  safe ks (step e s) /\ kept ks (fst s) (fst (step e s)).
Proof.
  intros ks e [w own] Hs Hw. assert (Hs' := Hs). destruct Hs' as (C & O & S & G & K). cbn [fst snd] in *.
  destruct e as [v|b i x|v|v]; cbn [Alias.step].
  - destruct (alloc v [length v] w) as [a w'] eqn:Ea.
    destruct (alloc_spec _ _ _ _ _ Ea) as (X & A1 & A2 & A3 & A4 & A5 & A6 & A7).
    split; [|eapply kept_ext; eauto]. unfold safe. cbn [fst snd]. rewrite A2, A5, A7. splits.
    + eapply coherent_ext; eauto.
    + constructor; [lia|]. eapply own_grow; eauto.
    + intros a0 Ha [E|H]; [|now apply (S a0)]. destruct C as (C1 & _). specialize (C1 _ Ha). lia.
    + intros g Hg [E|H]; [|now apply (G g)]. destruct C as (_ & _ & C3). destruct (C3 _ Hg). lia.
    + intros k Hk. destruct (K k Hk). split; [lia|]. intros [E|H']; [lia|auto].
  - assert (V : forall a, ~ In (a_buf a) own -> vals (write b i x w) a = vals w a).
    { intros a Ha. unfold vals, write. cbn. apply set_buf_other. intros E. apply Ha. now rewrite E. }
    split.
    + assert (L : length (heap (write b i x w)) = length (heap w)) by apply set_buf_length.
      unfold safe, coherent. cbn [fst snd]. rewrite L.
      change (stored (write b i x w)) with (stored w). change (fid_cache (write b i x w)) with (fid_cache w).
      change (grad_cache (write b i x w)) with (grad_cache w).
      destruct C as (C1 & C2 & C3). splits; auto.
      * intros e He. destruct (C2 e He) as (a & Ha & ->). exists a. split; auto. now rewrite V by auto.
      * intros g Hg. destruct (C3 g Hg) as (Hl & a & Ha & Hv). split; auto. exists a. split; auto. now rewrite !V by auto.
    + intros k Hk. cbn. apply set_buf_other. intros ->. now apply (K b Hk).
  - destruct (func_wrapper v w) as [[e w']|] eqn:E; [|split; auto; intros k Hk; auto].
    destruct (func_spec _ _ _ _ E C) as (X & C' & _ & (st & S1 & S2 & S3) & G'). pose proof (ext_len _ _ X) as L.
    split; [|eapply kept_ext; eauto]. unfold safe. cbn [fst snd]. splits; auto.
    + eapply own_grow; eauto.
    + intros a Ha. rewrite S1 in Ha. injection Ha as <-. destruct S3 as [S3|S3]; [|now apply S].
      eapply not_own; eauto.
    + intros g Hg. destruct G' as [G'|G']; rewrite G' in Hg; [now apply G|discriminate].
    + intros k Hk. destruct (K k Hk). split; auto. lia.
  - destruct (grad_wrapper v w) as [[g w']|] eqn:E; [|split; auto; intros k Hk; auto].
    destruct (gradw_spec _ _ _ _ E C) as (X & C' & _ & Hg & (st & S1 & S2 & S3 & S4) & (c & G1 & G2 & G3)). pose proof (ext_len _ _ X) as L.
    split; [|eapply kept_ext; eauto]. unfold safe. cbn [fst snd]. splits; auto.
    + constructor; [lia|]. eapply own_grow; eauto.
    + intros a Ha. rewrite S1 in Ha. injection Ha as <-. intros [E'|H]; [congruence|]. revert H.
      destruct S3 as [S3|S3]; [|now apply S]. eapply not_own; eauto.
    + intros g' Hg'. rewrite G1 in Hg'. injection Hg' as <-. intros [E'|H]; [congruence|]. revert H.
      destruct G2 as [G2|G2]; [|now apply G]. eapply not_own; eauto.
    + intros k Hk. destruct (K k Hk) as [K1 K2]. split; [lia|]. intros [E'|H]; [lia|auto].
Qed.

Notation steps := (steps fid_of grad_of crab).
Notation writes_own := (writes_own fid_of grad_of crab).
Lemma steps_app : forall l1 l2 s, steps (l1 ++ l2) s = steps l2 (steps l1 s).
Proof. intros. unfold Alias.steps. apply fold_left_app. Qed.
Lemma writes_app : forall l1 l2 s, writes_own (l1 ++ l2) s <-> writes_own l1 s /\ writes_own l2 (steps l1 s).
Proof.
  induction l1 as [|e l1 IH]; intros l2 s; cbn; [tauto|]. rewrite IH. unfold Alias.steps. tauto.
Qed.
Lemma steps_safe : forall ks l s, safe ks s -> writes_own l s ->
  safe ks (steps l s) /\ kept ks (fst s) (fst (steps l s)).
Proof.
  intros ks. induction l as [|e l IH]; intros s Hs Hw; [split; auto; intros k Hk; auto|].
  destruct Hw as [Hw1 Hw2]. destruct (step_safe ks e s Hs Hw1) as [H1 H2].
  destruct (IH _ H1 Hw2) as [H3 H4]. split; auto. intros k Hk. cbn. change (fold_left _ l _) with (steps l (step e s)).
  rewrite H4, H2; auto.
Qed.

(** Without a call the stored amplitudes stay the same array. *)
Lemma no_call_stored : forall l s, no_call l -> stored (fst (steps l s)) = stored (fst s).
Proof.
  induction l as [|e l IH]; intros s H; auto. apply Forall_cons_iff in H as [He Hl].
  change (steps (e :: l) s) with (steps l (step e s)). rewrite IH by auto.
  destruct s as [w own], e; cbn; auto; tauto.
Qed.
Lemma stored_still : forall l s a, safe [] s -> writes_own l s -> no_call l -> stored (fst s) = Some a ->
  stored (fst (steps l s)) = Some a /\ vals (fst (steps l s)) a = vals (fst s) a.
Proof.
  intros l s a Hs Hw Hn Ha. split; [now rewrite no_call_stored|].
  assert (Hs' : safe [a_buf a] s).
  { destruct s as [w own]. destruct Hs as (C & O & S & G & K). unfold safe. splits; auto.
    intros k [<-|[]]. split; [apply (proj1 C); auto|auto]. }
  destruct (steps_safe [a_buf a] l s Hs' Hw) as [_ H]. unfold vals. apply H. now left.
Qed.

(** The start of a run. *)
Lemma start_spec : forall ks coeffs w x0 i w', start fid_of crab coeffs w = Ok (x0, i, w') ->
  coherent w -> (forall k, In k ks -> k < length (heap w)) ->
  extends w w' /\ coherent w' /\ safe (a_buf i :: ks) (w', []) /\ stored w' = stored w /\
  (exists a, stored w = Some a /\ vals w' i = vals w a) /\ a_buf x0 <> a_buf i.
Proof.
  intros ks coeffs w x0 i w' E C Hk. unfold start in E.
  destruct (get_vars crab coeffs w) as [[x w1]|] eqn:Ev; [|discriminate]. cbn [bind] in E.
  destruct (get_fid_err fid_of w1) as [[e w2]|] eqn:Ef; [|discriminate]. cbn [bind] in E.
  destruct (stored w2) as [a|] eqn:Es; [|discriminate]. cbn [some_or bind] in E.
  destruct (copy a w2) as [j w3] eqn:Ec. injection E as <- <- <-.
  assert (H : extends w w1 /\ stored w1 = stored w /\ fid_cache w1 = fid_cache w /\ grad_cache w1 = grad_cache w /\ a_buf x < length (heap w1)).
  { unfold get_vars in Ev. destruct crab as [[ex sh]|].
    - destruct (alloc coeffs _ w) as [x1 w0] eqn:Ea. injection Ev as <- <-.
      destruct (alloc_spec _ _ _ _ _ Ea) as (X & A1 & A2 & A3 & A4 & A5 & A6 & A7). splits; auto. lia.
    - destruct (stored w) as [a0|] eqn:Es0; [|discriminate]. cbn [some_or bind] in Ev.
      unfold reshape in Ev. destruct (_ =? _); [|discriminate]. cbn [bind] in Ev. injection Ev as <- <-.
      splits; auto using ext_refl. cbn. apply (proj1 C); auto. }
  destruct H as (X1 & V1 & V2 & V3 & V4).
  assert (C1 : coherent w1) by (eapply coherent_ext; eauto).
  destruct (fid_spec _ _ _ Ef C1) as (F1 & F2 & F3 & F4 & _).
  unfold copy in Ec. destruct (alloc_spec _ _ _ _ _ Ec) as (X & A1 & A2 & A3 & A4 & A5 & A6 & A7).
  assert (X2 : extends w1 w2) by (exists []; now rewrite F1, app_nil_r).
  assert (C3 : coherent w3) by (eapply coherent_ext; eauto).
  assert (X3 : extends w w3) by (eapply ext_trans; [exact X1|]; eapply ext_trans; eauto).
  pose proof (ext_len _ _ X3). splits; auto.
  - unfold safe. cbn [fst snd]. splits; auto. intros k [<-|H']; split; auto; [lia|]. specialize (Hk k H'). lia.
  - congruence.
  - exists a. split; [congruence|]. rewrite A3. apply vals_app; [|exact (ext_trans _ _ _ X1 X2)].
    apply (proj1 C). congruence.
  - rewrite F1 in A1. lia.
Qed.

Lemma finish_spec : forall i ret w r w', finish fid_of crab i ret w = Ok (r, w') -> coherent w ->
  (forall v, ret = Some v -> a_buf v < length (heap w)) ->
  extends w w' /\ coherent w' /\ initial_amps r = i /\ stored w' = Some (final_amps r) /\
  final_err r = fid_of (vals w' (final_amps r)) /\
  match ret with
  | None => stored w' = stored w
  | Some v => vals w' (final_amps r) = amps_for (vals w v)
  end.
Proof.
  intros i ret w r w' E C Hr. unfold finish in E.
  destruct (match ret with None => Ok w | Some v => _ end) as [w1|] eqn:Eu; [|discriminate]. cbn [bind] in E.
  assert (H : extends w w1 /\ coherent w1 /\
    match ret with None => stored w1 = stored w | Some v => exists a, stored w1 = Some a /\ vals w1 a = amps_for (vals w v) end).
  { destruct ret as [v|].
    - destruct (get_ctrl_amps crab v w) as [[a w0]|] eqn:Ea; [|discriminate]. cbn [bind] in Eu.
      destruct (amps_spec _ _ _ _ Ea (Hr v eq_refl)) as (X & B1 & B2 & B3 & B4 & B5 & B6).
      assert (C0 : coherent w0) by (eapply coherent_ext; eauto).
      destruct (update_spec _ _ _ Eu C0 B2) as (U1 & U2 & (st & U3 & U4 & U5) & U6). splits; auto.
      + eapply ext_trans; [exact X|]. exists []. now rewrite app_nil_r.
      + exists st. split; auto. congruence.
    - injection Eu as <-. splits; auto using ext_refl. }
  destruct H as (X & C1 & H).
  destruct (get_fid_err fid_of w1) as [[e w2]|] eqn:Ef; [|discriminate]. cbn [bind] in E.
  destruct (fid_spec _ _ _ Ef C1) as (F1 & F2 & F3 & F4 & a & F5 & F6).
  rewrite F2, F5 in E. cbn [some_or bind] in E. injection E as <- <-. cbn [initial_amps final_amps final_err].
  assert (V : forall b, vals w2 b = vals w1 b) by (intros b; unfold vals; now rewrite F1).
  splits; auto.
  - eapply ext_trans; [exact X|]. exists []. now rewrite F1, app_nil_r.
  - congruence.
  - now rewrite V.
  - destruct ret as [v|]; [|congruence]. destruct H as (b & Hb & Hv). rewrite V. rewrite F5 in Hb. injection Hb as ->. exact Hv.
Qed.

(** A whole run keeps every array there was. *)
Lemma run_spec : forall ks r w x w', run_optimization fid_of grad_of crab r w = Ok (x, w') ->
  coherent w -> fair_run fid_of grad_of crab r w -> (forall k, In k ks -> k < length (heap w)) ->
  coherent w' /\ kept ks w w' /\ length (heap w) <= length (heap w') /\
  (exists a, stored w = Some a /\ vals w' (initial_amps x) = vals w a) /\
  stored w' = Some (final_amps x) /\ final_err x = fid_of (vals w' (final_amps x)) /\
  a_buf (initial_amps x) < length (heap w').
Proof.
  intros ks r w x w' E C Hf Hk. unfold run_optimization in E.
  destruct (start fid_of crab (r_coeffs r) w) as [[[x0 i] w1]|] eqn:Es; [|discriminate]. cbn [bind] in E.
  destruct (Hf _ _ _ Es) as [Hw Hr].
  destruct (start_spec ks _ _ _ _ _ Es C Hk) as (X & C1 & S1 & S2 & (a & S3 & S4) & _).
  destruct (steps_safe _ _ _ S1 Hw) as [S5 S6]. cbn [fst] in S6.
  set (w2 := fst (steps (r_events r) (w1, []))) in *.
  assert (C2 : coherent w2) by apply S5.
  destruct (finish_spec _ _ _ _ _ E C2 Hr) as (X3 & C3 & F1 & F2 & F3 & _).
  pose proof (ext_len _ _ X). pose proof (ext_len _ _ X3).
  assert (K1 : forall k, In k (a_buf i :: ks) -> nth k (heap w') [] = nth k (heap w1) []).
  { intros k Hk'. destruct X3 as [y X3]. rewrite X3, app_nth1; [now apply S6|]. now apply S5. }
  assert (L : a_buf i < length (heap w2)) by (apply S5; now left).
  assert (Lw : length (heap w) <= length (heap w2)).
  { destruct (Nat.eq_dec (length (heap w)) 0); [lia|].
    destruct (start_spec [length (heap w) - 1] _ _ _ _ _ Es C) as (_ & _ & T1 & _); [intros k [<-|[]]; lia|].
    destruct (steps_safe _ _ _ T1 Hw) as [T2 _]. destruct T2 as (_ & _ & _ & _ & T2).
    destruct (T2 (length (heap w) - 1)); [right; now left|]. fold w2 in H1. cbn [fst] in H1. fold w2 in H1. lia. }
  splits; auto; try lia.
  - intros k Hk'. rewrite K1 by (now right). destruct X as [y X]. rewrite X. apply app_nth1. auto.
  - exists a. split; auto. rewrite F1, <- S4. unfold vals. apply K1. now left.
  - rewrite F1. lia.
Qed.

(** Results of runs already made stay what they were. *)
Lemma runs_spec : forall rs ks w xs w', run_all fid_of grad_of crab rs w = Ok (xs, w') ->
  coherent w -> fair_runs fid_of grad_of crab rs w -> (forall k, In k ks -> k < length (heap w)) ->
  coherent w' /\ kept ks w w'.
Proof.
  induction rs as [|r rs IH]; intros ks w xs w' E C Hf Hk; cbn in E.
  - injection E as <- <-. split; auto. intros k _. auto.
  - destruct (run_optimization fid_of grad_of crab r w) as [[x w1]|] eqn:Er; [|discriminate]. cbn [bind] in E.
    destruct (run_all fid_of grad_of crab rs w1) as [[ys w2]|] eqn:Es; [|discriminate]. cbn [bind] in E. injection E as <- <-.
    destruct Hf as [Hf1 Hf2].
    destruct (run_spec ks _ _ _ _ Er C Hf1 Hk) as (R1 & R2 & R3 & _).
    destruct (IH ks _ _ _ Es R1 (Hf2 _ _ Er)) as [I1 I2].
    { intros k Hk'. specialize (Hk k Hk'). lia. }
    split; auto. intros k Hk'. rewrite I2, R2; auto.
Qed.

Lemma init_coherent : forall a w w', initialize_controls a w = Ok w' -> a_buf a < length (heap w) ->
  coherent w' /\ stored w' = Some a /\ heap w' = heap w /\ fid_cache w' = None.
Proof.
  intros a w w' E Hl. unfold initialize_controls, update in E. cbn in E. injection E as <-. cbn.
  splits; auto. unfold coherent. cbn. splits; try discriminate. now intros b [= <-].
Qed.
Lemma reach_coherent : forall w, reachable fid_of grad_of crab w -> coherent w.
Proof.
  intros w (h & a & w0 & rs & xs & Hl & Hi & Hf & Hr). destruct (init_coherent _ _ _ Hi Hl) as (C & _).
  apply (runs_spec rs [] _ _ _ Hr C Hf). intros k [].
Qed.

Lemma write_coherent : forall b i x w, coherent w ->
  (forall a, stored w = Some a -> a_buf a <> b) -> (forall g, grad_cache w = Some g -> a_buf g <> b) ->
  coherent (write b i x w).
Proof.
  intros b i x w (C1 & C2 & C3) Hs Hg.
  assert (V : forall a, a_buf a <> b -> vals (write b i x w) a = vals w a)
    by (intros a Ha; unfold vals, write; cbn; now apply set_buf_other).
  assert (L : length (heap (write b i x w)) = length (heap w)) by apply set_buf_length.
  unfold coherent. rewrite L. splits; auto.
  - intros e He. destruct (C2 e He) as (a & Ha & ->). exists a. split; auto. now rewrite V by auto.
  - intros g Hg'. destruct (C3 g Hg') as (Hl & a & Ha & Hv). split; auto. exists a. split; auto. now rewrite !V by auto.
Qed.
Lemma use_coherent : forall l w, coherent w -> hands_off fid_of grad_of l w -> coherent (use fid_of grad_of l w).
Proof.
  induction l as [|c l IH]; intros w C H; auto. destruct H as [H1 H2]. cbn. apply IH; auto. clear H2 IH.
  destruct c as [v sh|b i x|a| |]; cbn [use1].
  - destruct (alloc v sh w) as [a w'] eqn:Ea. cbn [snd].
    destruct (alloc_spec _ _ _ _ _ Ea) as (X & A1 & A2 & A3 & A4 & A5 & A6 & A7). eapply coherent_ext; eauto.
  - destruct H1. now apply write_coherent.
  - destruct (update a w) as [w'|] eqn:E; auto. now apply (update_spec _ _ _ E C H1).
  - destruct (get_fid_err fid_of w) as [[e w']|] eqn:E; auto. now apply (fid_spec _ _ _ E C).
  - destruct (get_gradient grad_of w) as [[e w']|] eqn:E; auto. now apply (grad_spec _ _ _ E C).
Qed.

Lemma start_grad : forall coeffs w x0 i w', start fid_of crab coeffs w = Ok (x0, i, w') -> grad_cache w' = grad_cache w.
Proof.
  intros coeffs w x0 i w' E. unfold start in E.
  destruct (get_vars crab coeffs w) as [[x w1]|] eqn:Ev; [|discriminate]. cbn [bind] in E.
  destruct (get_fid_err fid_of w1) as [[e w2]|] eqn:Ef; [|discriminate]. cbn [bind] in E.
  destruct (stored w2) as [a|] eqn:Es; [|discriminate]. cbn [some_or bind] in E. injection E as <- <- <-. cbn.
  assert (E1 : grad_cache w1 = grad_cache w).
  { unfold get_vars in Ev. destruct crab as [[ex sh]|]; [now injection Ev as <- <-|].
    destruct (stored w); [|discriminate]. cbn [some_or bind] in Ev. destruct (reshape _ _ _); [|discriminate].
    cbn [bind] in Ev. now injection Ev as <- <-. }
  rewrite <- E1. unfold get_fid_err in Ef. destruct (fid_cache w1); [now injection Ef as <- <-|].
  destruct (stored w1); [|discriminate]. cbn in Ef. now injection Ef as <- <-.
Qed.
Lemma crab_start : forall coeffs w x0 i w', crab <> None -> start fid_of crab coeffs w = Ok (x0, i, w') ->
  length (heap w) <= a_buf x0 < length (heap w').
Proof.
  intros coeffs w x0 i w' Hc E. unfold start in E.
  destruct (get_vars crab coeffs w) as [[x w1]|] eqn:Ev; [|discriminate]. cbn [bind] in E.
  destruct (get_fid_err fid_of w1) as [[e w2]|] eqn:Ef; [|discriminate]. cbn [bind] in E.
  destruct (stored w2) as [a|] eqn:Es; [|discriminate]. cbn [some_or bind] in E. injection E as <- <- <-. cbn.
  rewrite app_length. cbn.
  assert (E2 : heap w2 = heap w1).
  { unfold get_fid_err in Ef. destruct (fid_cache w1); [now injection Ef as <- <-|].
    destruct (stored w1); [|discriminate]. cbn in Ef. now injection Ef as <- <-. }
  unfold get_vars in Ev. destruct crab as [[ex sh]|]; [|congruence]. injection Ev as <- <-. cbn in *.
  rewrite E2, app_length. cbn. lia.
Qed.
End Facts.
