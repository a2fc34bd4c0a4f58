(** Facts about parameter files. *)
From Coq Require Import Reals.
From Coquelicot Require Import Complex.
From Verif.Model Require Import LoadParams.
From Verif.Spec Require Import Params.
Set Bullet Behavior "Strict Subproofs".

Lemma has_dup_nodup l : has_dup l = false -> NoDup l.
Proof.
  induction l as [|x l IH]; cbn; intros H; constructor.
  - apply orb_false_elim in H as [H _]. intros I.
    assert (existsb (String.eqb x) l = true) by (apply existsb_exists; exists x; split; auto; apply String.eqb_refl). congruence.
  - apply IH. now apply orb_false_elim in H.
Qed.

Lemma lookup_none {X} k (l : list (string * X)) : lookup k l = None -> ~ In k (map fst l).
Proof.
  induction l as [|[n v] l IH]; cbn; intros H; auto.
  destruct (String.eqb n k) eqn:E; [discriminate|]. apply String.eqb_neq in E. intros [|]; auto. now apply IH.
Qed.
Lemma lookup_in {X} k (l : list (string * X)) v : lookup k l = Some v -> In (k, v) l.
Proof.
  induction l as [|[n w] l IH]; cbn; intros H; [discriminate|].
  destruct (String.eqb n k) eqn:E; auto. apply String.eqb_eq in E. left; congruence.
Qed.
Lemma in_lookup {X} k (l : list (string * X)) v : NoDup (map fst l) -> In (k, v) l -> lookup k l = Some v.
Proof.
  induction l as [|[n w] l IH]; cbn; intros N H; [destruct H|]. destruct H as [H|H].
  - injection H as -> ->. now rewrite String.eqb_refl.
  - inversion N as [|x y Hx Hy]; subst. destruct (String.eqb n k) eqn:E; auto.
    apply String.eqb_eq in E as ->. exfalso. apply Hx. apply in_map_iff. now exists (k, v).
Qed.
Lemma lookup_app {X} k (l m : list (string * X)) :
  lookup k (l ++ m) = match lookup k l with Some v => Some v | None => lookup k m end.
Proof. induction l as [|[n w] l IH]; cbn; auto. destruct (String.eqb n k); auto. Qed.

Lemma read_sections f g : read_file f = Ok g -> NoDup (map fst g) /\ forall n s, In (n, s) g -> no_dup_names s.
Proof.
  unfold read_file. set (h := map _ f). clearbody h.
  destruct (has_dup (map fst h)) eqn:D; cbn [orb]; [discriminate|].
  destruct (existsb (fun '(_, s) => has_dup (map fst s)) h) eqn:E; [discriminate|]. intros [= <-]. split; [now apply has_dup_nodup|].
  intros n s I. apply has_dup_nodup. destruct (has_dup (map fst s)) eqn:S; auto.
  assert (existsb (fun '(_, s) => has_dup (map fst s)) h = true); [|congruence].
  apply existsb_exists. now exists (n, s).
Qed.

Lemma map_filter_nodup (l m : section) :
  no_dup_names l -> no_dup_names m ->
  no_dup_names (l ++ filter (fun '(n, _) => match lookup n l with None => true | Some _ => false end) m).
Proof.
  unfold no_dup_names. intros A B. rewrite map_app. induction m as [|[n v] m IH]; cbn; [now rewrite app_nil_r|].
  inversion B as [|x y Hx Hy]; subst. destruct (lookup n l) eqn:E; [auto|]. cbn [map fst].
  apply lookup_none in E. specialize (IH Hy).
  apply NoDup_Add with (a := n) (l := map fst l ++ map fst (filter (fun '(n, _) => match lookup n l with None => true | Some _ => false end) m)).
  - apply Add_app.
  - split; auto. rewrite in_app_iff. intros [I|I]; auto. apply Hx. apply in_map_iff in I as ([a b] & <- & I).
    apply filter_In in I as [I _]. apply in_map_iff. now exists (a, b).
Qed.
Lemma options_nodup f g s l : read_file f = Ok g -> options g s = Some l -> no_dup_names l.
Proof.
  intros R. apply read_sections in R as [_ R]. unfold options. destruct (String.eqb s DEFAULT); [discriminate|].
  destruct (lookup s g) as [own|] eqn:E; [|discriminate]. intros [= <-]. apply map_filter_nodup.
  - apply lookup_in in E. eauto.
  - destruct (lookup DEFAULT g) as [d|] eqn:D; [apply lookup_in in D; eauto|constructor].
Qed.

Lemma lower_char_lower c : lower_char (lower_char c) = lower_char c.
Proof.
  destruct c as [[] [] [] [] [] [] [] []]; vm_compute; reflexivity.
Qed.
Lemma lower_lower s : lower (lower s) = lower s.
Proof. induction s as [|c s IH]; cbn; auto. now rewrite lower_char_lower, IH. Qed.
Lemma options_lower f g s l n v : read_file f = Ok g -> options g s = Some l -> In (n, v) l -> lower n = n.
Proof.
  intros R O I.
  assert (H : forall m t, In (m, t) g -> forall n v, In (n, v) t -> lower n = n).
  { unfold read_file in R. destruct (_ || _); [discriminate|]. injection R as <-. intros m t Hm k w Hk.
    apply in_map_iff in Hm as ([m' t'] & E & _). injection E as -> <-.
    unfold lower_names in Hk. apply in_map_iff in Hk as ([k' w'] & E & _). injection E as <- _. apply lower_lower. }
  unfold options in O. destruct (String.eqb s DEFAULT); [discriminate|].
  destruct (lookup s g) as [own|] eqn:E; [|discriminate]. injection O as <-.
  apply in_app_iff in I as [I|I].
  - eapply H; [eapply lookup_in; exact E|exact I].
  - apply filter_In in I as [I _]. destruct (lookup DEFAULT g) as [d|] eqn:D; [|destruct I].
    eapply H; [eapply lookup_in; exact D|exact I].
Qed.

Section Facts.
Variable py_eval : string -> Res pyval.
Variable to_float : string -> option R.
Variable to_int : string -> option Z.
Variable to_complex : string -> option C.
Variable as_list : pyval -> Res (list pyval).
Variable as_array : nat -> pyval -> Res (list pyval).
Variable as_qobj : pyval -> Res (list pyval).
Notation convert := (convert py_eval to_float to_int to_complex as_list as_array as_qobj).
Notation set_param := (set_param py_eval to_float to_int to_complex as_list as_array as_qobj).
Notation load_options := (load_options py_eval to_float to_int to_complex as_list as_array as_qobj).
Notation reads := (reads py_eval to_float to_int to_complex as_list as_array as_qobj).
Notation fits := (fits py_eval to_float to_int to_complex as_list as_array as_qobj).
Notation loaded := (loaded py_eval to_float to_int to_complex as_list as_array as_qobj).
Notation section_effect := (section_effect py_eval to_float to_int to_complex as_list as_array as_qobj).

Lemma convert_reads old val v : convert old val = Ok v <-> reads (kind_of old) val v.
Proof.
  split.
  - destruct old; cbn [LoadParams.convert kind_of]; intros H.
    + destruct (to_float val) eqn:E; [injection H as <-; now constructor|].
      destruct (py_eval val) eqn:P; cbn in H; [injection H as <-; now apply ReadFloatExpr|discriminate].
    + destruct (to_int val) eqn:E; cbn in H; [injection H as <-; now constructor|discriminate].
    + destruct (to_bool val) eqn:E; cbn in H; [injection H as <-; now constructor|discriminate].
    + destruct (to_complex val) eqn:E; cbn in H; [injection H as <-; now constructor|discriminate].
    + destruct (to_float val) eqn:E; [injection H as <-; apply ReadAnyFloat; auto|].
      destruct (to_bool val) eqn:B; injection H as <-; [apply ReadAnyBool; auto|apply ReadAnyText; auto].
    + destruct (to_float val) eqn:E; [injection H as <-; apply ReadAnyFloat; auto|].
      destruct (to_bool val) eqn:B; injection H as <-; [apply ReadAnyBool; auto|apply ReadAnyText; auto].
    + destruct (py_eval val) eqn:P; cbn in H; [|discriminate].
      destruct (as_list a) eqn:L; cbn in H; [injection H as <-; econstructor; eauto|discriminate].
    + destruct (py_eval val) eqn:P; cbn in H; [|discriminate].
      destruct (as_array dtype a) eqn:L; cbn in H; [injection H as <-; econstructor; eauto|discriminate].
    + destruct (py_eval val) eqn:P; cbn in H; [|discriminate].
      destruct (as_qobj a) eqn:L; cbn in H; [injection H as <-; econstructor; eauto|discriminate].
    + destruct (to_float val) eqn:E; [injection H as <-; apply ReadAnyFloat; eauto|].
      destruct (to_bool val) eqn:B; injection H as <-; [apply ReadAnyBool; eauto|apply ReadAnyText; eauto].
  - intros H. remember (kind_of old) as k eqn:K.
    assert (A : k = KStr \/ k = KNone \/ (exists n, k = KOther n) ->
                forall val, convert old val = match to_float val with
                  | Some x => Ok (VFloat x)
                  | None => match to_bool val with Some b => Ok (VBool b) | None => Ok (VStr val) end
                  end).
    { intros Hk w. destruct old; cbn in K; auto; subst; exfalso; destruct Hk as [E|[E|[? E]]]; discriminate. }
    destruct H as [s z E|s b E|s c E|s x l E1 E2|dt s x l E1 E2|s x q E1 E2|s x E|s v E1 E2|k s x Hk E|k s b Hk E1 E2|k s Hk E1 E2];
      try (rewrite (A Hk), ?E, ?E1, ?E2; reflexivity);
      destruct old; cbn in K; try discriminate; try (injection K as ->); cbn [LoadParams.convert];
      rewrite ?E, ?E1; cbn [bind or_value_error of_opt]; rewrite ?E2; reflexivity.
Qed.

Lemma set_param_ok value name o o' : set_param value name o = Ok o' ->
  fits o name value /\ readonly o' = readonly o /\
  (forall a, a <> name -> attrs o' a = attrs o a) /\
  match attrs o name with
  | None => attrs o' name = None
  | Some old => exists val v, value = Ok val /\ attrs o' name = Some v /\ reads (kind_of old) val v
  end.
Proof.
  unfold LoadParams.set_param. destruct value as [val|e]; cbn [bind]; [|discriminate].
  destruct (attrs o name) as [old|] eqn:E.
  - destruct (convert old val) as [v|] eqn:Cv; cbn [bind]; [|discriminate]. apply convert_reads in Cv.
    unfold setattr. destruct (readonly o name) eqn:Ro; [discriminate|]. intros [= <-].
    split; [exists val; split; auto; rewrite E; split; auto; eauto|]. split; [reflexivity|].
    split.
    + intros a Ha. cbn [attrs]. apply String.eqb_neq in Ha. now rewrite Ha.
    + exists val, v. cbn [attrs]. rewrite String.eqb_refl. auto.
  - intros [= <-]. split; [exists val; split; auto; now rewrite E|]. auto.
Qed.
Lemma set_param_raise value name o e : set_param value name o = Raise e -> ~ fits o name value.
Proof.
  unfold LoadParams.set_param. intros H (val & -> & F). cbn [bind] in H.
  destruct (attrs o name) as [old|]; [|discriminate]. destruct F as [Ro (v & Rv)].
  apply convert_reads in Rv. rewrite Rv in H. cbn [bind] in H. unfold setattr in H. rewrite Ro in H. discriminate.
Qed.

Lemma fits_frame o o' n v : readonly o' = readonly o -> attrs o' n = attrs o n -> fits o n v <-> fits o' n v.
Proof. intros A B. unfold Params.fits. rewrite A, B. tauto. Qed.

Lemma load_options_effect opts : no_dup_names opts -> forall o, section_effect opts o (load_options opts o).
Proof.
  induction opts as [|[n v] t IH]; intros N o; cbn [LoadParams.load_options].
  - exists [], []. cbn. split; auto. split; [tauto|]. auto.
  - inversion N as [|x y Hx Hy]; subst. destruct (set_param v n o) as [o'|e] eqn:S.
    + apply set_param_ok in S as (F & Ro & Fr & At).
      destruct (IH Hy o') as (done & rest & -> & D & Re & Ro' & L).
      assert (Nin : forall k w, In (k, w) (done ++ rest) -> k <> n).
      { intros k w I ->. apply Hx. apply in_map_iff. now exists (n, w). }
      exists ((n, v) :: done), rest. split; [reflexivity|]. split; [|split; [|split; [congruence|]]].
      * intros k w [I|I]; [injection I as <- <-; auto|]. apply (fits_frame o o'); auto.
        apply Fr. eapply Nin. apply in_app_iff. left; eauto.
      * destruct rest as [|[k w] rest]; auto. intros Fk. apply Re. apply (fits_frame o o'); auto.
        apply Fr. apply (Nin k w). apply in_app_iff. right; now left.
      * intros a. specialize (L a). unfold Params.loaded in *. cbn [lookup].
        destruct (String.eqb n a) eqn:E.
        -- apply String.eqb_eq in E as <-.
           assert (Lk : lookup n done = None).
           { destruct (lookup n done) eqn:Q; auto. apply lookup_in in Q. exfalso. eapply (Nin n); [|reflexivity]. apply in_app_iff; left; eauto. }
           rewrite Lk in L. destruct F as (val & -> & _). destruct (attrs o n) as [old|].
           ++ destruct At as (val' & w & [= <-] & A & Rd). exists w. split; auto. now rewrite L.
           ++ now rewrite L.
        -- apply String.eqb_neq in E. rewrite (Fr a) in L by auto. exact L.
    + apply set_param_raise in S. exists [], ((n, v) :: t). split; [reflexivity|]. split; [now intros k w []|].
      split; [exact S|]. split; [reflexivity|]. intros a. reflexivity.
Qed.
End Facts.
