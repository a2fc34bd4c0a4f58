(** C64: controls and drifts are checked.  C65: saved amplitudes.
    C66: the unitarity check. *)
From Coq Require Import Reals Lra String Ascii.
From Coquelicot Require Import Coquelicot.
From Verif.Lib Require Import Csum Mat.
From Verif.Model Require Import Base Timeslots Str Setup.
From Verif.Spec Require Import Setups.
From Verif.Proofs Require Import TimeslotFacts SetupFacts.
Local Open Scope nat_scope.
Set Bullet Behavior "Strict Subproofs".

(** ** C64 *)
Section Containers.
Context {Op : Type}.
Variable av : value Op -> nat -> Res (list (value Op)).

(** Operators given in one of the documented forms are accepted, and are the
    ones used. *)
Theorem C64_accepted c r : holds c r -> check_ctrls_container Op av c = Ok r.
Proof. apply check_holds. Qed.
(** Conversely what is accepted has one of these forms and is used as given,
    unless rows of one operator were stretched. *)
Theorem C64_used_partial c r : check_ctrls_container Op av c = Ok r -> ~ stretched c -> holds c r.
Proof. intros H S. destruct (holds_check av c r H); tauto. Qed.
(** Anything that is no operator is refused. *)
Theorem C64_foreign_partial c : foreign c -> ~ stretched c ->
  (forall rest, c <> PList (ERow [] :: rest)) ->
  exists e, check_ctrls_container Op av c = Raise e.
Proof.
  intros F S E. destruct (foreign_raise av c F) as [H|(r0 & rest & -> & ->)]; auto.
  - intros r0 rest v -> Hv. apply S. exists r0, rest, (EVal v). auto.
  - exfalso. now apply (E rest).
Qed.
(** The refusal is a TypeError, or a ValueError when rows differ in length. *)
Theorem C64_exceptions c e : (forall v w e, av v w = Raise e -> e = TypeError \/ e = ValueError) ->
  check_ctrls_container Op av c = Raise e -> e = TypeError \/ e = ValueError.
Proof. apply check_raise. Qed.
(** Drifts: an operator or a list of operators, nothing else. *)
Theorem C64_drift (d : drifts Op) :
  (check_drift_dyn_gen Op d = Ok tt <-> (exists o, d = DVal (Q o)) \/ exists l, d = DSeq (map Q l)) /\
  (check_drift_dyn_gen Op d = Ok tt \/ check_drift_dyn_gen Op d = Raise TypeError).
Proof.
  destruct d as [[o|n]|l|]; cbn.
  - split; [|auto]. split; eauto.
  - split; [|auto]. split; [discriminate|]. intros [[? [=]]|[? [=]]].
  - case_eq (map_res (is_q Op) l); [intros r E|intros e E]; cbn.
    + apply is_q_inv in E. subst. split; auto. split; eauto.
    + split.
      * split; [discriminate|]. intros [[? [=]]|[r [= ->]]]. rewrite is_q_map in E. discriminate.
      * apply map_res_raise in E as ([|] & _ & [= <-]). auto.
  - split; [|auto]. split; [discriminate|]. intros [[? [=]]|[? [=]]].
Qed.

(** Rows of different lengths: one operator is silently used for the whole
    row. *)
Theorem C64_rows_refuted (a b c : Op) :
  check_ctrls_container Op av (PList [ERow [Q a; Q b]; ERow [Q c]]) = Ok (Rows [[a; b]; [c; c]]).
Proof. reflexivity. Qed.
(** After an empty first row something that is no operator is dropped. *)
Theorem C64_foreign_refuted n :
  check_ctrls_container Op av (PList [ERow []; ERow [Other n]]) = Ok (Rows [[]; []]).
Proof. reflexivity. Qed.
Example C64_forms (a b c d : Op) :
  holds (PList [ERow [Q a; Q b]; ERow [Q c; Q d]]) (Rows [[a; b]; [c; d]]) /\
  ~ stretched (PList [ERow [Q a; Q b]; ERow [Q c; Other 0]]) /\ foreign (PList [ERow [Q a; Q b]; ERow [Q c; Other 0]]).
Proof.
  split; [|split].
  - apply (holds_rows [[a; b]; [c; d]] 2); [discriminate|repeat constructor].
  - intros (r0 & rest & e & [= <- <-] & [<-|[]] & [H _]). discriminate.
  - exists (ERow [Q c; Other 0]). split; [right; now left|]. exists 0. right; now left.
Qed.
End Containers.

(** ** C65 *)
Section Save.
Variable fmt : R -> string.
Variable io : string -> list string -> option (list string) -> list string * bool.
(** When a file is written without an exception it holds the lines given. *)
Hypothesis io_writes : forall n l old c, io n l old = (c, true) -> c = l.

Lemma data_lines (times : list R) (a : list (list R)) k row t :
  nth_error times k = Some t -> nth_error a k = Some row ->
  nth_error (map (fun row => join (map fmt row)) (map (fun p => fst p :: snd p) (combine times a))) k = Some (tabbed (fmt t :: map fmt row)).
Proof.
  intros Ht Hk. rewrite !nth_error_map.
  assert (C : nth_error (combine times a) k = Some (t, row)).
  { revert Ht Hk. revert k times. induction a as [|x a IH]; intros [|k] [|y l] Ht Hk; try discriminate; cbn in *; [congruence|]. now apply IH. }
  rewrite C. cbn [option_map fst snd]. now rewrite join_tabbed.
Qed.
Lemma times_of d s tau : h_slots d = init_timeslots s -> ts_tau (h_slots d) = Some tau ->
  List.length (get_amp_times d) = List.length tau /\
  forall k, k < List.length tau -> nth_error (get_amp_times d) k = Some (begins tau k).
Proof.
  intros Hs Ht.
  assert (E : get_amp_times d = firstn (List.length tau) (cumulate 0 tau)).
  { assert (I : ts_init (h_slots d) = true /\ ts_num (h_slots d) = Some (List.length tau) /\ ts_time (h_slots d) = cumulate 0 tau).
    { rewrite Hs in *. destruct s as [num evo [l|] time ini].
      - rewrite init_eq_some in *. cbn in Ht. injection Ht as <-. auto.
      - rewrite init_eq in *; cbv zeta in *. cbn [ts_tau ts_num ts_time ts_init] in *. injection Ht as <-. rewrite repeat_length. auto. }
    destruct I as (I1 & I2 & I3). unfold get_amp_times, get_num_tslots, touch. rewrite I1. cbn [snd]. now rewrite I2, I3. }
  rewrite E. rewrite firstn_length, cumulate_length. split; [lia|]. intros k Hk.
  assert (C := cumulate_nth tau 0 k ltac:(lia)). rewrite Rplus_0_l in C.
  rewrite <- C. rewrite <- (firstn_skipn (List.length tau) (cumulate 0 tau)) at 2.
  rewrite nth_error_app1; auto. rewrite firstn_length, cumulate_length. lia.
Qed.

(** The file saved without an error being logged: one line for each timeslot,
    with the time the slot starts and its amplitudes in order.  (A single time
    would be used for every row.) *)
Theorem C65_saved d name s tau a fs fs' :
  h_init d = true -> h_slots d = init_timeslots s -> ts_tau (h_slots d) = Some tau -> h_amps d = A2 a ->
  (List.length tau = 1 -> List.length a = 1) ->
  save_amps fmt io d name TNone None fs = Ok (fs', false) ->
  exists lines, fs' (match name with Some n => n | None => h_fname d end) = Some lines /\
    List.length lines = List.length a /\ List.length a = List.length tau /\
    forall k row, nth_error a k = Some row -> nth_error lines k = Some (tabbed (fmt (begins tau k) :: map fmt row)).
Proof.
  intros Hi Hs Ht Ha H1. destruct (times_of d s tau Hs Ht) as [L T]. unfold save_amps. rewrite Hi, Ha. cbn [negb].
  revert L T. generalize (get_amp_times d). intros times L T. unfold column.
  destruct (Nat.eqb_spec (List.length times) (List.length a)) as [EL|NE].
  - cbn [bind]. unfold savetxt. set (n := match name with Some n => n | None => h_fname d end).
    destruct (io n _ _) as [c ok] eqn:Eio. intros [= <- Hok]. destruct ok; [|discriminate]. apply io_writes in Eio. subst c.
    rewrite String.eqb_refl. eexists. split; [reflexivity|].
    rewrite !map_length, combine_length. split; [lia|]. split; [lia|].
    intros k row Hk. assert (k < List.length a) by (apply nth_error_Some; congruence).
    apply data_lines; auto. apply T. lia.
  - destruct times as [|t [|]]; cbn in *; try discriminate. exfalso. apply NE. rewrite H1; auto.
Qed.
(** The same with the times and amplitudes given, and without times. *)
Theorem C65_given d name ts a fs fs' :
  h_init d = true -> List.length ts = List.length a ->
  save_amps fmt io d (Some name) (TList ts) (Some (A2 a)) fs = Ok (fs', false) ->
  exists lines, fs' name = Some lines /\ List.length lines = List.length a /\
    forall k row t, nth_error a k = Some row -> nth_error ts k = Some t -> nth_error lines k = Some (tabbed (map fmt (t :: row))).
Proof.
  intros Hi L. unfold save_amps. rewrite Hi. cbn [negb]. unfold column. rewrite L, Nat.eqb_refl. cbn [bind].
  unfold savetxt. destruct (io name _ _) as [c ok] eqn:Eio. intros [= <- Hok]. destruct ok; [|discriminate]. apply io_writes in Eio. subst c.
  rewrite String.eqb_refl. eexists. split; [reflexivity|]. rewrite !map_length, combine_length. split; [lia|].
  intros k row t Hk Ht. now apply data_lines.
Qed.
Theorem C65_without_times d name a fs fs' s :
  h_init d = true -> upper s = "EXCLUDE"%string ->
  save_amps fmt io d (Some name) (TText s) (Some (A2 a)) fs = Ok (fs', false) ->
  fs' name = Some (map (fun row => tabbed (map fmt row)) a).
Proof.
  intros Hi Hu. unfold save_amps. rewrite Hi, Hu. cbn [negb String.eqb Ascii.eqb Bool.eqb].
  unfold savetxt. destruct (io name _ _) as [c ok] eqn:Eio. intros [= <- Hok]. destruct ok; [|discriminate]. apply io_writes in Eio. subst c.
  rewrite String.eqb_refl. f_equal; apply map_ext; intros row; apply join_tabbed.
Qed.
(** Never an exception once the controls are initialised, and no other file is
    touched; a number of times that does not fit is logged and nothing is
    written. *)
Theorem C65_safe d name times amps fs :
  match save_amps fmt io d name times amps fs with
  | Ok (fs', _) => h_init d = true /\ forall n, n <> (match name with Some n => n | None => h_fname d end) -> fs' n = fs n
  | Raise e => h_init d = false /\ e = UsageError
  end.
Proof.
  unfold save_amps. destruct (h_init d); cbn [negb]; [|auto].
  set (ti := match times with TNone => _ | TText _ => _ | TList _ => _ end). destruct ti as [t i]. cbv zeta.
  set (dt := if i then _ else _). destruct dt as [data|e]; [|auto].
  unfold savetxt. destruct (io _ _ _) as [c ok]. split; auto. intros n Hn. apply String.eqb_neq in Hn. now rewrite Hn.
Qed.
Theorem C65_misfit d name ts a fs :
  h_init d = true -> List.length ts <> List.length a -> List.length ts <> 1 ->
  save_amps fmt io d name (TList ts) (Some (A2 a)) fs = Ok (fs, true).
Proof.
  intros Hi L L1. unfold save_amps. rewrite Hi. cbn [negb]. unfold column. apply Nat.eqb_neq in L. rewrite L.
  destruct ts as [|t [|]]; cbn in *; auto. congruence.
Qed.
(** A single time is accepted for any number of rows and repeated on every
    line. *)
Theorem C65_one_time d name t a fs fs' :
  h_init d = true -> save_amps fmt io d (Some name) (TList [t]) (Some (A2 a)) fs = Ok (fs', false) ->
  exists lines, fs' name = Some lines /\ List.length lines = List.length a /\
    forall k row, nth_error a k = Some row -> nth_error lines k = Some (tabbed (map fmt (t :: row))).
Proof.
  intros Hi. unfold save_amps. rewrite Hi. cbn [negb]. set (n := List.length a).
  assert (C : column [t] n = Ok (repeat t n)).
  { unfold column. cbn [List.length]. destruct (Nat.eqb_spec 1 n) as [<-|]; reflexivity. }
  rewrite C. cbn [bind].
  unfold savetxt. destruct (io name _ _) as [c ok] eqn:Eio. intros [= <- Hok]. destruct ok; [|discriminate]. apply io_writes in Eio. subst c.
  rewrite String.eqb_refl. eexists. split; [reflexivity|]. rewrite !map_length, combine_length, repeat_length. split; [unfold n; lia|].
  intros k row Hk. apply data_lines; auto. apply nth_error_repeat. unfold n. apply nth_error_Some. congruence.
Qed.
(** [optimize_pulse] with out_file_ext: one file with the amplitudes before the
    run and one with those after it. *)
Theorem C65_initial_final ext before after s1 s2 tau1 tau2 a1 a2 fs fs' :
  h_init before = true -> h_slots before = init_timeslots s1 -> ts_tau (h_slots before) = Some tau1 -> h_amps before = A2 a1 ->
  (List.length tau1 = 1 -> List.length a1 = 1) ->
  h_init after = true -> h_slots after = init_timeslots s2 -> ts_tau (h_slots after) = Some tau2 -> h_amps after = A2 a2 ->
  (List.length tau2 = 1 -> List.length a2 = 1) ->
  save_initial_final fmt io (Some ext) before after fs = Ok (fs', false) ->
  exists l1 l2, fs' ("ctrl_amps_initial_" ++ ext)%string = Some l1 /\ fs' ("ctrl_amps_final_" ++ ext)%string = Some l2 /\
    List.length l1 = List.length a1 /\ List.length l2 = List.length a2 /\
    (forall k row, nth_error a1 k = Some row -> nth_error l1 k = Some (tabbed (fmt (begins tau1 k) :: map fmt row))) /\
    (forall k row, nth_error a2 k = Some row -> nth_error l2 k = Some (tabbed (fmt (begins tau2 k) :: map fmt row))).
Proof.
  intros I1 S1 T1 A1 L1 I2 S2 T2 A2' L2. cbn [save_initial_final].
  destruct (save_amps fmt io before _ TNone None fs) as [[fs1 b1]|] eqn:E1; [|discriminate]. cbn [bind].
  destruct (save_amps fmt io after _ TNone None fs1) as [[fs2 b2]|] eqn:E2; [|discriminate]. cbn [bind].
  intros [= <- Hb]. apply orb_false_iff in Hb as [-> ->].
  destruct (C65_saved _ _ _ _ _ _ _ I1 S1 T1 A1 L1 E1) as (l1 & F1 & M1 & _ & K1).
  destruct (C65_saved _ _ _ _ _ _ _ I2 S2 T2 A2' L2 E2) as (l2 & F2 & M2 & _ & K2).
  exists l1, l2. cbv zeta in *. repeat split; auto. rewrite <- F1.
  pose proof (C65_safe after (Some ("ctrl_amps_final_" ++ ext)%string) TNone None fs1) as S. rewrite E2 in S.
  apply (proj2 S). cbn. intros X. discriminate X.
Qed.
End Save.

Example C65_two_slots :
  let d := mkHolder true (init_timeslots (mkTs None None (Some [1%R; 2%R]) [] false)) (A2 [[5%R]; [6%R]]) "amps.txt"%string in
  exists fs', save_amps (fun x => if Rlt_dec x 2 then "small"%string else "big"%string) (fun _ l _ => (l, true)) d None TNone None (fun _ => None) = Ok (fs', false) /\
    fs' "amps.txt"%string = Some ["small	big"; "small	big"]%string.
Proof.
  intros d. eexists. split; [reflexivity|]. cbn.
  destruct (Rlt_dec 0 2); [|lra]. destruct (Rlt_dec 5 2); [lra|]. destruct (Rlt_dec (0 + 1) 2); [|lra].
  destruct (Rlt_dec 6 2); [lra|]. reflexivity.
Qed.

(** ** C66 *)

(** The public check warns exactly about the propagators that deviate. *)
Theorem C66_warned tol props l :
  In l (unitarity_check tol props) <-> exists k A, l = Warning k /\ nth_error props k = Some A /\ deviates tol A.
Proof.
  unfold unitarity_check. rewrite in_flat_map. split.
  - intros ((k & A) & H & Hl). cbn in Hl. destruct (is_unitary tol A) eqn:E; [destruct Hl|]. destruct Hl as [<-|[]].
    exists k, A. repeat split; [|now apply unitary_false].
    clear E. unfold range in H. assert (G : forall l s, In (k, A) (combine (seq s (List.length l)) l) -> s <= k /\ nth_error l (k - s) = Some A).
    { clear. induction l as [|x l IH]; intros s H; [destruct H|]. cbn in H. destruct H as [[= -> ->]|H].
      - rewrite Nat.sub_diag. auto.
      - destruct (IH _ H) as [H1 H2]. replace (k - s) with (S (k - S s)) by lia. split; [lia|auto]. }
    destruct (G _ _ H) as [_ X]. now rewrite Nat.sub_0_r in X.
  - intros (k & A & -> & Hk & Hd). exists (k, A). split.
    + unfold range. assert (G : forall l k s, nth_error l k = Some A -> In (s + k, A) (combine (seq s (List.length l)) l)).
      { clear. induction l as [|x l IH]; intros [|k] s H; try discriminate; cbn in *.
        - left. f_equal; [lia|congruence].
        - right. replace (s + S k) with (S s + k) by lia. now apply IH. }
      apply (G props k 0 Hk).
    + cbn. apply unitary_false in Hd. rewrite Hd. now left.
Qed.
(** In particular never about a unitary one. *)
Theorem C66_no_false_alarm tol A : (0 <= tol)%R -> mmul A (mdag A) = mid (nr A) -> ~ deviates tol A.
Proof.
  intros Ht E (i & j & Hi & Hj & H). cbv zeta in H. rewrite E in H. unfold mid in H. rewrite ent_tab in H by auto.
  replace (_ - _)%C with (RtoC 0) in H by ring. rewrite Cmod_0 in H.
  pose proof (Cmod_ge_0 (if i =? j then RtoC 1 else RtoC 0)). lra.
Qed.

(** The check after a recomputation, with the diagonalising computer: no
    exception, and warnings for the same slots. *)
Theorem C66_recompute tol atol level dec slots :
  0 < level -> let n := List.length slots in
  List.length (dc_eigen dec) = n -> List.length (dc_vec dec) = n -> (forall l, dc_adj dec = Some l -> List.length l = n) ->
  let r := after_recompute true tol atol level (Some dec) slots in
  snd r = None /\
  forall k, In (Warning k) (fst r) <-> exists A H, nth_error slots k = Some (A, H) /\ deviates tol A.
Proof.
  intros Hl n He Hv Ha r. unfold r, after_recompute. destruct (Nat.eqb_spec level 0); [lia|].
  assert (G : forall rest s, s + List.length rest = n ->
    snd (check_unitarity tol atol level (Some dec) s rest) = None /\
    forall k, In (Warning k) (fst (check_unitarity tol atol level (Some dec) s rest)) <->
      s <= k /\ exists A H, nth_error rest (k - s) = Some (A, H) /\ deviates tol A).
  { induction rest as [|[A H] rest IH]; intros s Hs; cbn [check_unitarity].
    - split; auto. intros k. cbn. split; [tauto|]. intros (_ & A & H & E & _). destruct (k - s); discriminate.
    - cbn in Hs. destruct (IH (S s) ltac:(lia)) as [IH1 IH2].
      destruct (check_unitarity tol atol level (Some dec) (S s) rest) as [rl re]. cbn [fst snd] in IH1, IH2. subst re.
      assert (D : exists d, (if negb (is_unitary tol A) || (1 <? level) then
          e <- Base.get (dc_eigen dec) s;; v <- Base.get (dc_vec dec) s;;
          a <- match dc_adj dec with None => Ok None | Some l => a <- Base.get l s;; Ok (Some (is_unitary tol a)) end;;
          Ok [Details s (is_unitary tol A) (is_herm atol H) (is_unitary tol e) (is_unitary tol v) a] else Ok []) = Ok d /\
          forall k, ~ In (Warning k) d).
      { assert (GT : forall l : list mat, List.length l = n -> exists x, Base.get l s = Ok x).
        { intros l El. unfold Base.get. destruct (nth_error l s) eqn:E; eauto. apply nth_error_None in E. lia. }
        destruct (negb _ || _); [|exists []; split; auto].
        destruct (GT _ He) as [e ->]. destruct (GT _ Hv) as [v ->]. cbn [bind].
        destruct (dc_adj dec) as [l|]; [destruct (GT l (Ha l eq_refl)) as [a ->]|]; cbn [bind];
          (eexists; split; [reflexivity|]); intros k [X|[]]; discriminate. }
      destruct D as (d & -> & Dd). cbn [fst snd]. split; auto. intros k. rewrite !in_app_iff, IH2.
      assert (W : In (Warning k) (if is_unitary tol A then [] else [Warning s]) <-> k = s /\ deviates tol A).
      { destruct (is_unitary tol A) eqn:E.
        - split; [intros []|]. intros [_ X]. apply unitary_false in X. congruence.
        - split; [intros [[= <-]|[]]|intros [-> _]; now left]. split; auto. now apply unitary_false. }
      rewrite W. split.
      + intros [[-> X]|[X|(X & A' & H' & E & Y)]].
        * split; [lia|]. exists A, H. rewrite Nat.sub_diag. auto.
        * destruct (Dd k X).
        * split; [lia|]. exists A', H'. replace (k - s) with (S (k - S s)) by lia. auto.
      + intros (X & A' & H' & E & Y). destruct (Nat.eq_dec k s) as [-> |N].
        * left. rewrite Nat.sub_diag in E. injection E as <- <-. auto.
        * right; right. split; [lia|]. exists A', H'. replace (k - s) with (S (k - S s)) in E by lia. auto. }
  destruct (G slots 0 eq_refl) as [G1 G2]. split; auto. intros k. rewrite G2, Nat.sub_0_r. split; [intros [_ H]; auto|intros H; split; [lia|auto]].
Qed.
(** The details logged are true of their slot: whether the propagator, the
    eigenvalues and the eigenvectors deviate from unitarity and whether the
    generator is Hermitian; they are logged for the slots that deviate and,
    from level 2 on, for all. *)
Theorem C66_details tol atol level dec slots k u h e v a :
  0 < level ->
  In (Details k u h e v a) (fst (after_recompute true tol atol level (Some dec) slots)) ->
  exists A H E V, nth_error slots k = Some (A, H) /\ nth_error (dc_eigen dec) k = Some E /\ nth_error (dc_vec dec) k = Some V /\
    (deviates tol A \/ 1 < level) /\
    (u = true <-> ~ deviates tol A) /\ (h = true <-> nearly_hermitian atol H) /\
    (e = true <-> ~ deviates tol E) /\ (v = true <-> ~ deviates tol V) /\
    match dc_adj dec with None => a = None | Some l => exists W b, nth_error l k = Some W /\ a = Some b /\ (b = true <-> ~ deviates tol W) end.
Proof.
  intros Hl. unfold after_recompute. destruct (Nat.eqb_spec level 0); [lia|]. intros I.
  destruct (details_true tol atol level dec slots 0 k u h e v a I) as (_ & R). rewrite Nat.sub_0_r in R. exact R.
Qed.
Theorem C66_details_logged tol atol level dec slots k A H :
  0 < level -> let n := List.length slots in
  List.length (dc_eigen dec) = n -> List.length (dc_vec dec) = n -> (forall l, dc_adj dec = Some l -> List.length l = n) ->
  nth_error slots k = Some (A, H) -> deviates tol A \/ 1 < level ->
  exists u h e v a, In (Details k u h e v a) (fst (after_recompute true tol atol level (Some dec) slots)).
Proof.
  intros Hl n He Hv Ha Hk D. unfold after_recompute. destruct (Nat.eqb_spec level 0); [lia|].
  apply (details_there tol atol level dec n He Hv Ha slots 0 eq_refl k A H); auto; [lia|now rewrite Nat.sub_0_r].
Qed.
(** Without it, nothing happens as long as all propagators are unitary ... *)
Theorem C66_others_partial tol atol slots :
  (forall A H, In (A, H) slots -> ~ deviates tol A) -> after_recompute true tol atol 1 None slots = ([], None).
Proof.
  intros Hs. unfold after_recompute. cbn [Nat.eqb].
  enough (G : forall k, check_unitarity tol atol 1 None k slots = ([], None)) by apply G.
  induction slots as [|[A H] slots IH]; intros k; cbn [check_unitarity]; auto.
  destruct (is_unitary tol A) eqn:E.
  - cbn. rewrite IH; auto. intros A' H' X. apply (Hs A' H'). now right.
  - exfalso. apply (Hs A H (or_introl eq_refl)). now apply unitary_false.
Qed.
(** ... but the first that is not ends the computation with a TypeError, *)
Theorem C66_others_refuted tol atol level A H slots :
  0 < level -> deviates tol A -> after_recompute true tol atol level None ((A, H) :: slots) = ([Warning 0], Some TypeError).
Proof.
  intros Hl D. unfold after_recompute. destruct (Nat.eqb_spec level 0); [lia|]. cbn. apply unitary_false in D. now rewrite D.
Qed.
(** and outside DynamicsUnitary the check always raises. *)
Theorem C66_class_refuted tol atol level dec slots :
  0 < level -> after_recompute false tol atol level dec slots = ([], Some AttributeError).
Proof. intros Hl. unfold after_recompute. destruct (Nat.eqb_spec level 0); [lia|]. reflexivity. Qed.

Definition scalar (x : R) : mat := tab 1 1 (fun _ _ => RtoC x).
Lemma scalar_square x : ent (mmul (scalar x) (mdag (scalar x))) 0 0 = RtoC (x * x).
Proof.
  unfold mmul, mdag, scalar. rewrite !nr_tab, !nc_tab. rewrite ent_tab by (cbn; lia). cbn [Nat.min]. cbn [csum].
  rewrite !ent_tab by lia. unfold Cconj, RtoC, Cmult, Cplus. cbn. f_equal; ring.
Qed.
Lemma scalar_deviates tol x : deviates tol (scalar x) <-> (tol + 1 / 100000 * (x * x) < Rabs (1 - x * x))%R.
Proof.
  assert (E : forall i j, i < 1 -> j < 1 -> i = 0 /\ j = 0) by lia.
  assert (V : (tol + 1 / 100000 * Cmod (RtoC (x * x)) < Cmod (RtoC 1 - RtoC (x * x))%C <->
               tol + 1 / 100000 * (x * x) < Rabs (1 - x * x))%R).
  { rewrite <- RtoC_minus, !Cmod_R. rewrite (Rabs_pos_eq (x * x)) by nra. tauto. }
  unfold deviates. split.
  - intros (i & j & Hi & Hj & H). destruct (E i j Hi Hj) as [-> ->]. cbv zeta in H. rewrite scalar_square in H. now apply V.
  - intros H. exists 0, 0. repeat split; try (cbn; lia). cbv zeta. rewrite scalar_square. now apply V.
Qed.
(** The tolerance the user sets is not the one that counts: with 1e-10 (the
    default) a propagator that is off by 2e-6 is not reported. *)
Theorem C66_tolerance_refuted :
  let x := (1 + / 1000000)%R in
  (/ 1000000 < Rabs (1 - x * x))%R /\ unitarity_check (/ 10000000000) [scalar x] = [].
Proof.
  intros x. assert (Hx : (1 - x * x < 0)%R) by (unfold x; lra). split.
  - rewrite Rabs_left by auto. unfold x. lra.
  - unfold unitarity_check. cbn -[is_unitary]. destruct (is_unitary (/ 10000000000) (scalar x)) eqn:E; auto.
    exfalso. apply unitary_false, scalar_deviates in E. rewrite Rabs_left in E by auto. unfold x in E. lra.
Qed.
Example C66_reported : unitarity_check (/ 1000) [scalar 1; scalar 2] = [Warning 1].
Proof.
  unfold unitarity_check. cbn -[is_unitary].
  assert (E1 : is_unitary (/ 1000) (scalar 1) = true).
  { apply Bool.not_false_is_true. intros E. apply unitary_false, scalar_deviates in E. rewrite Rabs_pos_eq in E; lra. }
  assert (E2 : is_unitary (/ 1000) (scalar 2) = false).
  { apply unitary_false, scalar_deviates. rewrite Rabs_left; lra. }
  now rewrite E1, E2.
Qed.

Example C66_recompute_case :
  let dec := mkDecomp [scalar 2] [scalar 1] (Some [scalar 1]) in
  In (Warning 0) (fst (after_recompute true (/ 1000) (/ 1000) 1 (Some dec) [(scalar 2, scalar 1)])).
Proof.
  intros dec. destruct (C66_recompute (/ 1000) (/ 1000) 1 dec [(scalar 2, scalar 1)]) as [_ H]; auto.
  { intros l [= <-]. reflexivity. }
  apply H. exists (scalar 2), (scalar 1). split; [reflexivity|]. apply scalar_deviates. rewrite Rabs_left; lra.
Qed.

(** Assumptions of all theorems of this file together (listed one by one in
    ASSUMPTIONS.txt). *)
Definition propsSetup :=
  (@C64_accepted,
   @C64_used_partial,
   @C64_foreign_partial,
   @C64_exceptions,
   @C64_drift,
   @C64_rows_refuted,
   @C64_foreign_refuted,
   @C65_saved,
   @C65_given,
   @C65_without_times,
   @C65_safe,
   @C65_misfit,
   @C65_one_time,
   @C65_initial_final,
   @C66_warned,
   @C66_no_false_alarm,
   @C66_recompute,
   @C66_details,
   @C66_details_logged,
   @C66_others_partial,
   @C66_others_refuted,
   @C66_class_refuted,
   @C66_tolerance_refuted).
Print Assumptions propsSetup.
