(** C42, C43, C44, C60, C61: data dumping. *)
From Coq Require Import DecimalString DecimalNat Reals Lra.
From Coquelicot Require Import Complex.
From RecordUpdate Require Import RecordUpdate.
From Verif.Model Require Import Base Str Dyn Dump DumpEvo.
From Verif.Spec Require Import Evolution History Scalar Dumps.
From Verif.Lib Require Import Lists.
From Verif.Proofs Require Import DynInv DynRun DynHist DynHistory DynProps ScalarFacts DumpFacts DumpEvoFacts.
Local Open Scope string_scope.
Local Open Scope list_scope.
Set Bullet Behavior "Strict Subproofs".

(** ** C42, OptimDump.  [h] is any state of the optimiser's dump: [None], or
    switches in any position, so these hold after any history. *)
Theorem C42_optim_reports (d : osw) :
  (o_get_dumping (Some d) = "SUMMARY" <-> o_only_summary d) /\
  (o_get_dumping (Some d) = "FULL" <-> o_everything d) /\
  (o_get_dumping (Some d) = "CUSTOM" <-> ~ o_only_summary d /\ ~ o_everything d) /\
  o_get_dumping None = "NONE".
Proof.
  unfold o_get_dumping, o_get_level, o_any, o_all, o_only_summary, o_everything.
  destruct d as [l [] [] [] []]; cbn; intuition discriminate.
Qed.

(** Assignments that work: nothing, summary only, everything; any letter case. *)
Theorem C42_optim_assign_partial (v : string) (h : option osw) :
  (upper v = "NONE" -> o_set_dumping (PStr v) h = (None, None)) /\
  (upper v = "SUMMARY" -> exists d, o_set_dumping (PStr v) h = (Some d, None) /\ o_only_summary d) /\
  (upper v = "FULL" -> exists d, o_set_dumping (PStr v) h = (Some d, None) /\ o_everything d) /\
  o_set_dumping PNone h = (None, None).
Proof.
  unfold o_set_dumping, o_only_summary, o_everything. splits; auto.
  - intros ->. reflexivity.
  - intros ->. destruct h as [[l a b c e]|]; eexists; (split; [reflexivity|]); cbn; auto.
  - intros ->. destruct h as [[l a b c e]|]; eexists; (split; [reflexivity|]); cbn; auto.
Qed.

(** Other values are rejected, and what is dumped stays as it was. *)
Lemma upper_idem s : upper (upper s) = upper s.
Proof.
  assert (C : forall c, upper_char (upper_char c) = upper_char c).
  { intros [[] [] [] [] [] [] [] []]; reflexivity. }
  induction s; cbn; congruence.
Qed.
Definition o_same_switches (d d' : osw) : Prop :=
  o_summary d' = o_summary d /\ o_fid_err d' = o_fid_err d /\ o_grad_norm d' = o_grad_norm d /\ o_grad d' = o_grad d.
Theorem C42_optim_reject (v : string) (h : option osw) :
  upper v <> "NONE" -> upper v <> "SUMMARY" -> upper v <> "FULL" ->
  exists h', o_set_dumping (PStr v) h = (h', Some ValueError) /\
    match h, h' with Some d, Some d' => o_same_switches d d' | None, None => True | _, _ => False end.
Proof.
  intros N1 N2 N3. apply String.eqb_neq in N1, N2, N3.
  unfold o_set_dumping. rewrite N1. 
  assert (X : forall d, exists d', o_set_level (PStr (upper v)) d = (d', Some ValueError) /\ o_same_switches d d').
  { intros d. unfold o_set_level, o_apply. cbn [o_level is_str]. change (o_level (d <| o_level := PStr (upper v) |>)) with (PStr (upper v)).
    cbv iota. rewrite upper_idem. cbn [is_str].
    destruct (upper v =? "CUSTOM")%string eqn:Ec.
    - apply String.eqb_eq in Ec. rewrite Ec. cbn. eexists. split; [reflexivity|]. unfold o_same_switches; cbn; auto.
    - rewrite N2, N3. eexists. split; [reflexivity|]. unfold o_same_switches; cbn; auto. }
  destruct h as [d|].
  - destruct (X d) as (d' & E & H). rewrite E. eauto.
  - destruct (X (mkO (PStr "") true false false false)) as (d' & E & _). unfold o_new.
    assert (E2 : o_apply (mkO (PStr (upper v)) true false false false) = (d', Some ValueError)) by exact E.
    cbv zeta. rewrite E2. exists None; auto.
Qed.
(** ... which includes CUSTOM, in any state and letter case: the documented
    level cannot be selected. *)
Theorem C42_optim_custom_refuted (v : string) (h : option osw) :
  upper v = "CUSTOM" -> exists h', o_set_dumping (PStr v) h = (h', Some ValueError).
Proof.
  intros E. destruct (C42_optim_reject v h) as (h' & H & _); try (rewrite E; discriminate). eauto.
Qed.
Example C42_custom_nonvacuous : upper "Custom" = "CUSTOM" /\ upper "full" = "FULL" /\ upper "detail" <> "NONE" /\
  upper "detail" <> "SUMMARY" /\ upper "detail" <> "FULL".
Proof. splits; try reflexivity; discriminate. Qed.
(** Only the lower-case spelling, and only on the dump object itself, selects
    it; it then means the same as SUMMARY. *)
Theorem C42_optim_custom_partial (v : string) (d : osw) :
  upper v = "CUSTOM" -> v <> "CUSTOM" ->
  exists d', o_set_level (PStr v) d = (d', None) /\ o_only_summary d'.
Proof.
  intros E N. apply String.eqb_neq in N. unfold o_set_level, o_apply.
  change (o_level (d <| o_level := PStr v |>)) with (PStr v). cbv iota. rewrite E. cbn [is_str String.eqb Ascii.eqb Bool.eqb].
  rewrite N. cbn. eexists. split; [reflexivity|]. unfold o_only_summary; cbn; auto.
Qed.
(** The switches are independent of each other. *)
Theorem C42_optim_switches (d : osw) (b : bool) :
  (let d' := d <| o_fid_err := b |> in o_fid_err d' = b /\ o_summary d' = o_summary d /\ o_grad_norm d' = o_grad_norm d /\ o_grad d' = o_grad d) /\
  (let d' := d <| o_grad_norm := b |> in o_grad_norm d' = b /\ o_summary d' = o_summary d /\ o_fid_err d' = o_fid_err d /\ o_grad d' = o_grad d) /\
  (let d' := d <| o_grad := b |> in o_grad d' = b /\ o_summary d' = o_summary d /\ o_fid_err d' = o_fid_err d /\ o_grad_norm d' = o_grad_norm d) /\
  (* from SUMMARY, switching one of them on is reported as CUSTOM *)
  (o_only_summary d ->
     o_get_dumping (Some (d <| o_fid_err := true |>)) = "CUSTOM" /\
     o_get_dumping (Some (d <| o_grad_norm := true |>)) = "CUSTOM" /\
     o_get_dumping (Some (d <| o_grad := true |>)) = "CUSTOM").
Proof.
  unfold o_same_switches, o_only_summary. destruct d as [l a x y z]; cbn. splits; auto.
  all: intros (-> & -> & -> & ->); splits; reflexivity.
Qed.

(** ** C42, DynamicsDump.  [onwd], [onto] say which evolutions the fidelity
    computer uses. *)
Theorem C42_dynamics_reports (onwd onto : bool) (d : dsw) :
  let f := Some (onwd, onto) in
  (d_get_dumping f (Some d) = Ok "SUMMARY" <-> d_only_summary d) /\
  (d_get_dumping f (Some d) = Ok "FULL" <-> d_everything onwd onto d) /\
  (d_get_dumping f (Some d) = Ok "CUSTOM" <-> ~ d_only_summary d /\ ~ d_everything onwd onto d) /\
  d_get_dumping f None = Ok "NONE".
Proof.
  cbv zeta. unfold d_get_dumping, d_get_level.
  assert (S : d_only_summary d <-> ds_summary d = true /\ d_any d = false).
  { unfold d_only_summary, d_any. cbn [existsb]. rewrite !Bool.orb_false_iff. tauto. }
  assert (T : d_everything onwd onto d <-> ds_summary d = true /\ d_all (Some (onwd, onto)) d = Ok true).
  { unfold d_everything, d_all. cbn [forallb]. 
    transitivity (ds_summary d = true /\ (ds_amps d && (ds_dyn_gen d && (ds_prop d && (ds_prop_grad d &&
      (ds_fwd d && (Bool.eqb (ds_onwd d) onwd && (Bool.eqb (ds_onto d) onto && true)))))))%bool = true).
    - rewrite !Bool.andb_true_iff, !Bool.eqb_true_iff. tauto.
    - split; intros [? K]; split; auto; congruence. }
  assert (D : d_everything onwd onto d -> ~ d_only_summary d).
  { unfold d_everything, d_only_summary. intros (_ & K & _) (_ & K' & _). congruence. }
  rewrite S, T in *. cbn [d_all bind] in *. 
  set (b := forallb _ _) in *.
  destruct (ds_summary d), (d_any d), b; cbn [negb andb bind]; cbv iota; intuition congruence.
Qed.
Theorem C42_dynamics_assign_partial (onwd onto : bool) (v : string) (h : option dsw) :
  let f := Some (onwd, onto) in
  (upper v = "NONE" -> d_set_dumping f (PStr v) h = (None, None)) /\
  (upper v = "SUMMARY" -> exists d, d_set_dumping f (PStr v) h = (Some d, None) /\ d_only_summary d) /\
  (upper v = "FULL" -> exists d, d_set_dumping f (PStr v) h = (Some d, None) /\ d_everything onwd onto d) /\
  d_set_dumping f PNone h = (None, None).
Proof.
  unfold d_set_dumping, d_only_summary, d_everything. splits; auto.
  - intros ->. reflexivity.
  - intros ->. destruct h as [[l a b c e g i j k]|]; eexists; (split; [reflexivity|]); cbn; splits; auto.
  - intros ->. destruct h as [[l a b c e g i j k]|]; eexists; (split; [reflexivity|]); cbn; splits; auto.
Qed.
Definition d_same_switches (d d' : dsw) : Prop :=
  ds_summary d' = ds_summary d /\ ds_amps d' = ds_amps d /\ ds_dyn_gen d' = ds_dyn_gen d /\ ds_prop d' = ds_prop d /\
  ds_prop_grad d' = ds_prop_grad d /\ ds_fwd d' = ds_fwd d /\ ds_onwd d' = ds_onwd d /\ ds_onto d' = ds_onto d.
Theorem C42_dynamics_reject (f : fidc) (v : string) (h : option dsw) :
  upper v <> "NONE" -> upper v <> "SUMMARY" -> upper v <> "FULL" ->
  exists h', d_set_dumping f (PStr v) h = (h', Some ValueError) /\
    match h, h' with Some d, Some d' => d_same_switches d d' | None, None => True | _, _ => False end.
Proof.
  intros N1 N2 N3. apply String.eqb_neq in N1, N2, N3.
  unfold d_set_dumping. rewrite N1.
  assert (X : forall d, exists d', d_set_level f (PStr (upper v)) d = (d', Some ValueError) /\ d_same_switches d d').
  { intros d. unfold d_set_level, d_apply. change (ds_level (d <| ds_level := PStr (upper v) |>)) with (PStr (upper v)).
    cbv iota. rewrite upper_idem. cbn [is_str].
    destruct (upper v =? "CUSTOM")%string eqn:Ec.
    - apply String.eqb_eq in Ec. rewrite Ec. cbn. eexists. split; [reflexivity|]. unfold d_same_switches; cbn; splits; auto.
    - rewrite N2, N3. eexists. split; [reflexivity|]. unfold d_same_switches; cbn; splits; auto. }
  destruct h as [d|].
  - destruct (X d) as (d' & E & H). rewrite E. eauto.
  - destruct (X (mkD (PStr "") true false false false false false false false)) as (d' & E & _). unfold d_new.
    assert (E2 : d_apply f (mkD (PStr (upper v)) true false false false false false false false) = (d', Some ValueError)) by exact E.
    cbv zeta. rewrite E2. exists None; auto.
Qed.
Theorem C42_dynamics_custom_refuted (f : fidc) (v : string) (h : option dsw) :
  upper v = "CUSTOM" -> exists h', d_set_dumping f (PStr v) h = (h', Some ValueError).
Proof.
  intros E. destruct (C42_dynamics_reject f v h) as (h' & H & _); try (rewrite E; discriminate). eauto.
Qed.
Theorem C42_dynamics_custom_partial (f : fidc) (v : string) (d : dsw) :
  upper v = "CUSTOM" -> v <> "CUSTOM" ->
  exists d', d_set_level f (PStr v) d = (d', None) /\ d_only_summary d'.
Proof.
  intros E N. apply String.eqb_neq in N. unfold d_set_level, d_apply.
  change (ds_level (d <| ds_level := PStr v |>)) with (PStr v). cbv iota. rewrite E. cbn [is_str String.eqb Ascii.eqb Bool.eqb].
  rewrite N. cbn. eexists. split; [reflexivity|]. unfold d_only_summary; cbn; splits; auto.
Qed.
(** Without a fidelity computer FULL fails half way: five of the seven
    switches are on, and the level cannot be read. *)
Theorem C42_dynamics_full_refuted (l : pyval) :
  let d := mkD l true false false false false false false false in
  exists d', d_set_dumping None (PStr "FULL") (Some d) = (Some d', Some AttributeError) /\
    ds_amps d' = true /\ ds_fwd d' = true /\ ds_onto d' = false /\
    d_get_dumping None (Some d') = Raise AttributeError.
Proof. eexists. split; [reflexivity|]. cbn. auto. Qed.

(** ** C43 *)
Section C43.
Context {F G : Type}.
Variable fmt : sval F -> string -> string.
Variable plain savetxt1 : F -> string.
Variable savetxt : string -> G -> string.
Notation orun := (orun fmt plain savetxt1 savetxt).

(** [d] is a new dump that writes to file, [fs] the files there are; [cs] are
    any calls.  The items are those added since the last clear. *)
Theorem C43_summary (d : odump F G) fs cs :
  fresh d -> od_write d = true ->
  let '(d', fs') := orun cs (d, fs) in
  od_iters d' = number_from 0 (iters_of cs) /\
  (iters_of cs <> [] ->
   fs' (file_name d "summary") = Some (table fmt optim_cols (od_sep d) (number_from 0 (iters_of cs)))).
Proof.
  intros Fr W. pose proof (linv_run fmt plain savetxt1 savetxt d fs cs Fr) as L.
  destruct (orun cs (d, fs)) as [d' fs'] eqn:E. split; apply L; auto.
Qed.
(** The columns of the table, for separators other than the blank (with which
    they are padded): the first line names them in this order, and there is a
    line for each item. *)
Theorem C43_columns (d : odump F G) fs cs :
  fresh d -> od_write d = true -> iters_of cs <> [] -> od_sep d <> " "%string ->
  exists rows, snd (orun cs (d, fs)) (file_name d "summary") =
    Some (String.concat (od_sep d) ["idx"; "iter_num"; "fid_func_call_num"; "grad_func_call_num"; "fid_err"; "grad_norm"; "wall_time"]
          ++ nl ++ all_lines rows)%string /\ length rows = length (iters_of cs).
Proof.
  intros Fr W N Sp. pose proof (C43_summary d fs cs Fr W) as H. destruct (orun cs (d, fs)) as [d' fs']. destruct H as [_ H].
  cbn [snd]. rewrite (H N). unfold table, header_line. destruct (String.eqb_spec (od_sep d) " ") as [E|_]; [contradiction|].
  exists (map (value_line fmt optim_cols (od_sep d)) (number_from 0 (iters_of cs))). split; [reflexivity|].
  rewrite map_length. clear. generalize 0 as k. induction (iters_of cs) as [|x l IH]; intros k; cbn; [reflexivity|]. now rewrite IH.
Qed.
Theorem C43_logs (d : odump F G) fs cs :
  fresh d -> od_write d = true -> ~ In Writeout cs ->
  let '(d', fs') := orun cs (d, fs) in
  od_errs d' = errs_of cs /\ od_gns d' = norms_of cs /\ od_grads d' = grads_of cs /\
  (errs_of cs <> [] -> fs' (file_name d "fid_err_log") = Some (all_lines (map plain (errs_of cs)))) /\
  (norms_of cs <> [] -> fs' (file_name d "grad_norm_log") = Some (all_lines (map plain (norms_of cs)))) /\
  (forall k g, nth_error (grads_of cs) k = Some g ->
     fs' (file_name d ("fid_err_gradients" ++ str_nat (S k))%string) = Some (savetxt (od_dsep d) g)).
Proof.
  intros Fr W N. pose proof (linv_run fmt plain savetxt1 savetxt d fs cs Fr) as L.
  destruct (orun cs (d, fs)) as [d' fs'] eqn:E. destruct L. cbn [fst snd] in *. splits; auto.
  intros k g H. now apply li_gradtext.
Qed.

(** Writing everything out at the end, with or without writing on the way,
    gives the same table. *)
Theorem C43_writeout (d : odump F G) fs cs :
  fresh d -> o_summary (od_sw d) = true -> iters_of cs <> [] ->
  let '(d', fs') := orun (cs ++ [Writeout]) (d, fs) in
  fs' (file_name d "summary") = Some (table fmt optim_cols (od_sep d) (number_from 0 (iters_of cs))) /\
  (o_grad (od_sw d) = true -> forall k g, nth_error (grads_of cs) k = Some g ->
     fs' (file_name d ("fid_err_gradients" ++ str_nat (S k))%string) = Some (savetxt (od_dsep d) g)) /\
  (o_fid_err (od_sw d) = true -> fs' (file_name d "fid_err_log") = Some (all_lines (map savetxt1 (errs_of cs)))) /\
  (o_grad_norm (od_sw d) = true -> fs' (file_name d "grad_norm_log") = Some (all_lines (map savetxt1 (norms_of cs)))).
Proof.
  intros Fr Sw N. rewrite orun_snoc.
  pose proof (linv_run fmt plain savetxt1 savetxt d fs cs Fr) as L.
  destruct (orun cs (d, fs)) as [d1 fs1] eqn:E. cbn [ostep]. unfold writeout.
  destruct L as [Fx Ei Ee En Eg _ _ _ _]. cbn [fst snd] in *.
  assert (S1 : od_sw d1 = od_sw d) by apply Fx. rewrite S1, Sw.
  destruct (summary_file d1) as [d2 p] eqn:Es. destruct (fixed_sum _ _ _ _ Fx Es) as (F2 & -> & J1 & J2 & J3 & J4).
  assert (S2 : od_sw d2 = od_sw d) by apply F2. rewrite S2.
  set (T := table fmt optim_cols (od_sep d) (number_from 0 (iters_of cs))).
  assert (TT : summary_text fmt optim_cols (od_sep d2) (od_iters d2) = T).
  { assert (Sep : od_sep d2 = od_sep d) by apply F2. rewrite Sep, J1, Ei, summary_text_table. destruct (iters_of cs); [contradiction|reflexivity]. }
  rewrite TT. set (f2 := write _ T fs1). 
  assert (P2 : f2 (file_name d "summary") = Some T) by apply put_eq.
  (* errors *)
  destruct (if o_fid_err (od_sw d) then _ else (d2, f2)) as [d3 f3] eqn:E3.
  assert (P3 : fixed d d3 /\ od_gns d3 = od_gns d2 /\ od_grads d3 = od_grads d2 /\ f3 (file_name d "summary") = Some T /\
               (o_fid_err (od_sw d) = true -> f3 (file_name d "fid_err_log") = Some (all_lines (map savetxt1 (errs_of cs))))).
  { destruct (o_fid_err (od_sw d)).
    - destruct (fid_err_file d2) as [d4 p] eqn:S. destruct (fixed_err _ _ _ _ F2 S) as (F3 & -> & K1 & K2 & K3 & K4).
      injection E3 as <- <-. splits; auto.
      + unfold write. rewrite put_ne; auto. intros Enm. apply file_name_inj in Enm. discriminate.
      + intros _. unfold write. rewrite put_eq, txt1_lines. congruence.
    - injection E3 as <- <-. splits; auto. discriminate. }
  destruct P3 as (F3 & A1 & A2 & A3 & A4). assert (S3 : od_sw d3 = od_sw d) by apply F3. rewrite S3.
  destruct (if o_grad_norm (od_sw d) then _ else (d3, f3)) as [d4 f4] eqn:E4.
  assert (P4 : fixed d d4 /\ od_grads d4 = od_grads d3 /\ f4 (file_name d "summary") = Some T /\
               (o_fid_err (od_sw d) = true -> f4 (file_name d "fid_err_log") = Some (all_lines (map savetxt1 (errs_of cs)))) /\
               (o_grad_norm (od_sw d) = true -> f4 (file_name d "grad_norm_log") = Some (all_lines (map savetxt1 (norms_of cs))))).
  { destruct (o_grad_norm (od_sw d)).
    - destruct (grad_norm_file d3) as [d5 p] eqn:S. destruct (fixed_gn _ _ _ _ F3 S) as (F5 & -> & K1 & K2 & K3 & K4).
      injection E4 as <- <-. splits; auto.
      + unfold write. rewrite put_ne; auto. intros Enm. apply file_name_inj in Enm. discriminate.
      + intros H. unfold write. rewrite put_ne; auto. intros Enm. apply file_name_inj in Enm. discriminate.
      + intros _. unfold write. rewrite put_eq, txt1_lines. congruence.
    - injection E4 as <- <-. splits; auto. discriminate. }
  destruct P4 as (F4 & B1 & B2 & B3 & B4). assert (S4 : od_sw d4 = od_sw d) by apply F4. rewrite S4.
  assert (Q : forall w, (w = "summary" \/ w = "fid_err_log" \/ w = "grad_norm_log")%string ->
     write_grads savetxt d4 0 (od_grads d4) f4 (file_name d w) = f4 (file_name d w)).
  { intros w Hw. destruct (write_grads_spec savetxt d4 (od_grads d4) 0 f4 (file_name d w)) as [H|[j H]]; auto.
    exfalso. rewrite (fixed_grad _ _ _ F4) in H. revert H. now apply grad_not. }
  destruct (o_grad (od_sw d)).
  - splits.
    + rewrite Q; auto.
    + intros _ k g H. fold (grad_file d (S k)). rewrite <- (fixed_grad _ _ _ F4), <- (Nat.add_0_l k).
      assert (Ds : od_dsep d4 = od_dsep d) by apply F4. rewrite <- Ds. apply write_grads_at. congruence.
    + intros H. rewrite Q; auto.
    + intros H. rewrite Q; auto.
  - splits; auto. discriminate.
Qed.

(** The logs do not have this property: on the way numbers are written with
    [str], at the end with numpy's own format. *)
Theorem C43_log_format_refuted (d : odump F G) fs x :
  fresh d -> od_write d = true -> o_fid_err (od_sw d) = true -> o_summary (od_sw d) = true ->
  plain x <> savetxt1 x ->
  snd (orun [LogErr x] (d, fs)) (file_name d "fid_err_log") = Some (plain x ++ nl)%string /\
  snd (orun [LogErr x; AddIter (fun _ => SNone); Writeout] (d, fs)) (file_name d "fid_err_log") = Some (savetxt1 x ++ nl)%string /\
  (plain x ++ nl)%string <> (savetxt1 x ++ nl)%string.
Proof.
  intros Fr W S1 S2 N. splits.
  - pose proof (C43_logs d fs [LogErr x] Fr W) as H. cbn [orun fold_left] in *.
    destruct (ostep _ _ _ _ _ _) as [d' fs'] eqn:E. cbn [snd].
    assert (NI : ~ In (@Writeout F G) [LogErr x]) by (intros [K|[]]; discriminate).
    destruct (H NI) as (_ & _ & _ & K & _). rewrite K by discriminate. cbn [errs_of since_clear fold_left flat_map app map all_lines]. now rewrite sapp_nil.
  - pose proof (C43_writeout d fs [LogErr x; AddIter (fun _ => SNone)] Fr S2) as H.
    change ([LogErr x; AddIter (fun _ => SNone); Writeout]) with ([LogErr x; AddIter (fun _ => SNone)] ++ [@Writeout F G]).
    destruct (orun _ _) as [d' fs'] eqn:E. cbn [snd].
    destruct H as (_ & _ & K & _); [discriminate|]. rewrite K by auto. cbn [errs_of since_clear fold_left flat_map app map all_lines]. now rewrite sapp_nil.
  - intros E. apply N. now apply sapp_inj_r in E.
Qed.

(** Right after a clear the file still holds the items that were dropped from
    memory; changing the base name in the middle gives a file without header. *)
Theorem C43_after_clear_refuted (d : odump F G) fs it :
  fresh d -> od_write d = true ->
  let '(d', fs') := orun [AddIter it; Clear] (d, fs) in
  od_iters d' = [] /\ fs' (file_name d "summary") = Some (table fmt optim_cols (od_sep d) (number_from 0 [it])).
Proof.
  intros Fr W. pose proof (C43_summary d fs [AddIter it] Fr W) as H.
  unfold Dump.orun in *. cbn [fold_left] in *. destruct (ostep fmt plain savetxt1 savetxt (AddIter it) (d, fs)) as [d1 fs1].
  cbn [ostep clear_log]. split; [reflexivity|]. apply H. discriminate.
Qed.
Theorem C43_rename_refuted (d : odump F G) fs b i1 i2 :
  fresh d -> od_write d = true -> file_name (d <| od_base := b |>) "summary" <> file_name d "summary" ->
  fs (file_name (d <| od_base := b |>) "summary") = None ->
  let s := add_iter_summary fmt i2 (set_fname_base b (add_iter_summary fmt i1 (d, fs))) in
  snd s (file_name (d <| od_base := b |>) "summary") =
    Some (value_line fmt optim_cols (od_sep d) (set_attr "idx" (SInt 1) i2) ++ nl)%string.
Proof.
  intros (E1 & E2 & E3 & E4 & E5 & E6 & E7) W N H.
  destruct d as [sw w dir ext base sep dsep sf ef gf its errs gns grads]. cbn in E1, E2, E3, E4, E5, E6, E7, W. subst.
  set (P := path_join dir (b ++ "-" ++ "summary" ++ "." ++ ext)) in *. set (Q := path_join dir (base ++ "-" ++ "summary" ++ "." ++ ext)) in *.
  change (fs P = None) in H. change (P <> Q) in N.
  change (append P (line_text fmt optim_cols sep (set_attr "idx" (SInt 1) i2)) (write Q (head_text fmt optim_cols sep (set_attr "idx" (SInt 0) i1)) fs) P =
          Some (value_line fmt optim_cols sep (set_attr "idx" (SInt 1) i2) ++ nl)%string).
  unfold append. rewrite put_eq. unfold write. rewrite put_ne by exact N. rewrite H. reflexivity.
Qed.
End C43.

(** Concrete cases: a dump and calls that meet the hypotheses. *)
Definition ex_dump : odump nat nat :=
  mkOD (mkO (PStr "FULL") true true true true) true "/tmp" "txt" "optimdump" " " " " None None None [] [] [] [].
Definition ex_it (x : nat) : attrs (F := nat) := fun a => if (a =? "fid_err")%string then SNum x else SNone.
Example C43_nonvacuous :
  fresh ex_dump /\ od_write ex_dump = true /\ o_summary (od_sw ex_dump) = true /\ o_fid_err (od_sw ex_dump) = true /\
  iters_of (G := nat) [AddIter (ex_it 1); Clear; AddIter (ex_it 2); LogErr 3; AddIter (ex_it 4)] = [ex_it 2; ex_it 4] /\
  file_name ex_dump "summary" = "/tmp/optimdump-summary.txt" /\
  file_name (ex_dump <| od_base := "other" |>) "summary" <> file_name ex_dump "summary".
Proof. unfold fresh. splits; try reflexivity; discriminate. Qed.
Example C43_text :
  snd (orun (fun v s => match v with SInt n => "i" ++ str_nat n | SNum n => "f" ++ str_nat n | SNone => "" end)%string
        str_nat str_nat (fun _ => str_nat)
        [AddIter (ex_it 1); Clear; AddIter (ex_it 2); AddIter (ex_it 4)] (ex_dump <| od_sep := "," |>, fun _ => None))
    "/tmp/optimdump-summary.txt" =
  Some ("idx,iter_num,fid_func_call_num,grad_func_call_num,fid_err,grad_norm,wall_time" ++ nl ++
        "i0,None,None,None,f2,None,None" ++ nl ++ "i1,None,None,None,f4,None,None" ++ nl)%string.
Proof. vm_compute. reflexivity. Qed.

(** DynamicsDump: any mixture of evolutions, switch changes and clears, also
    when some evolutions could not be written. *)
Theorem C43_dynamics {A : Alg} {F : Type} (fmt : sval F -> string -> string) (d : ddump A F) text data cs :
  dfresh d -> dd_write d = true ->
  let s := drun fmt cs (mkDS d text data) in
  (forall k sm, nth_error (dd_sums (s_dump s)) k = Some sm -> sm "idx" = SInt k) /\
  (dd_sums (s_dump s) <> [] ->
   s_text s (dsummary_name d) = Some (table fmt evo_cols (dd_sep d) (dd_sums (s_dump s)))).
Proof. intros Fr W s. pose proof (dinv_run fmt d text data cs Fr) as I. split; apply I; auto. Qed.

(** ** C61: each summary points to the operators of its own evolution. *)
Theorem C61_links {A : Alg} {F : Type} (fmt : sval F -> string -> string) (d : ddump A F) text data cs :
  dfresh d ->
  let s := drun fmt cs (mkDS d text data) in
  (forall sm, In sm (dd_sums (s_dump s)) -> recorded_from cs (dd_items (s_dump s)) sm) /\
  (forall k i, nth_error (dd_items (s_dump s)) k = Some i -> it_idx i = k).
Proof. intros Fr s. pose proof (dinv_run fmt d text data cs Fr) as I. split; apply I; auto. Qed.
(** Nothing is lost: every evolution adds exactly one summary when summaries
    are on, unless writing its operators failed. *)
Theorem C61_one_each {A : Alg} {F : Type} (fmt : sval F -> string -> string) (s : dstate A F) d ecs st :
  ds_summary (dd_sw (s_dump s)) = true ->
  match dump_current fmt d ecs st s with
  | (s', None) => exists sm, dd_sums (s_dump s') = dd_sums (s_dump s) ++ [sm] /\ forall a, ~ set_by_dump a -> sm a = ecs a
  | (s', Some _) => dd_sums (s_dump s') = dd_sums (s_dump s) /\ dd_write (s_dump s) = true
  end.
Proof.
  intros S. destruct s as [dd tx dt]. cbn [s_dump] in *. unfold dump_current. cbn [s_dump].
  assert (NO : forall (idx : sval F) n a, ~ set_by_dump a ->
     (match st with
      | None => set_attr "evo_dump_idx" idx (set_attr "idx" (SInt n) ecs)
      | Some (x, y, z) => set_attr "grad_func_call_num" (SInt z) (set_attr "fid_func_call_num" (SInt y)
           (set_attr "iter_num" (SInt x) (set_attr "evo_dump_idx" idx (set_attr "idx" (SInt n) ecs)))) end) a = ecs a).
  { intros idx n a Ha. unfold set_by_dump in Ha. cbn in Ha.
    assert (Hs : forall x (v : sval F) it, x <> a -> set_attr x v it a = it a).
    { intros x v it Hx. unfold set_attr. destruct (String.eqb_spec a x); congruence. }
    destruct st as [[[? ?] ?]|]; rewrite ?Hs by (intros <-; apply Ha; tauto); reflexivity. }
  assert (K : forall (dd1 : ddump A F) dt1 idx, dd_sums dd1 = dd_sums dd ->
     exists sm, dd_sums (s_dump (add_evo_comp_summary fmt ecs st idx (mkDS dd1 tx dt1))) = dd_sums dd ++ [sm] /\
                forall a, ~ set_by_dump a -> sm a = ecs a).
  { intros dd1 dt1 idx E. unfold add_evo_comp_summary. cbn [s_dump]. eexists. split; [|intros a Ha; apply (NO idx (length (dd_sums dd1)) a Ha)].
    match goal with |- context [if dd_write ?x then _ else _] => destruct (dd_write x) end.
    - unfold dsummary_file. destruct (dd_sumfile _); cbn; rewrite <- E; reflexivity.
    - cbn. rewrite <- E. reflexivity. }
  destruct (d_any (dd_sw dd)).
  - unfold add_evo_dump. cbn [s_dump]. set (dd1 := dd <| dd_items := _ |>).
    change (dd_write dd1) with (dd_write dd). destruct (dd_write dd) eqn:W.
    + destruct (writeout_kinds _ _ _ _ _) as [fs [e|]]; [split; auto|]. cbn. rewrite S. apply (K dd1); reflexivity.
    + cbn. rewrite S. apply (K dd1); reflexivity.
  - cbn. rewrite S. apply K; auto.
Qed.

(** ** C60: the columns of a summary table line up. *)
Lemma number_str u rest : no_digit rest -> number (NilEmpty.string_of_uint u ++ rest) = u.
Proof.
  intros H. induction u; try (cbn; now rewrite IHu).
  destruct rest as [|c rest]; auto. cbn in *. now rewrite H.
Qed.
Lemma width_spec c : no_digit (snd (fst c)) -> width (spec " " c) = col_width (fst (fst c)).
Proof.
  destruct c as [[name ty] prec]. cbn [fst snd]. intros H. unfold width, spec, str_nat. cbn [String.eqb Ascii.eqb Bool.eqb].
  rewrite number_str; [apply DecimalNat.Unsigned.of_to|]. destruct (0 <? prec)%nat; [reflexivity|exact H].
Qed.
Theorem C60_aligned {F : Type} (text : sval F -> string -> string) (fill : nat -> string) (cols : list column) (it : attrs (F := F)) :
  (forall n, String.length (fill n) = n) -> (forall c, In c cols -> no_digit (snd (fst c))) ->
  (* values whose text is not longer than the column is wide *)
  (forall c, In c cols -> it (fst (fst c)) <> SNone ->
     String.length (text (it (fst (fst c))) (spec " " c)) <= Nat.max (String.length (fst (fst c))) 11) ->
  forall k, String.length (value_line (filled_up text fill) (firstn k cols) " " it) = String.length (header_line (firstn k cols) " ").
Proof.
  intros Hfill Hty Hfit k. set (fmt := filled_up text fill).
  assert (H : forall c, In c cols -> it (fst (fst c)) <> SNone ->
     String.length (fmt (it (fst (fst c))) (spec " " c)) = col_width (fst (fst c))).
  { intros c Hc Hn. unfold fmt, filled_up. rewrite slen_app, Hfill, width_spec by auto. specialize (Hfit c Hc Hn).
    unfold col_width, min_col_width in *. lia. }
  unfold value_line, header_line. cbn [String.eqb Ascii.eqb Bool.eqb].
  assert (PL : forall w a, String.length a <= w -> String.length (pad w a) = w).
  { intros w a L. unfold pad. rewrite slen_app. assert (SP : forall n, String.length (spaces n) = n) by (induction n; cbn; congruence).
    rewrite SP. lia. }
  assert (CW : forall a, String.length a <= col_width a) by (intros; unfold col_width; lia).
  assert (X : Forall2 (fun a b => String.length a = String.length b) (map (value_field fmt " " it) (firstn k cols))
               (map (fun c : column => pad (col_width (fst (fst c))) (fst (fst c))) (firstn k cols))).
  { assert (Sub : forall c, In c (firstn k cols) -> In c cols).
    { intros c Hc. rewrite <- (firstn_skipn k cols). apply in_or_app; auto. }
    revert Sub. induction (firstn k cols) as [|c l IH]; intros Sub; cbn; constructor.
    - rewrite PL by auto. unfold value_field. cbn [String.eqb Ascii.eqb Bool.eqb].
      pose proof (H c (Sub c (or_introl eq_refl))) as Hc.
      destruct (it (fst (fst c))); try (apply Hc; discriminate).
      apply PL. unfold col_width, min_col_width. cbn. lia.
    - apply IH. intros c' Hc'. apply Sub. now right. }
  revert X. generalize (map (value_field fmt " " it) (firstn k cols)). intros u X.
  refine ((_ : forall u v, Forall2 (fun a b => String.length a = String.length b) u v ->
             String.length (join " " u) = String.length (join " " v)) u _ X).
  clear. intros u v X. induction X as [|a b l l' E X IH]; auto. cbn [join].
  destruct X as [|a' b' l l' E' X]; auto. rewrite !slen_app, E. f_equal. f_equal. exact IH.
Qed.
Example C60_nonvacuous :
  (forall c, In c optim_cols \/ In c evo_cols -> no_digit (snd (fst c))) /\
  header_line (firstn 2 optim_cols) " " = "idx         iter_num   " /\
  value_line (F := nat) (filled_up (fun v _ => match v with SInt n => str_nat n | _ => "" end) spaces) (firstn 2 optim_cols) " "
    (fun a => if (a =? "idx")%string then SInt 12 else SNone) = "         12 None       ".
Proof. split; [|split; reflexivity]. intros c H. cbn in H. intuition (subst; reflexivity). Qed.

(** ** C61, clearing: after [clear], only what is computed later is stored. *)
Theorem C61_cleared {A : Alg} {F : Type} (fmt : sval F -> string -> string) (d : ddump A F) text data before later :
  dfresh d ->
  let s := drun fmt (before ++ ClearDump :: later) (mkDS d text data) in
  (forall sm, In sm (dd_sums (s_dump s)) -> recorded_from later (dd_items (s_dump s)) sm) /\
  (forall k i, nth_error (dd_items (s_dump s)) k = Some i -> it_idx i = k) /\
  length (dd_sums (s_dump s)) <= length later /\ length (dd_items (s_dump s)) <= length later.
Proof.
  intros Fr s. set (s1 := drun fmt before (mkDS d text data)).
  assert (E : s = drun fmt later (dclear s1)).
  { unfold s, drun, s1. rewrite fold_left_app. reflexivity. }
  pose proof (dinv_on fmt d [] later (dclear s1) (dinv_clear fmt d before s1 (dinv_run fmt d text data before Fr))) as I.
  pose proof (drun_sizes fmt later (dclear s1)) as [N1 N2]. rewrite <- E in I, N1, N2. cbn in N1, N2.
  split; [apply I|split; [apply I|lia]].
Qed.

(** ** C44 *)
Section C44.
Context {A : Alg}.

(** After any history and an evolution, with the generators among the dumped
    kinds and the onward and onto evolutions not: everything is written, under
    its label; of the forward evolution all but the last operator. *)
Theorem C44_evolution_partial (s : settings A) n m st a ops (sw : dsw) idx :
  well_posed s n m -> routines_ok s n m -> shape n m a -> Forall (call_ok s n m) ops ->
  ds_dyn_gen sw = true -> ds_onwd sw = false -> ds_onto sw = false ->
  (ds_prop_grad sw = true -> grad_exact (s_prop s) && s_cache_pg s = true) ->
  let a' := latest a ops in
  let ps := props_of s a' in
  exists d d' b G,
    session s st a ops = Ok d /\ compute_evolution d = Ok (d', b) /\
    (ds_prop_grad sw = true -> length G = n /\ Forall (fun r => length r = m) G /\
       forall k row j g, nth_error G k = Some row -> nth_error row j = Some g -> dslot (xgrad s) s a' k j = Some g) /\
    length (d_fwd d') = S n /\
    writeout_stream (capture sw idx d') =
      (Txt ("EVOLUTION COMPUTATION " ++ str_nat idx ++ nl)%string ::
       part (ds_amps sw) "Ctrl amps" [TAmps a'] ++
       part true "Dynamics Generators" (labelled gen_label 0 (gens_of s a')) ++
       part (ds_prop sw) "Propagators" (labelled prop_label 0 ps) ++
       part (ds_prop_grad sw) "Propagator gradients" (labelled_rows 0 G) ++
       part (ds_fwd sw) "Forward evolution"
         (labelled fwd_label 0 (map (fun k => evolve (firstn k ps) (s_initial s)) (seq 0 n))), None).
Proof.
  intros W RO Ha Fo Hdg Ho1 Ho2 Hpg a' ps.
  destruct (session_ok s n m W RO st a ops Ha Fo) as (d & E & Gd & _).
  destruct (good_evo s n m W RO _ _ Gd) as (d' & b & E' & G' & C' & _).
  assert (PG : exists G, (ds_prop_grad sw = true -> d_pg d' = Some (map (map Some) G) /\ length G = n /\ Forall (fun r => length r = m) G /\
       forall k row j g, nth_error G k = Some row -> nth_error row j = Some g -> dslot (xgrad s) s a' k j = Some g)).
  { destruct (ds_prop_grad sw) eqn:Ep; [|exists []; discriminate].
    destruct (raw_pg s n m W RO _ _ (Hpg eq_refl) G' C') as (G & H). exists G. auto. }
  destruct PG as (G & HG). exists d, d', b, G.
  destruct (good_lens s n m W RO _ _ G') as [Lp Lg].
  pose proof (raw_dg s n m W RO _ _ G' C') as Rg. pose proof (raw_prop s n m W RO _ _ G' C') as Rp.
  pose proof (raw_fwd s n m _ _ G' C') as Rf. pose proof (raw_amps s n m _ _ G') as Ra.
  fold a' in Rg, Rp, Rf, Ra, Lp, Lg. fold ps in Rp, Rf, Lp.
  splits; auto.
  - intros H. apply HG in H. tauto.
  - rewrite Rf, map_length, seq_length. auto.
  - unfold writeout_stream. rewrite then_ok. cbn [fst snd].
    assert (X : sections (capture sw idx d') =
       (if ds_amps sw then [mkSect "ctrl_amps" ("Ctrl amps" ++ nl)%string ([TAmps a'], None)] else []) ++
       [mkSect "dyn_gen" ("Dynamics Generators" ++ nl)%string (labelled gen_label 0 (gens_of s a'), None)] ++
       (if ds_prop sw then [mkSect "prop" ("Propagators" ++ nl)%string (labelled prop_label 0 ps, None)] else []) ++
       (if ds_prop_grad sw then [mkSect "prop_grad" ("Propagator gradients" ++ nl)%string (labelled_rows 0 G, None)] else []) ++
       (if ds_fwd sw then [mkSect "fwd_evo" ("Forward evolution" ++ nl)%string
          (labelled fwd_label 0 (map (fun k => evolve (firstn k ps) (s_initial s)) (seq 0 n)), None)] else [])).
    { assert (PS : forall label os (x : buf A), length os = n ->
         (forall i o, nth_error os i = Some o -> nth_error x i = Some (Some o)) ->
         per_slot label (Some (d_dg d')) (Some x) = (labelled label 0 os, None)).
      { intros label os x L H. rewrite Rg. apply per_slot_ok; [congruence|exact H]. }
      assert (P1 : per_slot gen_label (Some (d_dg d')) (Some (d_dg d')) = (labelled gen_label 0 (gens_of s a'), None)).
      { apply PS; auto. intros i o H. rewrite Rg. now apply nth_map_some. }
      assert (P2 : per_slot prop_label (Some (d_dg d')) (Some (d_prop d')) = (labelled prop_label 0 ps, None)).
      { apply PS; auto. intros i o H. rewrite Rp. now apply nth_map_some. }
      assert (P3 : per_slot fwd_label (Some (d_dg d')) (Some (d_fwd d')) =
          (labelled fwd_label 0 (map (fun k => evolve (firstn k ps) (s_initial s)) (seq 0 n)), None)).
      { apply PS; [now rewrite map_length, seq_length|]. intros i o H. rewrite Rf. pose proof (nth_lt _ _ _ H) as L.
        rewrite map_length, seq_length in L. rewrite nth_seq_map in H by auto. rewrite nth_seq_map by lia. cbn in *. congruence. }
      unfold sections, capture. cbn [it_amps it_dg it_prop it_pg it_fwd it_onwd it_onto]. rewrite Hdg, Ho1, Ho2, Ra.
      cbn [opt_sect]. rewrite !app_nil_r.
      f_equal; [destruct (ds_amps sw); reflexivity|]. f_equal; [f_equal; f_equal; exact P1|]. f_equal; [|f_equal].
      - destruct (ds_prop sw); auto. cbn [opt_sect]. f_equal. f_equal. exact P2.
      - destruct (ds_prop_grad sw); auto. destruct (HG eq_refl) as (-> & _). cbn [opt_sect]. f_equal. f_equal. apply rows_ok.
      - destruct (ds_fwd sw); auto. cbn [opt_sect]. f_equal. f_equal. exact P3. }
    rewrite X. unfold part. destruct (ds_amps sw), (ds_prop sw), (ds_prop_grad sw), (ds_fwd sw);
      cbn -[labelled labelled_rows nl]; rewrite ?app_nil_r; reflexivity.
Qed.

(** Separate files: each holds its own section. *)
Theorem C44_files (i : item A) dir base ext fs :
  Forall (fun x => snd (sc_body x) = None) (sections i) ->
  let '(fs', e) := writeout_kinds dir base ext i fs in
  e = None /\ forall x, In x (sections i) -> fs' (kind_file dir base ext (it_idx i) (sc_file x)) = Some (fst (sc_body x)).
Proof.
  intros H. destruct (writeout_kinds dir base ext i fs) as [fs' e] eqn:E. unfold writeout_kinds in E.
  destruct (write_sections_ok (kind_file dir base ext (it_idx i)) (kind_file_inj dir base ext (it_idx i)) (sections i) fs (sections_nodup i) H) as (I1 & I2 & _).
  rewrite E in I1, I2. cbn in *. auto.
Qed.

(** A section that cannot be written ends it with its exception: what was
    before it is complete, what is after it is not touched. *)
Theorem C44_failed (i : item A) dir base ext fs before x after e :
  sections i = before ++ x :: after -> Forall (fun y => snd (sc_body y) = None) before -> snd (sc_body x) = Some e ->
  let '(fs', e') := writeout_kinds dir base ext i fs in
  e' = Some e /\
  (forall y, In y (before ++ [x]) -> fs' (kind_file dir base ext (it_idx i) (sc_file y)) = Some (fst (sc_body y))) /\
  (forall y, In y after -> fs' (kind_file dir base ext (it_idx i) (sc_file y)) = fs (kind_file dir base ext (it_idx i) (sc_file y))).
Proof.
  intros E F X. pose proof (sections_nodup i) as N. unfold writeout_kinds. rewrite E in *.
  pose proof (kind_file_inj dir base ext (it_idx i)) as J. revert J. generalize (kind_file dir base ext (it_idx i)). intros name J.
  destruct (write_sections name (before ++ x :: after) fs) as [fs' e'] eqn:W. eapply write_sections_fail; eauto.
Qed.
(** The last forward operator, the whole evolution, is not in the file. *)
Theorem C44_last_refuted (gs fwd : list (Op A)) :
  length fwd = S (length gs) ->
  per_slot fwd_label (Some (map Some gs)) (Some (map Some fwd)) = (labelled fwd_label 0 (firstn (length gs) fwd), None).
Proof.
  intros L. apply per_slot_ok.
  - rewrite firstn_length. lia.
  - intros i o H. apply nth_map_some. rewrite <- (firstn_skipn (length gs) fwd), nth_error_app1; auto. eapply nth_lt; eauto.
Qed.

(** With everything dumped, the section of the onto evolution holds forward
    operators; likewise the section of the onward evolution. *)
Theorem C44_onto_refuted (s : settings A) n m st a ops (sw : dsw) idx :
  well_posed s n m -> routines_ok s n m -> shape n m a -> Forall (call_ok s n m) ops ->
  ds_dyn_gen sw = true -> ds_fwd sw = true ->
  let ps := props_of s (latest a ops) in
  let forward := map (fun k => evolve (firstn k ps) (s_initial s)) (seq 0 n) in
  exists d d' b,
    session s st a ops = Ok d /\ compute_evolution d = Ok (d', b) /\
    (s_fid s = FUnit -> ds_onto sw = true ->
       In (mkSect "onto_evo" ("Onto evolution" ++ nl)%string (labelled onto_label 0 forward, None)) (sections (capture sw idx d'))) /\
    (s_fid s = FTrace -> ds_onwd sw = true ->
       In (mkSect "onwd_evo" ("Onward evolution" ++ nl)%string (labelled onwd_label 0 forward, None)) (sections (capture sw idx d'))).
Proof.
  intros W RO Ha Fo Hdg Hf ps forward.
  destruct (session_ok s n m W RO st a ops Ha Fo) as (d & E & Gd & _).
  destruct (good_evo s n m W RO _ _ Gd) as (d' & b & E' & G' & C' & _).
  exists d, d', b.
  destruct (good_lens s n m W RO _ _ G') as [Lp Lg].
  pose proof (raw_dg s n m W RO _ _ G' C') as Rg.
  pose proof (raw_fwd s n m _ _ G' C') as Rf.
  fold ps in Rf.
  assert (P : forall label, per_slot label (Some (map Some (gens_of s (latest a ops))))
     (Some (map (fun k => Some (evolve (firstn k ps) (s_initial s))) (seq 0 (S n)))) = (labelled label 0 forward, None)).
  { intros label. apply per_slot_ok.
    - unfold forward. rewrite map_length, seq_length. auto.
    - unfold forward. intros i o H. pose proof (nth_lt _ _ _ H) as L. rewrite map_length, seq_length in L.
      rewrite nth_seq_map in H by auto. rewrite nth_seq_map by lia. cbn in *. congruence. }
  splits; auto.
  - intros HF Ho. unfold sections, capture. cbn [it_amps it_dg it_prop it_pg it_fwd it_onwd it_onto]. rewrite Hdg, Hf, Ho, Rg, Rf.
    destruct (d_onto d') as [l|] eqn:El; [|destruct (raw_onto s n m _ _ HF G' El)].
    repeat (apply in_or_app; right). cbn [opt_sect]. left. f_equal. apply P.
  - intros HF Ho. unfold sections, capture. cbn [it_amps it_dg it_prop it_pg it_fwd it_onwd it_onto]. rewrite Hdg, Hf, Ho, Rg, Rf.
    destruct (d_onwd d') as [l|] eqn:El; [|destruct (raw_onwd s n m _ _ HF G' El)].
    do 5 (apply in_or_app; right). apply in_or_app; left. cbn [opt_sect]. left. f_equal. apply P.
Qed.

(** Without the generators any other kind of operator fails, and without the
    forward evolution the onto evolution does. *)
Theorem C44_subset_refuted (i : item A) :
  (it_dg i = None -> it_pg i = None -> (it_prop i <> None \/ it_fwd i <> None \/ it_onwd i <> None \/ it_onto i <> None) ->
   snd (writeout_stream i) = Some TypeError) /\
  (forall g p, it_amps i = None -> it_dg i = Some (Some g :: p) -> it_prop i = None -> it_pg i = None ->
     it_fwd i = None -> it_onwd i = None -> it_onto i <> None ->
     snd (stream_sections (skipn 1 (sections i))) = Some TypeError).
Proof.
  destruct i as [idx am dg pr pg fw ow ot]. unfold writeout_stream, sections. cbn [it_amps it_dg it_prop it_pg it_fwd it_onwd it_onto it_idx]. split.
  - intros -> -> H. rewrite then_ok. cbn [snd].
    destruct am, pr, fw, ow, ot; cbn; auto; intuition congruence.
  - intros g p -> -> -> -> -> -> H. destruct ot; [reflexivity|congruence].
Qed.
End C44.

(** The unitary example of PropsEvolution: three slots, one control. *)
Example C44_nonvacuous :
  let s := sc_settings Unitary 3 (Some (PhNum (- Ci)%C : phase ScalarAlg)) Frechet FUnit in
  let sw := mkD (PStr "CUSTOM") true true true true false true false false in
  well_posed s 3 1 /\ routines_ok s 3 1 /\ shape 3 1 [[1%R]; [1%R]; [1%R]] /\
  ds_dyn_gen sw = true /\ ds_onwd sw = false /\ ds_onto sw = false /\ ds_prop_grad sw = false /\
  (exists i : item ScalarAlg, it_dg i = None /\ it_pg i = None /\ it_prop i <> None).
Proof.
  cbv zeta. splits; try reflexivity.
  - apply sc_well_posed; [lia|discriminate].
  - apply sc_routines; discriminate.
  - repeat constructor.
  - exists (mkItem 0 None None (Some []) None None None None). splits; try reflexivity. discriminate.
Qed.

(** Assumptions of all theorems of this file together (listed one by one in
    ASSUMPTIONS.txt). *)
Definition propsDump :=
  (@C42_optim_reports,
   @C42_optim_assign_partial,
   @C42_optim_reject,
   @C42_optim_custom_refuted,
   @C42_optim_custom_partial,
   @C42_optim_switches,
   @C42_dynamics_reports,
   @C42_dynamics_assign_partial,
   @C42_dynamics_reject,
   @C42_dynamics_custom_refuted,
   @C42_dynamics_custom_partial,
   @C42_dynamics_full_refuted,
   @C43_summary,
   @C43_columns,
   @C43_logs,
   @C43_writeout,
   @C43_log_format_refuted,
   @C43_after_clear_refuted,
   @C43_rename_refuted,
   @C43_dynamics,
   @C61_links,
   @C61_one_each,
   @C60_aligned,
   @C61_cleared,
   @C44_evolution_partial,
   @C44_files,
   @C44_failed,
   @C44_last_refuted,
   @C44_onto_refuted,
   @C44_subset_refuted).
Print Assumptions propsDump.
