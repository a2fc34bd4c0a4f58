(** Lemmas about Model/Dump.v. *)
From Coq Require Import DecimalString Decimal DecimalNat.
From RecordUpdate Require Import RecordUpdate.
From Verif.Model Require Import Base Str Dyn Dump.
From Verif.Spec Require Import Dumps.
From Verif.Lib Require Import Lists.
Ltac splits := repeat match goal with |- _ /\ _ => split end.
Local Open Scope string_scope.
Local Open Scope list_scope.
Set Bullet Behavior "Strict Subproofs".

(** ** Strings *)
Lemma sapp_nil s : (s ++ "")%string = s.
Proof. induction s; cbn; congruence. Qed.
Lemma sapp_assoc a b c : ((a ++ b) ++ c)%string = (a ++ (b ++ c))%string.
Proof. induction a; cbn; congruence. Qed.
Lemma slen_app a b : String.length (a ++ b)%string = String.length a + String.length b.
Proof. induction a; cbn; auto. Qed.
Lemma sapp_inj_l a b c : (a ++ b)%string = (a ++ c)%string -> b = c.
Proof. induction a; cbn; auto. intros E; injection E; auto. Qed.
Lemma sapp_inj_r a b c : (a ++ c)%string = (b ++ c)%string -> a = b.
Proof.
  revert b. induction a as [|x a IH]; destruct b as [|y b]; cbn; intros E; auto.
  - apply (f_equal String.length) in E. cbn in E. rewrite slen_app in E. lia.
  - apply (f_equal String.length) in E. cbn in E. rewrite slen_app in E. lia.
  - injection E as -> E. f_equal; auto.
Qed.
Lemma str_nat_inj a b : str_nat a = str_nat b -> a = b.
Proof.
  unfold str_nat. intros E. apply (f_equal NilEmpty.uint_of_string) in E. rewrite !NilEmpty.usu in E.
  injection E as E. apply (f_equal Nat.of_uint) in E. now rewrite !Unsigned.of_to in E.
Qed.

Lemma path_join_inj dir b x y :
  path_join dir (b ++ "-" ++ x)%string = path_join dir (b ++ "-" ++ y)%string -> x = y.
Proof.
  assert (K : (b ++ "-" ++ x)%string = (b ++ "-" ++ y)%string -> x = y).
  { intros E. apply sapp_inj_l in E. cbn in E. now injection E. }
  assert (H : String.get 0 (b ++ "-" ++ x)%string = String.get 0 (b ++ "-" ++ y)%string) by (destruct b; reflexivity).
  unfold path_join. rewrite H. destruct (is_slash _); auto. destruct dir as [|c dir]; auto.
  destruct (is_slash _); intros E; apply sapp_inj_l in E; auto. cbn [String.append] in E. injection E as E. auto.
Qed.

(** ** OptimDump *)
Section Logs.
Context {F G : Type}.
Variable fmt : sval F -> string -> string.
Variable plain savetxt1 : F -> string.
Variable savetxt : string -> G -> string.
Notation odump := (odump F G).
Notation ocall := (ocall F G).
Notation orun := (orun fmt plain savetxt1 savetxt).
Notation ostep := (ostep fmt plain savetxt1 savetxt).

Lemma since_snoc (cs : list ocall) c :
  since_clear (cs ++ [c]) = match c with Clear => [] | _ => since_clear cs ++ [c] end.
Proof. unfold since_clear. rewrite fold_left_app. reflexivity. Qed.
Lemma iters_snoc (cs : list ocall) c : iters_of (cs ++ [c]) =
  match c with Clear => [] | AddIter it => iters_of cs ++ [it] | _ => iters_of cs end.
Proof. unfold iters_of. rewrite since_snoc. destruct c; rewrite ?flat_map_app; cbn; rewrite ?app_nil_r; auto. Qed.
Lemma errs_snoc (cs : list ocall) c : errs_of (cs ++ [c]) =
  match c with Clear => [] | LogErr x => errs_of cs ++ [x] | _ => errs_of cs end.
Proof. unfold errs_of. rewrite since_snoc. destruct c; rewrite ?flat_map_app; cbn; rewrite ?app_nil_r; auto. Qed.
Lemma norms_snoc (cs : list ocall) c : norms_of (cs ++ [c]) =
  match c with Clear => [] | LogNorm x => norms_of cs ++ [x] | _ => norms_of cs end.
Proof. unfold norms_of. rewrite since_snoc. destruct c; rewrite ?flat_map_app; cbn; rewrite ?app_nil_r; auto. Qed.
Lemma grads_snoc (cs : list ocall) c : grads_of (cs ++ [c]) =
  match c with Clear => [] | LogGrad x => grads_of cs ++ [x] | _ => grads_of cs end.
Proof. unfold grads_of. rewrite since_snoc. destruct c; rewrite ?flat_map_app; cbn; rewrite ?app_nil_r; auto. Qed.
Lemma orun_snoc cs c s : orun (cs ++ [c]) s = ostep c (orun cs s).
Proof. unfold Dump.orun. now rewrite fold_left_app. Qed.

Lemma number_snoc k (l : list (attrs (F := F))) it :
  number_from k (l ++ [it]) = number_from k l ++ [set_attr "idx" (SInt (k + length l)) it].
Proof.
  revert k. induction l as [|x l IH]; intros k; cbn [number_from app length].
  - now rewrite Nat.add_0_r.
  - rewrite IH. cbn. now rewrite Nat.add_succ_r.
Qed.
Lemma number_length k (l : list (attrs (F := F))) : length (number_from k l) = length l.
Proof. revert k; induction l; cbn; auto. Qed.

Lemma lines_app l l' : all_lines (l ++ l') = (all_lines l ++ all_lines l')%string.
Proof. induction l; cbn; auto. now rewrite IHl, !sapp_assoc. Qed.
Lemma table_snoc cols sep its it : table fmt cols sep (its ++ [it]) = (table fmt cols sep its ++ line_text fmt cols sep it)%string.
Proof.
  unfold table, line_text. rewrite map_app, app_comm_cons, lines_app. cbn [map all_lines]. now rewrite sapp_nil.
Qed.
Lemma table_one cols sep it : table fmt cols sep [it] = head_text fmt cols sep it.
Proof. unfold table, head_text. cbn [map all_lines]. now rewrite sapp_nil. Qed.

(** Writing everything out gives the same table. *)
Lemma fold_text {X} (f : X -> string) l t :
  fold_left (fun t x => (t ++ f x)%string) l t = (t ++ fold_right (fun x u => (f x ++ u)%string) "" l)%string.
Proof. revert t; induction l; intros t; cbn; [now rewrite sapp_nil|]. rewrite IHl. apply sapp_assoc. Qed.
Lemma summary_text_rest cols sep k its : 
  fold_right (fun it u => ((match it "idx"%string with SInt 0 => head_text fmt cols sep it | _ => line_text fmt cols sep it end) ++ u)%string)
    "" (number_from (S k) its) = all_lines (map (value_line fmt cols sep) (number_from (S k) its)).
Proof.
  revert k; induction its as [|it its IH]; intros k; cbn [number_from fold_right map all_lines]; auto.
  rewrite IH. unfold line_text. unfold set_attr at 1. cbn [String.eqb Ascii.eqb Bool.eqb]. now rewrite !sapp_assoc.
Qed.
Lemma summary_text_table cols sep its :
  summary_text fmt cols sep (number_from 0 its) =
  match its with [] => "" | _ => table fmt cols sep (number_from 0 its) end.
Proof.
  unfold summary_text. rewrite fold_text. destruct its as [|it its]; auto.
  cbn [number_from fold_right String.append]. rewrite summary_text_rest.
  unfold table, head_text. unfold set_attr at 1. cbn [map all_lines String.eqb Ascii.eqb Bool.eqb]. now rewrite !sapp_assoc.
Qed.
Lemma txt1_lines l : txt1 savetxt1 l = all_lines (map savetxt1 l).
Proof.
  unfold txt1. rewrite fold_text. cbn [String.append]. induction l; cbn; auto. now rewrite IHl, !sapp_assoc.
Qed.

(** Names of the files. *)
Lemma file_name_inj (d : odump) w w' : file_name d w = file_name d w' -> w = w'.
Proof.
  unfold file_name. intros E. apply path_join_inj in E.
  rewrite <- !sapp_assoc in E. apply sapp_inj_r in E. now apply sapp_inj_r in E.
Qed.
Lemma put_eq p t fs : put p t fs p = Some t.
Proof. unfold put. now rewrite String.eqb_refl. Qed.
Lemma put_ne p q t fs : q <> p -> put p t fs q = fs q.
Proof. unfold put. intros H. apply String.eqb_neq in H. now rewrite H. Qed.

Definition fixed (d0 d : odump) : Prop :=
  od_sw d = od_sw d0 /\ od_write d = od_write d0 /\ od_dir d = od_dir d0 /\ od_ext d = od_ext d0 /\
  od_base d = od_base d0 /\ od_sep d = od_sep d0 /\ od_dsep d = od_dsep d0 /\
  (od_sumfile d = None \/ od_sumfile d = Some (file_name d0 "summary")) /\
  (od_errfile d = None \/ od_errfile d = Some (file_name d0 "fid_err_log")) /\
  (od_gnfile d = None \/ od_gnfile d = Some (file_name d0 "grad_norm_log")).

Lemma fixed_name d0 d w : fixed d0 d -> file_name d w = file_name d0 w.
Proof. intros (_ & _ & E1 & E2 & E3 & _). unfold file_name. now rewrite E1, E2, E3. Qed.
Lemma fixed_sum d0 d d' p : fixed d0 d -> summary_file d = (d', p) -> fixed d0 d' /\ p = file_name d0 "summary" /\
  od_iters d' = od_iters d /\ od_errs d' = od_errs d /\ od_gns d' = od_gns d /\ od_grads d' = od_grads d.
Proof.
  intros H E. unfold summary_file in E. pose proof (fixed_name _ _ "summary" H) as N.
  destruct H as (H1 & H2 & H3 & H4 & H5 & H6 & H7 & [H8|H8] & H9 & H10); rewrite H8 in E; injection E as <- <-.
  - unfold fixed. cbn. splits; auto. right. now rewrite <- N.
  - unfold fixed. splits; auto.
Qed.
Lemma fixed_err d0 d d' p : fixed d0 d -> fid_err_file d = (d', p) -> fixed d0 d' /\ p = file_name d0 "fid_err_log" /\
  od_iters d' = od_iters d /\ od_errs d' = od_errs d /\ od_gns d' = od_gns d /\ od_grads d' = od_grads d.
Proof.
  intros H E. unfold fid_err_file in E. pose proof (fixed_name _ _ "fid_err_log" H) as N.
  destruct H as (H1 & H2 & H3 & H4 & H5 & H6 & H7 & H8 & [H9|H9] & H10); rewrite H9 in E; injection E as <- <-.
  - unfold fixed. cbn. splits; auto. right. now rewrite <- N.
  - unfold fixed. splits; auto.
Qed.
Lemma fixed_gn d0 d d' p : fixed d0 d -> grad_norm_file d = (d', p) -> fixed d0 d' /\ p = file_name d0 "grad_norm_log" /\
  od_iters d' = od_iters d /\ od_errs d' = od_errs d /\ od_gns d' = od_gns d /\ od_grads d' = od_grads d.
Proof.
  intros H E. unfold grad_norm_file in E. pose proof (fixed_name _ _ "grad_norm_log" H) as N.
  destruct H as (H1 & H2 & H3 & H4 & H5 & H6 & H7 & H8 & H9 & [H10|H10]); rewrite H10 in E; injection E as <- <-.
  - unfold fixed. cbn. splits; auto. right. now rewrite <- N.
  - unfold fixed. splits; auto.
Qed.

Record LInv (d0 : odump) (cs : list ocall) (s : odump * files) : Prop := {
  li_fix : fixed d0 (fst s);
  li_iters : od_iters (fst s) = number_from 0 (iters_of cs);
  li_errs : od_errs (fst s) = errs_of cs;
  li_gns : od_gns (fst s) = norms_of cs;
  li_grads : od_grads (fst s) = grads_of cs;
  li_sumtext : od_write d0 = true -> iters_of cs <> [] ->
    snd s (file_name d0 "summary") = Some (table fmt optim_cols (od_sep d0) (number_from 0 (iters_of cs)));
  li_errtext : od_write d0 = true -> ~ In Writeout cs -> errs_of cs <> [] ->
    snd s (file_name d0 "fid_err_log") = Some (all_lines (map plain (errs_of cs)));
  li_gntext : od_write d0 = true -> ~ In Writeout cs -> norms_of cs <> [] ->
    snd s (file_name d0 "grad_norm_log") = Some (all_lines (map plain (norms_of cs)));
  li_gradtext : od_write d0 = true -> forall k g, nth_error (grads_of cs) k = Some g ->
    snd s (grad_file d0 (S k)) = Some (savetxt (od_dsep d0) g);
}.

Lemma not_in_snoc {X} (x : X) l y : ~ In x (l ++ [y]) -> ~ In x l /\ x <> y.
Proof. intros H. split; intros K; apply H; apply in_or_app; cbn; auto. Qed.

Lemma nth_snoc {X} (l : list X) y k x : nth_error (l ++ [y]) k = Some x ->
  nth_error l k = Some x \/ (k = length l /\ x = y).
Proof.
  intros H. destruct (Nat.lt_ge_cases k (length l)).
  - rewrite nth_error_app1 in H; auto.
  - rewrite nth_error_app2 in H by auto. right. destruct (k - length l) as [|j] eqn:E; cbn in H.
    + injection H as <-. split; auto. lia.
    + destruct j; discriminate.
Qed.

(** Writing all the gradients. *)
Lemma write_grads_spec (d : odump) gs : forall k fs p,
  write_grads savetxt d k gs fs p = fs p \/ exists j, p = grad_file d j.
Proof.
  induction gs as [|g gs IH]; intros k fs p; cbn; auto.
  destruct (IH (S k) (write (grad_file d (S k)) (savetxt (od_dsep d) g) fs) p) as [E|E]; auto. rewrite E.
  destruct (String.eqb_spec p (grad_file d (S k))) as [->|N]; [eauto|]. left. now apply put_ne.
Qed.
Lemma grad_file_inj (d : odump) i j : grad_file d i = grad_file d j -> i = j.
Proof. unfold grad_file. intros E. apply file_name_inj, sapp_inj_l in E. now apply str_nat_inj. Qed.
Lemma write_grads_before (d : odump) gs : forall k fs i, i <= k ->
  write_grads savetxt d k gs fs (grad_file d i) = fs (grad_file d i).
Proof.
  induction gs as [|g gs IH]; intros k fs i H; cbn; auto.
  rewrite IH by lia. apply put_ne. intros E. apply grad_file_inj in E. lia.
Qed.
Lemma write_grads_at (d : odump) gs : forall k fs i g, nth_error gs i = Some g ->
  write_grads savetxt d k gs fs (grad_file d (S (k + i))) = Some (savetxt (od_dsep d) g).
Proof.
  induction gs as [|g0 gs IH]; intros k fs [|i] g E; try discriminate; cbn in *.
  - injection E as ->. rewrite Nat.add_0_r. rewrite write_grads_before by lia. apply put_eq.
  - rewrite <- (IH (S k) (write (grad_file d (S k)) (savetxt (od_dsep d) g0) fs) i g E). do 2 f_equal. lia.
Qed.
Lemma grad_not (d : odump) j w : (w = "summary" \/ w = "fid_err_log" \/ w = "grad_norm_log")%string -> file_name d w <> grad_file d j.
Proof. unfold grad_file. intros H E. apply file_name_inj in E. destruct H as [->|[->| ->]]; discriminate. Qed.

Lemma linv_start d fs : fresh d -> LInv d [] (d, fs).
Proof.
  intros (E1 & E2 & E3 & E4 & E5 & E6 & E7). constructor; cbn; auto; try congruence.
  - unfold fixed. splits; auto.
  - intros _ [|k] g; discriminate.
Qed.

Lemma fixed_grad d0 d k : fixed d0 d -> grad_file d k = grad_file d0 k.
Proof. intros H. unfold grad_file. now apply fixed_name. Qed.

Ltac names := first
  [ intros Enm; apply file_name_inj in Enm; discriminate
  | apply grad_not; auto; fail
  | intros Enm; symmetry in Enm; revert Enm; apply grad_not; auto; fail ].

Ltac keepers := try solve [match goal with H : ?x = _ |- _ = ?x _ => idtac | H : _ = ?y |- ?a = ?y => exact H || (etransitivity; [eassumption|]; exact H) end].

Lemma linv_step d0 cs c s : LInv d0 cs s -> LInv d0 (cs ++ [c]) (ostep c s).
Proof.
  destruct s as [d fs]. intros [Fx Ei Ee En Eg Ts Te Tn Tg]. cbn [fst snd] in *.
  pose proof Fx as (Fsw & Fw & _ & _ & _ & Fsep & Fdsep & _).
  destruct c as [it|x|x|g| |]; cbn [Dump.ostep].
  - (* AddIter *)
    unfold add_iter_summary. cbn [od_write].
    set (d1 := d <| od_iters := _ |>).
    assert (F1 : fixed d0 d1) by exact Fx.
    assert (W1 : od_write d1 = od_write d0) by exact Fw. rewrite W1.
    assert (I1 : od_iters d1 = number_from 0 (iters_of (cs ++ [AddIter it]))).
    { rewrite iters_snoc, number_snoc. cbn. now rewrite Ei, number_length. }
    destruct (od_write d0) eqn:W.
    + destruct (summary_file d1) as [d2 p] eqn:S. destruct (fixed_sum _ _ _ _ F1 S) as (F2 & -> & J1 & J2 & J3 & J4).
      assert (Sep : od_sep d2 = od_sep d0) by apply F2. rewrite Sep.
      constructor; cbn [fst snd]; auto; rewrite ?errs_snoc, ?norms_snoc, ?grads_snoc; cbv beta iota; try congruence; keepers.
      * intros _ _. rewrite iters_snoc, number_snoc. cbn [Nat.add]. rewrite Ei, number_length.
        destruct (iters_of cs) as [|i0 l] eqn:L.
        -- cbn [length Nat.eqb number_from app]. unfold write. rewrite put_eq. now rewrite table_one.
        -- cbn [length Nat.eqb]. unfold append. rewrite put_eq. rewrite Ts by (auto; discriminate). now rewrite table_snoc.
      * intros _ N. apply not_in_snoc in N as [N _]. intros H. rewrite <- (Te eq_refl N H).
        destruct (_ =? 0)%nat; unfold write, append; apply put_ne; names.
      * intros _ N. apply not_in_snoc in N as [N _]. intros H. rewrite <- (Tn eq_refl N H).
        destruct (_ =? 0)%nat; unfold write, append; apply put_ne; names.
      * intros _ k g H. rewrite <- (Tg eq_refl k g H). destruct (_ =? 0)%nat; unfold write, append; apply put_ne; names.
    + constructor; cbn [fst snd]; auto; rewrite ?errs_snoc, ?norms_snoc, ?grads_snoc; cbv beta iota; try congruence; keepers.
  - (* LogErr *)
    unfold update_fid_err_log. set (d1 := d <| od_errs := _ |>).
    assert (F1 : fixed d0 d1) by exact Fx.
    assert (W1 : od_write d1 = od_write d0) by exact Fw. rewrite W1.
    assert (I1 : od_errs d1 = errs_of (cs ++ [LogErr x])) by (rewrite errs_snoc; cbn; now rewrite Ee).
    destruct (od_write d0) eqn:W.
    + destruct (fid_err_file d1) as [d2 p] eqn:S. destruct (fixed_err _ _ _ _ F1 S) as (F2 & -> & J1 & J2 & J3 & J4).
      rewrite J2, I1.
      constructor; cbn [fst snd]; auto; rewrite ?iters_snoc, ?norms_snoc, ?grads_snoc; cbv beta iota; try congruence; keepers.
      * intros _ H. rewrite <- (Ts eq_refl H). destruct (_ =? 1)%nat; unfold write, append; apply put_ne; names.
      * intros _ N. apply not_in_snoc in N as [N _]. intros _. rewrite errs_snoc, app_length, map_app, lines_app.
        cbn [length map all_lines]. rewrite sapp_nil. destruct (errs_of cs) as [|e l] eqn:L.
        -- cbn. unfold write. now rewrite put_eq.
        -- replace (length (e :: l) + 1 =? 1)%nat with false by (symmetry; apply Nat.eqb_neq; cbn; lia).
           unfold append. rewrite put_eq. rewrite Te by (auto; discriminate). reflexivity.
      * intros _ N. apply not_in_snoc in N as [N _]. intros H. rewrite <- (Tn eq_refl N H).
        destruct (_ =? 1)%nat; unfold write, append; apply put_ne; names.
      * intros _ k g H. rewrite <- (Tg eq_refl k g H). destruct (_ =? 1)%nat; unfold write, append; apply put_ne; names.
    + constructor; cbn [fst snd]; auto; rewrite ?iters_snoc, ?norms_snoc, ?grads_snoc; cbv beta iota; try congruence; keepers.
  - (* LogNorm *)
    unfold update_grad_norm_log. set (d1 := d <| od_gns := _ |>).
    assert (F1 : fixed d0 d1) by exact Fx.
    assert (W1 : od_write d1 = od_write d0) by exact Fw. rewrite W1.
    assert (I1 : od_gns d1 = norms_of (cs ++ [LogNorm x])) by (rewrite norms_snoc; cbn; now rewrite En).
    destruct (od_write d0) eqn:W.
    + destruct (grad_norm_file d1) as [d2 p] eqn:S. destruct (fixed_gn _ _ _ _ F1 S) as (F2 & -> & J1 & J2 & J3 & J4).
      rewrite J3, I1.
      constructor; cbn [fst snd]; auto; rewrite ?iters_snoc, ?errs_snoc, ?grads_snoc; cbv beta iota; try congruence; keepers.
      * intros _ H. rewrite <- (Ts eq_refl H). destruct (_ =? 1)%nat; unfold write, append; apply put_ne; names.
      * intros _ N. apply not_in_snoc in N as [N _]. intros H. rewrite <- (Te eq_refl N H).
        destruct (_ =? 1)%nat; unfold write, append; apply put_ne; names.
      * intros _ N. apply not_in_snoc in N as [N _]. intros _. rewrite norms_snoc, app_length, map_app, lines_app.
        cbn [length map all_lines]. rewrite sapp_nil. destruct (norms_of cs) as [|e l] eqn:L.
        -- cbn. unfold write. now rewrite put_eq.
        -- replace (length (e :: l) + 1 =? 1)%nat with false by (symmetry; apply Nat.eqb_neq; cbn; lia).
           unfold append. rewrite put_eq. rewrite Tn by (auto; discriminate). reflexivity.
      * intros _ k g H. rewrite <- (Tg eq_refl k g H). destruct (_ =? 1)%nat; unfold write, append; apply put_ne; names.
    + constructor; cbn [fst snd]; auto; rewrite ?iters_snoc, ?errs_snoc, ?grads_snoc; cbv beta iota; try congruence; keepers.
  - (* LogGrad *)
    unfold update_grad_log. set (d1 := d <| od_grads := _ |>).
    assert (F1 : fixed d0 d1) by exact Fx.
    assert (W1 : od_write d1 = od_write d0) by exact Fw. rewrite W1.
    assert (I1 : od_grads d1 = grads_of (cs ++ [LogGrad g])) by (rewrite grads_snoc; cbn; now rewrite Eg).
    destruct (od_write d0) eqn:W.
    + rewrite (fixed_grad _ _ _ F1), I1.
      assert (Ds : od_dsep d1 = od_dsep d0) by apply F1. rewrite Ds.
      constructor; cbn [fst snd]; auto; rewrite ?iters_snoc, ?errs_snoc, ?norms_snoc; cbv beta iota; try congruence; keepers.
      * intros _ H. rewrite <- (Ts eq_refl H). unfold write; apply put_ne; names.
      * intros _ N. apply not_in_snoc in N as [N _]. intros H. rewrite <- (Te eq_refl N H). unfold write; apply put_ne; names.
      * intros _ N. apply not_in_snoc in N as [N _]. intros H. rewrite <- (Tn eq_refl N H). unfold write; apply put_ne; names.
      * intros _ k h H. rewrite grads_snoc in *. rewrite app_length in *. cbn [length] in *.
        unfold write. destruct (nth_snoc _ _ _ _ H) as [H'|[-> ->]].
        -- rewrite put_ne; [now apply Tg|]. intros E. apply grad_file_inj in E. apply nth_lt in H'. lia.
        -- replace (length (grads_of cs) + 1) with (S (length (grads_of cs))) by lia. apply put_eq.
    + constructor; cbn [fst snd]; auto; rewrite ?iters_snoc, ?errs_snoc, ?norms_snoc; cbv beta iota; try congruence; keepers.
  - (* Clear *)
    unfold clear_log. constructor; cbn [fst snd]; rewrite ?iters_snoc, ?errs_snoc, ?norms_snoc, ?grads_snoc; cbn; auto; try congruence.
    intros _ [|k] g; discriminate.
  - (* Writeout *)
    assert (X : forall s', LInv d0 (cs ++ [Writeout]) s' -> LInv d0 (cs ++ [Writeout]) s') by auto.
    unfold writeout.
    (* summary *)
    destruct (if o_summary (od_sw d) then _ else (d, fs)) as [d1 fs1] eqn:E1.
    assert (P1 : fixed d0 d1 /\ od_iters d1 = od_iters d /\ od_errs d1 = od_errs d /\ od_gns d1 = od_gns d /\ od_grads d1 = od_grads d /\
       (od_write d0 = true -> iters_of cs <> [] -> fs1 (file_name d0 "summary") = fs (file_name d0 "summary")) /\
       (forall p, p <> file_name d0 "summary" -> fs1 p = fs p)).
    { destruct (o_summary (od_sw d)).
      - destruct (summary_file d) as [d2 p] eqn:S. destruct (fixed_sum _ _ _ _ Fx S) as (F2 & -> & J1 & J2 & J3 & J4).
        injection E1 as <- <-. splits; auto.
        + intros W H. rewrite (Ts W H). unfold write. rewrite put_eq. rewrite J1, Ei, summary_text_table.
          assert (Sep : od_sep d2 = od_sep d0) by apply F2. rewrite Sep. destruct (iters_of cs); [contradiction|reflexivity].
        + intros p H. now apply put_ne.
      - injection E1 as <- <-. splits; auto. }
    destruct P1 as (F1 & A1 & A2 & A3 & A4 & A5 & A6). clear E1.
    (* fid_err *)
    destruct (if o_fid_err (od_sw d1) then _ else (d1, fs1)) as [d2 fs2] eqn:E2.
    assert (P2 : fixed d0 d2 /\ od_iters d2 = od_iters d1 /\ od_errs d2 = od_errs d1 /\ od_gns d2 = od_gns d1 /\ od_grads d2 = od_grads d1 /\
       (forall p, p <> file_name d0 "fid_err_log" -> fs2 p = fs1 p)).
    { destruct (o_fid_err (od_sw d1)).
      - destruct (fid_err_file d1) as [d3 p] eqn:S. destruct (fixed_err _ _ _ _ F1 S) as (F3 & -> & J1 & J2 & J3 & J4).
        injection E2 as <- <-. splits; auto. intros p H. now apply put_ne.
      - injection E2 as <- <-. splits; auto. }
    destruct P2 as (F2 & B1 & B2 & B3 & B4 & B5). clear E2.
    (* norms *)
    destruct (if o_grad_norm (od_sw d2) then _ else (d2, fs2)) as [d3 fs3] eqn:E3.
    assert (P3 : fixed d0 d3 /\ od_iters d3 = od_iters d2 /\ od_errs d3 = od_errs d2 /\ od_gns d3 = od_gns d2 /\ od_grads d3 = od_grads d2 /\
       (forall p, p <> file_name d0 "grad_norm_log" -> fs3 p = fs2 p)).
    { destruct (o_grad_norm (od_sw d2)).
      - destruct (grad_norm_file d2) as [d4 p] eqn:S. destruct (fixed_gn _ _ _ _ F2 S) as (F4 & -> & J1 & J2 & J3 & J4).
        injection E3 as <- <-. splits; auto. intros p H. now apply put_ne.
      - injection E3 as <- <-. splits; auto. }
    destruct P3 as (F3 & C1 & C2 & C3 & C4 & C5). clear E3.
    assert (NW : ~ In Writeout (cs ++ [Writeout]) -> False) by (intros N; apply N; apply in_or_app; cbn; auto).
    assert (SUM : fs3 (file_name d0 "summary") = fs1 (file_name d0 "summary")).
    { rewrite C5, B5; auto; names. }
    assert (GR : forall k, fs3 (grad_file d0 k) = fs (grad_file d0 k)).
    { intros k. rewrite C5, B5, A6; auto; names. }
    destruct (o_grad (od_sw d3)).
    + constructor; cbn [fst snd]; rewrite ?iters_snoc, ?errs_snoc, ?norms_snoc, ?grads_snoc; cbv beta iota;
        [exact F3 | congruence | congruence | congruence | congruence | | intros _ N; destruct (NW N) | intros _ N; destruct (NW N) | ].
      * intros W H. destruct (write_grads_spec d3 (od_grads d3) 0 fs3 (file_name d0 "summary")) as [-> | [j E]].
        -- rewrite SUM, A5; auto.
        -- exfalso. rewrite (fixed_grad _ _ _ F3) in E. revert E. apply grad_not; auto.
      * intros W k g H. rewrite <- (fixed_grad _ _ _ F3). rewrite <- (Nat.add_0_l k).
        assert (Ds : od_dsep d3 = od_dsep d0) by apply F3. rewrite <- Ds.
        apply write_grads_at. congruence.
    + constructor; cbn [fst snd]; rewrite ?iters_snoc, ?errs_snoc, ?norms_snoc, ?grads_snoc; cbv beta iota;
        [exact F3 | congruence | congruence | congruence | congruence | | intros _ N; destruct (NW N) | intros _ N; destruct (NW N) | ].
      * intros W H. rewrite SUM, A5; auto.
      * intros W k g H. rewrite GR. auto.
Qed.

Lemma linv_run d fs cs : fresh d -> LInv d cs (orun cs (d, fs)).
Proof.
  intros Fr. induction cs as [|c cs IH] using rev_ind; [now apply linv_start|].
  rewrite orun_snoc. now apply linv_step.
Qed.
End Logs.
