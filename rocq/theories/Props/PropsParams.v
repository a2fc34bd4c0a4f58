(** C46: parameter files. *)
From Coq Require Import Reals.
From Coquelicot Require Import Complex.
From Verif.Model Require Import LoadParams.
From Verif.Spec Require Import Params.
From Verif.Proofs Require Import ParamFacts.
Set Bullet Behavior "Strict Subproofs".

Section Props.
Variable py_eval : string -> Res pyval.
Variable to_float : string -> option R.
Variable to_int : string -> option Z.
Variable to_complex : string -> option C.
Variable as_list : pyval -> Res (list pyval).
Variable as_array : nat -> pyval -> Res (list pyval).
Variable as_qobj : pyval -> Res (list pyval).
Notation load_parameters := (load_parameters py_eval to_float to_int to_complex as_list as_array as_qobj).
Notation load_section := (load_section py_eval to_float to_int to_complex as_list as_array as_qobj).
Notation section_effect := (section_effect py_eval to_float to_int to_complex as_list as_array as_qobj).
Notation reads := (reads py_eval to_float to_int to_complex as_list as_array as_qobj).

(** What one of the passed objects is afterwards: its own section decides. *)
Definition object_effect (f : file) (s : string) (before after : option obj) : Prop :=
  match before, after with
  | None, None => True
  | Some o, Some o' =>
    match options f s with
    | None => o' = o
    | Some opts => no_dup_names opts /\ section_effect opts o o'
    end
  | _, _ => False
  end.

Lemma load_object f g s o : read_file f = Ok g -> object_effect g s o (option_map (load_section g s) o).
Proof.
  intros R. destruct o as [o|]; cbn; auto. unfold LoadParams.load_section. destruct (options g s) as [l|] eqn:E; auto.
  assert (N : no_dup_names l) by (eapply options_nodup; eauto). split; auto. now apply load_options_effect.
Qed.

(** Every object passed gets exactly what its section says, up to the first
    option that does not fit; the outcome for one object does not depend on
    the others. *)
Theorem C46_load f g t name t' e :
  read_file f = Ok g -> load_parameters (Some f) t name = (t', e) ->
  object_effect g "optimconfig" (t_config t) (t_config t') /\
  object_effect g "termconds" (t_term_conds t) (t_term_conds t') /\
  object_effect g "dynamics" (t_dynamics t) (t_dynamics t') /\
  object_effect g "optimizer" (t_optim t) (t_optim t') /\
  object_effect g "pulsegen" (t_pulsegen t) (t_pulsegen t') /\
  match name with
  | Some s => e = None /\ object_effect g s (t_obj t) (t_obj t')
  | None => t_obj t' = t_obj t /\ (e = None <-> t_obj t = None)
  end.
Proof.
  intros R H. unfold LoadParams.load_parameters in H. rewrite R in H. cbn [t_obj] in H.
  pose proof (load_object f g "optimconfig" (t_config t) R).
  pose proof (load_object f g "termconds" (t_term_conds t) R).
  pose proof (load_object f g "dynamics" (t_dynamics t) R).
  pose proof (load_object f g "optimizer" (t_optim t) R).
  pose proof (load_object f g "pulsegen" (t_pulsegen t) R).
  destruct (t_obj t) as [o|] eqn:Eo.
  - destruct name as [s|].
    + pose proof (load_object f g s (Some o) R). injection H as <- <-. cbn [t_config t_term_conds t_dynamics t_optim t_pulsegen t_obj].
      repeat split; auto.
    + injection H as <- <-. cbn [t_config t_term_conds t_dynamics t_optim t_pulsegen t_obj]. repeat split; auto; discriminate.
  - injection H as <- <-. cbn [t_config t_term_conds t_dynamics t_optim t_pulsegen t_obj].
    destruct name; repeat split; auto.
Qed.

(** A missing or malformed file raises and changes nothing. *)
Theorem C46_missing t name :
  load_parameters None t name = (t, Some ValueError) /\
  forall f e, read_file f = Raise e -> load_parameters (Some f) t name = (t, Some e).
Proof. split; auto. intros f e R. unfold LoadParams.load_parameters. now rewrite R. Qed.

(** Values read for attributes that hold an integer, truth value, complex
    number, list, array or Qobj are of the same kind.  Missing: floats, text
    and the rest, where it is false (below). *)
Theorem C46_types_partial k val v :
  reads k val v ->
  match k with KInt | KBool | KComplex | KList | KArr _ | KQobj => kind_of v = k | _ => True end.
Proof.
  intros H. destruct H as [| | | | | | | |k s x Hk E|k s b Hk E1 E2|k s Hk E1 E2]; cbn; auto;
    destruct Hk as [->|[->|[? ->]]]; exact I.
Qed.
(** A text that Python evaluates to a list ends up in a float attribute. *)
Theorem C46_float_refuted val l :
  to_float val = None -> py_eval val = Ok (VList l) ->
  exists v, reads KFloat val v /\ kind_of v = KList.
Proof. intros A B. exists (VList l). split; auto. now apply ReadFloatExpr. Qed.
(** A text attribute whose new value looks like a number becomes a float. *)
Theorem C46_text_refuted val x :
  to_float val = Some x -> forall v, reads KStr val v -> v = VFloat x.
Proof.
  intros E v H. inversion H; subst; congruence.
Qed.

(** A value that cannot be read for its attribute is refused with a
    ValueError, whatever went wrong when it was evaluated, and the only other
    errors are those of the file and of the assignment. *)
Theorem C46_bad_value v n o e :
  set_param py_eval to_float to_int to_complex as_list as_array as_qobj v n o = Raise e ->
  v = Raise e \/ (e = AttributeError /\ readonly o n = true) \/
  (e = ValueError /\ exists s old, v = Ok s /\ attrs o n = Some old /\ forall w, ~ reads (kind_of old) s w).
Proof.
  unfold set_param. destruct v as [s|x]; cbn [bind]; [|intros H; injection H as <-; now left].
  destruct (attrs o n) as [old|] eqn:Eo; [|discriminate].
  destruct (convert py_eval to_float to_int to_complex as_list as_array as_qobj old s) as [w|x] eqn:Ec; cbn [bind].
  - unfold setattr. destruct (readonly o n) eqn:Er; [|discriminate]. intros H. injection H as <-. auto.
  - intros H. injection H as <-. right. right. split.
    + destruct old; cbn in Ec; unfold or_value_error, of_opt in Ec;
        repeat match goal with
        | H : match ?m with _ => _ end = Raise _ |- _ => destruct m; cbn [bind] in H
        | H : bind ?m _ = Raise _ |- _ => destruct m eqn:?; cbn [bind] in H
        end; congruence.
    + exists s, old. split; auto. split; auto. intros w R. apply convert_reads in R. congruence.
Qed.

(** Options of every spelling count as their lower-case name: an attribute
    with a capital letter in its name is never set. *)
Theorem C46_lower_case f t name t' e a :
  load_parameters (Some f) t name = (t', e) -> lower a <> a ->
  forall sel, In sel [t_config; t_term_conds; t_dynamics; t_optim; t_pulsegen; t_obj] ->
  forall o, sel t = Some o -> exists o', sel t' = Some o' /\ attrs o' a = attrs o a.
Proof.
  intros H Ha sel Hs o Ho. destruct (read_file f) as [g|x] eqn:R.
  2:{ unfold LoadParams.load_parameters in H. rewrite R in H. injection H as <- <-. eauto. }
  assert (P : forall s b c, object_effect g s b c -> b = Some o -> exists o', c = Some o' /\ attrs o' a = attrs o a).
  { intros s b c O ->. unfold object_effect in O. destruct c as [o'|]; [|destruct O]. exists o'. split; auto.
    destruct (options g s) as [l|] eqn:E; [|congruence]. destruct O as [_ (d & r & -> & _ & _ & _ & L)].
    specialize (L a). unfold loaded in L. destruct (lookup a d) as [w|] eqn:Lk; [|exact L].
    exfalso. apply Ha. apply lookup_in in Lk. eapply options_lower; [exact R|exact E|].
    apply in_app_iff. left; exact Lk. }
  destruct (C46_load f g t name t' e R H) as (A1 & A2 & A3 & A4 & A5 & A6).
  repeat (destruct Hs as [<-|Hs]; [|]); [eapply P; eauto .. | | destruct Hs].
  destruct name as [s|]; [destruct A6 as [_ A6]; eapply P; eauto|]. destruct A6 as [-> _]. eauto.
Qed.
End Props.

(** Names and truth values ignore the case of the 26 letters and of nothing
    else. *)
Theorem C46_case c : nat_of_ascii (lower_char c) =
  if (Nat.leb 65 (nat_of_ascii c) && Nat.leb (nat_of_ascii c) (64 + 26))%bool then nat_of_ascii c + 32 else nat_of_ascii c.
Proof. destruct c as [b0 b1 b2 b3 b4 b5 b6 b7]. destruct b0, b1, b2, b3, b4, b5, b6, b7; reflexivity. Qed.
Theorem C46_case_text s k : nth_error (list_ascii_of_string (lower s)) k = option_map lower_char (nth_error (list_ascii_of_string s) k).
Proof. revert k. induction s as [|c s IH]; intros [|k]; cbn; auto. Qed.

(** The words for true and false. *)
Theorem C46_booleans pe tf ti tc al aa aq s b : reads pe tf ti tc al aa aq KBool s (VBool b) <->
  In (lower s) (if b then ["1"; "yes"; "true"; "on"] else ["0"; "no"; "false"; "off"])%string.
Proof.
  assert (E : reads pe tf ti tc al aa aq KBool s (VBool b) <-> to_bool s = Some b).
  { split; [|intros H; now constructor]. intros H. inversion H; subst; auto;
    match goal with X : _ \/ _ \/ _ |- _ => destruct X as [X|[X|[? X]]]; discriminate end. }
  rewrite E. unfold to_bool. generalize (lower s). clear. intros l.
  assert (X : forall w, existsb (String.eqb l) w = true <-> In l w).
  { intros w. rewrite existsb_exists. split; [intros (x & I & Ex); apply String.eqb_eq in Ex as ->; auto|intros I; exists l; split; auto; apply String.eqb_refl]. }
  destruct b.
  - rewrite <- X. destruct (existsb _ _); [tauto|]. destruct (existsb _ _); split; discriminate.
  - split; [|intros I; cbn in I; repeat destruct I as [<-|I]; [reflexivity..|destruct I]].
    destruct (existsb _ _); [discriminate|]. intros H. apply X. destruct (existsb _ _); [reflexivity|discriminate].
Qed.
Example C46_booleans_nonvacuous : lower "On" = "on"%string /\ lower "OFF" = "off"%string.
Proof. split; reflexivity. Qed.

(** A concrete reader, file and object. *)
Definition demo_float (s : string) : option R := if String.eqb s "2.5" then Some (5 / 2)%R else None.
Definition demo_int (s : string) : option Z := if String.eqb s "7" then Some 7%Z else None.
Definition demo_eval (s : string) : Res pyval := if String.eqb s "[7]" then Ok (VList [VInt 7]) else Raise NameError.
Definition demo_file : file :=
  [("dynamics", [("Num_Tslots", Ok "7"); ("unknown", Ok "1"); ("evo_time", Ok "2.5"); ("label", Ok "yes");
                 ("drift_dim", Ok "seven"); ("late", Ok "7")]);
   ("optimizer", [("late", Ok "7")])]%string.
Definition demo_obj : obj :=
  mkObj (fun a => if String.eqb a "num_tslots" then Some (VInt 10)
                  else if String.eqb a "evo_time" then Some (VFloat 1)
                  else if String.eqb a "label" then Some (VStr "run")
                  else if String.eqb a "drift_dim" then Some (VInt 2)
                  else if String.eqb a "late" then Some (VInt 0)
                  else None) (fun _ => false).
Definition demo_load :=
  load_parameters demo_eval demo_float demo_int (fun _ => None) (fun _ => Ok []) (fun _ _ => Ok []) (fun _ => Ok [])
    (Some demo_file) (mkTargets None None (Some demo_obj) (Some demo_obj) None None) None.
Example C46_load_nonvacuous :
  read_file demo_file = Ok (map (fun '(n, s) => (n, lower_names s)) demo_file) /\ snd demo_load = None /\
  exists d o, t_dynamics (fst demo_load) = Some d /\ t_optim (fst demo_load) = Some o /\
    attrs d "num_tslots" = Some (VInt 7) /\ attrs d "evo_time" = Some (VFloat (5 / 2)) /\
    attrs d "label" = Some (VBool true) /\ attrs d "drift_dim" = Some (VInt 2) /\
    attrs d "late" = Some (VInt 0) /\ attrs d "unknown" = None /\ attrs o "late" = Some (VInt 7).
Proof. split; [reflexivity|]. split; [reflexivity|]. do 2 eexists. repeat split; reflexivity. Qed.
Example C46_missing_nonvacuous : read_file [("dynamics", [("A", Ok "1"); ("a", Ok "2")])]%string = Raise RuntimeError.
Proof. reflexivity. Qed.
Example C46_types_nonvacuous :
  reads demo_eval demo_float demo_int (fun _ => None) (fun _ => Ok []) (fun _ _ => Ok []) (fun _ => Ok []) KInt "7" (VInt 7).
Proof. now constructor. Qed.
Example C46_float_nonvacuous : demo_float "[7]" = None /\ demo_eval "[7]" = Ok (VList [VInt 7]).
Proof. split; reflexivity. Qed.
Example C46_text_nonvacuous :
  reads demo_eval demo_float demo_int (fun _ => None) (fun _ => Ok []) (fun _ _ => Ok []) (fun _ => Ok []) KStr "2.5" (VFloat (5 / 2)).
Proof. apply ReadAnyFloat; auto. Qed.
Example C46_lower_nonvacuous : lower "Num_Tslots" <> "Num_Tslots"%string /\ lower "Num_Tslots" = "num_tslots"%string.
Proof. split; [discriminate|reflexivity]. Qed.

(** Assumptions of all theorems of this file together (listed one by one in
    ASSUMPTIONS.txt). *)
Definition propsParams :=
  (@C46_load,
   @C46_missing,
   @C46_types_partial,
   @C46_float_refuted,
   @C46_text_refuted,
   @C46_bad_value,
   @C46_lower_case,
   @C46_case,
   @C46_case_text,
   @C46_booleans).
Print Assumptions propsParams.
