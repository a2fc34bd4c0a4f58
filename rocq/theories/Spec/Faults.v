(** Vocabulary for C82: objects that go on being used after a call was
    interrupted. *)
From Coq Require Import Reals.
From Verif.Model Require Import Base Dyn Fault.
From Verif.Spec Require Import History.
Local Open Scope nat_scope.

Section Spec.
Context {A : Alg}.

(** An object is created and initialised; then come the calls, each of them
    interrupted after some number of statements or not. *)
Definition faulty_session (s : settings A) (st : bool) (a : amps) (l : list call) : Res (dyn A) :=
  d <- session s st a [];; Ok (m_calls l d).

(** New amplitudes are stored, but something computed for the old ones is
    still marked as current. *)
Definition torn (d d' : dyn A) : Prop :=
  d_amps d <> d_amps d' /\
  (d_evo_cur d' = true \/ f_fid_cur (d_fidst d') = true \/
   f_grad_cur (d_fidst d') = true \/ f_pre_cur (d_fidst d') = true).

(** No call of the history leaves the object like that. *)
Fixpoint untorn (l : list call) (d : dyn A) : Prop :=
  match l with
  | [] => True
  | c :: l' => ~ torn d (m_call c d) /\ untorn l' (m_call c d)
  end.

(** The amplitudes the object can hold after the calls: those of the last
    update that was not interrupted, or of an interrupted one since. *)
Fixpoint may_hold (a : amps) (l : list call) (a' : amps) : Prop :=
  match l with
  | [] => a' = a
  | (UpdateAmps b, None) :: l' => may_hold b l' a'
  | (UpdateAmps b, Some _) :: l' => may_hold a l' a' \/ may_hold b l' a'
  | _ :: l' => may_hold a l' a'
  end.

(** Every query on [d] answers as it does on a new object that is given the
    amplitudes [a]. *)
Definition answers_for (s : settings A) (a : amps) (d : dyn A) : Prop :=
  forall st, exists f, session s st a [] = Ok f /\
  (exists d1 f1 v, get_fid_err d = Ok (d1, v) /\ get_fid_err f = Ok (f1, v)) /\
  (s_fid s = FUnit -> exists d1 f1 v, get_fidelity d = Ok (d1, v) /\ get_fidelity f = Ok (f1, v)) /\
  (s_prop s <> Approx -> exists d1 f1 g, get_fid_err_gradient d = Ok (d1, g) /\ get_fid_err_gradient f = Ok (f1, g)) /\
  (exists d1 b f1 b', compute_evolution d = Ok (d1, b) /\ compute_evolution f = Ok (f1, b') /\
     snd (get_dyn_gen d1) = snd (get_dyn_gen f1) /\ snd (get_prop d1) = snd (get_prop f1) /\
     snd (get_fwd_evo d1) = snd (get_fwd_evo f1)).

End Spec.
