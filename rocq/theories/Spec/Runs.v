(** Histories of an optimiser and what may be asked of one run. *)
From Coq Require Import Reals.
From RecordUpdate Require Import RecordUpdate.
From Verif.Model Require Import Base Dyn OptRun.
From Verif.Spec Require Import Evolution History Stopping.
Local Open Scope nat_scope.

Section Spec.
Context {A : Alg} {G : Type}.
Variable s : settings A.
Variables n m : nat.

(** How vectors of optimisation variables stand for amplitudes.  [okx]: the
    vector has the right length; [decode]: the amplitudes it stands for.
    GRAPE and CRAB are the two instances. *)
Variable to_amps : list R -> dyn A -> G -> Res (G * amps).
Variable get_vars : dyn A -> G -> Res (list R).
Variable gens_ok : dyn A -> G -> bool.
Variable okx : list R -> Prop.
Variable decode : list R -> amps.
Variable okg : G -> Prop.

(** dynamics.num_ctrls is [m]. *)
Definition has_ctrls (d : dyn A) : Prop := exists d', get_num_ctrls d = Ok (d', m).

Record coding : Prop := {
  cd_amps : forall x d g a, d_amps d = Some a -> shape n m a -> n_ts d = n -> has_ctrls d -> okg g -> okx x ->
            exists g', to_amps x d g = Ok (g', decode x) /\ okg g';
  cd_shape : forall x, okx x -> shape n m (decode x);
  cd_vars : forall d g a, d_amps d = Some a -> shape n m a -> okg g -> exists x, get_vars d g = Ok x;
  cd_gens : forall d g a, d_amps d = Some a -> shape n m a -> has_ctrls d -> okg g -> gens_ok d g = true;
}.

(** Calls with vectors of the right length; gradients only when the
    propagator computer supplies them. *)
Definition good_call (e : event) : Prop :=
  match e with EvF x => okx x | EvG x => okx x /\ s_prop s <> Approx | EvCb _ => True end.
Definition good_end (f : ending) : Prop := match f with Returns x _ _ _ => okx x | Crashes _ => True end.

(** A per-control bound list has an entry for each control. *)
Definition fits (b : bspec) : Prop := match b with BList l => m <= length l | _ => True end.

(** The bound of control [c]: a number holds for all controls, a list has one
    per control; none, or an infinite one, is no bound. *)
Definition finite (b : option xreal) : option R := match b with Some (Fin x) => Some x | _ => None end.
Definition bound_for (b : bspec) (c : nat) : option R :=
  match b with
  | BNone => None
  | BNum x => finite (Some x)
  | BList l => match nth_error l c with Some x => finite x | None => None end
  end.

(** The error to be reached: fid_err_targ, or else 1 - fid_goal. *)
Definition target_of (tc : termcond) : option R :=
  match tc_targ tc, tc_goal tc with
  | Some t, _ => Some t
  | None, Some g => Some (Rabs (1 - g))
  | None, None => None
  end.

(** The conditions passed to run_optimization, or else those of the object. *)
Definition conditions (tcs : option termcond) (o : opt A G) : option termcond :=
  match tcs with Some tc => Some tc | None => o_tc o end.

(** A run that can be started. *)
Record runnable (tcs : option termcond) (tc : termcond) (targ : R) (o : opt A G) : Prop := {
  rn_tc : conditions tcs o = Some tc;
  rn_targ : target_of tc = Some targ;
  rn_gens : okg (o_gens o);
  rn_lb : fits (o_lb o);
  rn_ub : fits (o_ub o);
}.

(** Optimisers whose object [Dynamics] was set up for [s] and then used in any
    way: any calls on it, any runs, in any order; the other attributes may be
    assigned at any time.  The index is the current amplitude array. *)
Inductive used : opt A G -> amps -> Prop :=
| used_new st a ops d o : shape n m a -> Forall (call_ok s n m) ops ->
    session s st a ops = Ok d -> o_dyn o = d -> used o (latest a ops)
| used_calls o a ops d o' : used o a -> Forall (call_ok s n m) ops ->
    run ops (o_dyn o) = Ok d -> o_dyn o' = d -> used o' (latest a ops)
| used_run o a tcs tc targ t0 t1 evs fin o' r b : used o a -> runnable tcs tc targ o ->
    Forall good_call evs -> good_end fin ->
    run_optimization to_amps get_vars gens_ok tcs t0 t1 evs fin o = Ok (o', r) ->
    r_final_amps r = Some b -> used o' b.

End Spec.
