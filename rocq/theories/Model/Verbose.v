(** What log levels do to the computation: the statements of tslotcomp.py,
    dynamics.py and pulseoptim.py that are carried out only because a message
    is to be logged, or a check to be made, beside those of [Model/Dyn.v].

    The level of a module's logger is a number, the smaller the more is
    logged.  Messages whose text is built from values that are certainly there
    are left out: they have no effect.  Modelled are the two messages that
    read something that may not be there, and the check of unitarity that is
    switched on by a log level.

    Simplifications: whether an operator counts as unitary (dynamics.py:
    [_is_unitary], see [Model/Setup.v]) is a parameter; the check writes
    nothing, so only whether it raises is kept. *)
From Coq Require Import Reals.
From Coquelicot Require Import Complex.
From RecordUpdate Require Import RecordUpdate.
From Verif.Model Require Import Base Dyn.
Local Open Scope R_scope.

(** logging_utils.py:15-18 and the standard library's levels. *)
Definition DEBUG_INTENSE : nat := 6.
Definition DEBUG : nat := 10.
Definition INFO : nat := 20.

(** The level of tslotcomp's logger, that of dynamics' logger when the object
    is initialised, and the user's unitarity_check_level. *)
Record levels := { lv_tslot : nat; lv_dyn : nat; lv_check : nat }.

Section Verbose.
Context {A : Alg}.
Notation Op := (Op A).
Notation dyn := (dyn A).
Variable unit : Op -> bool.
Variable lv : levels.

(** dynamics.py:817-820, in [_init_evo]. *)
Definition check_level (c : dclass) : nat :=
  match c with
  | Unitary => if (lv_dyn lv <=? DEBUG)%nat then 1 else lv_check lv
  | GenMat => lv_check lv
  end.

(** tslotcomp.py:275-297 with the message of 281-287: after the first control
    of a slot, [self._prop] is read; a timeslot computer has no such
    attribute. *)
Definition step_prop_v (nc k : nat) (d : dyn) : Res dyn :=
  if grad_exact (s_prop (d_set d)) && s_cache_pg (d_set d)
  then for_each (range nc)
         (fun j d =>
            '(d, (p, g)) <- compute_prop_grad k j d;;
            d <- (if (j =? 0)%nat
                  then l <- set (d_prop d) k (Some p);; Ok (d <| d_prop := l |>)
                  else Ok d);;
            d <- set_pg d k j g;;
            if (j =? 0)%nat && (lv_tslot lv <=? DEBUG_INTENSE)%nat
            then Raise AttributeError
            else Ok d) d
  else '(d, p) <- compute_propagator k d;;
       l <- set (d_prop d) k (Some p);;
       Ok (d <| d_prop := l |>).

(** dynamics.py:1693-1732 [check_unitarity] for one slot; [_prop_eigen] and
    [_dyn_gen_eigenvectors] are None unless the propagator computer is
    PropCompDiag. *)
Definition check_slot (level k : nat) (d : dyn) : Res dyn :=
  p <- getf (d_prop d) k;;
  if negb (unit p) || (1 <? level)%nat
  then _ <- getf (d_dg d) k;;
       match s_prop (d_set d) with
       | Diag =>
         _ <- getf (d_peig d) k;;
         _ <- getf (d_evec d) k;;
         match d_eadj d with
         | Some l => _ <- getf l k;; Ok d
         | None => Ok d
         end
       | _ => Raise TypeError
       end
  else Ok d.

(** tslotcomp.py:348-349: only DynamicsUnitary has a check_unitarity method. *)
Definition after_v (d : dyn) : Res dyn :=
  let level := check_level (s_class (d_set d)) in
  if (level =? 0)%nat then Ok d
  else match s_class (d_set d) with
       | GenMat => Raise AttributeError
       | Unitary => for_each (range (n_ts d)) (check_slot level) d
       end.

(** tslotcomp.py:225-352 [recompute_evolution]. *)
Definition recompute_v (d : dyn) : Res dyn :=
  let n := n_ts d in
  '(d, nc) <- get_num_ctrls d;;
  let d := d <| d_dg_q := None |> <| d_prop_q := None |> <| d_pg_q := None |>
             <| d_fwd_q := None |> <| d_onwd_q := None |> <| d_onto_q := None |> in
  let d := match d_stats d with
           | Some st => d <| d_stats := Some (st <| st_recompute := S (st_recompute st) |>) |>
           | None => d
           end in
  d <- for_each (range n) step_dyn_gen d;;
  d <- for_each (range n) (step_prop_v nc) d;;
  d <- for_each (range n) step_fwd d;;
  d <- (if uses_onwd (s_fid (d_set d))
        then p <- get (d_prop d) (n - 1);;
             ow <- some_or TypeError (d_onwd d);;
             l <- set ow (n - 1) p;;
             for_each (range_down (n - 1)) step_onwd (d <| d_onwd := Some l |>)
        else Ok d);;
  d <- (if uses_onto (s_fid (d_set d))
        then for_each (range_down n) step_onto d
        else Ok d);;
  after_v d.

(** dynamics.py:1420-1436 [compute_evolution]. *)
Definition evolution_v (d : dyn) : Res (dyn * bool) :=
  if d_evo_cur d then Ok (d, false)
  else d <- recompute_v d;; Ok (d <| d_evo_cur := true |>, true).

(** The functions of fidcomp.py as in [Model/Dyn.v], with this evolution
    (fidcomp.py:436-462, 423-434, 417-421 and 592-634, 508-543, 664-717,
    464-506 and 636-662). *)
Definition prenorm_v (d : dyn) : Res (dyn * C) :=
  if f_pre_cur (d_fidst d)
  then f <- some_or TypeError (f_prenorm (d_fidst d));; Ok (d, f)
  else
    let k := n_ts d in
    '(d, _) <- evolution_v d;;
    ot <- some_or TypeError (d_onto d);;
    x <- getf ot k;;
    y <- getf (d_fwd d) k;;
    let f := otr A (omul A x y) in
    let d := d <| d_fidst; f_prenorm := Some f |> <| d_fidst; f_pre_cur := true |> in
    Ok (bump_fid d, f).

Definition fidelity_v (d : dyn) : Res (dyn * R) :=
  match s_fid (d_set d) with
  | FTrace => Raise AttributeError
  | FUnit =>
  if f_fid_cur (d_fidst d)
  then f <- some_or TypeError (f_fidelity (d_fidst d));; Ok (d, f)
  else
    '(d, f) <- prenorm_v d;;
    let v := fid_norm (s_phopt (d_set d)) (f_dimnorm (d_fidst d)) f in
    let d := d <| d_fidst; f_fidelity := Some v |> <| d_fidst; f_fid_cur := true |> in
    Ok (d, v)
  end.

Definition fid_err_v (d : dyn) : Res (dyn * R) :=
  match s_fid (d_set d) with
  | FUnit => '(d, f) <- fidelity_v d;; Ok (d, Rabs (1 - f))
  | FTrace =>
    if f_fid_cur (d_fidst d)
    then e <- some_or TypeError (f_fid_err (d_fidst d));; Ok (d, e)
    else
      '(d, _) <- evolution_v d;;
      fin <- getf (d_fwd d) (n_ts d);;
      targ <- some_or TypeError (d_target d);;
      sc <- some_or TypeError (s_scale (d_set d));;
      let e := trace_err sc (osub A targ fin) in
      let d := bump_fid (d <| d_fidst; f_fid_err := Some e |>) in
      Ok (d <| d_fidst; f_fid_cur := true |>, e)
  end.

Definition fid_grad_v (d : dyn) : Res (dyn * list (list C)) :=
  '(d, nc) <- get_num_ctrls d;;
  let n := n_ts d in
  '(d, _) <- evolution_v d;;
  fill_grad n nc unit_grad_entry (RtoC 0) d.

Definition err_grad_v (d : dyn) : Res (dyn * amps) :=
  '(d, nc) <- get_num_ctrls d;;
  let n := n_ts d in
  '(d, _) <- evolution_v d;;
  fill_grad n nc (trace_grad_entry n) 0 d.

Definition gradient_v (d : dyn) : Res (dyn * amps) :=
  if f_grad_cur (d_fidst d)
  then g <- some_or TypeError (f_grad (d_fidst d));; Ok (d, g)
  else
    '(d, g) <-
      match s_fid (d_set d) with
      | FUnit =>
        '(d, gp) <- fid_grad_v d;;
        '(d, fid) <- fidelity_v d;;
        '(d, pn) <- prenorm_v d;;
        let po := s_phopt (d_set d) in
        let dn := f_dimnorm (d_fidst d) in
        let sgn := if leR 1 fid then 1 else -1 in
        Ok (d, map (map (fun g => sgn * grad_norm_entry po dn pn g)) gp)
      | FTrace => err_grad_v d
      end;;
    let d := d <| d_fidst; f_grad := Some g |> <| d_fidst; f_grad_cur := true |> in
    let d := bump_grad d in
    Ok (d <| d_fidst; f_gradnorm := norm2 g |>, g).

(** A call, and a history of calls, with these levels. *)
Definition step_v (o : op) (d : dyn) : Res dyn :=
  match o with
  | ComputeEvolution => lift (evolution_v d)
  | GetFidErr => lift (fid_err_v d)
  | GetFidelity => lift (fidelity_v d)
  | GetGradient => lift (gradient_v d)
  | _ => step o d
  end.
Fixpoint run_v (l : list op) (d : dyn) : Res dyn :=
  match l with
  | [] => Ok d
  | o :: l' => d' <- step_v o d;; run_v l' d'
  end.
(** A new object, initialised and used. *)
Definition session_v (s : settings A) (with_stats : bool) (a : amps) (ops : list op) : Res dyn :=
  d <- initialize_controls a (new_dyn s with_stats);; run_v ops d.

End Verbose.

(** ** The message of optimize_pulse *)
Section Message.
Context {A : Alg}.

(** What is shown of the problem: an operator, or a row of operators. *)
Inductive shown := Shown (o : Op A) | ShownRow (l : list (Op A)).

(** pulseoptim.py:485-503: at a level of INFO or below, after
    initialize_controls; the drift, or its first element, and the elements
    0, 1, ... num_ctrls - 1 of ctrl_dyn_gen.  The initial and target
    operators follow (always there). *)
Definition message (d : dyn A) : Res (list shown) :=
  '(d, nc) <- get_num_ctrls d;;
  dr <- match s_drift (d_set d) with
        | None => Ok []
        | Some (DConst o) => Ok [Shown o]
        | Some (DList l) => o <- get l 0;; Ok [Shown o]
        end;;
  cs <- for_each (range nc)
          (fun j acc =>
             x <- match s_ctrls (d_set d) with
                  | None => Raise TypeError
                  | Some (CList l) => o <- get l j;; Ok (Shown o)
                  | Some (CArr rows) => r <- get rows j;; Ok (ShownRow r)
                  end;;
             Ok (acc ++ [x])) [];;
  Ok (dr ++ cs ++ [Shown (s_initial (d_set d)); Shown (s_target (d_set d))]).

(** pulseoptim.py:483-503: initialise, and log the configuration. *)
Definition start_v (level : nat) (s : settings A) (with_stats : bool) (a : amps) : Res (dyn A * option (list shown)) :=
  d <- initialize_controls a (new_dyn s with_stats);;
  if (level <=? INFO)%nat
  then l <- message d;; Ok (d, Some l)
  else Ok (d, None).
End Message.
