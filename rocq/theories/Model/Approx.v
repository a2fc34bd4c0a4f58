(** Model of the finite-difference gradient: FidCompTraceDiffApprox
    (src/qutip_qtrl/fidcomp.py:720-798) with the propagator computers of
    src/qutip_qtrl/propcomp.py, on top of [Model/Dyn.v].

    FidCompTraceDiffApprox inherits init_comp, get_fid_err and
    get_fid_err_gradient from FidCompTraceDiff and, like it, asks for the
    onward evolution (735); so the object is the one of [Model/Dyn.v] with
    [s_fid = FTrace], and only the gradient is defined here.  Simplifications:
    those of [Model/Dyn.v]; the nan-to-inf replacement (788-789) is left out;
    [eps] is a real (a zero [eps] divides by zero in the code, giving inf or
    nan; Coq's division then returns an unspecified number, so theorems
    assume [eps <> 0]). *)
From Coq Require Import Reals.
From Coquelicot Require Import Complex.
From RecordUpdate Require Import RecordUpdate.
From Verif.Model Require Export Base Dyn.
Local Open Scope R_scope.

Section Approx.
Context {A : Alg}.
Notation Op := (Op A).
Notation omul := (omul A).
Notation dyn := (dyn A).

(** propcomp.py:145-154 (base class: raises) and 189-207
    (PropCompApproxGrad) [_compute_diff_prop]. *)
Definition compute_diff_prop (k j : nat) (eps : R) (d : dyn) : Res Op :=
  match s_prop (d_set d) with
  | Approx =>
    t <- tau_at k d;;
    g <- get_phased_dyn_gen k d;;
    c <- get_phased_ctrl_dyn_gen k j d;;
    Ok (oexpm A (oscale A (RtoC t) (oadd A g (oscale A (RtoC eps) c))))
  | _ => Raise UsageError
  end.

(** fidcomp.py:765-791, one entry.  [n] is n_ts, [curr] curr_fid_err.  Note
    the order of the products in 769-771 and 780-782. *)
Definition approx_grad_entry (eps : R) (n : nat) (curr : R) (k j : nat) (d : dyn) : Res (dyn * R) :=
  x <- getf (d_fwd d) k;;
  p <- compute_diff_prop k j eps d;;
  let e := omul x p in
  e <- (if (k + 1 <? n)%nat
        then ow <- some_or TypeError (d_onwd d);;
             y <- getf ow (k + 1);;
             Ok (omul e y)
        else Ok e);;
  targ <- some_or TypeError (d_target d);;
  sc <- some_or TypeError (s_scale (d_set d));;
  let err := trace_err sc (osub A targ e) in
  Ok (d, (err - curr) / eps).

(** fidcomp.py:740-798 [compute_fid_err_grad].  flag_all_calc_now (757) does
    nothing for the UpdateAll timeslot computer (tslotcomp.py:116-117). *)
Definition compute_fid_err_grad_approx (eps : R) (d : dyn) : Res (dyn * amps) :=
  '(d, nc) <- get_num_ctrls d;;
  let n := n_ts d in
  '(d, _) <- compute_evolution d;;
  '(d, curr) <- get_fid_err d;;
  fill_grad n nc (approx_grad_entry eps n curr) 0 d.

(** fidcomp.py:636-662 [get_fid_err_gradient], inherited. *)
Definition get_fid_err_gradient_approx (eps : R) (d : dyn) : Res (dyn * amps) :=
  if f_grad_cur (d_fidst d)
  then g <- some_or TypeError (f_grad (d_fidst d));; Ok (d, g)
  else
    '(d, g) <- compute_fid_err_grad_approx eps d;;
    let d := d <| d_fidst; f_grad := Some g |> <| d_fidst; f_grad_cur := true |> in
    let d := bump_grad d in
    Ok (d <| d_fidst; f_gradnorm := norm2 g |>, g).
End Approx.
