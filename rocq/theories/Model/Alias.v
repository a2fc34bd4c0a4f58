(** Which arrays share their memory: the optimiser's variables, the amplitudes
    kept by Dynamics, the cached gradient and the recorded results
    (src/qutip_qtrl/optimizer.py, tslotcomp.py, fidcomp.py, dynamics.py).

    An array is a buffer on a heap with a shape; [reshape] gives a view of the
    same buffer, [copy] and [flatten] a new buffer.  Arrays are contiguous
    (numpy's [reshape] of a non-contiguous array copies) and hold floats; the
    fidelity error and its gradient are functions of the amplitude values (the
    rest of the computation is Model/Dyn.v).  Call limits and the target only
    end a run early and are left out, as are counters, dumps and logging. *)
From Coq Require Import Reals.
From RecordUpdate Require Import RecordUpdate.
From Verif.Model Require Export Base Dyn.
Local Open Scope nat_scope.

Record arr := mkArr { a_buf : nat; a_shape : list nat }.
Definition size (shape : list nat) : nat := fold_right Nat.mul 1 shape.

Record world := mkW {
  heap : list (list R);
  stored : option arr;      (* dynamics.ctrl_amps *)
  fid_cache : option R;     (* fid_err, when current *)
  grad_cache : option arr;  (* fid_err_grad, when current *)
}.
#[export] Instance eta_world : Settable _ := settable! mkW <heap; stored; fid_cache; grad_cache>.

(** The values of an array. *)
Definition vals (w : world) (a : arr) : list R := nth (a_buf a) (heap w) [].
(** A new array. *)
Definition alloc (v : list R) (shape : list nat) (w : world) : arr * world :=
  (mkArr (length (heap w)) shape, w <| heap := heap w ++ [v] |>).
(** [a.copy()] and [a.flatten()]. *)
Definition copy (a : arr) (w : world) : arr * world := alloc (vals w a) (a_shape a) w.
Definition flatten (a : arr) (w : world) : arr * world := alloc (vals w a) [length (vals w a)] w.
(** [a.reshape(shape)]: a view. *)
Definition reshape (a : arr) (shape : list nat) (w : world) : Res arr :=
  if size shape =? length (vals w a) then Ok (mkArr (a_buf a) shape) else Raise ValueError.
(** [a.flat[i] = x], or the same written by compiled code. *)
Fixpoint set_at (l : list R) (i : nat) (x : R) : list R :=
  match l, i with
  | [], _ => []
  | _ :: l', O => x :: l'
  | y :: l', S i' => y :: set_at l' i' x
  end.
Fixpoint set_buf (h : list (list R)) (b i : nat) (x : R) : list (list R) :=
  match h, b with
  | [], _ => []
  | v :: h', O => set_at v i x :: h'
  | v :: h', S b' => v :: set_buf h' b' i x
  end.
Definition write (b i : nat) (x : R) (w : world) : world := w <| heap := set_buf (heap w) b i x |>.

(** [dyn.ctrl_amps != new_amps] for arrays of one shape; others are compared
    by broadcasting, which is not modelled. *)
Definition differ (u v : list R) : bool := if list_eq_dec Req_EM_T u v then false else true.

Section Alias.
(** The fidelity error and its gradient for given amplitudes. *)
Variable fid_of : list R -> R.
Variable grad_of : list R -> list R.
(** The amplitudes of a CRAB optimiser's variables, and their shape; [None] for
    the optimisers whose variables are the amplitudes. *)
Variable crab : option ((list R -> list R) * list nat).

(** dynamics.py:1063-1081 [update_ctrl_amps] with tslotcomp.py:170-223
    [compare_amps]: the array itself is kept. *)
Definition update (new : arr) (w : world) : Res world :=
  let store := w <| stored := Some new |> <| fid_cache := None |> <| grad_cache := None |> in
  match stored w with
  | None => Ok store
  | Some old =>
    if list_eq_dec Nat.eq_dec (a_shape old) (a_shape new) then
      if differ (vals w old) (vals w new) then Ok store else Ok w
    else Raise ValueError
  end.

(** fidcomp.py: [get_fid_err] computes the error unless it is current. *)
Definition get_fid_err (w : world) : Res (R * world) :=
  match fid_cache w with
  | Some e => Ok (e, w)
  | None => a <- some_or AttributeError (stored w);;
            let e := fid_of (vals w a) in Ok (e, w <| fid_cache := Some e |>)
  end.
(** [get_fid_err_gradient]: the array kept, not a copy. *)
Definition get_gradient (w : world) : Res (arr * world) :=
  match grad_cache w with
  | Some g => Ok (g, w)
  | None => a <- some_or AttributeError (stored w);;
            let (g, w) := alloc (grad_of (vals w a)) (a_shape a) w in
            Ok (g, w <| grad_cache := Some g |>)
  end.

(** optimizer.py:613-622 [_get_optim_var_vals] is a view of the stored
    amplitudes; 1113-1126, for CRAB, a new array of the coefficients. *)
Definition get_vars (coeffs : list R) (w : world) : Res (arr * world) :=
  match crab with
  | None => a <- some_or AttributeError (stored w);;
            v <- reshape a [length (vals w a)] w;; Ok (v, w)
  | Some _ => Ok (alloc coeffs [length coeffs] w)
  end.
(** 624-636 [_get_ctrl_amps] is a view of its argument; 1128-1172, for CRAB, a
    new array. *)
Definition get_ctrl_amps (v : arr) (w : world) : Res (arr * world) :=
  match crab with
  | None => a <- some_or AttributeError (stored w);;
            v <- reshape v (a_shape a) w;; Ok (v, w)
  | Some (expand, shape) => Ok (alloc (expand (vals w v)) shape w)
  end.

(** 638-682 [fid_err_func_wrapper]. *)
Definition func_wrapper (v : arr) (w : world) : Res (R * world) :=
  let (c, w) := copy v w in
  '(a, w) <- get_ctrl_amps c w;;
  w <- update a w;;
  get_fid_err w.
(** 684-730 [fid_err_grad_wrapper]. *)
Definition grad_wrapper (v : arr) (w : world) : Res (arr * world) :=
  let (c, w) := copy v w in
  '(a, w) <- get_ctrl_amps c w;;
  w <- update a w;;
  '(g, w) <- get_gradient w;;
  Ok (flatten g w).

(** What a minimiser does during a run: make a vector, write into some memory,
    call the two functions with some vector.  The gradient it gets is its own
    from then on.  A call that raises ends the run; here it changes nothing and
    the run may go on. *)
Inductive event := New (v : list R) | Write (b i : nat) (x : R) | Eval (v : arr) | Grad (v : arr).
Definition step (e : event) (s : world * list nat) : world * list nat :=
  let (w, own) := s in
  match e with
  | New v => let (a, w) := alloc v [length v] w in (w, a_buf a :: own)
  | Write b i x => (write b i x w, own)
  | Eval v => match func_wrapper v w with Ok (_, w) => (w, own) | Raise _ => s end
  | Grad v => match grad_wrapper v w with Ok (g, w) => (w, a_buf g :: own) | Raise _ => s end
  end.
Definition steps (l : list event) (s : world * list nat) : world * list nat := fold_left (fun s e => step e s) l s.

(** The recorded result, as far as it concerns arrays. *)
Record result := mkRes { initial_amps : arr; final_amps : arr; final_err : R }.

(** 521-611 [run_optimization] (and 807-890, 938-1042, 1206-1298), from
    _get_optim_var_vals on: the start, with [_create_result] (362-373) ... *)
Definition start (coeffs : list R) (w : world) : Res (arr * arr * world) :=
  '(x0, w) <- get_vars coeffs w;;
  '(_, w) <- get_fid_err w;;
  a <- some_or AttributeError (stored w);;
  let (i, w) := copy a w in
  Ok (x0, i, w).
(** ... and the end: with the vector the minimiser returned, or [None] if an
    exception ended the run, and [_add_common_result_attribs] (775-796). *)
Definition finish (initial : arr) (ret : option arr) (w : world) : Res (result * world) :=
  w <- match ret with
       | None => Ok w
       | Some v => '(a, w) <- get_ctrl_amps v w;; update a w
       end;;
  '(e, w) <- get_fid_err w;;
  a <- some_or AttributeError (stored w);;
  Ok (mkRes initial a e, w).

(** A whole run: the values the variables start with (for CRAB), what the
    minimiser does, and what it returns. *)
Record run := mkRun { r_coeffs : list R; r_events : list event; r_ret : option arr }.
Definition run_optimization (r : run) (w : world) : Res (result * world) :=
  '(_, i, w) <- start (r_coeffs r) w;;
  finish i (r_ret r) (fst (steps (r_events r) (w, []))).
(** Runs one after the other on the same Dynamics. *)
Fixpoint run_all (rs : list run) (w : world) : Res (list result * world) :=
  match rs with
  | [] => Ok ([], w)
  | r :: rs' =>
    '(x, w) <- run_optimization r w;;
    '(xs, w) <- run_all rs' w;;
    Ok (x :: xs, w)
  end.

(** dynamics.py:954-987 [initialize_controls], as far as amplitudes are
    concerned: given to [update_ctrl_amps] after the old ones were dropped (the
    fidelity computer starts afresh as well). *)
Definition initialize_controls (a : arr) (w : world) : Res world :=
  update a (w <| stored := None |> <| fid_cache := None |> <| grad_cache := None |>).
End Alias.
