(** What is left behind by a computation that does not finish: the statements
    of tslotcomp.py, dynamics.py, propcomp.py and fidcomp.py that
    [Model/Dyn.v] models, one by one, with an interruption possible before
    each of them.

    [Model/Dyn.v] drops the state when an exception is raised.  Here the state
    survives: every read or write of the object is a [statement], and a budget
    says how many statements are carried out before something (KeyboardInterrupt,
    MemoryError, a failing linear algebra routine, a failing dump) stops the
    computation.  The caller catches the exception and goes on using the
    object.

    Simplifications: an assignment to one attribute or one list element is
    carried out or not, never half; local variables are computed together
    with the write or read that uses them; [num_ctrls] is one statement
    (it only writes before the controls have been initialised). *)
From Coq Require Import Reals.
From Coquelicot Require Import Complex.
From RecordUpdate Require Import RecordUpdate.
From Verif.Model Require Import Base Dyn.
Local Open Scope R_scope.

(** How a computation ends. *)
Inductive fin (X : Type) :=
| Done (x : X) (left : option nat)   (* a value, and the budget that is left *)
| Failed (e : exn)                   (* the exception the code itself raises *)
| Stopped.                           (* interrupted *)
Arguments Done {X} x left.
Arguments Failed {X} e.
Arguments Stopped {X}.

Section Fault.
Context {A : Alg}.
Notation Op := (Op A).
Notation dyn := (dyn A).

(** A budget of [None] is never used up. *)
Definition M (X : Type) := option nat -> dyn -> dyn * fin X.

Definition mret {X} (x : X) : M X := fun b d => (d, Done x b).
Definition mbind {X Y} (m : M X) (k : X -> M Y) : M Y := fun b d =>
  match m b d with
  | (d', Done x b') => k x b' d'
  | (d', Failed e) => (d', Failed e)
  | (d', Stopped) => (d', Stopped)
  end.

(** One statement: carried out as a whole, unless the budget is used up. *)
Definition statement {X} (f : dyn -> Res (dyn * X)) : M X := fun b d =>
  match b with
  | Some 0%nat => (d, Stopped)
  | _ =>
    match f d with
    | Ok (d', x) => (d', Done x (option_map pred b))
    | Raise e => (d, Failed e)
    end
  end.
Definition reads {X} (f : dyn -> Res X) : M X := statement (fun d => x <- f d;; Ok (d, x)).
Definition writes (f : dyn -> Res dyn) : M unit := statement (fun d => d' <- f d;; Ok (d', tt)).
Definition assign (f : dyn -> dyn) : M unit := writes (fun d => Ok (f d)).

End Fault.

Notation "x <~ m ;; k" := (mbind m (fun x => k))
  (at level 61, m at next level, right associativity).
Notation "' p <~ m ;; k" := (mbind m (fun x => match x with p => k end))
  (at level 61, p pattern, m at next level, right associativity).

Section Fault2.
Context {A : Alg}.
Notation Op := (Op A).
Notation dyn := (dyn A).
Notation M := (@M A).

(** [for k in l: body(k)], with a local variable of type [X]. *)
Fixpoint mfor {X} (l : list nat) (body : nat -> X -> M X) (x : X) : M X :=
  match l with
  | [] => mret x
  | k :: l' => y <~ body k x;; mfor l' body y
  end.
Definition mloop (l : list nat) (body : nat -> M unit) : M unit :=
  mfor l (fun k _ => body k) tt.

(** if self.stats: ... *)
Definition with_stats (f : stats -> stats) : M unit :=
  assign (fun d => match d_stats d with
                   | Some st => d <| d_stats := Some (f st) |>
                   | None => d
                   end).

(** ** Amplitude updates *)

(** dynamics.py:1083-1088, fidcomp.py:223-229 and 348-354
    [flag_system_changed]: four assignments. *)
Definition m_flag_system_changed : M unit :=
  _ <~ assign (fun d => d <| d_evo_cur := false |>);;
  _ <~ assign (fun d => d <| d_fidst; f_fid_cur := false |>);;
  _ <~ assign (fun d => d <| d_fidst; f_grad_cur := false |>);;
  assign (fun d => d <| d_fidst; f_pre_cur := false |>).

(** The comparison in tslotcomp.py:186-211: changed, and the two counts. *)
Definition amps_changed (new_amps : amps) (d : dyn) : Res (bool * nat * nat) :=
  match d_amps d with
  | None => Ok (true, length (concat new_amps), length new_amps)
  | Some old =>
    ch <- neq_amps old new_amps;;
    if any (map any ch)
    then Ok (true, count (concat ch), count (map any ch))
    else Ok (false, 0%nat, 0%nat)
  end.

(** tslotcomp.py:170-223 [compare_amps] and dynamics.py:1063-1081
    [update_ctrl_amps]. *)
Definition m_update_ctrl_amps (new_amps : amps) : M unit :=
  '(changed, n_amps, n_slots) <~ reads (amps_changed new_amps);;
  _ <~ with_stats (fun st => st <| st_upd := (st_upd st + if (n_amps =? 0)%nat then 0 else 1)%nat |>);;
  _ <~ with_stats (fun st => st <| st_chg := (st_chg st + n_amps)%nat |>);;
  _ <~ with_stats (fun st => st <| st_ts := (st_ts st + n_slots)%nat |>);;
  if changed : bool
  then _ <~ assign (fun d => d <| d_amps := Some new_amps |>);;
       m_flag_system_changed
  else mret tt.

(** ** Generators, propagators *)

(** The value computed in dynamics.py:1221-1230. *)
Definition slot_generator (k : nat) (d : dyn) : Res Op :=
  dr <- some_or TypeError (d_drift d);;
  dg0 <- match d_td_drift d, dr with
         | true, DList l => get l k
         | false, DConst o => Ok o
         | _, _ => Raise TypeError
         end;;
  nc <- some_or TypeError (d_num_ctrls d);;
  am <- some_or TypeError (d_amps d);;
  row <- get am k;;
  c <- some_or TypeError (d_ctrls d);;
  add_ctrls row (d_td_ctrl d) c k (range nc) dg0.

(** dynamics.py:1216-1234 [_combine_dyn_gen]. *)
Definition m_combine_dyn_gen (k : nat) : M unit :=
  dg <~ reads (slot_generator k);;
  _ <~ writes (fun d => l <- set (d_dg d) k (Some dg);; Ok (d <| d_dg := l |>));;
  ph <~ reads (fun d => Ok (s_cache_ph (d_set d)));;
  if ph : bool
  then writes (fun d => pl <- some_or TypeError (d_pdg d);;
                        pl' <- set pl k (Some (apply_phase (d_set d) dg));;
                        Ok (d <| d_pdg := Some pl' |>))
  else mret tt.

(** dynamics.py:1600-1682 [_spectral_decomp]: the slot is marked as done
    first (1654), then the four results are stored. *)
Definition m_spectral_decomp (k : nat) : M unit :=
  '(lam, V, tau, prec) <~ reads (fun d =>
     match s_class (d_set d) with
     | GenMat => Raise UsageError
     | Unitary =>
       H <- getf (d_dg d) k;;
       tau <- tau_at k d;;
       Ok (fst (oeigh A H), snd (oeigh A H), tau, s_prec (d_set d))
     end);;
  _ <~ writes (fun d => cur <- some_or TypeError (d_dcur d);;
                        cur' <- set cur k true;; Ok (d <| d_dcur := Some cur' |>));;
  _ <~ writes (fun d => l <- set (d_fac d) k (Some (factors prec lam tau));; Ok (d <| d_fac := l |>));;
  _ <~ writes (fun d => l <- set (d_peig d) k (Some (odiag A (prop_eig lam tau)));; Ok (d <| d_peig := l |>));;
  _ <~ writes (fun d => l <- set (d_evec d) k (Some V);; Ok (d <| d_evec := l |>));;
  writes (fun d => match d_eadj d with
                   | None => Ok d
                   | Some l => l' <- set l k (Some (odag A V));; Ok (d <| d_eadj := Some l' |>)
                   end).

(** dynamics.py:1438-1448 [_ensure_decomp_curr]. *)
Definition m_ensure_decomp_curr (k : nat) : M unit :=
  b <~ reads (fun d => match d_dcur d with
                       | None => Raise UsageError
                       | Some cur => get cur k
                       end);;
  if b : bool then mret tt else m_spectral_decomp k.

Definition kind_of : M propkind := reads (fun d => Ok (s_prop (d_set d))).

(** propcomp.py:124-138 and 225-247 [_compute_propagator]. *)
Definition m_compute_propagator (k : nat) : M Op :=
  kind <~ kind_of;;
  match kind with
  | Diag =>
    _ <~ m_ensure_decomp_curr k;;
    reads (fun d => V <- getf (d_evec d) k;;
                    pe <- getf (d_peig d) k;;
                    Va <- get_eadj k d;;
                    Ok (omul A (omul A V pe) Va))
  | _ =>
    reads (fun d => pdg <- get_phased_dyn_gen k d;;
                    tau <- tau_at k d;;
                    Ok (oexpm A (oscale A (RtoC tau) pdg)))
  end.

(** propcomp.py:163-170, 249-302, 350-382, 399-430 [_compute_prop_grad]. *)
Definition m_compute_prop_grad (k j : nat) : M (Op * Op) :=
  kind <~ kind_of;;
  match kind with
  | Approx => reads (fun d => Raise UsageError)
  | Diag =>
    _ <~ m_ensure_decomp_curr k;;
    prop <~ m_compute_propagator k;;
    reads (fun d =>
      Va <- get_eadj k d;;
      pc <- get_phased_ctrl_dyn_gen k j d;;
      V <- getf (d_evec d) k;;
      tau <- tau_at k d;;
      fac <- getf (d_fac d) k;;
      Ok (prop, omul A (omul A V (ohad A (oscale A (RtoC tau) (omul A (omul A Va pc) V)) fac)) Va))
  | AugMat =>
    reads (fun d =>
      pdg <- get_phased_dyn_gen k d;;
      pc <- get_phased_ctrl_dyn_gen k j d;;
      tau <- tau_at k d;;
      Ok (let e := oexpm A (oaug A (oscale A (RtoC tau) pdg) (oscale A (RtoC tau) pc)) in
          (oblk00 A e, oblk01 A e)))
  | Frechet =>
    reads (fun d =>
      pdg <- get_phased_dyn_gen k d;;
      tau <- tau_at k d;;
      pc <- get_phased_ctrl_dyn_gen k j d;;
      Ok (ofrechet A (oscale A (RtoC tau) pdg) (oscale A (RtoC tau) pc)))
  end.

(** ** Recomputing the evolution: tslotcomp.py:225-352 *)

(** tslotcomp.py:262-265. *)
Definition m_step_dyn_gen (k : nat) : M unit :=
  _ <~ m_combine_dyn_gen k;;
  writes (fun d => match d_dcur d with
                   | None => Ok d
                   | Some cur => cur' <- set cur k false;; Ok (d <| d_dcur := Some cur' |>)
                   end).

Definition write_prop (k : nat) (p : Op) : M unit :=
  writes (fun d => l <- set (d_prop d) k (Some p);; Ok (d <| d_prop := l |>)).

(** tslotcomp.py:273-293. *)
Definition m_step_prop (nc k : nat) : M unit :=
  cached <~ reads (fun d => Ok (grad_exact (s_prop (d_set d)) && s_cache_pg (d_set d)));;
  if cached : bool
  then mloop (range nc)
         (fun j =>
            '(p, g) <~ m_compute_prop_grad k j;;
            _ <~ (if (j =? 0)%nat then write_prop k p else mret tt);;
            writes (fun d => set_pg d k j g))
  else p <~ m_compute_propagator k;; write_prop k p.

Definition m_recompute_evolution : M unit :=
  '(n, nc) <~ statement (fun d => '(d', nc) <- get_num_ctrls d;; Ok (d', (n_ts d, nc)));;
  (* 237-244 *)
  _ <~ assign (fun d => d <| d_dg_q := None |>);;
  _ <~ assign (fun d => d <| d_prop_q := None |>);;
  _ <~ assign (fun d => d <| d_pg_q := None |>);;
  _ <~ assign (fun d => d <| d_fwd_q := None |>);;
  _ <~ assign (fun d => d <| d_onwd_q := None |>);;
  _ <~ assign (fun d => d <| d_onto_q := None |>);;
  (* 250-251 *)
  _ <~ with_stats (fun st => st <| st_recompute := S (st_recompute st) |>);;
  _ <~ mloop (range n) m_step_dyn_gen;;
  _ <~ mloop (range n) (m_step_prop nc);;
  _ <~ mloop (range n) (fun k => writes (step_fwd k));;
  fk <~ reads (fun d => Ok (s_fid (d_set d)));;
  _ <~ (if uses_onwd fk
        then _ <~ writes (fun d => p <- get (d_prop d) (n - 1);;
                                   ow <- some_or TypeError (d_onwd d);;
                                   l <- set ow (n - 1) p;;
                                   Ok (d <| d_onwd := Some l |>));;
             mloop (range_down (n - 1)) (fun k => writes (step_onwd k))
        else mret tt);;
  fk <~ reads (fun d => Ok (s_fid (d_set d)));;
  if uses_onto fk
  then mloop (range_down n) (fun k => writes (step_onto k))
  else mret tt.

(** dynamics.py:1420-1436 [compute_evolution]. *)
Definition m_compute_evolution : M bool :=
  cur <~ reads (fun d => Ok (d_evo_cur d));;
  if cur : bool then mret false
  else _ <~ m_recompute_evolution;;
       _ <~ assign (fun d => d <| d_evo_cur := true |>);;
       mret true.

(** dynamics.py:1334-1341 [_get_prop_grad]. *)
Definition m_get_prop_grad (k j : nat) : M Op :=
  cached <~ reads (fun d => Ok (s_cache_pg (d_set d)));;
  if cached : bool
  then reads (fun d => pg <- some_or TypeError (d_pg d);;
                       row <- get pg k;;
                       getf row j)
  else '(_, g) <~ m_compute_prop_grad k j;; mret g.

(** ** Fidelity computers *)

(** fidcomp.py:436-462 [get_fidelity_prenorm]. *)
Definition m_get_fidelity_prenorm : M C :=
  cur <~ reads (fun d => Ok (f_pre_cur (d_fidst d)));;
  if cur : bool
  then reads (fun d => some_or TypeError (f_prenorm (d_fidst d)))
  else
    k <~ reads (fun d => Ok (n_ts d));;
    _ <~ m_compute_evolution;;
    f <~ reads (fun d => ot <- some_or TypeError (d_onto d);;
                         x <- getf ot k;;
                         y <- getf (d_fwd d) k;;
                         Ok (otr A (omul A x y)));;
    _ <~ assign (fun d => d <| d_fidst; f_prenorm := Some f |>);;
    _ <~ assign (fun d => d <| d_fidst; f_pre_cur := true |>);;
    _ <~ with_stats (fun st => st <| st_fid := S (st_fid st) |>);;
    mret f.

(** fidcomp.py:423-434 [get_fidelity]. *)
Definition m_get_fidelity : M R :=
  cur <~ reads (fun d => match s_fid (d_set d) with
                         | FTrace => Raise AttributeError
                         | FUnit => Ok (f_fid_cur (d_fidst d))
                         end);;
  if cur : bool
  then reads (fun d => some_or TypeError (f_fidelity (d_fidst d)))
  else
    f <~ m_get_fidelity_prenorm;;
    v <~ reads (fun d => Ok (fid_norm (s_phopt (d_set d)) (f_dimnorm (d_fidst d)) f));;
    _ <~ assign (fun d => d <| d_fidst; f_fidelity := Some v |>);;
    _ <~ assign (fun d => d <| d_fidst; f_fid_cur := true |>);;
    mret v.

(** fidcomp.py:417-421 and 592-634 [get_fid_err]. *)
Definition m_get_fid_err : M R :=
  fk <~ reads (fun d => Ok (s_fid (d_set d)));;
  match fk with
  | FUnit => f <~ m_get_fidelity;; mret (Rabs (1 - f))
  | FTrace =>
    cur <~ reads (fun d => Ok (f_fid_cur (d_fidst d)));;
    if cur : bool
    then reads (fun d => some_or TypeError (f_fid_err (d_fidst d)))
    else
      _ <~ m_compute_evolution;;
      e <~ reads (fun d => fin <- getf (d_fwd d) (n_ts d);;
                           targ <- some_or TypeError (d_target d);;
                           sc <- some_or TypeError (s_scale (d_set d));;
                           Ok (trace_err sc (osub A targ fin)));;
      _ <~ assign (fun d => d <| d_fidst; f_fid_err := Some e |>);;
      _ <~ with_stats (fun st => st <| st_fid := S (st_fid st) |>);;
      _ <~ assign (fun d => d <| d_fidst; f_fid_cur := true |>);;
      mret e
  end.

(** The loops of fidcomp.py:526-538 and 687-713: the array is local. *)
Definition m_fill_grad {X} (n nc : nat) (f : nat -> nat -> M X) (zero : X) : M (list (list X)) :=
  mfor (range nc)
    (fun j g => mfor (range n)
       (fun k g =>
          v <~ f k j;;
          reads (fun _ => row <- get g k;;
                          row' <- set row j v;;
                          set g k row')) g)
    (repeat (repeat zero nc) n).

(** fidcomp.py:508-543 [compute_fid_grad]. *)
Definition m_unit_grad_entry (k j : nat) : M C :=
  '(x, y) <~ reads (fun d => x <- getf (d_fwd d) k;;
                             ot <- some_or TypeError (d_onto d);;
                             y <- getf ot (k + 1);;
                             Ok (x, y));;
  g <~ m_get_prop_grad k j;;
  mret (otr A (omul A (omul A y g) x)).
Definition m_compute_fid_grad : M (list (list C)) :=
  '(n, nc) <~ statement (fun d => '(d', nc) <- get_num_ctrls d;; Ok (d', (n_ts d', nc)));;
  _ <~ m_compute_evolution;;
  m_fill_grad n nc m_unit_grad_entry (RtoC 0).

(** fidcomp.py:664-717 [compute_fid_err_grad]. *)
Definition m_trace_grad_entry (n : nat) (k j : nat) : M R :=
  '(diff, sc, x) <~ reads (fun d => fin <- getf (d_fwd d) n;;
                                    targ <- some_or TypeError (d_target d);;
                                    sc <- some_or TypeError (s_scale (d_set d));;
                                    x <- getf (d_fwd d) k;;
                                    Ok (osub A targ fin, sc, x));;
  pg <~ m_get_prop_grad k j;;
  reads (fun d =>
    eg <- (if (k + 1 <? n)%nat
           then ow <- some_or TypeError (d_onwd d);;
                y <- getf ow (k + 1);;
                Ok (omul A y (omul A pg x))
           else Ok (omul A pg x));;
    Ok (-2 * sc * Re (otr A (omul A (odag A diff) eg)))).
Definition m_compute_fid_err_grad : M amps :=
  '(n, nc) <~ statement (fun d => '(d', nc) <- get_num_ctrls d;; Ok (d', (n_ts d', nc)));;
  _ <~ m_compute_evolution;;
  m_fill_grad n nc (m_trace_grad_entry n) 0.

(** fidcomp.py:464-506 and 636-662 [get_fid_err_gradient]: the gradient is
    marked as current (489, 648) before its norm is stored (493, 651). *)
Definition m_get_fid_err_gradient : M amps :=
  cur <~ reads (fun d => Ok (f_grad_cur (d_fidst d)));;
  if cur : bool
  then reads (fun d => some_or TypeError (f_grad (d_fidst d)))
  else
    fk <~ reads (fun d => Ok (s_fid (d_set d)));;
    g <~ match fk with
         | FUnit =>
           gp <~ m_compute_fid_grad;;
           fid <~ m_get_fidelity;;
           pn <~ m_get_fidelity_prenorm;;
           reads (fun d =>
             Ok (map (map (fun g => (if leR 1 fid then 1 else -1) *
                     grad_norm_entry (s_phopt (d_set d)) (f_dimnorm (d_fidst d)) pn g)) gp))
         | FTrace => m_compute_fid_err_grad
         end;;
    _ <~ assign (fun d => d <| d_fidst; f_grad := Some g |>);;
    _ <~ assign (fun d => d <| d_fidst; f_grad_cur := true |>);;
    _ <~ with_stats (fun st => st <| st_grad := S (st_grad st) |>);;
    _ <~ assign (fun d => d <| d_fidst; f_gradnorm := norm2 g |>);;
    mret g.

(** ** Calls and histories *)

Definition forget {X} (m : M X) : M unit := _ <~ m;; mret tt.

Definition m_step (o : op) : M unit :=
  match o with
  | UpdateAmps a => m_update_ctrl_amps a
  | ComputeEvolution => forget m_compute_evolution
  | GetFidErr => forget m_get_fid_err
  | GetFidelity => forget m_get_fidelity
  | GetGradient => forget m_get_fid_err_gradient
  | GetDynGen => assign (fun d => fst (get_dyn_gen d))
  | GetProp => assign (fun d => fst (get_prop d))
  | GetPropGrad => assign (fun d => fst (get_prop_grads d))
  | GetFwdEvo => assign (fun d => fst (get_fwd_evo d))
  | GetOnwdEvo => assign (fun d => fst (get_onwd_evo d))
  | GetOntoEvo => assign (fun d => fst (get_onto_evo d))
  end.

(** A call, and the number of statements after which it is interrupted
    ([None]: it is not).  Whatever happens, the object is used again. *)
Definition call := (op * option nat)%type.
Definition m_call (c : call) (d : dyn) : dyn := fst (m_step (fst c) (snd c) d).
Fixpoint m_calls (l : list call) (d : dyn) : dyn :=
  match l with
  | [] => d
  | c :: l' => m_calls l' (m_call c d)
  end.

End Fault2.
