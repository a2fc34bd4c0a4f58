(** How a Dynamics object chooses the representation of its operators and
    what it keeps (src/qutip_qtrl/dynamics.py:612-714, and the checks in
    _init_evo, 748-757 and 782-786), over a history of assignments and
    initialisations.

    An exception leaves what was assigned before it.  Of an operator only its
    size and, when its data are sparse (CSR), the number of its stored entries
    are looked at; they are parameters.  Logging is left out, and so is the
    rest of _init_evo (Model/Dyn.v). *)
From Coq Require Import Reals.
From RecordUpdate Require Import RecordUpdate.
From Verif.Model Require Import Base Dyn.
Local Open Scope nat_scope.

(** [oper_dtype]: Qobj, np.ndarray, anything else. *)
Inductive otype := TQobj | TNdarray | TOther.

Record memory := mkMem {
  m_level : Z;                 (* memory_optimization *)
  m_dtype : option otype;      (* oper_dtype *)
  m_ph : option bool;          (* cache_phased_dyn_gen *)
  m_pg : option bool;          (* cache_prop_grad *)
  m_adj : option bool;         (* cache_dyn_gen_eigenvectors_adj *)
  m_sp : option bool;          (* sparse_eigen_decomp *)
}.
#[export] Instance eta_memory : Settable _ := settable! mkMem <m_level; m_dtype; m_ph; m_pg; m_adj; m_sp>.

(** dynamics.py:368-373 [reset]. *)
Definition new_memory : memory := mkMem 0 None None None None None.

Section Memory.
Context {A : Alg}.
(** [shape[0]], and the number of stored entries of sparse data. *)
Variable dim : Op A -> nat.
Variable stored : Op A -> option nat.

(** What is looked at: drift_dyn_gen, ctrl_dyn_gen and initial. *)
Record problem := mkProblem { pr_drift : drift A; pr_ctrls : ctrls A; pr_initial : Op A }.

(** dynamics.py:686-696: the drift and the controls (of the first timeslot)
    added up. *)
Definition all_added (p : problem) : Res (Op A) :=
  dg <- match pr_drift p with DConst o => Ok o | DList l => get l 0 end;;
  cs <- match pr_ctrls p with CList l => Ok l | CArr rows => get rows 0 end;;
  Ok (fold_left (oadd A) cs dg).

(** dynamics.py:698-712: by the size [N] and the number [n] of entries. *)
Definition by_density (N n : nat) : otype :=
  if N * N <? 100 * n then TNdarray else if 400 <? N then TQobj else TNdarray.

(** dynamics.py:675-714 [_choose_oper_dtype]. *)
Definition choose_oper_dtype (p : problem) (m : memory) : Res memory :=
  if (0 <? m_level m)%Z then Ok (m <| m_dtype := Some TQobj |>)
  else dg <- all_added p;;
       let N := dim dg in
       let n := match stored dg with Some n => n | None => N * N end in
       Ok (m <| m_dtype := Some (by_density N n) |>).

(** dynamics.py:612-673 [_set_memory_optimizations]. *)
Definition set_memory_optimizations (p : problem) (m : memory) : Res memory :=
  m <- match m_dtype m with None => choose_oper_dtype p m | Some _ => Ok m end;;
  let m := match m_ph m with None => m <| m_ph := Some (negb (0 <? m_level m)%Z) |> | Some _ => m end in
  let m := match m_pg m with None => m <| m_pg := Some (negb (0 <? m_level m)%Z) |> | Some _ => m end in
  let m := match m_adj m with None => m <| m_adj := Some (negb (0 <? m_level m)%Z) |> | Some _ => m end in
  Ok (match m_sp m with None => m <| m_sp := Some (1 <? m_level m)%Z |> | Some _ => m end).

(** dynamics.py:744-757 and 782-786, in [_init_evo]: the memory options
    afterwards and the exception, if any. *)
Definition init_memory (p : problem) (m : memory) : memory * option exn :=
  match set_memory_optimizations p m with
  | Raise e => (m, Some e)
  | Ok m =>
    match m_sp m with
    | Some true => if dim (pr_initial p) <=? 2 then (m, Some ValueError)
                   else match m_dtype m with Some TOther => (m, Some ValueError) | _ => (m, None) end
    | _ => match m_dtype m with Some TOther => (m, Some ValueError) | _ => (m, None) end
    end
  end.

(** What a user does. *)
Inductive mcall :=
| SetLevel (z : Z) | SetDtype (t : option otype)
| SetPh (b : option bool) | SetPg (b : option bool) | SetAdj (b : option bool) | SetSparse (b : option bool)
| SetProblem (p : problem)
| Initialise.
Definition mstep (c : mcall) (s : memory * problem) : (memory * problem) * option exn :=
  let '(m, p) := s in
  match c with
  | SetLevel z => ((m <| m_level := z |>, p), None)
  | SetDtype t => ((m <| m_dtype := t |>, p), None)
  | SetPh b => ((m <| m_ph := b |>, p), None)
  | SetPg b => ((m <| m_pg := b |>, p), None)
  | SetAdj b => ((m <| m_adj := b |>, p), None)
  | SetSparse b => ((m <| m_sp := b |>, p), None)
  | SetProblem p' => ((m, p'), None)
  | Initialise => let '(m', e) := init_memory p m in ((m', p), e)
  end.
(** The caller goes on after an exception. *)
Definition mruns (l : list mcall) (s : memory * problem) : memory * problem :=
  fold_left (fun s c => fst (mstep c s)) l s.

(** The settings Model/Dyn.v works with. *)
Definition with_memory (m : memory) (s : settings A) : settings A :=
  s <| s_dtype := match m_dtype m with Some TQobj => DQobj | _ => DNdarray end |>
    <| s_cache_ph := match m_ph m with Some b => b | None => false end |>
    <| s_cache_pg := match m_pg m with Some b => b | None => false end |>
    <| s_cache_adj := match m_adj m with Some b => b | None => false end |>.
End Memory.
Arguments problem : clear implicits.
Arguments mcall : clear implicits.
