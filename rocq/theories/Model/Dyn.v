(** Model of the Dynamics object together with its UpdateAll timeslot
    computer, propagator computers and fidelity computers:
    src/qutip_qtrl/dynamics.py, tslotcomp.py, propcomp.py, fidcomp.py.

    Operators are elements of an arbitrary operator algebra [Alg] (the record
    holds operations only, no laws); [Lib/Mat.v] and [Spec/MatAlg.v] instantiate it with
    complex matrices.  Simplifications made throughout:
    - ndarray and Qobj operators are not distinguished, except for the public
      accessors, where the code branches on [oper_dtype];
    - floats are reals, complex numbers are Coquelicot's [C];
    - logging, wall times, the dump and the unitarity check are left out;
    - type checks of user containers (dynamics.py:55-97) are assumed passed;
    - when an exception is raised the state is dropped. *)
From Coq Require Import Reals.
From Coquelicot Require Import Complex.
From RecordUpdate Require Import RecordUpdate.
From Verif.Model Require Export Base.
Local Open Scope R_scope.

(** Operations on operators used by the code. *)
Record Alg := mkAlg {
  Op : Type;
  omul : Op -> Op -> Op;            (* A.dot(B) / A * B *)
  oadd : Op -> Op -> Op;            (* A + B *)
  osub : Op -> Op -> Op;            (* A - B *)
  oscale : C -> Op -> Op;           (* scalar * A *)
  odag : Op -> Op;                  (* A.dag() / A.conj().T *)
  otr : Op -> C;                    (* trace; a 1x1 overlap counts as its trace *)
  oinv : Op -> Op;                  (* la.inv *)
  oexpm : Op -> Op;                 (* la.expm *)
  ofrechet : Op -> Op -> Op * Op;   (* la.expm_frechet *)
  oaug : Op -> Op -> Op;            (* [[A, E], [0, A]] *)
  oblk00 : Op -> Op;                (* top left block of an augmented matrix *)
  oblk01 : Op -> Op;                (* top right block *)
  oeigh : Op -> (nat -> R) * Op;    (* eigh: eigenvalues, eigenvectors *)
  odiag : (nat -> C) -> Op;         (* np.diagflat *)
  ohad : Op -> (nat -> nat -> C) -> Op; (* np.multiply(A, F) *)
  osquare : Op -> bool;             (* shape[0] == shape[1] *)
}.

Definition amps := list (list R).

(** Truth value of a float comparison. *)
Definition neqR (x y : R) : bool := if Req_EM_T x y then false else true.
Definition ltR (x y : R) : bool := if Rlt_dec x y then true else false.
Definition leR (x y : R) : bool := if Rle_dec x y then true else false.

Section Dyn.
Context {A : Alg}.
Notation Op := (Op A).
Notation omul := (omul A).
Notation oadd := (oadd A).
Notation oscale := (oscale A).

(** drift_dyn_gen is an operator or a list of them (dynamics.py:1099-1107). *)
Inductive drift := DConst (d : Op) | DList (l : list Op).
(** ctrl_dyn_gen is a list or a 2-D array [n_ts, n_ctrls] (dynamics.py:1129-1139). *)
Inductive ctrls := CList (l : list Op) | CArr (l : list (list Op)).

Inductive dclass := GenMat | Unitary.
Inductive propkind := Approx | Diag | AugMat | Frechet.
Inductive fidkind := FUnit | FTrace.
Inductive phopt := SU | PSU.
(** dyn_gen_phase: a number or an operator (dynamics.py:916-938). *)
Inductive phase := PhNum (c : C) | PhOp (o : Op).
Inductive phapp := PreOp | PostOp | CustomApp (f : Op -> Op).
Inductive dtype := DQobj | DNdarray.

(** What the user sets before [initialize_controls]: attributes documented in
    dynamics.py:120-345, after [_set_memory_optimizations] (612-673) has
    turned the cache flags into booleans (see [mem_opt] below). *)
Record settings := mkSettings {
  s_class : dclass;
  s_drift : option drift;        (* drift_dyn_gen *)
  s_ctrls : option ctrls;        (* ctrl_dyn_gen *)
  s_drift_ham : option drift;    (* drift_ham (Unitary only) *)
  s_ctrl_ham : option ctrls;     (* ctrl_ham  (Unitary only) *)
  s_initial : Op;
  s_target : Op;
  s_tau : list R;                (* timeslots already initialised *)
  s_phase : option phase;        (* dyn_gen_phase *)
  s_phapp : phapp;               (* phase_application *)
  s_dtype : dtype;
  s_cache_ph : bool;             (* cache_phased_dyn_gen *)
  s_cache_pg : bool;             (* cache_prop_grad *)
  s_cache_adj : bool;            (* cache_dyn_gen_eigenvectors_adj *)
  s_prec : R;                    (* fact_mat_round_prec *)
  s_prop : propkind;
  s_fid : fidkind;
  s_phopt : phopt;               (* FidCompUnitary.phase_option *)
  s_scale : option R;            (* FidCompTraceDiff.scale_factor *)
  s_dim : nat;                   (* get_drift_dim() *)
}.
#[export] Instance eta_settings : Settable _ := settable! mkSettings
  <s_class; s_drift; s_ctrls; s_drift_ham; s_ctrl_ham; s_initial; s_target; s_tau;
   s_phase; s_phapp; s_dtype; s_cache_ph; s_cache_pg; s_cache_adj; s_prec; s_prop;
   s_fid; s_phopt; s_scale; s_dim>.

(** The fidelity computer's temporary data (fidcomp.py:153-163, 290-293). *)
Record fidst := mkFid {
  f_dimnorm : R;
  f_fid_err : option R;
  f_fidelity : option R;
  f_prenorm : option C;
  f_fid_cur : bool;      (* fidelity_current *)
  f_pre_cur : bool;      (* fidelity_prenorm_current *)
  f_grad_cur : bool;     (* fid_err_grad_current *)
  f_grad : option amps;  (* fid_err_grad *)
  f_gradnorm : R;        (* grad_norm *)
}.
#[export] Instance eta_fidst : Settable _ := settable! mkFid
  <f_dimnorm; f_fid_err; f_fidelity; f_prenorm; f_fid_cur; f_pre_cur; f_grad_cur;
   f_grad; f_gradnorm>.

(** Counters of stats.py:95-111 touched here (wall times left out). *)
Record stats := mkStats {
  st_recompute : nat;     (* num_tslot_recompute *)
  st_fid : nat;           (* num_fidelity_computes *)
  st_grad : nat;          (* num_grad_computes *)
  st_upd : nat;           (* num_ctrl_amp_updates *)
  st_chg : nat;           (* num_ctrl_amp_changes *)
  st_ts : nat;            (* num_timeslot_changes *)
}.
#[export] Instance eta_stats : Settable _ := settable! mkStats
  <st_recompute; st_fid; st_grad; st_upd; st_chg; st_ts>.

Definition buf := list (option Op).

Record dyn := mkDyn {
  d_set : settings;
  d_init : bool;                     (* _ctrls_initialized *)
  d_mapped : bool;                   (* _dyn_gen_mapped *)
  d_num_ctrls : option nat;          (* _num_ctrls *)
  d_td_drift : bool;                 (* time_depend_drift *)
  d_td_ctrl : bool;                  (* time_depend_ctrl_dyn_gen *)
  d_drift : option drift;            (* _drift_dyn_gen *)
  d_ctrls : option ctrls;            (* _ctrl_dyn_gen *)
  d_target : option Op;              (* _target *)
  d_pctrl : option ctrls;            (* _phased_ctrl_dyn_gen *)
  d_dg : buf;                        (* _dyn_gen *)
  d_pdg : option buf;                (* _phased_dyn_gen *)
  d_prop : buf;                      (* _prop *)
  d_pg : option (list buf);          (* _prop_grad *)
  d_fwd : buf;                       (* _fwd_evo *)
  d_onwd : option buf;               (* _onwd_evo *)
  d_onto : option buf;               (* _onto_evo *)
  d_dcur : option (list bool);       (* _decomp_curr *)
  d_peig : buf;                      (* _prop_eigen *)
  d_evec : buf;                      (* _dyn_gen_eigenvectors *)
  d_eadj : option buf;               (* _dyn_gen_eigenvectors_adj *)
  d_fac : list (option (nat -> nat -> C)); (* _dyn_gen_factormatrix *)
  d_dg_q : option buf;               (* _dyn_gen_qobj *)
  d_prop_q : option buf;             (* _prop_qobj *)
  d_pg_q : option (list buf);        (* _prop_grad_qobj *)
  d_fwd_q : option buf;              (* _fwd_evo_qobj *)
  d_onwd_q : option buf;             (* _onwd_evo_qobj *)
  d_onto_q : option buf;             (* _onto_evo_qobj *)
  d_amps : option amps;              (* ctrl_amps *)
  d_evo_cur : bool;                  (* evo_current *)
  d_fidst : fidst;
  d_stats : option stats;            (* stats *)
}.
#[export] Instance eta_dyn : Settable _ := settable! mkDyn
  <d_set; d_init; d_mapped; d_num_ctrls; d_td_drift; d_td_ctrl; d_drift; d_ctrls;
   d_target; d_pctrl; d_dg; d_pdg; d_prop; d_pg; d_fwd; d_onwd; d_onto; d_dcur; d_peig;
   d_evec; d_eadj; d_fac; d_dg_q; d_prop_q; d_pg_q; d_fwd_q; d_onwd_q; d_onto_q; d_amps; d_evo_cur; d_fidst; d_stats>.

(** Attribute values after [reset] (dynamics.py:351-441; fidcomp.py:138-163),
    with the user's settings in place. *)
Definition new_fid : fidst :=
  mkFid 1 None None None false false false None 0.
Definition new_dyn (s : settings) (with_stats : bool) : dyn :=
  mkDyn s false false None false false None None None None [] None [] None []
        None None None [] [] None [] None None None None None None None false new_fid
        (if with_stats then Some (mkStats 0 0 0 0 0 0) else None).

(** num_tslots once timeslots are initialised (dynamics.py:544-548, 602). *)
Definition n_ts (d : dyn) : nat := length (s_tau (d_set d)).

Definition grad_exact (p : propkind) : bool :=   (* propcomp.py:186,222,324,396 *)
  match p with Approx => false | _ => true end.
Definition uses_onwd (f : fidkind) : bool :=     (* fidcomp.py:148, 572 *)
  match f with FTrace => true | FUnit => false end.
Definition uses_onto (f : fidkind) : bool :=     (* fidcomp.py:149, 286 *)
  match f with FUnit => true | FTrace => false end.

(** ** Phase *)

(** dynamics.py:916-938 [_apply_phase_preop], [_apply_phase_postop]; 'custom'
    uses the function the user installed (894-896). *)
Definition apply_phase (s : settings) (dg : Op) : Op :=
  match s_phapp s with
  | CustomApp f => f dg
  | PreOp => match s_phase s with
             | Some (PhOp p) => omul p dg
             | Some (PhNum c) => oscale c dg
             | None => dg
             end
  | PostOp => match s_phase s with
              | Some (PhOp p) => omul dg p
              | Some (PhNum c) => oscale c dg
              | None => dg
              end
  end.

(** ** Initialisation *)

(** dynamics.py:1570-1579 [_map_dyn_gen_to_ham]. *)
Definition map_dyn_gen_to_ham (d : dyn) : dyn :=
  let s := d_set d in
  let s1 := match s_drift s with
            | None => s <| s_drift := s_drift_ham s |>
            | Some x => s <| s_drift_ham := Some x |>
            end in
  let s2 := match s_ctrls s1 with
            | None => s1 <| s_ctrls := s_ctrl_ham s1 |>
            | Some x => s1 <| s_ctrl_ham := Some x |>
            end in
  d <| d_set := s2 |> <| d_mapped := true |>.

(** dynamics.py:1129-1150 and 1581-1587 [num_ctrls]: memoised in _num_ctrls;
    time_depend_ctrl_dyn_gen is only ever set to True here. *)
Definition get_num_ctrls (d : dyn) : Res (dyn * nat) :=
  let d := match s_class (d_set d) with
           | Unitary => if d_mapped d then d else map_dyn_gen_to_ham d
           | GenMat => d
           end in
  match d_num_ctrls d with
  | Some n => Ok (d, n)
  | None =>
    match s_ctrls (d_set d) with
    | None => Raise TypeError
    | Some (CList l) => Ok (d <| d_num_ctrls := Some (length l) |>, length l)
    | Some (CArr rows) =>
      r0 <- get rows 0;;   (* shape[1] of the array built at dynamics.py:66 *)
      Ok (d <| d_num_ctrls := Some (length r0) |> <| d_td_ctrl := true |>, length r0)
    end
  end.

(** dynamics.py:1099-1116 [refresh_drift_attribs]. *)
Definition refresh_drift_attribs (d : dyn) : Res dyn :=
  match s_drift (d_set d) with
  | None => Raise TypeError
  | Some (DConst _) => Ok (d <| d_td_drift := false |>)
  | Some (DList l) => _ <- get l 0;; Ok (d <| d_td_drift := true |>)
  end.

(** dynamics.py:1175-1203 and 1589-1598 [_get_onto_evo_target]. *)
Definition onto_evo_target (s : settings) : Op :=
  match s_class s with
  | Unitary => odag A (s_target s)
  | GenMat => if osquare A (s_target s) then oinv A (s_target s) else odag A (s_target s)
  end.

(** dynamics.py:900-904 [_init_phase]: without a phase the phased cache is off. *)
Definition init_phase (d : dyn) : dyn :=
  match s_phase (d_set d) with
  | Some _ => d
  | None => d <| d_set; s_cache_ph := false |>
  end.

(** dynamics.py:780-793 the phased control generators, when cached. *)
Definition phased_ctrls (s : settings) (c : ctrls) : ctrls :=
  match c with
  | CList l => CList (map (apply_phase s) l)
  | CArr rows => CArr (map (map (apply_phase s)) rows)
  end.

(** dynamics.py:716-833 [_init_evo] (without dump and unitarity options, and
    without the check at 741-747 that refuses sparse decomposition for systems
    of size at most 2).  Buffers that the current options do not need are left
    as they were, as in the code. *)
Definition init_evo (d : dyn) : Res dyn :=
  d <- refresh_drift_attribs d;;
  let d := init_phase d in
  let n := n_ts d in
  '(d, nc) <- get_num_ctrls d;;
  let s := d_set d in
  let d := d <| d_target := Some (s_target s) |>
             <| d_drift := s_drift s |>
             <| d_ctrls := s_ctrls s |> in
  let d := if s_cache_ph s
           then d <| d_pctrl := match s_ctrls s with
                                | Some c => Some (phased_ctrls s c)
                                | None => None
                                end |>
                  <| d_pdg := Some (repeat None n) |>
           else d in
  let d := d <| d_dg := repeat None n |> <| d_prop := repeat None n |> in
  let d := if grad_exact (s_prop s) && s_cache_pg s
           then d <| d_pg := Some (repeat (repeat None nc) n) |> else d in
  let d := d <| d_fwd := Some (s_initial s) :: repeat None n |> in
  let d := if uses_onwd (s_fid s) then d <| d_onwd := Some (repeat None n) |> else d in
  let d := if uses_onto (s_fid s)
           then d <| d_onto := Some (repeat None n ++ [Some (onto_evo_target s)]) |>
           else d in
  let d := match s_prop s with
           | Diag =>        (* dynamics.py:940-952 _create_decomp_lists *)
             let d := d <| d_dcur := Some (repeat false n) |>
                        <| d_peig := repeat None n |>
                        <| d_evec := repeat None n |>
                        <| d_fac := repeat None n |> in
             if s_cache_adj s then d <| d_eadj := Some (repeat None n) |> else d
           | _ => d
           end in
  Ok d.

(** fidcomp.py:374-405 [normalize_SU], [normalize_PSU] applied to a complex
    number (the trace of an operator argument is taken first, 376-378). *)
Definition fid_norm (po : phopt) (dimnorm : R) (z : C) : R :=
  match po with SU => Re z / dimnorm | PSU => Cmod z / dimnorm end.

(** fidcomp.py:338-372 [init_comp], [init_normalization]; 580-590 for
    TraceDiff (scale_factor is computed only when it is None). *)
Definition fid_init_comp (d : dyn) : dyn :=
  let s := d_set d in
  match s_fid s with
  | FUnit =>
    d <| d_fidst; f_dimnorm :=
           fid_norm (s_phopt s) 1 (otr A (omul (odag A (s_target s)) (s_target s))) |>
  | FTrace =>
    match s_scale s with
    | Some _ => d
    | None => d <| d_set; s_scale := Some (1 / (2 * INR (s_dim s))) |>
    end
  end.

(** dynamics.py:1083-1088, fidcomp.py:223-229 and 348-354 [flag_system_changed]. *)
Definition flag_system_changed (d : dyn) : dyn :=
  d <| d_evo_cur := false |>
    <| d_fidst; f_fid_cur := false |>
    <| d_fidst; f_grad_cur := false |>
    <| d_fidst; f_pre_cur := false |>.

(** [dyn.ctrl_amps != new_amps] elementwise (tslotcomp.py:195).  Arrays of
    different shape raise; numpy broadcasting of a unit axis is not modelled. *)
Fixpoint neq_row (a b : list R) : Res (list bool) :=
  match a, b with
  | [], [] => Ok []
  | x :: a', y :: b' => r <- neq_row a' b';; Ok (neqR x y :: r)
  | _, _ => Raise ValueError
  end.
Fixpoint neq_amps (a b : amps) : Res (list (list bool)) :=
  match a, b with
  | [], [] => Ok []
  | x :: a', y :: b' => r <- neq_row x y;; rs <- neq_amps a' b';; Ok (r :: rs)
  | _, _ => Raise ValueError
  end.

Definition count (l : list bool) : nat := length (filter (fun b => b) l).
Definition any (l : list bool) : bool := existsb (fun b => b) l.

(** tslotcomp.py:170-223 [TSlotCompUpdateAll.compare_amps].  Returns the
    pair (state, True iff unchanged).  The EvoCompSummary counts only exist
    when stats are collected (179-184; the dump is not modelled). *)
Definition compare_amps (new_amps : amps) (d : dyn) : Res (dyn * bool) :=
  '(changed, n_amps, n_slots) <-
    match d_amps d with
    | None => Ok (true, length (concat new_amps), length new_amps)
    | Some old =>
      ch <- neq_amps old new_amps;;
      if any (map any ch)
      then Ok (true, count (concat ch), count (map any ch))
      else Ok (false, 0%nat, 0%nat)
    end;;
  let d := match d_stats d with
           | None => d
           | Some st =>
             d <| d_stats := Some (st <| st_upd := (st_upd st + if (n_amps =? 0)%nat then 0 else 1)%nat |>
                                      <| st_chg := (st_chg st + n_amps)%nat |>
                                      <| st_ts := (st_ts st + n_slots)%nat |>) |>
           end in
  if changed : bool
  then Ok (flag_system_changed (d <| d_amps := Some new_amps |>), false)
  else Ok (d, true).

(** dynamics.py:1063-1081 [update_ctrl_amps]. *)
Definition update_ctrl_amps (new_amps : amps) (d : dyn) : Res dyn :=
  '(d', _) <- compare_amps new_amps d;; Ok d'.

(** dynamics.py:954-987 and 1564-1568 [initialize_controls]. *)
Definition initialize_controls (a : amps) (d : dyn) : Res dyn :=
  let d := match s_class (d_set d) with
           | Unitary => map_dyn_gen_to_ham d
           | GenMat => d
           end in
  let d := d <| d_amps := None |> in
  d <- init_evo d;;
  let d := fid_init_comp d in
  let d := d <| d_init := true |> in
  update_ctrl_amps a d.

(** ** Generators, propagators *)

(** Control generator of control j in slot k: [_ctrl_dyn_gen[k, j]] or
    [_ctrl_dyn_gen[j]] (dynamics.py:1227-1230), chosen by the flag. *)
Definition ctrl_at (td : bool) (c : ctrls) (k j : nat) : Res Op :=
  match td, c with
  | true, CArr rows => r <- get rows k;; get r j
  | false, CList l => get l j
  | _, _ => Raise TypeError
  end.

Definition some_or {X} (e : exn) (o : option X) : Res X :=
  match o with Some x => Ok x | None => Raise e end.

(** The sum at dynamics.py:1226-1230. *)
Fixpoint add_ctrls (row : list R) (td : bool) (c : ctrls) (k : nat) (js : list nat) (dg : Op) : Res Op :=
  match js with
  | [] => Ok dg
  | j :: js' =>
    u <- get row j;;
    cj <- ctrl_at td c k j;;
    add_ctrls row td c k js' (oadd dg (oscale (RtoC u) cj))
  end.

(** dynamics.py:1216-1234 [_combine_dyn_gen]. *)
Definition combine_dyn_gen (k : nat) (d : dyn) : Res dyn :=
  dr <- some_or TypeError (d_drift d);;
  dg0 <- match d_td_drift d, dr with
         | true, DList l => get l k
         | false, DConst o => Ok o
         | _, _ => Raise TypeError
         end;;
  nc <- some_or TypeError (d_num_ctrls d);;
  am <- some_or TypeError (d_amps d);;
  row <- get am k;;
  c <- some_or TypeError (d_ctrls d);;
  dg <- add_ctrls row (d_td_ctrl d) c k (range nc) dg0;;
  l <- set (d_dg d) k (Some dg);;
  let d := d <| d_dg := l |> in
  if s_cache_ph (d_set d)
  then pl <- some_or TypeError (d_pdg d);;
       pl' <- set pl k (Some (apply_phase (d_set d) dg));;
       Ok (d <| d_pdg := Some pl' |>)
  else Ok d.

(** dynamics.py:1246-1253 [_get_phased_dyn_gen]. *)
Definition get_phased_dyn_gen (k : nat) (d : dyn) : Res Op :=
  match s_phase (d_set d) with
  | None => getf (d_dg d) k
  | Some _ =>
    match d_pdg d with
    | None => dg <- getf (d_dg d) k;; Ok (apply_phase (d_set d) dg)
    | Some pl => getf pl k
    end
  end.

(** dynamics.py:1266-1282 [_get_phased_ctrl_dyn_gen]. *)
Definition get_phased_ctrl_dyn_gen (k j : nat) (d : dyn) : Res Op :=
  match d_pctrl d with
  | Some pc => ctrl_at (d_td_ctrl d) pc k j
  | None =>
    c <- some_or TypeError (d_ctrls d);;
    cj <- ctrl_at (d_td_ctrl d) c k j;;
    match s_phase (d_set d) with
    | None => Ok cj
    | Some _ => Ok (apply_phase (d_set d) cj)
    end
  end.

Definition tau_at (k : nat) (d : dyn) : Res R := get (s_tau (d_set d)) k.

(** dynamics.py:1628-1651: exponentiated eigenvalues and factor matrix.  Entry
    [i, j] of [eig_val_tau * o] is eig_val_tau[j]. *)
Definition eig_val_tau (lam : nat -> R) (tau : R) (i : nat) : C :=
  Cmult (Copp Ci) (RtoC (lam i * tau)).
Definition cexp (z : C) : C := (exp (Re z) * cos (Im z), exp (Re z) * sin (Im z)).
Definition prop_eig (lam : nat -> R) (tau : R) (i : nat) : C := cexp (eig_val_tau lam tau i).
Definition factors (prec : R) (lam : nat -> R) (tau : R) (i j : nat) : C :=
  let dv := Cminus (eig_val_tau lam tau j) (eig_val_tau lam tau i) in
  let dp := Cminus (prop_eig lam tau j) (prop_eig lam tau i) in
  if ltR (Cmod dv) prec then prop_eig lam tau j else Cdiv dp dv.

(** dynamics.py:1600-1682 [DynamicsUnitary._spectral_decomp]; the base class
    raises (1450-1462). *)
Definition spectral_decomp (k : nat) (d : dyn) : Res dyn :=
  match s_class (d_set d) with
  | GenMat => Raise UsageError
  | Unitary =>
    H <- getf (d_dg d) k;;
    let '(lam, V) := oeigh A H in
    tau <- tau_at k d;;
    cur <- some_or TypeError (d_dcur d);;
    cur' <- set cur k true;;
    fac' <- set (d_fac d) k (Some (factors (s_prec (d_set d)) lam tau));;
    pe' <- set (d_peig d) k (Some (odiag A (prop_eig lam tau)));;
    ev' <- set (d_evec d) k (Some V);;
    let d := d <| d_dcur := Some cur' |> <| d_fac := fac' |>
               <| d_peig := pe' |> <| d_evec := ev' |> in
    match d_eadj d with
    | None => Ok d
    | Some l => l' <- set l k (Some (odag A V));; Ok (d <| d_eadj := Some l' |>)
    end
  end.

(** dynamics.py:1438-1448 [_ensure_decomp_curr]. *)
Definition ensure_decomp_curr (k : nat) (d : dyn) : Res dyn :=
  match d_dcur d with
  | None => Raise UsageError
  | Some cur => b <- get cur k;; if b : bool then Ok d else spectral_decomp k d
  end.

(** dynamics.py:1684-1691 [_get_dyn_gen_eigenvectors_adj]. *)
Definition get_eadj (k : nat) (d : dyn) : Res Op :=
  match d_eadj d with
  | Some l => getf l k
  | None => V <- getf (d_evec d) k;; Ok (odag A V)
  end.

(** propcomp.py:124-138 (all but Diag) and 225-247 (Diag) [_compute_propagator]. *)
Definition compute_propagator (k : nat) (d : dyn) : Res (dyn * Op) :=
  match s_prop (d_set d) with
  | Diag =>
    d <- ensure_decomp_curr k d;;
    V <- getf (d_evec d) k;;
    pe <- getf (d_peig d) k;;
    Va <- get_eadj k d;;
    Ok (d, omul (omul V pe) Va)
  | _ =>
    pdg <- get_phased_dyn_gen k d;;
    tau <- tau_at k d;;
    Ok (d, oexpm A (oscale (RtoC tau) pdg))
  end.

(** propcomp.py:163-170 (base, used by Approx), 249-302 (Diag), 350-382
    (AugMat), 399-430 (Frechet) [_compute_prop_grad].  The propagator is also
    returned; with compute_prop=False the code drops it, and Diag then does
    not form the product (no effect on the state). *)
Definition compute_prop_grad (k j : nat) (d : dyn) : Res (dyn * (Op * Op)) :=
  match s_prop (d_set d) with
  | Approx => Raise UsageError
  | Diag =>
    d <- ensure_decomp_curr k d;;
    '(d, prop) <- compute_propagator k d;;
    Va <- get_eadj k d;;
    pc <- get_phased_ctrl_dyn_gen k j d;;
    V <- getf (d_evec d) k;;
    tau <- tau_at k d;;
    fac <- getf (d_fac d) k;;
    let cdg := omul (omul Va pc) V in
    let cdg := ohad A (oscale (RtoC tau) cdg) fac in
    Ok (d, (prop, omul (omul V cdg) Va))
  | AugMat =>
    pdg <- get_phased_dyn_gen k d;;
    pc <- get_phased_ctrl_dyn_gen k j d;;
    tau <- tau_at k d;;
    let e := oexpm A (oaug A (oscale (RtoC tau) pdg) (oscale (RtoC tau) pc)) in
    Ok (d, (oblk00 A e, oblk01 A e))
  | Frechet =>
    pdg <- get_phased_dyn_gen k d;;
    tau <- tau_at k d;;
    pc <- get_phased_ctrl_dyn_gen k j d;;
    Ok (d, ofrechet A (oscale (RtoC tau) pdg) (oscale (RtoC tau) pc))
  end.

(** ** Recomputing the evolution: tslotcomp.py:225-352 *)

Definition set_pg (d : dyn) (k j : nat) (g : Op) : Res dyn :=
  pg <- some_or TypeError (d_pg d);;
  row <- get pg k;;
  row' <- set row j (Some g);;
  pg' <- set pg k row';;
  Ok (d <| d_pg := Some pg' |>).

(** tslotcomp.py:262-265. *)
Definition step_dyn_gen (k : nat) (d : dyn) : Res dyn :=
  d <- combine_dyn_gen k d;;
  match d_dcur d with
  | None => Ok d
  | Some cur => cur' <- set cur k false;; Ok (d <| d_dcur := Some cur' |>)
  end.

(** tslotcomp.py:273-293.  With exact cached gradients the propagator is only
    computed inside the loop over the controls, when j == 0. *)
Definition step_prop (nc k : nat) (d : dyn) : Res dyn :=
  if grad_exact (s_prop (d_set d)) && s_cache_pg (d_set d)
  then for_each (range nc)
         (fun j d =>
            '(d, (p, g)) <- compute_prop_grad k j d;;
            d <- (if (j =? 0)%nat
                  then l <- set (d_prop d) k (Some p);; Ok (d <| d_prop := l |>)
                  else Ok d);;
            set_pg d k j g) d
  else '(d, p) <- compute_propagator k d;;
       l <- set (d_prop d) k (Some p);;
       Ok (d <| d_prop := l |>).

(** tslotcomp.py:301-306. *)
Definition step_fwd (k : nat) (d : dyn) : Res dyn :=
  p <- getf (d_prop d) k;;
  x <- getf (d_fwd d) k;;
  l <- set (d_fwd d) (k + 1) (Some (omul p x));;
  Ok (d <| d_fwd := l |>).

(** tslotcomp.py:317-321. *)
Definition step_onwd (k : nat) (d : dyn) : Res dyn :=
  ow <- some_or TypeError (d_onwd d);;
  x <- getf ow (k + 1);;
  p <- getf (d_prop d) k;;
  l <- set ow k (Some (omul x p));;
  Ok (d <| d_onwd := Some l |>).

(** tslotcomp.py:324-329. *)
Definition step_onto (k : nat) (d : dyn) : Res dyn :=
  ot <- some_or TypeError (d_onto d);;
  x <- getf ot (k + 1);;
  p <- getf (d_prop d) k;;
  l <- set ot k (Some (omul x p));;
  Ok (d <| d_onto := Some l |>).

Definition recompute_evolution (d : dyn) : Res dyn :=
  let n := n_ts d in
  '(d, nc) <- get_num_ctrls d;;
  (* 237-244 *)
  let d := d <| d_dg_q := None |> <| d_prop_q := None |> <| d_pg_q := None |>
             <| d_fwd_q := None |> <| d_onwd_q := None |> <| d_onto_q := None |> in
  (* 250-251 *)
  let d := match d_stats d with
           | Some st => d <| d_stats := Some (st <| st_recompute := S (st_recompute st) |>) |>
           | None => d
           end in
  d <- for_each (range n) step_dyn_gen d;;
  d <- for_each (range n) (step_prop nc) d;;
  d <- for_each (range n) step_fwd d;;
  (* 314-321; for n = 0 the code's index n_ts - 1 = -1 is out of range too *)
  d <- (if uses_onwd (s_fid (d_set d))
        then p <- get (d_prop d) (n - 1);;
             ow <- some_or TypeError (d_onwd d);;
             l <- set ow (n - 1) p;;
             for_each (range_down (n - 1)) step_onwd (d <| d_onwd := Some l |>)
        else Ok d);;
  (* 323-329 *)
  if uses_onto (s_fid (d_set d))
  then for_each (range_down n) step_onto d
  else Ok d.

(** dynamics.py:1420-1436 [compute_evolution]. *)
Definition compute_evolution (d : dyn) : Res (dyn * bool) :=
  if d_evo_cur d then Ok (d, false)
  else d <- recompute_evolution d;; Ok (d <| d_evo_cur := true |>, true).

(** dynamics.py:1334-1341 [_get_prop_grad]. *)
Definition get_prop_grad (k j : nat) (d : dyn) : Res (dyn * Op) :=
  if s_cache_pg (d_set d)
  then pg <- some_or TypeError (d_pg d);;
       row <- get pg k;;
       g <- getf row j;;
       Ok (d, g)
  else '(d, (_, g)) <- compute_prop_grad k j d;; Ok (d, g).

(** ** Fidelity computers *)

Definition bump_fid (d : dyn) : dyn :=
  match d_stats d with
  | Some st => d <| d_stats := Some (st <| st_fid := S (st_fid st) |>) |>
  | None => d
  end.
Definition bump_grad (d : dyn) : dyn :=
  match d_stats d with
  | Some st => d <| d_stats := Some (st <| st_grad := S (st_grad st) |>) |>
  | None => d
  end.

(** fidcomp.py:436-462 [get_fidelity_prenorm]; the slot is num_tslots
    (tslotcomp.py:366-372). *)
Definition get_fidelity_prenorm (d : dyn) : Res (dyn * C) :=
  if f_pre_cur (d_fidst d)
  then f <- some_or TypeError (f_prenorm (d_fidst d));; Ok (d, f)
  else
    let k := n_ts d in
    '(d, _) <- compute_evolution d;;
    ot <- some_or TypeError (d_onto d);;
    x <- getf ot k;;
    y <- getf (d_fwd d) k;;
    let f := otr A (omul x y) in
    let d := d <| d_fidst; f_prenorm := Some f |> <| d_fidst; f_pre_cur := true |> in
    Ok (bump_fid d, f).

(** fidcomp.py:423-434 [get_fidelity]. *)
Definition get_fidelity (d : dyn) : Res (dyn * R) :=
  match s_fid (d_set d) with
  | FTrace => Raise AttributeError   (* only FidCompUnitary has this method *)
  | FUnit =>
  if f_fid_cur (d_fidst d)
  then f <- some_or TypeError (f_fidelity (d_fidst d));; Ok (d, f)
  else
    '(d, f) <- get_fidelity_prenorm d;;
    let v := fid_norm (s_phopt (d_set d)) (f_dimnorm (d_fidst d)) f in
    let d := d <| d_fidst; f_fidelity := Some v |> <| d_fidst; f_fid_cur := true |> in
    Ok (d, v)
  end.

(** Trace difference error of an operator difference (fidcomp.py:615-622). *)
Definition trace_err (scale : R) (diff : Op) : R :=
  scale * Re (otr A (omul (odag A diff) diff)).

(** fidcomp.py:417-421 (Unitary) and 592-634 (TraceDiff) [get_fid_err]. *)
Definition get_fid_err (d : dyn) : Res (dyn * R) :=
  match s_fid (d_set d) with
  | FUnit => '(d, f) <- get_fidelity d;; Ok (d, Rabs (1 - f))
  | FTrace =>
    if f_fid_cur (d_fidst d)
    then e <- some_or TypeError (f_fid_err (d_fidst d));; Ok (d, e)
    else
      '(d, _) <- compute_evolution d;;
      fin <- getf (d_fwd d) (n_ts d);;
      targ <- some_or TypeError (d_target d);;
      sc <- some_or TypeError (s_scale (d_set d));;
      let e := trace_err sc (osub A targ fin) in
      let d := bump_fid (d <| d_fidst; f_fid_err := Some e |>) in
      Ok (d <| d_fidst; f_fid_cur := true |>, e)
  end.

(** Rows of an [n_ts, n_ctrls] array computed entry by entry.  The code loops
    over j outside and k inside (526-538); the entries are independent, but
    the state is threaded because a gradient may trigger a decomposition. *)
Definition fill_grad {X} (n nc : nat) (f : nat -> nat -> dyn -> Res (dyn * X)) (zero : X) (d : dyn)
  : Res (dyn * list (list X)) :=
  for_each (range nc)
    (fun j s => for_each (range n)
       (fun k '(d, g) =>
          '(d, v) <- f k j d;;
          row <- get g k;;
          row' <- set row j v;;
          g' <- set g k row';;
          Ok (d, g')) s)
    (d, repeat (repeat zero nc) n).

(** fidcomp.py:508-543 [compute_fid_grad]. *)
Definition unit_grad_entry (k j : nat) (d : dyn) : Res (dyn * C) :=
  x <- getf (d_fwd d) k;;
  ot <- some_or TypeError (d_onto d);;
  y <- getf ot (k + 1);;
  '(d, g) <- get_prop_grad k j d;;
  Ok (d, otr A (omul (omul y g) x)).
Definition compute_fid_grad (d : dyn) : Res (dyn * list (list C)) :=
  '(d, nc) <- get_num_ctrls d;;
  let n := n_ts d in
  '(d, _) <- compute_evolution d;;
  fill_grad n nc unit_grad_entry (RtoC 0) d.

(** exp(-1j * np.angle(z)); np.angle(0) = 0. *)
Definition unphase (z : C) : C :=
  if Req_EM_T (Cmod z) 0 then RtoC 1 else Cdiv (Cconj z) (RtoC (Cmod z)).

(** fidcomp.py:387-392 and 407-415 [normalize_gradient_SU / PSU];
    dimensional_norm is real, so the real part of the quotient is written as
    the quotient of the real part. *)
Definition grad_norm_entry (po : phopt) (dimnorm : R) (f_pn g : C) : R :=
  match po with
  | SU => Re g / dimnorm
  | PSU => Re (Cmult g (unphase f_pn)) / dimnorm
  end.

(** fidcomp.py:664-717 [compute_fid_err_grad], one entry. *)
Definition trace_grad_entry (n : nat) (k j : nat) (d : dyn) : Res (dyn * R) :=
  fin <- getf (d_fwd d) n;;
  targ <- some_or TypeError (d_target d);;
  sc <- some_or TypeError (s_scale (d_set d));;
  let diff := osub A targ fin in
  x <- getf (d_fwd d) k;;
  '(d, pg) <- get_prop_grad k j d;;
  let eg := omul pg x in
  eg <- (if (k + 1 <? n)%nat
         then ow <- some_or TypeError (d_onwd d);;
              y <- getf ow (k + 1);;
              Ok (omul y eg)
         else Ok eg);;
  Ok (d, -2 * sc * Re (otr A (omul (odag A diff) eg))).
Definition compute_fid_err_grad (d : dyn) : Res (dyn * amps) :=
  '(d, nc) <- get_num_ctrls d;;
  let n := n_ts d in
  '(d, _) <- compute_evolution d;;
  fill_grad n nc (trace_grad_entry n) 0 d.

Definition norm2 (g : amps) : R :=   (* np.sqrt(np.sum(g**2)), fidcomp.py:493, 651 *)
  sqrt (fold_right Rplus 0 (map (fun x => x * x) (concat g))).

(** fidcomp.py:464-506 (Unitary), 636-662 (TraceDiff) [get_fid_err_gradient]. *)
Definition get_fid_err_gradient (d : dyn) : Res (dyn * amps) :=
  if f_grad_cur (d_fidst d)
  then g <- some_or TypeError (f_grad (d_fidst d));; Ok (d, g)
  else
    '(d, g) <-
      match s_fid (d_set d) with
      | FUnit =>
        '(d, gp) <- compute_fid_grad d;;
        '(d, fid) <- get_fidelity d;;
        '(d, pn) <- get_fidelity_prenorm d;;
        let po := s_phopt (d_set d) in
        let dn := f_dimnorm (d_fidst d) in
        let sgn := if leR 1 fid then 1 else -1 in
        Ok (d, map (map (fun g => sgn * grad_norm_entry po dn pn g)) gp)
      | FTrace => compute_fid_err_grad d
      end;;
    let d := d <| d_fidst; f_grad := Some g |> <| d_fidst; f_grad_cur := true |> in
    let d := bump_grad d in
    Ok (d <| d_fidst; f_gradnorm := norm2 g |>, g).

(** ** Public accessors *)

(** With Qobj operators the code stores the internal list itself in the
    [*_qobj] attribute, otherwise a converted copy.  Keeping a snapshot in both
    cases gives the same value on every later access: [recompute_evolution]
    clears the attribute before it writes into the internal list, and
    [_init_evo] replaces the internal list instead of writing into it. *)
Definition get_dyn_gen (d : dyn) : dyn * buf :=          (* dynamics.py:1284-1297 *)
  match d_dg_q d with
  | Some l => (d, l)
  | None => (d <| d_dg_q := Some (d_dg d) |>, d_dg d)
  end.
Definition get_prop (d : dyn) : dyn * buf :=             (* dynamics.py:1299-1312 *)
  match d_prop_q d with
  | Some l => (d, l)
  | None => (d <| d_prop_q := Some (d_prop d) |>, d_prop d)
  end.
Definition get_prop_grads (d : dyn) : dyn * option (list buf) := (* dynamics.py:1314-1332 *)
  match d_pg d with
  | None => (d, d_pg_q d)
  | Some pg =>
    match d_pg_q d with
    | Some l => (d, Some l)
    | None => (d <| d_pg_q := Some pg |>, Some pg)
    end
  end.
(** dynamics.py:1348-1364 [fwd_evo], 1369-1372 [full_evo]. *)
Definition get_fwd_evo (d : dyn) : dyn * buf :=
  match d_fwd_q d with
  | Some l => (d, l)
  | None =>
    let l := match s_dtype (d_set d) with
             | DQobj => d_fwd d
             | DNdarray => Some (s_initial (d_set d)) :: tl (d_fwd d)
             end in
    (d <| d_fwd_q := Some l |>, l)
  end.
Definition full_evo (d : dyn) : Res (dyn * Op) :=
  let '(d, l) := get_fwd_evo d in
  x <- getf l (n_ts d);; Ok (d, x).

(** dynamics.py:1379-1393 [onwd_evo]: with Qobj operators the code returns the
    forward list. *)
Definition get_onwd_evo (d : dyn) : dyn * option buf :=
  match d_onwd d with
  | None => (d, d_onwd_q d)
  | Some ow =>
    match d_onwd_q d with
    | Some l => (d, Some l)
    | None =>
      let l := match s_dtype (d_set d) with
               | DQobj => d_fwd d
               | DNdarray => ow
               end in
      (d <| d_onwd_q := Some l |>, Some l)
    end
  end.
(** dynamics.py:1400-1418 [onto_evo]. *)
Definition get_onto_evo (d : dyn) : dyn * option buf :=
  match d_onto d with
  | None => (d, d_onto_q d)
  | Some ot =>
    match d_onto_q d with
    | Some l => (d, Some l)
    | None => (d <| d_onto_q := Some ot |>, Some ot)
    end
  end.

(** ** Setters used after initialisation *)

(** fidcomp.py:311-336 [phase_option]: only the functions are switched. *)
Definition set_phase_option (po : phopt) (d : dyn) : dyn := d <| d_set; s_phopt := po |>.

(** dynamics.py:576-610 [tau] setter: durations and times only. *)
Definition set_tau (l : list R) (d : dyn) : dyn := d <| d_set; s_tau := l |>.

(** In-place write of the array object stored in [ctrl_amps]
    (tslotcomp.py:219 stores the caller's array itself). *)
Definition write_stored_amps (a : amps) (d : dyn) : dyn :=
  match d_amps d with Some _ => d <| d_amps := Some a |> | None => d end.

(** ** Histories *)

Inductive op :=
| UpdateAmps (a : amps)
| ComputeEvolution
| GetFidErr
| GetFidelity
| GetGradient
| GetDynGen
| GetProp
| GetPropGrad
| GetFwdEvo
| GetOnwdEvo
| GetOntoEvo.

Definition lift {X} (m : Res (dyn * X)) : Res dyn := '(d, _) <- m;; Ok d.

Definition step (o : op) (d : dyn) : Res dyn :=
  match o with
  | UpdateAmps a => update_ctrl_amps a d
  | ComputeEvolution => lift (compute_evolution d)
  | GetFidErr => lift (get_fid_err d)
  | GetFidelity => lift (get_fidelity d)
  | GetGradient => lift (get_fid_err_gradient d)
  | GetDynGen => Ok (fst (get_dyn_gen d))
  | GetProp => Ok (fst (get_prop d))
  | GetPropGrad => Ok (fst (get_prop_grads d))
  | GetFwdEvo => Ok (fst (get_fwd_evo d))
  | GetOnwdEvo => Ok (fst (get_onwd_evo d))
  | GetOntoEvo => Ok (fst (get_onto_evo d))
  end.

Fixpoint run (l : list op) (d : dyn) : Res dyn :=
  match l with
  | [] => Ok d
  | o :: l' => d' <- step o d;; run l' d'
  end.

End Dyn.
Arguments drift A : clear implicits.
Arguments ctrls A : clear implicits.
Arguments phase A : clear implicits.
Arguments phapp A : clear implicits.
Arguments settings A : clear implicits.
Arguments buf A : clear implicits.
Arguments dyn A : clear implicits.

(** dynamics.py:612-673 [_set_memory_optimizations]: a flag the user left
    [None] is derived from memory_optimization; returns
    (cache_phased_dyn_gen, cache_prop_grad, cache_dyn_gen_eigenvectors_adj,
    sparse_eigen_decomp).  Order matters: [_init_phase] (900-904) ran before. *)
Definition mem_opt (level : Z) (ph pg adj sp : option bool) : bool * bool * bool * bool :=
  let dflt o b := match o with Some x => x | None => b end in
  (dflt ph (negb (0 <? level)%Z), dflt pg (negb (0 <? level)%Z),
   dflt adj (negb (0 <? level)%Z), dflt sp (1 <? level)%Z).
