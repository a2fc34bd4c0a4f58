(** A controlled qubit with exact routines: used for the concrete cases shown
    beside the theorems about matrices and for witnesses. *)
From Coq Require Import Reals.
From Coquelicot Require Import Complex.
From Verif.Model Require Import Base Dyn.
From Verif.Lib Require Import Csum Mat MExp MCalc.
From Verif.Spec Require Import Evolution History MatAlg.
Local Open Scope nat_scope.

Definition mat2 (a b c d : C) : mat := tab 2 2 (fun i j =>
  match i, j with 0, 0 => a | 0, _ => b | _, 0 => c | _, _ => d end).
Definition sigma_x : mat := mat2 (RtoC 0) (RtoC 1) (RtoC 1) (RtoC 0).
Definition sigma_z : mat := mat2 (RtoC 1) (RtoC 0) (RtoC 0) (RtoC (-1)).

(** Eigenvalues and eigenvectors of the Hermitian matrix [[a, b], [b*, d]]. *)
Definition eigh2 (h : mat) : (nat -> R) * mat :=
  let a := Re (ent h 0 0) in let d := Re (ent h 1 1) in let b := ent h 0 1 in
  if Req_EM_T (Cmod b) 0
  then (fun i => match i with 0 => a | _ => d end, mid 2)
  else
    let e := ((a - d) / 2)%R in
    let r := sqrt (e * e + Cmod b * Cmod b) in
    let x := (r - e)%R in
    let nu := sqrt (2 * x * r) in
    (fun i => match i with 0 => (a + d) / 2 + r | _ => (a + d) / 2 - r end%R,
     mat2 (b / RtoC nu)%C (RtoC (- x / nu)) (RtoC (x / nu)) (Cconj b / RtoC nu)%C).

Definition qubit_routines : routines := {|
  r_expm := mexp;
  r_frechet := fun x e => (mexp x, mdexp x e);
  r_eigh := eigh2;
  r_inv := fun x => x;       (* not used by the examples *)
|}.
(** The same, for any dimension, without eigenvalues. *)
Definition plain_routines : routines := {|
  r_expm := mexp;
  r_frechet := fun x e => (mexp x, mdexp x e);
  r_eigh := fun h => (fun _ => 0%R, h);
  r_inv := fun x => x;
|}.

Notation QAlg := (MatAlg 2 qubit_routines).

(** H(u) = sigma_z + u sigma_x, two slots of length 1/2, from the identity. *)
Definition qubit (target : mat) (p : propkind) (f : fidkind) (po : phopt) (prec : R) : settings QAlg :=
  {| s_class := Unitary;
     s_drift := Some (DConst (sigma_z : Op QAlg));
     s_ctrls := Some (CList [(sigma_x : Op QAlg)]);
     s_drift_ham := None;
     s_ctrl_ham := None;
     s_initial := mid 2;
     s_target := target;
     s_tau := [(1/2)%R; (1/2)%R];
     s_phase := Some (PhNum (- Ci)%C : phase QAlg);
     s_phapp := PreOp;
     s_dtype := DNdarray;
     s_cache_ph := true;
     s_cache_pg := true;
     s_cache_adj := true;
     s_prec := prec;
     s_prop := p;
     s_fid := f;
     s_phopt := po;
     s_scale := None;
     s_dim := 2 |}.
