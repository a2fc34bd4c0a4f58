(** One-dimensional operators: 1x1 complex matrices, written as complex
    numbers, with the true exponential.  Used for the concrete cases shown
    beside the theorems and for witnesses of refuted statements.  (The
    augmented matrix of propcomp.py:339-348 is 2x2, so [oaug] and the block
    projections are not available here and the AugMat computer is not used
    with this algebra; see [Spec/MatAlg.v] for matrices.) *)
From Coq Require Import Reals Lra.
From Coquelicot Require Import Complex.
From Verif.Model Require Import Base Dyn.
Local Open Scope R_scope.

Definition ScalarAlg : Alg := {|
  Op := C;
  omul := Cmult;
  oadd := Cplus;
  osub := Cminus;
  oscale := Cmult;
  odag := Cconj;
  otr := fun x => x;
  oinv := Cinv;
  oexpm := cexp;
  ofrechet := fun x e => (cexp x, (cexp x * e)%C);
  oaug := fun x _ => x;
  oblk00 := fun x => x;
  oblk01 := fun x => x;
  oeigh := fun x => (fun _ => Re x, RtoC 1);
  odiag := fun f => f 0%nat;
  ohad := fun x f => (x * f 0%nat 0%nat)%C;
  osquare := fun _ => true;
|}.

(** A controlled one-level system: [n] slots of duration 1, drift 0, one
    control with operator 1, target 1, initial 1. *)
Definition sc_settings (cl : dclass) (n : nat) (ph : option (phase ScalarAlg)) (p : propkind) (f : fidkind)
  : settings ScalarAlg :=
  {| s_class := cl;
     s_drift := Some (DConst (RtoC 0 : Op ScalarAlg));
     s_ctrls := Some (CList [(RtoC 1 : Op ScalarAlg)]);
     s_drift_ham := None;
     s_ctrl_ham := None;
     s_initial := RtoC 1;
     s_target := RtoC 1;
     s_tau := repeat 1 n;
     s_phase := ph;
     s_phapp := PreOp;
     s_dtype := DNdarray;
     s_cache_ph := true;
     s_cache_pg := true;
     s_cache_adj := true;
     s_prec := 1 / 10;
     s_prop := p;
     s_fid := f;
     s_phopt := SU;
     s_scale := None;
     s_dim := 1 |}.
