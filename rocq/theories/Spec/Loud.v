(** What logging may do to a computation. *)
From Coq Require Import Reals.
From Verif.Model Require Import Base Dyn Verbose.
From Verif.Spec Require Import Evolution History.
Local Open Scope nat_scope.

Section Loud.
Context {A : Alg}.
Variable unit : Op A -> bool.
Variable lv : levels.

(** Calls that need the evolution. *)
Definition needs_evolution (o : op) : bool :=
  match o with ComputeEvolution | GetFidErr | GetFidelity | GetGradient => true | _ => false end.

(** Are exact propagator gradients computed along with the propagators? *)
Definition exact_cached (s : settings A) : bool :=
  match s_prop s with Approx => false | _ => s_cache_pg s end.

(** The exception that computing the evolution for [a] ends with, because of
    what is logged or checked:
    - the message with each propagator, at DEBUG_INTENSE, if gradients are
      computed along;
    - the check of unitarity, asked for by the user or (DynamicsUnitary) by
      the level DEBUG, if the class has none;
    - its report on a propagator, without a diagonalisation to report on. *)
Definition complaint (s : settings A) (a : amps) : option exn :=
  if (lv_tslot lv <=? 6) && exact_cached s then Some AttributeError
  else match s_class s with
       | GenMat => if lv_check lv =? 0 then None else Some AttributeError
       | Unitary =>
         let level := if lv_dyn lv <=? 10 then 1 else lv_check lv in
         if level =? 0 then None
         else match s_prop s with
              | Diag => None
              | _ => if (1 <? level) || negb (forallb unit (props_of s a)) then Some TypeError else None
              end
       end.

(** The first complaint in a history; [cur]: the evolution for [a] has been
    computed. *)
Fixpoint first_complaint (s : settings A) (cur : bool) (a : amps) (ops : list op) : option exn :=
  match ops with
  | [] => None
  | UpdateAmps b :: ops' =>
    first_complaint s (if list_eq_dec (list_eq_dec Req_EM_T) a b then cur else false) b ops'
  | o :: ops' =>
    if needs_evolution o && negb cur
    then match complaint s a with Some e => Some e | None => first_complaint s true a ops' end
    else first_complaint s cur a ops'
  end.

End Loud.
