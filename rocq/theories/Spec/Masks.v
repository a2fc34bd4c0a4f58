(** What the operators of a system are for given amplitudes, slot by slot;
    nothing here mentions masks or histories. *)
From Coq Require Import Reals.
From Verif.Model Require Import Base Dyn.

Section Spec.
Context {A : Alg}.
Notation Op := (Op A).
(** How a generator is computed from the amplitudes of its slot and a
    propagator from its generator, if that is possible at all. *)
Variable cgen : option (nat -> list R -> Res Op).
Variable cprop : option (nat -> Op -> Res Op).
Variable initial targ : Op.

Definition is_gen (a : amps) (k : nat) (g : Op) : Prop :=
  exists f row, cgen = Some f /\ nth_error a k = Some row /\ f k row = Ok g.
Definition is_prop (a : amps) (k : nat) (p : Op) : Prop :=
  exists f g, cprop = Some f /\ is_gen a k g /\ f k g = Ok p.
(** prop[k-1] * ... * prop[0] * initial. *)
Fixpoint is_fwd (a : amps) (k : nat) (x : Op) : Prop :=
  match k with
  | O => x = initial
  | S k' => exists p y, is_prop a k' p /\ is_fwd a k' y /\ x = omul A p y
  end.
(** targ * prop[n-1] * ... * prop[k], where [left] is n - k. *)
Fixpoint onto_left (a : amps) (k left : nat) (x : Op) : Prop :=
  match left with
  | O => x = targ
  | S left' => exists p y, is_prop a k p /\ onto_left a (S k) left' y /\ x = omul A y p
  end.
Definition is_onto (n : nat) (a : amps) (k : nat) (x : Op) : Prop := onto_left a k (n - k) x.
End Spec.
