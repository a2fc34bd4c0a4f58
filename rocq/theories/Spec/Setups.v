(** What containers hold, what a file of amplitudes says, and what it is not
    to be unitary. *)
From Coq Require Import Reals String Ascii.
From Coquelicot Require Import Coquelicot.
From Verif.Lib Require Import Mat.
From Verif.Model Require Import Base Timeslots Setup.
Local Open Scope nat_scope.

Section Containers.
Context {Op : Type}.
(** These operators, given as a list, as a list of rows of one length, or as an
    array of two dimensions. *)
Inductive holds : container Op -> checked Op -> Prop :=
| holds_list l : holds (PList (map (fun o => EVal (Q o)) l)) (Flat l)
| holds_rows rows w : rows <> [] -> Forall (fun r => List.length r = w) rows ->
    holds (PList (map (fun r => ERow (map Q r)) rows)) (Rows rows)
| holds_array rows : holds (PArr2 (map (map Q) rows)) (Rows rows).
(** A list of rows in which an entry is no row, or a row of one operator stands
    where another number is needed. *)
Definition stretched (c : container Op) : Prop :=
  exists r0 rest e, c = PList (ERow r0 :: rest) /\ In e rest /\
    match e with EVal _ => True | ERow l => List.length l = 1 /\ List.length r0 <> 1 end.
(** Something that is no operator. *)
Definition foreign (c : container Op) : Prop :=
  match c with
  | PList l => exists e, In e l /\ match e with EVal v => exists n, v = Other n | ERow r => exists n, In (Other n) r end
  | PArr2 rows => exists r n, In r rows /\ In (Other n) r
  | PArrN | PElse => True
  end.
End Containers.

(** The text between tabs. *)
Fixpoint tabbed (l : list string) : string :=
  match l with
  | [] => EmptyString
  | x :: l' => match l' with [] => x | _ => (x ++ String "009" EmptyString ++ tabbed l')%string end
  end.
(** The time at which slot [k] starts. *)
Fixpoint begins (tau : list R) (k : nat) : R :=
  match k, tau with
  | S k', x :: tau' => (x + begins tau' k')%R
  | _, _ => 0%R
  end.

(** An entry of A times its adjoint differs from that of the identity by more
    than is allowed: the given tolerance and a hundred thousandth. *)
Definition deviates (tol : R) (A : mat) : Prop :=
  exists i j, i < nr A /\ j < nr A /\
    let b := ent (mmul A (mdag A)) i j in
    (tol + 1 / 100000 * Cmod b < Cmod ((if (i =? j)%nat then RtoC 1 else RtoC 0) - b)%C)%R.
(** Every entry is, within the tolerance, the conjugate of its mirror image. *)
Definition nearly_hermitian (atol : R) (H : mat) : Prop :=
  forall i j, i < nr H -> j < nr H -> (Cmod (Cconj (ent H j i) - ent H i j)%C < atol)%R.
