(** Floats that may leave the real line: numpy's inf and nan, with numpy's
    rules for the arithmetic (division by zero does not raise).  Rounding,
    overflow and signed zeros are not modelled: finite numbers are reals.
    Nothing here models a particular line of /repo. *)
From Coq Require Import Reals.
From Verif.Model Require Export Base.
Local Open Scope R_scope.

Inductive flt := F (x : R) | FInf | FNInf | FNan.

Definition Rltb (a b : R) : bool := if Rlt_dec a b then true else false.
Definition Rleb (a b : R) : bool := if Rle_dec a b then true else false.
Definition Reqb (a b : R) : bool := if Req_EM_T a b then true else false.

Definition fopp (a : flt) : flt :=
  match a with F x => F (- x) | FInf => FNInf | FNInf => FInf | FNan => FNan end.

Definition fadd (a b : flt) : flt :=
  match a, b with
  | F x, F y => F (x + y)
  | FNan, _ | _, FNan => FNan
  | FInf, FNInf | FNInf, FInf => FNan
  | FInf, _ | _, FInf => FInf
  | FNInf, _ | _, FNInf => FNInf
  end.
Definition fsub (a b : flt) : flt := fadd a (fopp b).

(** [inf] times the sign of [x]. *)
Definition signed_inf (x : R) : flt :=
  if Rlt_dec 0 x then FInf else if Rlt_dec x 0 then FNInf else FNan.

Definition fmul (a b : flt) : flt :=
  match a, b with
  | F x, F y => F (x * y)
  | FNan, _ | _, FNan => FNan
  | FInf, F y => signed_inf y
  | F x, FInf => signed_inf x
  | FNInf, F y => signed_inf (- y)
  | F x, FNInf => signed_inf (- x)
  | FInf, FInf | FNInf, FNInf => FInf
  | FInf, FNInf | FNInf, FInf => FNInf
  end.

Definition fdiv (a b : flt) : flt :=
  match a, b with
  | F x, F y => if Req_EM_T y 0 then signed_inf x else F (x / y)
  | FNan, _ | _, FNan => FNan
  | F _, _ => F 0
  | FInf, F y => if Rlt_dec y 0 then FNInf else FInf
  | FNInf, F y => if Rlt_dec y 0 then FInf else FNInf
  | _, _ => FNan
  end.

(** [a < b] and [a <= b]; false when one side is nan. *)
Definition fltb (a b : flt) : bool :=
  match a, b with
  | F x, F y => Rltb x y
  | FNan, _ | _, FNan => false
  | FInf, _ | _, FNInf => false
  | _, _ => true
  end.
Definition fleb (a b : flt) : bool :=
  match a, b with
  | F x, F y => Rleb x y
  | FNan, _ | _, FNan => false
  | FNInf, _ | _, FInf => true
  | FInf, _ | _, FNInf => false
  end.

Definition fisinf (a : flt) : bool := match a with FInf | FNInf => true | _ => false end.

Definition fabs (a : flt) : flt :=
  match a with F x => F (Rabs x) | FNInf => FInf | a => a end.
Definition fexp (a : flt) : flt :=
  match a with F x => F (exp x) | FInf => FInf | FNInf => F 0 | FNan => FNan end.
Definition fsin (a : flt) : flt := match a with F x => F (sin x) | _ => FNan end.
Definition ftanh (a : flt) : flt :=
  match a with F x => F (tanh x) | FInf => F 1 | FNInf => F (-1) | FNan => FNan end.

(** Python's max / min over an array: the first element is kept unless a later
    one compares greater / less; an empty argument is a ValueError. *)
Definition pymax (l : list flt) : Res flt :=
  match l with
  | [] => Raise ValueError
  | x :: t => Ok (fold_left (fun m y => if fltb m y then y else m) t x)
  end.
Definition pymin (l : list flt) : Res flt :=
  match l with
  | [] => Raise ValueError
  | x :: t => Ok (fold_left (fun m y => if fltb y m then y else m) t x)
  end.
(** np.amax / np.amin: nan wins. *)
Definition fmaxn (a b : flt) : flt :=
  match a, b with FNan, _ | _, FNan => FNan | _, _ => if fltb a b then b else a end.
Definition fminn (a b : flt) : flt :=
  match a, b with FNan, _ | _, FNan => FNan | _, _ => if fltb b a then b else a end.
Definition npmax (l : list flt) : Res flt :=
  match l with [] => Raise ValueError | x :: t => Ok (fold_left fmaxn t x) end.
Definition npmin (l : list flt) : Res flt :=
  match l with [] => Raise ValueError | x :: t => Ok (fold_left fminn t x) end.

(** Binary operation on one-dimensional arrays with numpy's broadcasting. *)
Fixpoint zip (f : flt -> flt -> flt) (a b : list flt) : list flt :=
  match a, b with x :: a', y :: b' => f x y :: zip f a' b' | _, _ => [] end.
Definition broadcast (f : flt -> flt -> flt) (a b : list flt) : Res (list flt) :=
  if length a =? length b then Ok (zip f a b)
  else match a, b with
       | _, [y] => Ok (map (fun x => f x y) a)
       | [x], _ => Ok (map (f x) b)
       | _, _ => Raise ValueError
       end.
(** [a += b]: the result keeps the shape of [a]. *)
Definition iadd (a b : list flt) : Res (list flt) :=
  if length a =? length b then Ok (zip fadd a b)
  else match b with
       | [y] => Ok (map (fun x => fadd x y) a)
       | _ => Raise ValueError
       end.
