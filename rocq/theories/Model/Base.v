(** Conventions shared by every model file: Python exceptions as values, list
    access with Python's IndexError, and [for] loops.  Nothing here models a
    particular line of /repo. *)
From Coq Require Export List Arith Bool ZArith Lia.
Export ListNotations.

(** The exception classes the modelled code can end with.  [UsageError] and
    [FunctionalError] are the classes of src/qutip_qtrl/errors.py:13-60; the
    others are Python built-ins. *)
Inductive exn :=
| IndexError | TypeError | AttributeError | ValueError | KeyError
| ZeroDivisionError | UsageError | FunctionalError | NameError
| UnboundLocalError | OSError | RuntimeError
| OutOfFuel.    (* not an exception: the step budget given to a loop of the model ran out *)

Inductive Res (A : Type) := Ok (a : A) | Raise (e : exn).
Arguments Ok {A} a.
Arguments Raise {A} e.

Definition bind {A B} (m : Res A) (f : A -> Res B) : Res B :=
  match m with Ok a => f a | Raise e => Raise e end.

Notation "x <- m ;; k" := (bind m (fun x => k))
  (at level 61, m at next level, right associativity).
Notation "' p <- m ;; k" := (bind m (fun x => match x with p => k end))
  (at level 61, p pattern, m at next level, right associativity).

(** [l[k]] for a non-negative index. *)
Definition get {A} (l : list A) (k : nat) : Res A :=
  match nth_error l k with Some a => Ok a | None => Raise IndexError end.

(** [l[k] = v] on a list, for a non-negative index. *)
Fixpoint upd {A} (l : list A) (k : nat) (v : A) : list A :=
  match l, k with
  | [], _ => []
  | _ :: t, 0 => v :: t
  | x :: t, S k' => x :: upd t k' v
  end.

Definition set {A} (l : list A) (k : nat) (v : A) : Res (list A) :=
  if k <? length l then Ok (upd l k v) else Raise IndexError.

(** Value in a buffer created as [[object for x in range(n)]]: [None] stands
    for the placeholder [object]; using it as an operator is an
    AttributeError (no [dot]) or TypeError; one value is enough here. *)
Definition filled {A} (o : option A) : Res A :=
  match o with Some a => Ok a | None => Raise AttributeError end.

Definition getf {A} (l : list (option A)) (k : nat) : Res A :=
  o <- get l k;; filled o.

(** [for k in l: body(k)] threading the state. *)
Fixpoint for_each {S} (l : list nat) (body : nat -> S -> Res S) (s : S) : Res S :=
  match l with
  | [] => Ok s
  | k :: l' => s' <- body k s;; for_each l' body s'
  end.

(** [[body(k) for k in l]] where the body may raise. *)
Fixpoint map_res {A B} (f : A -> Res B) (l : list A) : Res (list B) :=
  match l with
  | [] => Ok []
  | x :: t => y <- f x;; ys <- map_res f t;; Ok (y :: ys)
  end.

(** [range(0, n)] and [range(n-1, -1, -1)]. *)
Definition range (n : nat) : list nat := seq 0 n.
Definition range_down (n : nat) : list nat := rev (seq 0 n).
