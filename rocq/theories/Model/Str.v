(** Python's [str.upper] on ASCII text; other characters are left alone
    (a simplification: Python also maps accented letters).  Nothing here
    models a particular line of /repo. *)
From Coq Require Export String Ascii.
From Coq Require Import Arith Bool.

Definition upper_char (c : ascii) : ascii :=
  let n := nat_of_ascii c in
  if (97 <=? n) && (n <=? 122) then ascii_of_nat (n - 32) else c.

Fixpoint upper (s : string) : string :=
  match s with
  | EmptyString => EmptyString
  | String c t => String (upper_char c) (upper t)
  end.
