(** Model of src/qutip_qtrl/io.py:7-55 [create_dir], with the file system it
    asks about.

    A path is the list of its components from the root, innermost first, so
    the parent of [c :: p] is [p] and the root is [[]].  Making a name absolute
    (24-28, os.path.expanduser / abspath) is external and arrives as the path
    itself.  Other processes may change the file system before every call:
    [env k] is what they do before the k-th call.  os.makedirs is modelled
    after the standard library (exist_ok false). *)
From Verif.Model Require Export Base Str.

Definition path := list string.

(** What a name stands for.  [Special] is a device, pipe or socket; [Dangling]
    a symbolic link to nothing. *)
Inductive node := File | Dir | Special | Dangling.
Definition fs := path -> option node.

Inductive errno := EEXIST | ENOENT | ENOTDIR | EACCES | ENOSPC.

Fixpoint path_eqb (p q : path) : bool :=
  match p, q with
  | [], [] => true
  | x :: p', y :: q' => String.eqb x y && path_eqb p' q'
  | _, _ => false
  end.

(** os.path.exists (false for a dangling link), os.path.isfile. *)
Definition exists_ (f : fs) (p : path) : bool :=
  match f p with Some Dangling | None => false | Some _ => true end.
Definition isfile (f : fs) (p : path) : bool :=
  match f p with Some File => true | _ => false end.

Definition add_dir (p : path) (f : fs) : fs :=
  fun q => if path_eqb p q then Some Dir else f q.

Section Io.
(** Interference of other processes, and refusals of the system (permissions,
    full disk). *)
Variable env : nat -> fs -> fs.
Variable refuse : nat -> path -> option errno.

(** The state: the calls made so far and the file system. *)
Definition st := (nat * fs)%type.
Definition ask (s : st) : st := (S (fst s), env (fst s) (snd s)).

Definition do_exists (p : path) (s : st) : st * bool := let s := ask s in (s, exists_ (snd s) p).
Definition do_isfile (p : path) (s : st) : st * bool := let s := ask s in (s, isfile (snd s) p).

(** os.mkdir. *)
Definition do_mkdir (p : path) (s : st) : st * option errno :=
  let s := ask s in
  match p with
  | [] => (s, Some EEXIST)
  | _ :: parent =>
    match snd s parent with
    | None | Some Dangling => (s, Some ENOENT)
    | Some File | Some Special => (s, Some ENOTDIR)
    | Some Dir =>
      match snd s p with
      | Some _ => (s, Some EEXIST)
      | None => match refuse (fst s) p with
                | Some EEXIST => (s, Some EACCES)   (* EEXIST is not a refusal *)
                | Some e => (s, Some e)
                | None => ((fst s, add_dir p (snd s)), None)
                end
      end
    end
  end.

(** os.makedirs(p): the parents first, when the parent does not exist; a
    FileExistsError while making the parents is ignored. *)
Fixpoint do_makedirs (p : path) (s : st) : st * option errno :=
  match p with
  | [] => do_mkdir [] s
  | c :: parent =>
    let '(s, ex) := do_exists parent s in
    if ex : bool then do_mkdir p s
    else
      let '(s, e) := do_makedirs parent s in
      match e with
      | None | Some EEXIST => do_mkdir p s
      | Some e => (s, Some e)
      end
  end.

(** The message returned (30-31, 35, 39-50), by the text it starts with and
    the case it reports. *)
Inductive msg := Ready | Created | OtherProcess | FailFile | FailOs (e : errno).
Definition is_error (m : msg) : bool := match m with FailFile | FailOs _ => true | _ => false end.

(** io.py:23-55; the returned name is the path itself. *)
Definition create_dir (p : path) (s : st) : st * (bool * path * msg) :=
  let '(s, ex) := do_exists p s in
  if ex : bool
  then let '(s, f) := do_isfile p s in
       if f : bool then (s, (false, p, FailFile)) else (s, (true, p, Ready))
  else let '(s, e) := do_makedirs p s in
       match e with
       | None => (s, (true, p, Created))
       | Some EEXIST => (s, (true, p, OtherProcess))
       | Some e => (s, (false, p, FailOs e))
       end.
End Io.
