(** Model of big/file.py: safe_mkdir, safe_unlink, touch and pushd, on a file system of directories
    and files.  A call of Python that is one system call is one step, between two of which other processes may run.
    Simplified: paths are absolute and canonical (no . or .., no symbolic links, no trailing slash; pushd
    resolves relative paths itself), there are no permissions, and adding or removing an entry does not change
    the modification time of its directory. *)
From Coq Require Export List ZArith NArith Bool Lia.
Export ListNotations.

(** a path, the last component first; [] is the root *)
Definition path := list N.
Inductive node := File (data : list N) (mtime : Z) | Dir (mtime : Z).
Record world := World { files : path -> option node; clock : Z; cwd : path }.
Definition path_eqb (p q : path) : bool := if list_eq_dec N.eq_dec p q then true else false.
Definition set_file (w : world) (p : path) (o : option node) : world :=
  World (fun q => if path_eqb p q then o else files w q) (clock w) (cwd w).
Inductive oserror := FileNotFoundError | FileExistsError | NotADirectoryError | IsADirectoryError.

(** walking down to the directory that holds p *)
Fixpoint traverse (w : world) (p : path) : option oserror :=
  match p with
  | [] => None
  | _ :: q => match traverse w q with
              | Some e => Some e
              | None => match files w q with Some (Dir _) => None | Some (File _ _) => Some NotADirectoryError | None => Some FileNotFoundError end
              end
  end.
(** stat(2) *)
Definition stat (w : world) (p : path) : node + oserror :=
  match traverse w p with
  | Some e => inr e
  | None => match files w p with Some n => inl n | None => inr FileNotFoundError end
  end.

Inductive call := Exists (p : path) | Isfile (p : path) | Isdir (p : path) | Unlink (p : path) | Mkdir (p : path) | Utime (p : path) | Open_wb (p : path).
Inductive answer := Bool (b : bool) | Done | Error (e : oserror).
(** os.path.exists, os.path.isfile, os.path.isdir (False on OSError), os.unlink, os.mkdir, os.utime, open(path, "wb") *)
Definition do (c : call) (w : world) : answer * world :=
  match c with
  | Exists p => (Bool (match stat w p with inl _ => true | inr _ => false end), w)
  | Isfile p => (Bool (match stat w p with inl (File _ _) => true | _ => false end), w)
  | Isdir p => (Bool (match stat w p with inl (Dir _) => true | _ => false end), w)
  | Unlink p => match stat w p with inl (File _ _) => (Done, set_file w p None) | inl (Dir _) => (Error IsADirectoryError, w) | inr e => (Error e, w) end
  | Mkdir p => match traverse w p with
               | Some e => (Error e, w)
               | None => match files w p with Some _ => (Error FileExistsError, w) | None => (Done, set_file w p (Some (Dir (clock w)))) end
               end
  | Utime p => match stat w p with
               | inl (File d _) => (Done, set_file w p (Some (File d (clock w))))
               | inl (Dir _) => (Done, set_file w p (Some (Dir (clock w))))
               | inr e => (Error e, w)
               end
  | Open_wb p => match traverse w p with
                 | Some e => (Error e, w)
                 | None => match files w p with Some (Dir _) => (Error IsADirectoryError, w) | _ => (Done, set_file w p (Some (File [] (clock w)))) end
                 end
  end.

(** a Python function: it returns, raises, or makes a call and goes on with the answer *)
Inductive prog := Return | Raise (e : oserror) | Call (c : call) (k : answer -> prog).
Definition yes (a : answer) : bool := match a with Bool true => true | _ => false end.

(** os.makedirs(path, exist_ok=True) (CPython, Lib/os.py), in continuation-passing style *)
Definition mkdir_exist_ok (p : path) (ret : prog) (exc : oserror -> prog) : prog :=
  Call (Mkdir p) (fun a => match a with Error e => Call (Isdir p) (fun b => if yes b then ret else exc e) | _ => ret end).
Fixpoint makedirs (p : path) (ret : prog) (exc : oserror -> prog) : prog :=
  match p with
  | [] => mkdir_exist_ok p ret exc
  | _ :: head => Call (Exists head) (fun a =>
      if yes a then mkdir_exist_ok p ret exc
      else makedirs head (mkdir_exist_ok p ret exc) (fun e => match e with FileExistsError => mkdir_exist_ok p ret exc | _ => exc e end))
  end.
(** big/file.py:203-226 *)
Definition safe_mkdir (p : path) : prog :=
  Call (Isfile p) (fun a =>
    if yes a then Call (Unlink p) (fun b => match b with Error e => Raise e | _ => makedirs p Return Raise end)
    else makedirs p Return Raise).
(** big/file.py:228-234 *)
Definition safe_unlink (p : path) : prog :=
  Call (Isfile p) (fun a => if yes a then Call (Unlink p) (fun b => match b with Error e => Raise e | _ => Return end) else Return).
(** big/file.py:262-276 *)
Definition touch (p : path) : prog :=
  Call (Exists p) (fun a =>
    Call (if yes a then Utime p else Open_wb p) (fun b => match b with Error e => Raise e | _ => Return end)).

(** running it alone *)
Fixpoint run (f : prog) (w : world) : option oserror * world :=
  match f with
  | Return => (None, w)
  | Raise e => (Some e, w)
  | Call c k => let (a, w') := do c w in run (k a) w'
  end.

(** big/file.py:177-200 pushd.  A block is any code: it changes the world, and may raise an exception (of type exc). *)
Inductive step := Down (n : N) | Up.
Inductive target := Absolute (p : path) | Relative (l : list step).
Definition resolve (w : world) (t : target) : path :=
  match t with
  | Absolute p => p
  | Relative l => fold_left (fun p s => match s with Down n => n :: p | Up => tl p end) l (cwd w)
  end.
Definition getcwd (w : world) : path + oserror := match stat w (cwd w) with inl (Dir _) => inl (cwd w) | _ => inr FileNotFoundError end.
Definition chdir (w : world) (t : target) : option oserror * world :=
  let p := resolve w t in
  match stat w p with
  | inl (Dir _) => (None, World (files w) (clock w) p)
  | inl (File _ _) => (Some NotADirectoryError, w)
  | inr e => (Some e, w)
  end.
Inductive outcome (exc : Type) := Normal | Exception (x : exc) | OSError (e : oserror).
Arguments Normal {exc}. Arguments Exception {exc} x. Arguments OSError {exc} e.
Definition block (exc : Type) := world -> outcome exc * world.
(** the object: self.path and self.cwd *)
Record pushd := Pushd { pd_path : target; pd_cwd : path }.
Definition new_pushd (t : target) (w : world) : pushd + oserror := match getcwd w with inl p => inl (Pushd t p) | inr e => inr e end.
(** with d: body.  __exit__ returns None: the exception of the block is raised again, unless __exit__ raises one itself. *)
Definition with_object {exc} (d : pushd) (body : block exc) : block exc := fun w =>
  match chdir w (pd_path d) with
  | (Some e, w) => (OSError e, w)
  | (None, w) => let (o, w) := body w in
                 match chdir w (Absolute (pd_cwd d)) with
                 | (Some e, w) => (OSError e, w)
                 | (None, w) => (o, w)
                 end
  end.
(** with pushd(t): body *)
Definition with_pushd {exc} (t : target) (body : block exc) : block exc := fun w =>
  match new_pushd t w with inr e => (OSError e, w) | inl d => with_object d body w end.

(** big/file.py:236-243 file_size; what st_size is for a directory is up to the operating system *)
Definition file_size (dir_size : path -> Z) (w : world) (p : path) : Z + oserror :=
  match stat w p with inl (File d _) => inl (Z.of_nat (length d)) | inl (Dir _) => inl (dir_size p) | inr e => inr e end.
(** big/file.py:255-260 file_mtime_ns; file_mtime (245-253) is the same rounded to a float *)
Definition file_mtime_ns (w : world) (p : path) : Z + oserror :=
  match stat w p with inl (File _ t) => inl t | inl (Dir t) => inl t | inr e => inr e end.
