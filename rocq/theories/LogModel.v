(** Model of c3/utils/utils.py lines 11-65: log_setup and replace_symlink, run by any
    number of processes on one file system.

    Simplifications:
    - a path is the list of its components, innermost first, absolute and normalised;
      links are followed at the end of a path, not inside of it;
    - the processes take turns at system calls; makedirs is one turn;
    - nobody else changes the file system;
    - the time stamp read and whether the operating system refuses the call for lack
      of permission come from outside with every turn. *)
From Verif Require Import Base.
Local Open Scope string_scope.
Local Open Scope list_scope.

(** utils.py 31-48: a path, innermost component first *)
Definition path : Type := list string.

(** utils.py 33-64: what can be at a path *)
Inductive node : Type := Dir | Link (target : path) | Other.

(** utils.py 33-64: the file system *)
Definition fsys : Type := path -> option node.

(** utils.py 34-64: the errors of the operating system *)
Inductive oserr : Type := FileExists | NoSuchFile | NotADirectory | IsADirectory | Permission.

(** utils.py 34-60: the outcome of a system call *)
Inductive fsres : Type := FOk (fs : fsys) | FErr (e : oserr).

(** utils.py 34-60: comparing paths *)
Definition path_dec : forall a b : path, {a = b} + {a <> b} := list_eq_dec string_dec.

(** utils.py 34-60: the file system with another entry at a path *)
Definition put (fs : fsys) (p : path) (n : option node) : fsys :=
  fun q => if path_dec q p then n else fs q.

(** utils.py 33, 39: the entry at a path, following a link *)
Definition follow (fs : fsys) (p : path) : option node :=
  match fs p with Some (Link t) => fs t | n => n end.

(** utils.py 39: os.path.exists *)
Definition exists_at (fs : fsys) (p : path) : bool :=
  match follow fs p with Some _ => true | None => false end.

(** utils.py 33: os.path.isdir *)
Definition isdir (fs : fsys) (p : path) : bool :=
  match follow fs p with Some Dir => true | _ => false end.

(** utils.py 34, 45: os.mkdir, the last step of os.makedirs *)
Definition mkdir (fs : fsys) (p : path) : fsres :=
  match fs p with
  | Some _ => FErr FileExists
  | None => match follow fs (tl p) with
            | Some Dir => FOk (put fs p (Some Dir))
            | Some _ => FErr NotADirectory
            | None => FErr NoSuchFile
            end
  end.

(** utils.py 34, 45: os.makedirs of the standard library: missing parents first, where
    FileExistsError is ignored, then mkdir *)
Fixpoint makedirs (fs : fsys) (p : path) : fsres :=
  match p with
  | [] => FErr FileExists
  | _ :: h =>
      if exists_at fs h then mkdir fs p
      else match makedirs fs h with
           | FOk fs' => mkdir fs' p
           | FErr FileExists => mkdir fs p
           | FErr e => FErr e
           end
  end.

(** utils.py 55: os.remove *)
Definition remove (fs : fsys) (p : path) : fsres :=
  match fs p with
  | None => FErr NoSuchFile
  | Some Dir => FErr IsADirectory
  | Some _ => FOk (put fs p None)
  end.

(** utils.py 61: os.symlink *)
Definition symlink (fs : fsys) (target p : path) : fsres :=
  match fs p with
  | Some _ => FErr FileExists
  | None => match follow fs (tl p) with
            | Some Dir => FOk (put fs p (Some (Link target)))
            | Some _ => FErr NotADirectory
            | None => FErr NoSuchFile
            end
  end.

(** utils.py 11: the argument run_name: os.path.join starts anew at an absolute one *)
Inductive rname : Type := Relative (comps : path) | Absolute (comps : path).

(** utils.py 29-32: the data directory; a missing or empty argument means a directory
    c3logs below the name of a temporary directory (removed again at once) *)
Definition data_dir (tmp : path) (arg : option path) : path :=
  match arg with Some p => p | None => "c3logs" :: tmp end.

(** utils.py 36-38: the directory of a run started at a time stamp *)
Definition run_dir (data : path) (run : rname) (stamp : string) : path :=
  match run with
  | Relative r => stamp :: r ++ data
  | Absolute r => stamp :: r
  end.

(** utils.py 46: the link to the newest run *)
Definition recent (data : path) : path := "recent" :: data.

(** utils.py 29-48: where a process is.  After the directory was made it carries the
    directory and the number of warnings given. *)
Inductive pstate : Type :=
| PStart                        (* line 33 *)
| PData                         (* line 34: data directory missing *)
| PStamp                        (* lines 36, 41: about to read the clock *)
| PCheck (p : path)             (* line 39 *)
| PMake (p : path)              (* line 45 *)
| PRemove (p : path)            (* line 55 *)
| PLink (p : path) (w : nat)    (* line 61 *)
| PDone (p : path) (w : nat)    (* line 48, returned *)
| PFail (e : oserr).            (* an exception left log_setup *)

(** utils.py 11: one call of log_setup *)
Record proc : Type := mkProc { pr_data : path; pr_run : rname; pr_state : pstate }.

(** utils.py 33-64: one turn: the clock and whether the call is refused *)
Record event : Type := mkEv { ev_pid : nat; ev_stamp : string; ev_denied : bool }.

(** utils.py 29-64: the next system call of a process *)
Definition step (fs : fsys) (pr : proc) (ev : event) : fsys * pstate :=
  let data := pr_data pr in
  match pr_state pr with
  | PStart => (fs, if isdir fs data then PStamp else PData)
  | PData => if ev_denied ev then (fs, PFail Permission) else
             match makedirs fs data with
             | FOk fs' => (fs', PStamp)
             | FErr e => (fs, PFail e)
             end
  | PStamp => (fs, PCheck (run_dir data (pr_run pr) (ev_stamp ev)))
  | PCheck p => (fs, if exists_at fs p then PStamp else PMake p)
  | PMake p => if ev_denied ev then (fs, PFail Permission) else
               match makedirs fs p with
               | FOk fs' => (fs', PRemove p)
               | FErr e => (fs, PFail e)
               end
  | PRemove p => match remove fs (recent data) with
                 | FOk fs' => if ev_denied ev then (fs, PLink p 1) else (fs', PLink p 0)
                 | FErr NoSuchFile => (fs, PLink p 0)
                 | FErr Permission => (fs, PLink p 1)
                 | FErr e => (fs, PFail e)
                 end
  | PLink p w => match fs (recent data) with
                 | Some _ => (fs, PDone p w)
                 | None =>
                     if ev_denied ev then (fs, PDone p (S w)) else
                     match symlink fs p (recent data) with
                     | FOk fs' => (fs', PDone p w)
                     | FErr FileExists => (fs, PDone p w)
                     | FErr _ => (fs, PDone p (S w))
                     end
                 end
  | PDone p w => (fs, PDone p w)
  | PFail e => (fs, PFail e)
  end.

(** utils.py 29-64: the file system and the processes *)
Definition system : Type := (fsys * list proc)%type.

(** utils.py 29-64: replacing the state of one process *)
Fixpoint set_state (n : nat) (s : pstate) (l : list proc) : list proc :=
  match l, n with
  | [], _ => []
  | pr :: r, O => mkProc (pr_data pr) (pr_run pr) s :: r
  | pr :: r, S n' => pr :: set_state n' s r
  end.

(** utils.py 29-64: one turn of the process named in the event *)
Definition turn (sys : system) (ev : event) : system :=
  match nth_error (snd sys) (ev_pid ev) with
  | None => sys
  | Some pr => let (fs', s') := step (fst sys) pr ev in (fs', set_state (ev_pid ev) s' (snd sys))
  end.

(** utils.py 29-64: the processes taking turns *)
Definition schedule (sys : system) (evs : list event) : system := fold_left turn evs sys.
