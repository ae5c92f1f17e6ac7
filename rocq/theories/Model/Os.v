(** The operating system as the command line sees it: files, standard input and output, failures and crashes.
    Sources: the calls into [std::fs], [std::io], [std::path], [tempfile] and [console] made by crates/cli/src.

    Simplifications: a file is known by one path; the only programs changing files while a command runs are rops and the editor. *)
From Verif.Model Require Export Document Utf8.
Open Scope byte_scope.

(** * Paths *)

(** [String::from_utf8_lossy]: every maximal ill-formed piece becomes U+FFFD. *)
Definition replacement : bytes := [xef; xbf; xbd].
Fixpoint lossy (s : bytes) : bytes :=
  match s with
  | [] => []
  | b1 :: s1 =>
      if in_range x00 x7f b1 then b1 :: lossy s1 else
      match s1 with
      | [] => replacement
      | b2 :: s2 =>
          if ok2 b1 b2 then b1 :: b2 :: lossy s2
          else if ok3 b1 b2 then
            match s2 with
            | [] => replacement
            | b3 :: s3 => if cont b3 then b1 :: b2 :: b3 :: lossy s3 else replacement ++ lossy s2
            end
          else if ok4 b1 b2 then
            match s2 with
            | [] => replacement
            | b3 :: s3 =>
                if cont b3 then
                  match s3 with
                  | [] => replacement
                  | b4 :: s4 => if cont b4 then b1 :: b2 :: b3 :: b4 :: lossy s4 else replacement ++ lossy s3
                  end
                else replacement ++ lossy s2
            end
          else replacement ++ lossy s1
      end
  end.

(** [Path::file_name] (Unix): the last component; empty and [.] components do not count, [..] has no name. *)
Definition file_name (p : bytes) : option bytes :=
  match rev (filter (fun c => negb (bytes_eqb c [] || bytes_eqb c (lit "."))) (split_on "/" p)) with
  | [] => None
  | c :: _ => if bytes_eqb c (lit "..") then None else Some c
  end.
(** [Path::extension]: after the last dot of the name, unless that dot is the first byte. *)
Definition extension (p : bytes) : option bytes :=
  match file_name p with
  | None => None
  | Some n => match rsplit_once "." n with
              | None | Some ([], _) => None
              | Some (_, e) => Some e
              end
  end.

(** * State and effects *)

(** What is found under a path. *)
Inductive node := Absent | Unreadable | Content (s : bytes).

(** The effects on files and on standard output.  [std::fs::write] is [Opened] (which creates or truncates) followed by [Wrote]. *)
Inductive op :=
| Looked (p : bytes)               (* a read *)
| Opened (p : bytes)               (* [File::create] *)
| Wrote (p s : bytes)              (* [write_all], from the start of the file *)
| MadeTemp (p : bytes)             (* [tempfile_in]: a new empty file *)
| Edited (p : bytes) (c : node)    (* the editor leaves this behind *)
| Removed (p : bytes)
| Printed (s : bytes).

Record sys := { sy_file : bytes -> node; sy_out : bytes; sy_ops : list op; sy_draws : nat }.

Definition put_file (p : bytes) (c : node) (fs : bytes -> node) : bytes -> node := fun q => if bytes_eqb q p then c else fs q.
Definition apply_op (o : op) (fs : bytes -> node) : bytes -> node :=
  match o with
  | Looked _ | Printed _ => fs
  | Opened p | MadeTemp p => put_file p (Content []) fs
  | Wrote p s => put_file p (match fs p with Content c => Content (s ++ skipn (List.length s) c) | x => x end) fs
  | Edited p c => put_file p c fs
  | Removed p => put_file p Absent fs
  end.
Definition done (o : op) (s : sys) : sys :=
  {| sy_file := apply_op o (sy_file s); sy_out := match o with Printed t => sy_out s ++ t | _ => sy_out s end;
     sy_ops := sy_ops s ++ [o]; sy_draws := sy_draws s |}.

(** What an attempt by the editor ends with.  The key pressed after a text that does not parse is part of it. *)
Inductive keypress := KeyPressed | KeyInterrupted | KeyFailed.
Inductive edited := NoLaunch | ClosedWithError (c : node) | Closed (c : node) (k : keypress).

(** The surroundings of one run.  [os_io history o] says how the effect [o] goes: [None] well, [Some k] fails (a write after [k] bytes). *)
Record os := {
  os_stdin : option bytes;                     (* [None]: a terminal *)
  os_cwd : option (list bytes);                (* names from the working directory up to the root *)
  os_config_var : option bytes;                (* ROPS_CONFIG *)
  os_editor_var : option bytes;                (* EDITOR *)
  os_which : bytes -> option bytes;            (* where [which] finds a program *)
  os_editor : list bytes -> list (node -> edited);  (* the attempts of a program started with arguments, each given the file it opens *)
  os_temp : bytes;                             (* the name [tempfile] chooses *)
  os_io : list op -> op -> option nat;
  os_env : env }.

(** Programs: a state afterwards, and a result. *)
Definition prog (A : Type) := sys -> sys * outcome A.
Definition ret {A} (a : A) : prog A := fun s => (s, Ok a).
Definition lift {A} (o : outcome A) : prog A := fun s => (s, o).
Definition chain {A B} (p : prog A) (k : A -> prog B) : prog B :=
  fun s => match p s with (s', Ok a) => k a s' | (s', Err e) => (s', Err e) | (s', Panic) => (s', Panic) end.
Notation "'do*' x ':=' p 'in' k" := (chain p (fun x => k)) (at level 61, x binder, p at next level, right associativity) : outcome_scope.
Notation "'do*' ' x ':=' p 'in' k" := (chain p (fun x => k)) (at level 61, x strict pattern, p at next level, right associativity) : outcome_scope.
(** A computation that draws random numbers or looks at the clock. *)
Definition drawing {A} (f : nat -> outcome (A * nat)) : prog A :=
  fun s => match f (sy_draws s) with
           | Ok (a, n) => ({| sy_file := sy_file s; sy_out := sy_out s; sy_ops := sy_ops s; sy_draws := n |}, Ok a)
           | Err e => (s, Err e)
           | Panic => (s, Panic)
           end.

Section Calls.
  Context (O : os).

  Definition perform (o : op) : prog unit := fun s =>
    match os_io O (sy_ops s) o with
    | None => (done o s, Ok tt)
    | Some k => match o with
                | Wrote p t => (done (Wrote p (firstn k t)) s, Err EIo)
                | Printed t => (done (Printed (firstn k t)) s, Panic)   (* [println!] *)
                | _ => (s, Err EIo)
                end
    end.
  (** [std::fs::read_to_string]. *)
  Definition read_to_string (p : bytes) : prog bytes :=
    do* _ := perform (Looked p) in
    fun s => (s, match sy_file s p with Content c => if utf8_valid c then Ok c else Err EIo | _ => Err EIo end).
  (** [Path::exists]. *)
  Definition exists_path (p : bytes) : prog bool := fun s => (s, Ok (match sy_file s p with Absent => false | _ => true end)).
  (** [std::fs::write]. *)
  Definition fs_write (p t : bytes) : prog unit := do* _ := perform (Opened p) in perform (Wrote p t).
  (** [println!]. *)
  Definition println (t : bytes) : prog unit := perform (Printed (t ++ [x0a])).
  (** [Drop] of a temporary file: errors are ignored; it also runs when a panic unwinds. *)
  Definition with_cleanup {A} (p : bytes) (body : prog A) : prog A := fun s =>
    let '(s', o) := body s in (fst (perform (Removed p) s'), o).
End Calls.

(** * Crashes *)

(** The files if the machine stops after the effects [ops], or during the last of them. *)
Definition replay (ops : list op) (fs : bytes -> node) : bytes -> node := fold_left (fun fs o => apply_op o fs) ops fs.
Inductive stopped (ops : list op) (fs : bytes -> node) : (bytes -> node) -> Prop :=
| stop_between a b : ops = a ++ b -> stopped ops fs (replay a fs)
| stop_within a p s b k : ops = a ++ Wrote p s :: b -> stopped ops fs (replay (a ++ [Wrote p (firstn k s)]) fs).
