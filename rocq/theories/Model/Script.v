(** The commands as sequences of single steps, for running several of them at the same time.
    The definitions follow those of Model/Os.v, Model/Config.v and Model/Cli.v one by one and cite the same lines; [Proofs/ScriptFacts.v]
    shows that a script carried out without interruption is the command of Model/Cli.v.

    Simplifications: looking at a file, truncating it and writing a text are one step each; the processes read one stream of
    random numbers from different places (a run is finite, so the places can be chosen such that no number is used twice). *)
From Verif.Model Require Export Cli.
Open Scope byte_scope.

(** What a program does next. *)
Inductive script (A : Type) :=
| Finish (o : outcome A)
| Ask (p : bytes) (k : node -> script A)                               (* what is under the path *)
| Effect (o : op) (k : bool -> script A)                               (* whether it went well *)
| Note (o : op) (k : script A)                                         (* what the editor does *)
| Draw (f : nat -> outcome (bytes * nat)) (k : outcome bytes -> script A).
Arguments Finish {A} o.
Arguments Ask {A} p k.
Arguments Effect {A} o k.
Arguments Note {A} o k.
Arguments Draw {A} f k.

(** One step of a program that runs alone, or while nothing else does. *)
Definition moved (s : sys) (n : nat) : sys := {| sy_file := sy_file s; sy_out := sy_out s; sy_ops := sy_ops s; sy_draws := n |}.
Definition step {A} (O : os) (m : script A) (s : sys) : sys * script A :=
  match m with
  | Finish o => (s, Finish o)
  | Ask p k => (s, k (sy_file s p))
  | Effect o k => let '(s', r) := perform O o s in (s', k (is_ok r))
  | Note o k => (done o s, k)
  | Draw f k => match f (sy_draws s) with
                | Ok (t, n) => (moved s n, k (Ok t))
                | Err e => (s, k (Err e))
                | Panic => (s, k Panic)
                end
  end.
(** All steps. *)
Fixpoint play {A} (O : os) (m : script A) (s : sys) : sys * outcome A :=
  match m with
  | Finish o => (s, o)
  | Ask p k => play O (k (sy_file s p)) s
  | Effect o k => let '(s', r) := perform O o s in play O (k (is_ok r)) s'
  | Note o k => play O k (done o s)
  | Draw f k => match f (sy_draws s) with
                | Ok (t, n) => play O (k (Ok t)) (moved s n)
                | Err e => play O (k (Err e)) s
                | Panic => play O (k Panic) s
                end
  end.

(** * Composition: as [lift], [chain], [perform], [drawing] and [with_cleanup] *)

Fixpoint andthen {A B} (m : script A) (k : A -> script B) : script B :=
  match m with
  | Finish (Ok a) => k a
  | Finish (Err e) => Finish (Err e)
  | Finish Panic => Finish Panic
  | Ask p j => Ask p (fun x => andthen (j x) k)
  | Effect o j => Effect o (fun b => andthen (j b) k)
  | Note o j => Note o (andthen j k)
  | Draw f j => Draw f (fun x => andthen (j x) k)
  end.
Notation "'then*' x ':=' m 'in' k" := (andthen m (fun x => k)) (at level 61, x binder, m at next level, right associativity) : outcome_scope.
Definition does (o : op) : script unit :=
  Effect o (fun ok => Finish (if ok then Ok tt else match o with Printed _ => Panic | _ => Err EIo end)).
Definition draws (f : nat -> outcome (bytes * nat)) : script bytes := Draw f Finish.
Fixpoint afterwards {A} (p : bytes) (m : script A) : script A :=
  match m with
  | Finish o => Effect (Removed p) (fun _ => Finish o)
  | Ask q j => Ask q (fun x => afterwards p (j x))
  | Effect o j => Effect o (fun b => afterwards p (j b))
  | Note o j => Note o (afterwards p j)
  | Draw f j => Draw f (fun x => afterwards p (j x))
  end.

(** * Calls: Model/Os.v *)

Definition reads_file (p : bytes) : script bytes :=
  then* _ := does (Looked p) in
  Ask p (fun c => Finish (match c with Content s => if utf8_valid s then Ok s else Err EIo | _ => Err EIo end)).
Definition writes_file (p t : bytes) : script unit := then* _ := does (Opened p) in does (Wrote p t).
Definition prints (t : bytes) : script unit := does (Printed (t ++ [x0a])).

Section Scripts.
  Context (re : regex_engine) (tp : tape) (ag : age_crate) (cd : codec) (O : os).

  (** * Configuration: config/retrieve.rs:11-40 *)

  Definition reads_config (p : bytes) : script (list rule) := then* s := reads_file p in Finish (read_config re ag cd s).
  Fixpoint climbs (dirs : list bytes) : script (list rule) :=
    Ask (config_in dirs) (fun c =>
      match c with
      | Absent => match dirs with [] => Finish (Ok []) | _ :: up => climbs up end
      | _ => reads_config (config_in dirs)
      end).
  Definition retrieves (arg : option bytes) : script (list rule) :=
    match arg with
    | Some p => reads_config p
    | None =>
        match os_config_var O with
        | Some p => reads_config p
        | None => match os_cwd O with None => Finish (Err EIo) | Some dirs => climbs dirs end
        end
    end.

  (** * Commands *)

  (** cli/common.rs:12-40. *)
  Definition takes_path (p : bytes) : script bytes :=
    match os_stdin O with Some _ => Finish (Err EMultipleInputs) | None => reads_file p end.
  Definition takes_input (path : option bytes) (in_place : option bool) : script bytes :=
    if is_set in_place then match path with Some p => takes_path p | None => Finish Panic end
    else match path with
         | Some p => takes_path p
         | None => match os_stdin O with None => Finish (Err EMissingInput) | Some s => Finish (if utf8_valid s then Ok s else Err EIo) end
         end.
  (** cli/common.rs:57-70. *)
  Definition delivers (in_place : option bool) (path : option bytes) (t : bytes) : script unit :=
    if is_set in_place then match path with Some p => writes_file p t | None => Finish Panic end else prints t.

  (** cli/encrypt.rs:6-15. *)
  Definition encrypt_script (a : encrypt_args) : script unit :=
    let path := in_file (ea_input a) in
    then* f := Finish (get_format path (in_format (ea_input a))) in
    then* s := takes_input path (ea_in_place a) in
    then* t := draws (encrypt_text re tp ag cd (os_env O) f a s) in
    delivers (ea_in_place a) path t.
  (** cli/decrypt.rs:6-22. *)
  Definition decrypt_script (a : place_args) : script unit :=
    let path := in_file (pl_input a) in
    then* f := Finish (get_format path (in_format (pl_input a))) in
    then* s := takes_input path (pl_in_place a) in
    then* t := Finish (decrypt_text re ag cd (os_env O) f s) in
    delivers (pl_in_place a) path t.
  (** cli/keys.rs:16-37, 39-64. *)
  Definition keys_script (text : env -> fmt -> keys -> bytes -> nat -> outcome (bytes * nat)) (a : key_args) : script unit :=
    then* f := Finish (get_format (Some (ka_file a)) (ka_format a)) in
    then* s := takes_input (Some (ka_file a)) None in
    then* t := draws (text (os_env O) f (ka_keys a) s) in
    writes_file (ka_file a) t.
  (** cli/refresh.rs:6-15, 27-30. *)
  Definition refresh_script (a : place_args) : script unit :=
    let path := in_file (pl_input a) in
    then* f := Finish (get_format path (in_format (pl_input a))) in
    then* s := takes_input path (pl_in_place a) in
    then* rules := retrieves (in_config (pl_input a)) in
    then* t := draws (refresh_text re tp ag cd (os_env O) f rules path s) in
    delivers (pl_in_place a) path t.
  (** cli/edit.rs:93-122. *)
  Fixpoint attempts_script (f : fmt) (attempts : list (node -> edited)) : script (option fmap) :=
    match attempts with
    | [] => Finish (Err EIo)
    | attempt :: rest =>
        Ask (os_temp O) (fun before =>
          match attempt before with
          | NoLaunch => Finish (Err EIo)
          | ClosedWithError c => Note (Edited (os_temp O) c) (Finish (Err EIo))
          | Closed c k =>
              Note (Edited (os_temp O) c)
                (then* t := reads_file (os_temp O) in
                 match read_map cd f t with
                 | Ok m => Finish (Ok (Some m))
                 | Panic => Finish Panic
                 | Err _ => match k with
                            | KeyPressed => attempts_script f rest
                            | KeyInterrupted => Finish (Ok None)
                            | KeyFailed => Finish (Err EIo)
                            end
                 end)
          end)
    end.
  (** cli/edit.rs:29-63. *)
  Definition edit_script (a : input_args) : script unit :=
    then* f := Finish (get_format (in_file a) (in_format a)) in
    then* s := takes_input (in_file a) None in
    then* ef := Finish (read_efile (re_valid re) ag cd f s) in
    then* d := Finish (file_decrypt_save re ag (os_env O) f f ef) in
    then* _ := does (MadeTemp (os_temp O)) in
    then* o := afterwards (os_temp O)
      (then* t := Finish (map_text cd f (fl_map (fst d))) in
       then* _ := writes_file (os_temp O) t in
       then* e := Finish (select_editor O) in
       attempts_script f (os_editor O (editor_command O e))) in
    match o with
    | None => Finish (Ok tt)
    | Some m =>
        then* t := draws (edited_text re tp cd (os_env O) f (fst d) (snd d) m) in
        match os_stdin O with
        | None => match in_file a with Some p => writes_file p t | None => Finish Panic end
        | Some _ => prints t
        end
    end.
  (** run.rs:5-16. *)
  Definition command_script (c : command) : script unit :=
    then* rules := retrieves (config_path c) in
    match merge_config re rules c with
    | Encrypt a => encrypt_script a
    | Decrypt a => decrypt_script a
    | Edit a => edit_script a
    | AddKeys a => keys_script (add_text re ag cd) a
    | RemoveKeys a => keys_script (remove_text re tp ag cd) a
    | Refresh a => refresh_script a
    end.
End Scripts.

(** * Several processes *)

(** A process: its surroundings, what it has printed, done and drawn so far (the files in [pr_sys] are those it saw last), and what is left. *)
Record proc := { pr_os : os; pr_sys : sys; pr_todo : script unit }.
(** The files are shared. *)
Record machine := { mc_files : bytes -> node; mc_procs : list proc }.
Definition with_files (fs : bytes -> node) (s : sys) : sys := {| sy_file := fs; sy_out := sy_out s; sy_ops := sy_ops s; sy_draws := sy_draws s |}.
Definition proc_step (fs : bytes -> node) (p : proc) : proc :=
  let '(s', m') := step (pr_os p) (pr_todo p) (with_files fs (pr_sys p)) in {| pr_os := pr_os p; pr_sys := s'; pr_todo := m' |}.
Fixpoint set_nth {A} (i : nat) (x : A) (l : list A) : list A :=
  match l, i with [], _ => [] | _ :: l', O => x :: l' | y :: l', S i' => y :: set_nth i' x l' end.
(** The process [i] takes a step. *)
Definition machine_step (M : machine) (i : nat) : machine :=
  match nth_error (mc_procs M) i with
  | None => M
  | Some p => let p' := proc_step (mc_files M) p in {| mc_files := sy_file (pr_sys p'); mc_procs := set_nth i p' (mc_procs M) |}
  end.
(** A schedule says which process is next. *)
Definition machine_run (M : machine) (schedule : list nat) : machine := fold_left machine_step schedule M.
(** The processes at the start. *)
Record job := { jb_draws : nat; jb_os : os; jb_command : command }.
Definition fresh (fs : bytes -> node) (n : nat) : sys := {| sy_file := fs; sy_out := []; sy_ops := []; sy_draws := n |}.
Definition launch (re : regex_engine) (tp : tape) (ag : age_crate) (cd : codec) (fs : bytes -> node) (j : job) : proc :=
  {| pr_os := jb_os j; pr_sys := fresh fs (jb_draws j); pr_todo := command_script re tp ag cd (jb_os j) (jb_command j) |}.
Definition start (re : regex_engine) (tp : tape) (ag : age_crate) (cd : codec) (fs : bytes -> node) (js : list job) : machine :=
  {| mc_files := fs; mc_procs := map (launch re tp ag cd fs) js |}.
Definition ended (p : proc) : option (outcome unit) := match pr_todo p with Finish o => Some o | _ => None end.
