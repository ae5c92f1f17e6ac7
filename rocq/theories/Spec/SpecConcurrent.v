(** Specification vocabulary for commands running at the same time (C70, C71). *)
From Verif.Model Require Import Script.
From Verif.Spec Require Export SpecCli.
Open Scope byte_scope.

(** Where a configuration may be looked for. *)
Definition config_candidate (O : os) (arg : option bytes) (p : bytes) : Prop :=
  arg = Some p \/ (arg = None /\ os_config_var O = Some p) \/ (arg = None /\ os_config_var O = None /\ exists cwd a d, os_cwd O = Some cwd /\ cwd = a ++ d /\ p = config_in d).
(** The temporary file of an editing session. *)
Definition scratch_file (O : os) (c : command) (p : bytes) : Prop := (exists a, c = Edit a) /\ p = os_temp O.
(** The files a command looks at, and those it changes. *)
Definition looks_at (O : os) (c : command) (p : bytes) : Prop := input_file c = Some p \/ config_candidate O (config_path c) p \/ scratch_file O c p.
Definition changes (O : os) (c : command) (p : bytes) : Prop := output_file O c = Some p \/ scratch_file O c p.
(** No job changes a file that another one looks at or changes. *)
Definition apart (js : list job) : Prop :=
  forall i k a b p, i <> k -> nth_error js i = Some a -> nth_error js k = Some b -> changes (jb_os a) (jb_command a) p ->
  ~ looks_at (jb_os b) (jb_command b) p /\ ~ changes (jb_os b) (jb_command b) p.
(** All processes have ended. *)
Definition all_ended (M : machine) : Prop := forall p, In p (mc_procs M) -> ended p <> None.

(** * One file *)

(** The process has emptied the file [p] and is about to write it. *)
Definition mid_write (p : bytes) (x : proc) : Prop := exists t k, pr_todo x = Effect (Wrote p t) k.
(** A schedule in which nobody does anything between a process's emptying [p] and its writing [p]. *)
Fixpoint undisturbed (p : bytes) (M : machine) (schedule : list nat) : Prop :=
  match schedule with
  | [] => True
  | i :: rest => (forall k x, nth_error (mc_procs M) k = Some x -> mid_write p x -> k = i) /\ undisturbed p (machine_step M i) rest
  end.
(** No job changes a file other than [p] that another one looks at or changes. *)
Definition apart_but (p : bytes) (js : list job) : Prop :=
  forall i k a b q, i <> k -> nth_error js i = Some a -> nth_error js k = Some b -> changes (jb_os a) (jb_command a) q -> q <> p ->
  ~ looks_at (jb_os b) (jb_command b) q /\ ~ changes (jb_os b) (jb_command b) q.

(** * Taking turns *)

(** The process is about to read the file [p]. *)
Definition about_to_read (p : bytes) (x : proc) : Prop := exists k, pr_todo x = Ask p k.
Definition still_running (M : machine) (i : nat) : option nat :=
  match nth_error (mc_procs M) i with Some x => match ended x with None => Some i | Some _ => None end | None => None end.
(** A schedule in which no process reads [p] while another one that has read it is still running, as if the commands locked the file.
    The first argument is the process that has read [p]. *)
Inductive taking_turns (p : bytes) : option nat -> machine -> list nat -> Prop :=
| tt_end h M : taking_turns p h M []
| tt_read M i x l : nth_error (mc_procs M) i = Some x -> about_to_read p x -> taking_turns p (still_running (machine_step M i) i) (machine_step M i) l -> taking_turns p None M (i :: l)
| tt_free M i l : (forall x, nth_error (mc_procs M) i = Some x -> ~ about_to_read p x) -> taking_turns p None (machine_step M i) l -> taking_turns p None M (i :: l)
| tt_held h M i l : (forall x, nth_error (mc_procs M) i = Some x -> ~ about_to_read p x) -> taking_turns p (still_running (machine_step M i) h) (machine_step M i) l -> taking_turns p (Some h) M (i :: l).
(** What a command has come to. *)
Record result := { rs_job : job; rs_outcome : outcome unit; rs_out : bytes }.
(** The commands run one after the other, from some files to others. *)
Inductive one_after_another (re : regex_engine) (tp : tape) (ag : age_crate) (cd : codec) : (bytes -> node) -> list result -> (bytes -> node) -> Prop :=
| oa_none fs : one_after_another re tp ag cd fs [] fs
| oa_next fs r s' rs fs' : run_command re tp ag cd (jb_os (rs_job r)) (jb_command (rs_job r)) (fresh fs (jb_draws (rs_job r))) = (s', rs_outcome r) -> sy_out s' = rs_out r ->
    one_after_another re tp ag cd (sy_file s') rs fs' -> one_after_another re tp ag cd fs (r :: rs) fs'.
(** Job number [i] has come to [r]. *)
Definition came_to (js : list job) (M : machine) (i : nat) (r : result) : Prop :=
  nth_error js i = Some (rs_job r) /\ exists x, nth_error (mc_procs M) i = Some x /\ ended x = Some (rs_outcome r) /\ sy_out (pr_sys x) = rs_out r.
