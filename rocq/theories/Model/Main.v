(** The whole process: from the words of the command line to the exit status.
    Sources: crates/cli/src/main.rs:1-3, crates/cli/src/run.rs:5-16; clap 4.5.20 and the Rust runtime (outside /repo) for the statuses.
    Simplification: what is written to standard error, and the help text, are left out. *)
From Verif.Model Require Export Args.
Local Open Scope N_scope.

(** [ShownUsage]: clap has shown help or an error and ended the process, with 0 or 2. *)
Inductive status := Exited (n : N) | ShownUsage.

Section Main.
  Context (re : regex_engine) (tp : tape) (ag : age_crate) (cd : codec) (O : os).

  (** main.rs:1-3: what [main] returns is the status, an error is 1; a panic on the main thread gives 101 (no Cargo.toml sets [panic]). *)
  Definition report (o : outcome unit) : status :=
    match o with Ok _ => Exited 0 | Err _ => Exited 1 | Panic => Exited 101 end.
  (** run.rs:5-16 with its first line. *)
  Definition process (ts : list bytes) (s : sys) : sys * status :=
    match parse_line re ag ts with
    | Run c => let '(s', o) := run_command re tp ag cd O c s in (s', report o)
    | Stop => (s, ShownUsage)
    | Crash => (s, report Panic)
    end.
End Main.
