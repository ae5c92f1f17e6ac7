(** Specification vocabulary for what a command depends on (C82). *)
From Verif.Model Require Import Script.
From Verif.Spec Require Export SpecConcurrent.
Open Scope byte_scope.

(** The same surroundings, but in another working directory and with another ROPS_CONFIG. *)
Definition elsewhere (O : os) (cwd : option (list bytes)) (var : option bytes) : os :=
  {| os_stdin := os_stdin O; os_cwd := cwd; os_config_var := var; os_editor_var := os_editor_var O; os_which := os_which O;
     os_editor := os_editor O; os_temp := os_temp O; os_io := os_io O; os_env := os_env O |}.
(** The same command with another [--config]; [keys add] and [keys remove] have no such option. *)
Definition input_with (arg : option bytes) (a : input_args) : input_args := {| in_config := arg; in_format := in_format a; in_file := in_file a |}.
Definition place_with (arg : option bytes) (a : place_args) : place_args := {| pl_input := input_with arg (pl_input a); pl_in_place := pl_in_place a |}.
Definition with_config (arg : option bytes) (c : command) : command :=
  match c with
  | Encrypt a => Encrypt {| ea_keys := ea_keys a; ea_partial := ea_partial a; ea_only := ea_only a; ea_input := input_with arg (ea_input a); ea_in_place := ea_in_place a |}
  | Decrypt a => Decrypt (place_with arg a)
  | Edit a => Edit (input_with arg a)
  | Refresh a => Refresh (place_with arg a)
  | AddKeys _ | RemoveKeys _ => c
  end.
(** The file a command is about: the one it is given, and the temporary file of an editing session. *)
Definition subject (O : os) (c : command) (p : bytes) : Prop := input_file c = Some p \/ scratch_file O c p.
