(** What a command does depends on the file it names, and on what the configuration says. *)
From Coq Require Import Lia.
From Verif.Model Require Import Script.
From Verif.Spec Require Import SpecDepends.
From Verif.Proofs Require Import BytesFacts ScriptFacts CliRun Concurrent Turns Depends.
From Verif.Props Require Import PMap PFormat ExWorld ExCodec PDocument PCli.
Open Scope byte_scope.

(** * C82 *)

(** Files that a command does not look at make no difference to it, whatever goes wrong on the way; and it leaves the others as they are. *)
Theorem C82_depends : forall re tp ag cd O c s1 s2 r1 r2, (forall q, looks_at O c q -> sy_file s1 q = sy_file s2 q) -> sy_out s1 = sy_out s2 -> sy_ops s1 = sy_ops s2 -> sy_draws s1 = sy_draws s2 ->
  run_command re tp ag cd O c s1 = r1 -> run_command re tp ag cd O c s2 = r2 ->
  snd r1 = snd r2 /\ sy_out (fst r1) = sy_out (fst r2) /\ sy_ops (fst r1) = sy_ops (fst r2) /\ sy_draws (fst r1) = sy_draws (fst r2)
  /\ (forall q, changes O c q -> sy_file (fst r1) q = sy_file (fst r2) q)
  /\ (forall q, ~ changes O c q -> sy_file (fst r1) q = sy_file s1 q /\ sy_file (fst r2) q = sy_file s2 q).
Proof.
  intros re tp ag cd O c s1 s2 r1 r2 F A B C <- <-. rewrite <- !(plays_command O re tp ag cd c). pose proof (within_command re tp ag cd O c) as WC.
  assert (CL : forall q, changes O c q -> looks_at O c q) by (intros q H; destruct (changes_subject O c q H); [now left|right; now right]).
  destruct (play_similar (looks_at O c) _ _ O _ s1 s2 (fun q H => H) CL WC) as ((G1 & G2 & G3 & G4) & G5); [repeat split; auto|].
  split; auto. split; auto. split; auto. split; auto. split; [auto|]. intros q N. split; eapply play_frame; eauto.
Qed.
Print Assumptions C82_depends.

(** Where the configuration was found makes no difference: with another working directory, another ROPS_CONFIG or another [--config] that
    lead to the same rules, and the same file, a command does the same. *)
Theorem C82_place : forall re tp ag cd O cwd var arg c s1 s2 rules r1 r2, no_failures O ->
  configured re ag cd O (sy_file s1) (config_path c) rules -> configured re ag cd (elsewhere O cwd var) (sy_file s2) (config_path (with_config arg c)) rules ->
  (forall q, subject O c q -> sy_file s1 q = sy_file s2 q) -> sy_out s1 = sy_out s2 -> sy_draws s1 = sy_draws s2 ->
  run_command re tp ag cd O c s1 = r1 -> run_command re tp ag cd (elsewhere O cwd var) (with_config arg c) s2 = r2 ->
  snd r1 = snd r2 /\ sy_out (fst r1) = sy_out (fst r2) /\ sy_draws (fst r1) = sy_draws (fst r2) /\ (forall q, subject O c q -> sy_file (fst r1) q = sy_file (fst r2) q).
Proof.
  intros re tp ag cd O cwd var arg c s1 s2 rules r1 r2 NF C1 C2 F A B <- <-.
  destruct (command_alike re tp ag cd O cwd var arg c s1 s2 rules NF C1 C2) as ((G1 & G2 & G3) & G4); [split; auto|]. auto.
Qed.
Print Assumptions C82_place.

(** The document is encrypted under the configuration in the home directory, and under the same rules in another place that [--config]
    names while ROPS_CONFIG names a file that is not there; the second system has other files besides. *)
Definition home_files (p : bytes) : node := if bytes_eqb p ex_path then Content doc_text else ex_files p.
Definition moved_files (p : bytes) : node :=
  if bytes_eqb p ex_path then Content doc_text else if bytes_eqb p (lit "/etc/rops.toml") then Content ex_config_text else if bytes_eqb p (lit "/etc/motd") then Content (lit "hello") else Absent.
Definition at_ (fs : bytes -> node) : sys := {| sy_file := fs; sy_out := []; sy_ops := []; sy_draws := 0 |}.
Definition moved_cwd : option (list bytes) := Some [lit "srv"].
Definition moved_var : option bytes := Some (lit "/nowhere").
Definition moved_arg : option bytes := Some (lit "/etc/rops.toml").
Definition home_run : sys * outcome unit := run_command ex_re ex_tape toy_age ex_codec (ex_os []) (Encrypt ex_args) (at_ home_files).
Definition moved_run : sys * outcome unit := run_command ex_re ex_tape toy_age ex_codec (elsewhere (ex_os []) moved_cwd moved_var) (with_config moved_arg (Encrypt ex_args)) (at_ moved_files).
Definition lost_run : sys * outcome unit := run_command ex_re ex_tape toy_age ex_codec (elsewhere (ex_os []) moved_cwd moved_var) (Encrypt ex_args) (at_ moved_files).
Example C82_witness : configured ex_re toy_age ex_codec (ex_os []) home_files None ex_rules
  /\ configured ex_re toy_age ex_codec (elsewhere (ex_os []) moved_cwd moved_var) moved_files moved_arg ex_rules
  /\ (forall q, subject (ex_os []) (Encrypt ex_args) q -> home_files q = moved_files q)
  /\ (snd home_run, sy_file (fst home_run) ex_path) = (Ok tt, Content ex_encrypted) /\ (snd moved_run, sy_file (fst moved_run) ex_path) = (Ok tt, Content ex_encrypted)
  /\ (snd lost_run, sy_file (fst lost_run) ex_path) = (Err EIo, Content doc_text).
Proof.
  split.
  { exists (Some (lit "/home/.rops.toml")). split; [|exists ex_config_text; split; [reflexivity|split; [reflexivity|exact ex_config_read]]].
    change (lit "/home/.rops.toml") with (config_in [lit "home"]). eapply src_nearest with (a := [lit "work"; lit "u"]); try reflexivity; [discriminate|]. intros b e E L. cbn in L.
    destruct b as [|x [|y [|z b]]]; cbn [app] in E; subst.
    - reflexivity.
    - injection E as _ <-. reflexivity.
    - injection E as _ _ <-. cbn in L. lia.
    - apply (f_equal (@length _)) in E. cbn in E. rewrite app_length in E. lia. }
  split.
  { exists (Some (lit "/etc/rops.toml")). split; [|exists ex_config_text; split; [reflexivity|split; [reflexivity|exact ex_config_read]]]. now constructor. }
  split.
  { intros q [H|((a & H) & _)]; [|discriminate]. cbn [input_file ea_input ex_args el_input ex_line in_file] in H. injection H as <-. reflexivity. }
  split; [by_vm|]. split; by_vm.
Qed.
