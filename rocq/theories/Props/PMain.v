(** The exit status: C81. *)
From Verif.Model Require Import Main.
From Verif.Spec Require Import SpecArgs.
From Verif.Proofs Require Import BytesFacts Utf8Facts CliPath CliRun CliDoes ArgsFacts.
From Verif.Props Require Import PMap PFormat ExWorld ExCodec PDocument PCli PCliDoc PAbort PArgs.
Open Scope byte_scope.

Local Open Scope nat_scope.

(** The text reached its file or standard output, and nothing else was touched. *)
Definition reached (O : os) (c : command) (s s' : sys) (t : bytes) : Prop :=
  (forall p, output_file O c = Some p -> sy_file s' p = Content t /\ sy_out s' = sy_out s)
  /\ (output_file O c = None -> sy_out s' = sy_out s ++ t ++ [x0a])
  /\ forall q, output_file O c <> Some q -> q <> os_temp O -> sy_file s' q = sy_file s q.
(** Nothing was touched. *)
Definition untouched (O : os) (s s' : sys) : Prop := sy_out s' = sy_out s /\ forall q, q <> os_temp O -> sy_file s' q = sy_file s q.

(** Status 0, even if some calls failed: the line said a command and its result is in place, or the user gave up an editing session. *)
Theorem C81_zero : forall re tp ag cd O ts s s', sy_file s (os_temp O) = Absent -> process re tp ag cd O ts s = (s', Exited 0) ->
  exists c, line_says re ag ts c
  /\ ((exists t, computes re tp ag cd O c (sy_file s) (sy_draws s) t /\ reached O c s s' t) \/ (cancelled re ag cd O c (sy_file s) /\ untouched O s s')).
Proof.
  intros re tp ag cd O ts s s' TA H. unfold process in H. destruct (parse_line re ag ts) as [c| |] eqn:P; [|discriminate|discriminate]. exists c. split; [now apply parse_iff|].
  destruct (run_command re tp ag cd O c s) as [s1 o] eqn:R. destruct o as [[]|e|]; try discriminate. injection H as ->. apply C36_success in R; auto. destruct R as [(t & C & D)|R]; [|now right]. left. exists t. split; auto. unfold reached. destruct (output_file O c) as [p|].
  - destruct D as (D1 & D2 & D3). split; [intros q E; injection E as <-; auto|]. split; [discriminate|]. intros q N. apply D3. congruence.
  - destruct D as (D1 & D2). split; [discriminate|]. auto.
Qed.
Print Assumptions C81_zero.
(** Any other status, or help or a usage error: nothing was touched, unless a call of the operating system failed. *)
Theorem C81_other : forall re tp ag cd O ts s s' st, no_failures O -> process re tp ag cd O ts s = (s', st) -> st <> Exited 0 -> untouched O s s'.
Proof.
  intros re tp ag cd O ts s s' st NF H NZ. unfold process in H. destruct (parse_line re ag ts) as [c| |] eqn:P; [|injection H as <- _; now split|injection H as <- _; now split].
  destruct (run_command re tp ag cd O c s) as [s1 o] eqn:R. injection H as -> <-. apply C36_untouched in R; auto. intros ->. now apply NZ.
Qed.
Print Assumptions C81_other.
Lemma accepted_ready : forall O c, accepted c -> ready O c.
Proof.
  intros O c A. destruct A as [l c P|i b c P|i b c P|a|a|a]; cbn [ready]; auto.
  - unfold parse_encrypt in P. cbv zeta in P. destruct (_ || _ || _) eqn:B in P; [discriminate|]. injection P as <-. cbn [ready ea_input ea_in_place]. intro N. apply orb_false_iff in B. destruct B as [_ B]. rewrite N in B. destruct (el_in_place l); [discriminate|reflexivity].
  - unfold parse_place in P. destruct b; [destruct (in_file i) eqn:E; [|discriminate]|]; injection P as <-; cbn [ready pl_input pl_in_place]; intro; first [congruence|reflexivity].
  - unfold parse_place in P. destruct b; [destruct (in_file i) eqn:E; [|discriminate]|]; injection P as <-; cbn [ready pl_input pl_in_place]; intro; first [congruence|reflexivity].
Qed.
(** If no call fails, the status is 0 exactly when there is a result to deliver, or a session given up. *)
Theorem C81_iff : forall re tp ag cd O ts s, no_failures O -> sy_file s (os_temp O) = Absent ->
  (snd (process re tp ag cd O ts s) = Exited 0
   <-> exists c, line_says re ag ts c /\ ((exists t, computes re tp ag cd O c (sy_file s) (sy_draws s) t) \/ cancelled re ag cd O c (sy_file s))).
Proof.
  intros re tp ag cd O ts s NF TA. split.
  - destruct (process re tp ag cd O ts s) as [s' st] eqn:P. cbn [snd]. intros ->. destruct (C81_zero _ _ _ _ _ _ _ _ TA P) as (c & L & [(t & C & _)|(C & _)]); exists c; split; eauto.
  - intros (c & L & C). apply parse_iff in L. unfold process. rewrite L. assert (G : exists s', run_command re tp ag cd O c s = (s', Ok tt)).
    { destruct C as [(t & C)|C]; [|now apply run_gives_up]. destruct (run_does re tp ag cd O NF c s t) as (s' & R & _); eauto. eapply accepted_ready, parse_accepted, L. }
    destruct G as (s' & ->). reflexivity.
Qed.
Print Assumptions C81_iff.
(** Status 101 has one of the listed causes (C44, C60). *)
Theorem C81_abort : forall re tp ag cd O ts s s', age_law ag -> parser_law cd -> printer_law cd -> process re tp ag cd O ts s = (s', Exited 101) ->
  (exists ws v ts' is k, ts = ws ++ ts' /\ names ws v /\ spells v ts' is /\ In k (values AKms is) /\ utf8_text k /\ parse_aws_key k = Panic)
  \/ exists c, line_says re ag ts c /\ aborts re ag cd O c (sy_file s).
Proof.
  intros re tp ag cd O ts s s' AL PL WL H. unfold process in H. destruct (parse_line re ag ts) as [c| |] eqn:P; [|discriminate|].
  - right. exists c. split; [now apply parse_iff|]. destruct (run_command re tp ag cd O c s) as [s1 o] eqn:R. destruct o as [u|e|]; try discriminate. eapply C60_line_partial; eauto.
  - left. now apply (C73_crash re ag).
Qed.
Print Assumptions C81_abort.

(** And it is 101 if the name of the file decides on the format and its extension is not UTF-8. *)
Theorem C81_extension_aborts : forall re tp ag cd O ts c rules p e s, no_failures O -> line_says re ag ts c -> configured re ag cd O (sy_file s) (config_path c) rules ->
  input_file c = Some p -> format_option c = None -> has_extension p e -> ~ utf8_text e -> snd (process re tp ag cd O ts s) = Exited 101.
Proof.
  intros re tp ag cd O ts c rules p e s NF L CF IF FO HE NU. apply parse_iff in L. unfold process. rewrite L. pose proof (C60_extension_refuted p e HE NU) as G.
  destruct (retrieve_does re ag cd O NF _ _ _ CF) as (s1 & R & _ & _). unfold run_command. rewrite (chain_does _ _ _ _ _ _ _ R).
  destruct c as [a|a|a|a|a|a]; cbn [merge_config input_file format_option] in *.
  - assert (I : ea_input (merge_encrypt re rules a) = ea_input a) by (unfold merge_encrypt; now destruct (matching_rule _ _ _)). unfold run_encrypt, chain at 1, lift. rewrite I, IF, FO, G. reflexivity.
  - unfold run_decrypt, chain at 1, lift. rewrite IF, FO, G. reflexivity.
  - unfold run_edit, chain at 1, lift. rewrite IF, FO, G. reflexivity.
  - injection IF as IF. unfold run_keys, chain at 1, lift. rewrite IF, FO, G. reflexivity.
  - injection IF as IF. unfold run_keys, chain at 1, lift. rewrite IF, FO, G. reflexivity.
  - unfold run_refresh, chain at 1, lift. rewrite IF, FO, G. reflexivity.
Qed.
Print Assumptions C81_extension_aborts.

(** The five ways to end: a key is added; a session is given up; the keys are missing; help; a KMS key that aborts. *)
Definition line_h : list bytes := Eval vm_compute in [lit "keys"; lit "add"; lit "--help"].
Definition line_edit : list bytes := Eval vm_compute in [lit "edit"; ex_path].
Example C81_witness : (snd (process ex_re ex_tape toy_age ex_codec (ex_os []) line_d ex_start), file_after (fst (process ex_re ex_tape toy_age ex_codec (ex_os []) line_d ex_start), Ok tt) ex_path) = (Exited 0, added_text)
  /\ (snd (process ex_re ex_tape toy_age ex_codec (ex_os ex_gives_up) line_edit ex_start), file_after (fst (process ex_re ex_tape toy_age ex_codec (ex_os ex_gives_up) line_edit ex_start), Ok tt) ex_path) = (Exited 0, small_text)
  /\ snd (process ex_re ex_tape toy_age ex_codec ex_locked line_d ex_start) = Exited 1
  /\ snd (process ex_re ex_tape toy_age ex_codec (ex_os []) line_h ex_start) = ShownUsage
  /\ snd (process ex_re ex_tape toy_age ex_codec (ex_os []) line_c ex_start) = Exited 101
  /\ snd (process ex_re ex_tape toy_age ex_codec (ex_os []) line_e ex_start) = Exited 101
  /\ sy_file ex_start (os_temp (ex_os [])) = Absent.
Proof. split; [by_vm|]. split; [by_vm|]. split; [by_vm|]. split; [by_vm|]. split; [by_vm|]. split; by_vm. Qed.
Example C81_extension_witness : line_says ex_re toy_age line_e line_e_command /\ configured ex_re toy_age ex_codec (ex_os []) (sy_file ex_start) (config_path line_e_command) ex_rules
  /\ input_file line_e_command = Some (lit "/home/u/s.y" ++ [xff]) /\ format_option line_e_command = None /\ has_extension (lit "/home/u/s.y" ++ [xff]) (lit "y" ++ [xff]) /\ ~ utf8_text (lit "y" ++ [xff]).
Proof.
  split; [apply parse_iff, C60_line_witness|]. split; [exact ex_configured|]. split; [reflexivity|]. split; [reflexivity|]. split; [apply extension_has; by_vm|apply C60_extension_witness].
Qed.
