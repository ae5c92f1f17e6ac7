(** Properties of the command line: C34, C35, C36, C37, C38, C39, C41, C49, C59, C60. *)
From Verif.Model Require Import Cli.
From Verif.Spec Require Import SpecCli.
From Verif.Proofs Require Import BytesFacts Utf8Facts ValueFacts IntFacts IntegrationFacts FileFacts FileKeys DocumentFacts CliPath ShellFacts EditorFacts CliRun.
From Verif.Props Require Import PMap PFormat ExWorld ExCodec PDocument.
Open Scope byte_scope.

Local Open Scope nat_scope.

(** * The setting of the examples *)

Definition ex_path : bytes := lit "/home/u/s.yaml".
Definition ex_temp : bytes := lit "/tmp/rops.yaml".
Definition ex_carol : bytes := lit "age1carol".
(** A configuration in /home. *)
Definition ex_rules : list rule :=
  [ {| cr_path := lit "other.yaml"; cr_only := None; cr_partial := None; cr_keys := {| ks_age := [lit "age1other"]; ks_kms := [] |} |};
    {| cr_path := ex_path; cr_only := Some true; cr_partial := Some (EncryptedSuffix (lit "b")); cr_keys := {| ks_age := [ex_carol]; ks_kms := [ex_kms] |} |};
    {| cr_path := ex_path; cr_only := None; cr_partial := None; cr_keys := {| ks_age := [lit "age1last"]; ks_kms := [] |} |} ].
Definition ex_key_list (k : bytes) (l : list bytes) : fvalue * fvalue := (FStr k, FSeq (map FStr l)).
Definition ex_config : fmap :=
  [(FStr (lit "creation_rules"), FSeq
    [ FMap [(FStr (lit "path_regex"), FStr (lit "other.yaml")); (FStr (lit "integration_keys"), FMap [ex_key_list (lit "age") [lit "age1other"]])];
      FMap [(FStr (lit "path_regex"), FStr ex_path); (FStr (lit "mac_only_encrypted"), FBool true);
            (FStr (lit "partial_encryption"), FMap [(FStr (lit "encrypted_suffix"), FStr (lit "b"))]);
            (FStr (lit "integration_keys"), FMap [ex_key_list (lit "age") [ex_carol]; ex_key_list (lit "aws_kms") [ex_kms_text]])];
      FMap [(FStr (lit "path_regex"), FStr ex_path); (FStr (lit "integration_keys"), FMap [ex_key_list (lit "age") [lit "age1last"]])] ])].
Definition ex_config_text : bytes := Eval vm_compute in toy_value (FMap ex_config).
Example ex_config_read : read_config ex_re toy_age ex_codec ex_config_text = Ok ex_rules.
Proof. by_vm. Qed.

Definition ex_files (p : bytes) : node :=
  if bytes_eqb p ex_path then Content small_text else if bytes_eqb p (lit "/home/.rops.toml") then Content ex_config_text else Absent.
(** A terminal; a configuration two directories up; the editor, started by this line, makes these attempts; no failures. *)
Definition ex_editor : list bytes := [lit "vi"; lit "-n"].
Definition ex_os (attempts : list (node -> edited)) : os :=
  {| os_stdin := None; os_cwd := Some [lit "work"; lit "u"; lit "home"]; os_config_var := None; os_editor_var := Some (lit "vi -n");
     os_which := fun _ => None; os_editor := fun ws => if list_eq_dec (list_eq_dec Byte.byte_eq_dec) ws (ex_editor ++ [ex_temp]) then attempts else []; os_temp := ex_temp; os_io := fun _ _ => None; os_env := ex_here |}.
Lemma ex_line_is : forall l, attempts (ex_os l) l.
Proof.
  intro l. exists ex_editor. split; [|reflexivity]. eapply el_named; [reflexivity|now apply utf8_known| |discriminate]. apply split_iff. reflexivity.
Qed.
Definition ex_start : sys := {| sy_file := ex_files; sy_out := []; sy_ops := []; sy_draws := 0 |}.
(** Adding Carol to the file. *)
Definition ex_add : command := AddKeys {| ka_keys := {| ks_age := [ex_carol]; ks_kms := [] |}; ka_format := None; ka_file := ex_path |}.
Definition ex_run (attempts : list (node -> edited)) (c : command) : sys * outcome unit := run_command ex_re ex_tape toy_age ex_codec (ex_os attempts) c ex_start.
Definition file_after (r : sys * outcome unit) (p : bytes) : bytes := match sy_file (fst r) p with Content t => t | _ => [] end.
Definition added_text : bytes := Eval vm_compute in file_after (ex_run [] ex_add) ex_path.

(** * C34 *)

Lemma means_text : forall e f, means e f -> utf8_valid e = true.
Proof.
  intros e f (w & I & S). apply utf8_ascii. assert (A : forall x, In x w -> ascii x = true).
  { assert (G : forallb (fun p => all_ascii (fst p)) format_words = true) by reflexivity. rewrite forallb_forall in G. specialize (G _ I). unfold all_ascii in G. cbn [fst] in G. now rewrite forallb_forall in G. }
  clear I. induction S as [|x y e w L _ IH]; [intros ? []|]. intros z [<-|J]; [|apply IH; auto; intros; apply A; now right].
  specialize (A y (or_introl eq_refl)). destruct L as [->|(k & K & [[X Y]|[X Y]])]; auto; unfold ascii, in_range in *; apply andb_true_iff in A; destruct A as [A1 A2]; apply andb_true_iff; rewrite N.leb_le in *; cbn [Byte.to_N] in *; lia.
Qed.

Theorem C34_explicit : forall path f, get_format path (Some f) = Ok f.
Proof. reflexivity. Qed.
Print Assumptions C34_explicit.

Theorem C34_neither : get_format None None = Err EFoundNeither.
Proof. reflexivity. Qed.
Print Assumptions C34_neither.

(** Without the option the extension decides, and only the four known words are accepted. *)
Theorem C34_extension : forall p f, get_format (Some p) None = Ok f <-> exists e, has_extension p e /\ means e f.
Proof.
  intros p f. cbn [get_format]. split.
  - intro H. destruct (extension p) as [e|] eqn:E; [|discriminate]. destruct (utf8_valid e); [|discriminate]. destruct (format_of_name e) as [g|] eqn:G; [|discriminate]. injection H as ->.
    exists e. split; [now apply extension_has|now apply format_of_name_means].
  - intros (e & E & M). apply extension_has in E. rewrite E, (means_text _ _ M). apply format_of_name_means in M. now rewrite M.
Qed.
Print Assumptions C34_extension.

(** Everything else is the specific error.  Full statement: without [utf8_text e].  It is false of the code, see [C34_refuted]. *)
Theorem C34_error_partial : forall p, (forall e, has_extension p e -> utf8_text e) -> (forall e f, has_extension p e -> ~ means e f) -> get_format (Some p) None = Err ENoExtension.
Proof.
  intros p U N. cbn [get_format]. destruct (extension p) as [e|] eqn:E; auto. apply extension_has in E. rewrite (proj2 (utf8_valid_iff e)) by auto.
  destruct (format_of_name e) as [f|] eqn:G; auto. apply format_of_name_means in G. destruct (N e f E G).
Qed.
Print Assumptions C34_error_partial.

(** A file name that is not UTF-8 aborts the program. *)
Theorem C34_refuted : exists p e, has_extension p e /\ get_format (Some p) None = Panic.
Proof. exists (lit "a." ++ [xff]), [xff]. split; [apply extension_has|]; reflexivity. Qed.
Print Assumptions C34_refuted.

Example C34_witness : has_extension (lit "dir.d/.secret.prod.YmL//.") (lit "YmL") /\ means (lit "YmL") Yaml /\ get_format (Some (lit "dir.d/.secret.prod.YmL//.")) None = Ok Yaml
  /\ get_format (Some (lit "dir.json/.yaml")) None = Err ENoExtension /\ get_format (Some (lit "a.yaml.txt")) None = Err ENoExtension.
Proof.
  split; [apply extension_has; reflexivity|]. split; [apply format_of_name_means; reflexivity|]. repeat split.
Qed.

(** * C35 *)

Theorem C35_input : forall O path i s,
  (forall p x, path = Some p -> os_stdin O = Some x -> get_input_string O path i s = (s, Err EMultipleInputs))
  /\ (path = None -> os_stdin O = None -> is_set i = false -> get_input_string O path i s = (s, Err EMissingInput))
  /\ (forall s' t, get_input_string O path i s = (s', Ok t) -> only_source O (sy_file s) path t)
  /\ (forall t, no_failures O -> (path = None -> is_set i = false) -> utf8_text t -> only_source O (sy_file s) path t -> snd (get_input_string O path i s) = Ok t).
Proof.
  intros O path i s. split; [|split; [|split]].
  - intros p x -> E. unfold get_input_string, read_from_path. rewrite E. now destruct (is_set i).
  - intros -> E I. unfold get_input_string. now rewrite E, I.
  - intros s' t H. apply input_ok in H. tauto.
  - intros t NF I U [(p & -> & E & F)|(-> & E)]; unfold get_input_string, read_from_path, read_stdin; rewrite E.
    + assert (G : snd (read_to_string O p s) = Ok t) by (apply read_does; auto; now apply utf8_valid_iff). now destruct (is_set i).
    + rewrite I by reflexivity. cbn [lift snd]. now rewrite (proj2 (utf8_valid_iff t)).
Qed.
Print Assumptions C35_input.

(** [--in-place] needs a file. *)
Theorem C35_in_place : (forall l c, parse_encrypt l = Some c -> el_in_place l = true -> input_file c <> None)
  /\ (forall k i c, k = Decrypt \/ k = Refresh -> parse_place k i true = Some c -> input_file c <> None).
Proof.
  split.
  - intros l c H P. unfold parse_encrypt in H. cbv zeta in H. rewrite P in H. destruct (in_file (el_input l)) eqn:F; [|cbn [given Nat.eqb andb] in H; rewrite orb_true_r in H; discriminate].
    match type of H with (if ?x then _ else _) = _ => destruct x end; [discriminate|]. injection H as <-. cbn. now rewrite F.
  - intros k i c K H. unfold parse_place in H. destruct (in_file i) eqn:F; [|discriminate]. cbn in H. injection H as <-. destruct K as [-> | ->]; cbn; now rewrite F.
Qed.
Print Assumptions C35_in_place.

(** At the level of whole commands: success means that exactly one source was there; otherwise nothing happens. *)
Theorem C35_run : forall re tp ag cd O c s s' o, run_command re tp ag cd O c s = (s', o) ->
  (o = Ok tt -> exists t, only_source O (sy_file s) (input_file c) t)
  /\ ((forall t, ~ only_source O (sy_file s) (input_file c) t) -> o <> Ok tt /\ sy_out s' = sy_out s /\ forall q, q <> os_temp O -> sy_file s' q = sy_file s q).
Proof.
  intros re tp ag cd O c s s' o H. apply run_trace in H. destruct H as (l1 & F & [(_ & FS & OU & CA)|(t & l2 & C & D & _)]).
  - split.
    + intro E. destruct (CA E) as (a & rules & f & x & ef & df & sv & t0 & l & e & rest & c' & t & err & -> & _ & S & _). eauto.
    + intro N. split; [|split; auto].
      * intro E. destruct (CA E) as (a & rules & f & x & ef & df & sv & t0 & l & e & rest & c' & t & err & -> & _ & S & _). exact (N _ S).
      * intros q NQ. rewrite FS. eapply temp_only_keeps; eauto.
  - destruct C as (rules & f & x & _ & S & _). split; [eauto|]. intro N. destruct (N _ S).
Qed.
Print Assumptions C35_run.

Example C35_witness : get_input_string (ex_os []) (Some ex_path) None ex_start = (done (Looked ex_path) ex_start, Ok small_text)
  /\ snd (ex_run [] (Decrypt {| pl_input := {| in_config := None; in_format := Some Yaml; in_file := None |}; pl_in_place := Some false |})) = Err EMissingInput.
Proof. split; by_vm. Qed.

(** * C36 *)

Theorem C36_success : forall re tp ag cd O c s s', sy_file s (os_temp O) = Absent -> run_command re tp ag cd O c s = (s', Ok tt) ->
  (exists t, computes re tp ag cd O c (sy_file s) (sy_draws s) t
     /\ match output_file O c with
        | Some p => sy_file s' p = Content t /\ sy_out s' = sy_out s /\ forall q, q <> p -> q <> os_temp O -> sy_file s' q = sy_file s q
        | None => sy_out s' = sy_out s ++ t ++ [x0a] /\ forall q, q <> os_temp O -> sy_file s' q = sy_file s q
        end)
  \/ (cancelled re ag cd O c (sy_file s) /\ sy_out s' = sy_out s /\ forall q, q <> os_temp O -> sy_file s' q = sy_file s q).
Proof.
  intros re tp ag cd O c s s' TA H. apply run_trace in H. destruct H as (l1 & F & [(_ & FS & OU & CA)|(t & l2 & C & D & _ & FS & OU)]).
  - right. split; [auto|]. split; auto. intros q NQ. rewrite FS. eapply temp_only_keeps; eauto.
  - left. exists t. split; auto. rewrite FS, OU. inversion D as [E1 E2 E3|? ? E1 E2 E3|? ? E1 E2 E3|? ? ? E1 E2 E3|p E1 E2 E3].
    + cbn [printed flat_map]. rewrite app_nil_r. split; auto. intros q NQ. rewrite replay_app. cbn [replay fold_left apply_op]. eapply temp_only_keeps; eauto.
    + rewrite replay_app. cbn [replay fold_left]. rewrite written_here. cbn [printed flat_map]. rewrite app_nil_r. split; auto. split; auto. intros q NP NQ. rewrite written_other by auto. eapply temp_only_keeps; eauto.
Qed.
Print Assumptions C36_success.

(** A failing command changes no file, unless it is the operating system that fails during the final write. *)
Theorem C36_failure : forall re tp ag cd O c s s' o, run_command re tp ag cd O c s = (s', o) -> o <> Ok tt -> forall q, q <> os_temp O ->
  sy_file s' q = sy_file s q
  \/ (some_failure O /\ output_file O c = Some q /\ exists t k, computes re tp ag cd O c (sy_file s) (sy_draws s) t /\ sy_file s' q = Content (firstn k t)).
Proof.
  intros re tp ag cd O c s s' o H NO q NQ. apply run_trace in H. destruct H as (l1 & F & [(_ & FS & _)|(t & l2 & C & D & _ & FS & _)]).
  - left. rewrite FS. eapply temp_only_keeps; eauto.
  - assert (K : replay l1 (sy_file s) q = sy_file s q) by (eapply temp_only_keeps; eauto). rewrite FS, replay_app. inversion D as [E1 E2 E3|u SF E1 E2 E3|p SF E1 E2 E3|p k SF E1 E2 E3|p E1 E2 E3]; subst.
    + congruence.
    + now left.
    + now left.
    + destruct (list_eq_dec Byte.byte_eq_dec q p) as [->|N].
      * right. split; auto. split; auto. exists t, k. split; auto. cbn [replay fold_left]. now rewrite written_here.
      * left. cbn [replay fold_left]. now rewrite written_other.
    + congruence.
Qed.
Print Assumptions C36_failure.
Theorem C36_untouched : forall re tp ag cd O c s s' o, no_failures O -> run_command re tp ag cd O c s = (s', o) -> o <> Ok tt ->
  sy_out s' = sy_out s /\ forall q, q <> os_temp O -> sy_file s' q = sy_file s q.
Proof.
  intros re tp ag cd O c s s' o NF H NO. assert (X : ~ some_failure O) by (intros (h & e & G); apply G, NF). split.
  - apply run_trace in H. destruct H as (l1 & F & [(_ & _ & OU & _)|(t & l2 & C & D & _ & _ & OU)]); auto. inversion D; subst; try congruence; tauto.
  - intros q NQ. destruct (C36_failure _ _ _ _ _ _ _ _ _ H NO q NQ) as [E|(E & _)]; [exact E|tauto].
Qed.
Print Assumptions C36_untouched.

(** Adding a recipient writes the new document; in a directory without the private keys it fails and writes nothing. *)
Definition ex_locked : os :=
  {| os_stdin := None; os_cwd := Some []; os_config_var := None; os_editor_var := None; os_which := fun _ => None; os_editor := fun _ => []; os_temp := ex_temp;
     os_io := fun _ _ => None; os_env := ex_env VarUnset VarUnset ex_time true |}.
Definition ex_fails (o : outcome unit) : bool := match o with Err _ => true | _ => false end.
Example C36_witness : (snd (ex_run [] ex_add), file_after (ex_run [] ex_add) ex_path) = (Ok tt, added_text) /\ added_text <> small_text
  /\ ex_fails (snd (run_command ex_re ex_tape toy_age ex_codec ex_locked ex_add ex_start)) = true
  /\ file_after (run_command ex_re ex_tape toy_age ex_codec ex_locked ex_add ex_start) ex_path = small_text.
Proof. split; [by_vm|]. split; [vm_compute; discriminate|]. split; by_vm. Qed.

(** * C37 *)

(** Full statement: the file holds the complete old or the complete new content.  It is false of the code: every successful in-place
    command passes through a moment at which the file is empty (std::fs::write truncates and then writes). *)
Theorem C37_refuted : forall re tp ag cd O c s s' p, run_command re tp ag cd O c s = (s', Ok tt) -> output_file O c = Some p -> ~ cancelled re ag cd O c (sy_file s) ->
  exists l fs, sy_ops s' = sy_ops s ++ l /\ stopped l (sy_file s) fs /\ fs p = Content [].
Proof.
  intros re tp ag cd O c s s' p H OF NC. apply run_trace in H. destruct H as (l1 & F & [(_ & _ & _ & CA)|(t & l2 & C & D & OP & _)]); [destruct (NC (CA eq_refl))|].
  rewrite OF in D. inversion D; subst. exists (l1 ++ [Opened p; Wrote p t]), (replay (l1 ++ [Opened p]) (sy_file s)). split; auto. split.
  - apply stop_between with (b := [Wrote p t]). now rewrite <- app_assoc.
  - rewrite replay_app. cbn [replay fold_left apply_op]. now rewrite put_here.
Qed.
Print Assumptions C37_refuted.

(** What is true: at every moment of every run, and after every failure, the file holds the old content or a beginning of the new. *)
Theorem C37_partial : forall re tp ag cd O c s s' o l fs, run_command re tp ag cd O c s = (s', o) -> sy_ops s' = sy_ops s ++ l -> stopped l (sy_file s) fs ->
  forall q, q <> os_temp O -> fs q = sy_file s q
  \/ (output_file O c = Some q /\ exists t k, computes re tp ag cd O c (sy_file s) (sy_draws s) t /\ fs q = Content (firstn k t)).
Proof.
  intros re tp ag cd O c s s' o l fs H L S q NQ. apply run_trace in H. destruct H as (l1 & F & [(OP & _)|(t & l2 & C & D & OP & _)]); rewrite L in OP; apply app_inv_head in OP; subst l.
  - left. eapply stopped_temp; eauto.
  - destruct (stopped_files _ _ _ _ _ _ _ _ F D S q NQ) as [E|(E & k & G)]; eauto 8.
Qed.
Print Assumptions C37_partial.

Example C37_witness : snd (ex_run [] ex_add) = Ok tt /\ output_file (ex_os []) ex_add = Some ex_path /\ ~ cancelled ex_re toy_age ex_codec (ex_os []) ex_add ex_files.
Proof.
  split; [by_vm|]. split; [reflexivity|]. intros (a & rules & f & x & ef & df & sv & t0 & l & e & rest & c' & t & err & E & _). discriminate.
Qed.

(** * C38 *)

Lemma find_first : forall re rules path, (exists r, first_matching re rules path r /\ matching_rule re path rules = Some r)
  \/ ((forall r, In r rules -> re_match re (cr_path r) path = false) /\ matching_rule re path rules = None).
Proof.
  intros re rules path. induction rules as [|x rules IH]; [right; split; [intros r []|reflexivity]|]. cbn [matching_rule find]. destruct (re_match re (cr_path x) path) eqn:M.
  - left. exists x. split; auto. exists [], rules. split; auto. split; auto. intros r' [].
  - destruct IH as [(r & (a & b & -> & R & B) & E)|(N & E)].
    + left. exists r. split; auto. exists (x :: a), b. split; auto. split; auto. intros r' [<-|I]; auto.
    + right. split; auto. intros r [<-|I]; auto.
Qed.
Lemma first_unique : forall re rules path r, first_matching re rules path r -> matching_rule re path rules = Some r.
Proof.
  intros re rules path r (a & b & -> & R & B). induction a as [|x a IH]; cbn [app matching_rule find]; [now rewrite R|]. rewrite (B x) by now left. apply IH. intros; apply B. now right.
Qed.

(** The first rule that matches is used: recipients from the command line come before those of the rule, and options given on the
    command line come first. *)
Theorem C38_merge : forall re rules a path, path = path_to_match (in_file (ea_input a)) ->
  (forall r, first_matching re rules path r ->
     ks_age (ea_keys (merge_encrypt re rules a)) = ks_age (ea_keys a) ++ ks_age (cr_keys r)
     /\ ks_kms (ea_keys (merge_encrypt re rules a)) = ks_kms (ea_keys a) ++ ks_kms (cr_keys r)
     /\ (forall p, ea_partial a = Some p -> ea_partial (merge_encrypt re rules a) = Some p)
     /\ (ea_partial a = None -> match cr_partial r with
           | None => ea_partial (merge_encrypt re rules a) = None
           | Some p => exists pa, ea_partial (merge_encrypt re rules a) = Some pa /\ option_given pa p
           end))
  /\ ((forall r, In r rules -> re_match re (cr_path r) path = false) -> merge_encrypt re rules a = a).
Proof.
  intros re rules a path ->. split.
  - intros r H. apply first_unique in H. unfold merge_encrypt. rewrite H. cbn [ea_keys ea_partial merge_keys ks_age ks_kms]. split; auto. split; auto. split.
    + intros p E. now rewrite E.
    + intro E. rewrite E. cbn [or_else]. destruct (cr_partial r) as [[s|s|s|s]|]; cbn [option_map args_of_partial]; auto; eexists; split; try reflexivity; constructor.
  - intro N. unfold merge_encrypt. destruct (find_first re rules (path_to_match (in_file (ea_input a)))) as [(r & (x & y & -> & R & _) & _)|(_ & ->)]; auto.
    rewrite N in R; [discriminate|]. apply in_or_app. right. now left.
Qed.
Print Assumptions C38_merge.

Lemma given_option : forall pa p, option_given pa p -> partial_of_args pa = Ok p.
Proof. intros pa p []; reflexivity. Qed.
Lemma encrypt_text_ok : forall re tp ag cd E f a s n t n', encrypt_text re tp ag cd E f a s n = Ok (t, n') ->
  exists m p ef, read_map cd f s = Ok m /\ file_text cd f ef = Ok t /\ match ea_partial a with None => p = None | Some pa => exists q, partial_of_args pa = Ok q /\ p = Some q end
    /\ builder_encrypt re tp ag E f {| bd_map := m; bd_partial := p; bd_only := if is_set (ea_only a) then Some true else None; bd_age := ks_age (ea_keys a); bd_kms := ks_kms (ea_keys a) |} n = Ok (ef, n')
    /\ made_for (fl_meta ef) (ks_age (ea_keys a)) (ks_kms (ea_keys a)) p /\ md_only (fl_meta ef) = if is_set (ea_only a) then Some true else None.
Proof.
  intros re tp ag cd E f a s n t n' H. unfold encrypt_text in H. apply bind_ok in H. destruct H as (m & M & H). apply bind_ok in H. destruct H as (p & P & H).
  apply bind_ok in H. destruct H as ([ef n1] & B & H). apply bind_ok in H. destruct H as (t' & T & H). injection H as <- <-. cbn [fst snd] in *. exists m, p, ef. split; auto. split; auto. split.
  { destruct (ea_partial a) as [pa|]; [|now injection P as <-]. destruct (partial_of_args pa) as [q|e|]; try discriminate. injection P as <-. eauto. }
  split; auto. apply build_ok in B.
  destruct B as (dm & em & n2 & rc & n3 & e & _ & _ & C & _ & _ & Em). cbn [bd_age bd_kms bd_partial bd_only] in *. apply (build_recipients_ok ag (fun _ => True)) in C; auto. destruct C as (_ & _ & D & KA & KK). rewrite Em. now split.
Qed.

(** The encrypted file: its recipients and its rule. *)
Theorem C38_file : forall re tp ag cd E f rules a s n t n' path, path = path_to_match (in_file (ea_input a)) ->
  encrypt_text re tp ag cd E f (merge_encrypt re rules a) s n = Ok (t, n') ->
  exists ef, file_text cd f ef = Ok t
  /\ (forall r, first_matching re rules path r ->
        (forall pa p, ea_partial a = Some pa -> option_given pa p -> made_for (fl_meta ef) (ks_age (ea_keys a) ++ ks_age (cr_keys r)) (ks_kms (ea_keys a) ++ ks_kms (cr_keys r)) (Some p))
        /\ (ea_partial a = None -> made_for (fl_meta ef) (ks_age (ea_keys a) ++ ks_age (cr_keys r)) (ks_kms (ea_keys a) ++ ks_kms (cr_keys r)) (cr_partial r)))
  /\ ((forall r, In r rules -> re_match re (cr_path r) path = false) ->
        (forall pa p, ea_partial a = Some pa -> option_given pa p -> made_for (fl_meta ef) (ks_age (ea_keys a)) (ks_kms (ea_keys a)) (Some p))
        /\ (ea_partial a = None -> made_for (fl_meta ef) (ks_age (ea_keys a)) (ks_kms (ea_keys a)) None)).
Proof.
  intros re tp ag cd E f rules a s n t n' path EP H. apply encrypt_text_ok in H. destruct H as (m & p & ef & _ & T & P & _ & MF & _). exists ef. split; auto.
  destruct (C38_merge re rules a path EP) as [MR MN]. split.
  - intros r R. destruct (MR r R) as (KA & KK & PS & PN). rewrite KA, KK in MF. split.
    + intros pa q A G. rewrite (PS _ A) in P. destruct P as (q' & P & ->). rewrite (given_option _ _ G) in P. now injection P as <-.
    + intro A. specialize (PN A). destruct (cr_partial r) as [q|].
      * destruct PN as (pa & A' & G). rewrite A' in P. destruct P as (q' & P & ->). rewrite (given_option _ _ G) in P. now injection P as <-.
      * rewrite PN in P. now subst p.
  - intro N. rewrite (MN N) in *. split.
    + intros pa q A G. rewrite A in P. destruct P as (q' & P & ->). rewrite (given_option _ _ G) in P. now injection P as <-.
    + intro A. rewrite A in P. now subst p.
Qed.
Print Assumptions C38_file.

(** Encrypting a document for Alice with an option of one's own, under the example configuration. *)
Definition ex_line : encrypt_line :=
  {| el_keys := {| ks_age := [toy_public ex_alice]; ks_kms := [] |}; el_partial := {| pa_esuffix := None; pa_eregex := None; pa_usuffix := Some (lit "a"); pa_uregex := None |};
     el_only := false; el_input := {| in_config := None; in_format := None; in_file := Some ex_path |}; el_in_place := true |}.
Definition ex_args : encrypt_args :=
  {| ea_keys := el_keys ex_line; ea_partial := Some (el_partial ex_line); ea_only := Some false; ea_input := el_input ex_line; ea_in_place := Some true |}.
Definition doc_text : bytes := Eval vm_compute in get [] (map_text ex_codec Yaml small_doc).
Definition ex_encrypted : bytes := Eval vm_compute in fst (get ([], 0) (encrypt_text ex_re ex_tape toy_age ex_codec ex_here Yaml (merge_encrypt ex_re ex_rules ex_args) doc_text 0)).
Example C38_witness : parse_encrypt ex_line = Some (Encrypt ex_args) /\ first_matching ex_re ex_rules (path_to_match (Some ex_path)) (nth 1 ex_rules (hd {| cr_path := []; cr_only := None; cr_partial := None; cr_keys := {| ks_age := []; ks_kms := [] |} |} ex_rules))
  /\ option_given (el_partial ex_line) (UnencryptedSuffix (lit "a"))
  /\ encrypt_text ex_re ex_tape toy_age ex_codec ex_here Yaml (merge_encrypt ex_re ex_rules ex_args) doc_text 0 = Ok (ex_encrypted, 8).
Proof.
  split; [reflexivity|]. split.
  - exists [nth 0 ex_rules (hd {| cr_path := []; cr_only := None; cr_partial := None; cr_keys := {| ks_age := []; ks_kms := [] |} |} ex_rules)], (skipn 2 ex_rules). split; [reflexivity|]. split; [reflexivity|]. intros r' [<-|[]]. reflexivity.
  - split; [constructor|]. by_vm.
Qed.

(** * C39 *)

(** Full statement: a rule that sets mac_only_encrypted takes effect when the command line does not mention the flag.  It is false of
    the code for every command line: clap gives the absent flag the value false, which wins (args/encrypt.rs:14-15, 43-46). *)
Theorem C39_refuted : forall re tp ag cd E f rules l a s n t n', parse_encrypt l = Some (Encrypt a) -> el_only l = false ->
  encrypt_text re tp ag cd E f (merge_encrypt re rules a) s n = Ok (t, n') -> exists ef, file_text cd f ef = Ok t /\ md_only (fl_meta ef) = None.
Proof.
  intros re tp ag cd E f rules l a s n t n' PA EO H. apply encrypt_text_ok in H. destruct H as (m & p & ef & _ & T & _ & _ & _ & MO). exists ef. split; auto. rewrite MO.
  unfold parse_encrypt in PA. cbv zeta in PA. match type of PA with (if ?x then _ else _) = _ => destruct x end; [discriminate|]. injection PA as <-. rewrite EO. unfold merge_encrypt. now destruct matching_rule.
Qed.
Print Assumptions C39_refuted.
Example C39_refuted_witness : parse_encrypt ex_line = Some (Encrypt ex_args) /\ el_only ex_line = false
  /\ encrypt_text ex_re ex_tape toy_age ex_codec ex_here Yaml (merge_encrypt ex_re ex_rules ex_args) doc_text 0 = Ok (ex_encrypted, 8) /\ cr_only (nth 1 ex_rules (hd (nth 0 ex_rules (hd {| cr_path := []; cr_only := None; cr_partial := None; cr_keys := {| ks_age := []; ks_kms := [] |} |} ex_rules)) ex_rules)) = Some true.
Proof. split; [reflexivity|]. split; [reflexivity|]. split; [by_vm|]. reflexivity. Qed.

(** What is true: the flag takes effect, and the rule would if the argument were absent instead of false. *)
Theorem C39_partial : forall re tp ag cd E f rules a s n t n', encrypt_text re tp ag cd E f (merge_encrypt re rules a) s n = Ok (t, n') ->
  exists ef, file_text cd f ef = Ok t
  /\ (ea_only a = Some true -> md_only (fl_meta ef) = Some true)
  /\ (forall r, ea_only a = None -> first_matching re rules (path_to_match (in_file (ea_input a))) r -> (md_only (fl_meta ef) = Some true <-> cr_only r = Some true)).
Proof.
  intros re tp ag cd E f rules a s n t n' H. apply encrypt_text_ok in H. destruct H as (m & p & ef & _ & T & _ & _ & _ & MO). exists ef. split; auto. split.
  - intro A. rewrite MO. unfold merge_encrypt. destruct matching_rule; cbn [ea_only]; now rewrite A.
  - intros r A R. apply first_unique in R. rewrite MO. unfold merge_encrypt. rewrite R. cbn [ea_only]. rewrite A. cbn [or_else]. destruct (cr_only r) as [[|]|]; cbn [is_set]; split; congruence.
Qed.
Print Assumptions C39_partial.
Definition ex_args_none : encrypt_args :=
  {| ea_keys := el_keys ex_line; ea_partial := Some (el_partial ex_line); ea_only := None; ea_input := el_input ex_line; ea_in_place := Some true |}.
Definition ex_encrypted_only : bytes := Eval vm_compute in fst (get ([], 0) (encrypt_text ex_re ex_tape toy_age ex_codec ex_here Yaml (merge_encrypt ex_re ex_rules ex_args_none) doc_text 0)).
Example C39_witness : encrypt_text ex_re ex_tape toy_age ex_codec ex_here Yaml (merge_encrypt ex_re ex_rules ex_args_none) doc_text 0 = Ok (ex_encrypted_only, 8).
Proof. by_vm. Qed.

(** * C41 *)

(** The configuration comes from the one source the order prescribes; a source that is there but can not be read or parsed is an error. *)
Theorem C41_lookup : forall re ag cd O arg s,
  (forall s' rules, retrieve re ag cd O arg s = (s', Ok rules) -> configured re ag cd O (sy_file s) arg rules)
  /\ (forall rules, no_failures O -> configured re ag cd O (sy_file s) arg rules -> snd (retrieve re ag cd O arg s) = Ok rules)
  /\ (forall p, no_failures O -> config_source O (sy_file s) arg (Some p) -> (forall t, sy_file s p = Content t -> utf8_text t -> forall rules, read_config re ag cd t <> Ok rules) ->
        forall rules, snd (retrieve re ag cd O arg s) <> Ok rules).
Proof.
  intros re ag cd O arg s. split; [|split].
  - intros s' rules H. apply retrieve_ok in H. tauto.
  - intros rules NF (src & S & R). rewrite (retrieve_out O re ag cd arg s src NF S). destruct src as [p|]; [|now subst]. destruct R as (t & F & V & R). cbn [source_outcome]. now rewrite F, V.
  - intros p NF S N rules. rewrite (retrieve_out O re ag cd arg s _ NF S). cbn [source_outcome]. destruct (sy_file s p) as [| |t] eqn:F; try discriminate. destruct (utf8_valid t) eqn:V; [|discriminate]. apply utf8_valid_iff in V. apply (N t); auto.
Qed.
Print Assumptions C41_lookup.
(** There is only one such source. *)
Lemma suffix_same : forall (a b d e : list bytes), a ++ d = b ++ e -> length d = length e -> d = e.
Proof.
  induction a as [|x a IH]; intros b d e E L.
  - destruct b as [|y b]; cbn [app] in E; auto. apply (f_equal (@length _)) in E. cbn [length] in E. rewrite app_length in E. lia.
  - destruct b as [|y b]; cbn [app] in E; [|injection E as _ E; eauto]. apply (f_equal (@length _)) in E. cbn [length] in E. rewrite app_length in E. lia.
Qed.
Theorem C41_unique : forall O fs arg src src', config_source O fs arg src -> config_source O fs arg src' -> src = src'.
Proof.
  assert (X : forall O fs cwd a d cwd' a' d', os_cwd O = Some cwd -> os_cwd O = Some cwd' -> cwd = a ++ d -> cwd' = a' ++ d' -> fs (config_in d) <> Absent -> fs (config_in d') <> Absent ->
    (forall b e, cwd = b ++ e -> length d < length e -> fs (config_in e) = Absent) -> (forall b e, cwd' = b ++ e -> length d' < length e -> fs (config_in e) = Absent) -> d = d').
  { intros O fs cwd a d cwd' a' d' C C' E E' N N' AB AB'. rewrite C in C'. injection C' as <-. destruct (Nat.lt_trichotomy (length d) (length d')) as [L|[L|L]].
    - destruct N'. eapply AB; eauto.
    - eapply suffix_same; [|exact L]. rewrite <- E. exact E'.
    - destruct N. eapply AB'; eauto. }
  intros O fs arg src src' H H'. destruct H as [p A|p A V|cwd a d A V C E N AB|cwd A V C AB]; destruct H' as [p' A'|p' A' V'|cwd' a' d' A' V' C' E' N' AB'|cwd' A' V' C' AB']; try congruence.
  - do 2 f_equal. eapply X with (cwd := cwd) (cwd' := cwd'); eauto.
  - exfalso. apply N. assert (cwd' = cwd) by congruence. subst cwd'. eapply AB'; eauto.
  - exfalso. apply N'. assert (cwd' = cwd) by congruence. subst cwd'. eapply AB; eauto.
Qed.
Print Assumptions C41_unique.

Example C41_witness : config_source (ex_os []) ex_files None (Some (lit "/home/.rops.toml")) /\ configured ex_re toy_age ex_codec (ex_os []) ex_files None ex_rules
  /\ config_source (ex_os []) ex_files (Some (lit "mine.toml")) (Some (lit "mine.toml")) /\ config_source (ex_os []) (fun _ => Absent) None None.
Proof.
  assert (S : config_source (ex_os []) ex_files None (Some (lit "/home/.rops.toml"))).
  { change (lit "/home/.rops.toml") with (config_in [lit "home"]). eapply src_nearest with (a := [lit "work"; lit "u"]); try reflexivity; [discriminate|]. intros b e E L. cbn in L.
    destruct b as [|x [|y [|z b]]]; cbn [app] in E; subst.
    - reflexivity.
    - injection E as _ <-. reflexivity.
    - injection E as _ _ <-. cbn in L. lia.
    - apply (f_equal (@length _)) in E. cbn in E. rewrite app_length in E. lia. }
  split; auto. split; [|split].
  - exists (Some (lit "/home/.rops.toml")). split; auto. exists ex_config_text. split; [reflexivity|]. split; [reflexivity|]. exact ex_config_read.
  - now constructor.
  - eapply src_default; reflexivity.
Qed.

(** * C49 *)

(** A file changes, or a text is printed, only after the editor left a document that parses, and what is written is computed from the
    last one. *)
Theorem C49_written : forall re tp ag cd O a s s' o, run_command re tp ag cd O (Edit a) s = (s', o) ->
  ((exists q, q <> os_temp O /\ sy_file s' q <> sy_file s q) \/ sy_out s' <> sy_out s) ->
  exists f x ef df sv t0 m t n', only_source O (sy_file s) (in_file a) x /\ read_efile (re_valid re) ag cd f x = Ok ef /\ file_decrypt_save re ag (os_env O) f f ef = Ok (df, sv)
    /\ map_text cd f (fl_map df) = Ok t0 /\ session cd O f t0 m /\ edited_text re tp cd (os_env O) f df sv m (sy_draws s) = Ok (t, n')
    /\ (forall q, q <> os_temp O -> sy_file s' q = sy_file s q \/ (output_file O (Edit a) = Some q /\ exists k, sy_file s' q = Content (firstn k t)))
    /\ (exists k, sy_out s' = sy_out s ++ firstn k (t ++ [x0a])).
Proof.
  intros re tp ag cd O a s s' o H CH. apply run_trace in H. destruct H as (l1 & F & [(_ & FS & OU & CA)|(t & l2 & C & D & _ & FS & OU)]).
  - exfalso. destruct CH as [(q & NQ & X)|X]; [|auto]. apply X. rewrite FS. eapply temp_only_keeps; eauto.
  - destruct C as (rules & f & x & _ & S & _ & _ & ef & df & sv & t0 & m & n' & R & DS & MT & SE & ET). exists f, x, ef, df, sv, t0, m, t, n'.
    split; auto. split; auto. split; auto. split; auto. split; auto. split; auto.
    assert (K : forall q, q <> os_temp O -> replay l1 (sy_file s) q = sy_file s q) by (intros; eapply temp_only_keeps; eauto).
    remember (output_file O (Edit a)) as out eqn:EO. clear EO. rewrite FS, OU, replay_app.
    inversion D as [E1 E2 E3|u SF E1 E2 E3|p SF E1 E2 E3|p k SF E1 E2 E3|p E1 E2 E3]; subst; cbn [printed flat_map replay fold_left].
    + cbn [apply_op]. split; [intros q NQ; left; auto|]. exists (length (t ++ [x0a])). now rewrite firstn_all, app_nil_r.
    + cbn [apply_op]. split; [intros q NQ; left; auto|]. rewrite app_nil_r. eauto.
    + split; [intros q NQ; left; auto|]. exists 0. reflexivity.
    + split; [|exists 0; reflexivity]. intros q NQ. destruct (list_eq_dec Byte.byte_eq_dec q p) as [->|N]; [right; split; auto; exists k; apply (written_here p (firstn k t))|left; etransitivity; [apply (written_other p); exact N|auto]].
    + split; [|exists 0; reflexivity]. intros q NQ. destruct (list_eq_dec Byte.byte_eq_dec q p) as [->|N]; [right; split; auto; exists (length t); rewrite firstn_all; apply (written_here p t)|left; etransitivity; [apply (written_other p); exact N|auto]].
Qed.
Print Assumptions C49_written.

(** If no attempt of the editor ends a session with a document, nothing changes. *)
Theorem C49_abandoned : forall re tp ag cd O a s s' o, run_command re tp ag cd O (Edit a) s = (s', o) -> (forall f t0 m, ~ session cd O f t0 m) ->
  sy_out s' = sy_out s /\ forall q, q <> os_temp O -> sy_file s' q = sy_file s q.
Proof.
  intros re tp ag cd O a s s' o H N. apply run_trace in H. destruct H as (l1 & F & [(_ & FS & OU & CA)|(t & l2 & C & D & _ & FS & OU)]).
  - split; auto. intros q NQ. rewrite FS. eapply temp_only_keeps; eauto.
  - destruct C as (rules & f & x & _ & S & _ & _ & ef & df & sv & t0 & m & n' & R & DS & MT & SE & ET). destruct (N _ _ _ SE).
Qed.
Print Assumptions C49_abandoned.

(** After any number of attempts that do not parse, the first that does is the result, and an interrupt is a cancellation. *)
Theorem C49_last : forall cd O f t0 l e rest c t k s, no_failures O -> sy_file s (os_temp O) = Content t0 ->
  tried cd f l (Content t0) (e :: rest) c -> e c = Closed (Content t) k -> utf8_text t ->
  (forall m, read_map cd f t = Ok m -> snd (edit_loop cd O f l s) = Ok (Some m))
  /\ (forall err, read_map cd f t = Err err -> k = KeyInterrupted -> snd (edit_loop cd O f l s) = Ok None).
Proof. intros cd O f t0 l e rest c t k s NF C T E U. eapply loop_does; eauto. now apply utf8_valid_iff. Qed.
Print Assumptions C49_last.

(** The editor leaves text that does not parse, then nothing that parses, then a changed document; or it gives up. *)
Definition ex_new_doc : fmap := [(FStr (lit "a"), FStr (lit "y")); (FStr (lit "b"), FNum (NInt 5))].
Definition ex_new_text : bytes := Eval vm_compute in get [] (map_text ex_codec Yaml ex_new_doc).
Definition ex_attempts : list (node -> edited) :=
  [fun _ => Closed (Content (lit "[")) KeyPressed; fun c => match c with Content t => Closed (Content (t ++ lit "[")) KeyPressed | _ => NoLaunch end; fun _ => Closed (Content ex_new_text) KeyPressed].
Definition ex_gives_up : list (node -> edited) := [fun _ => Closed (Content (lit "[")) KeyPressed; fun _ => Closed (Content []) KeyInterrupted].
Definition ex_edit : command := Edit {| in_config := None; in_format := None; in_file := Some ex_path |}.
Definition ex_edited : bytes := Eval vm_compute in file_after (ex_run ex_attempts ex_edit) ex_path.
Example C49_witness : (snd (ex_run ex_attempts ex_edit), file_after (ex_run ex_attempts ex_edit) ex_path) = (Ok tt, ex_edited) /\ ex_edited <> small_text
  /\ (snd (ex_run ex_gives_up ex_edit), file_after (ex_run ex_gives_up ex_edit) ex_path) = (Ok tt, small_text).
Proof. split; [by_vm|]. split; [vm_compute; discriminate|]. by_vm. Qed.

(** * C59 *)

(** Full statement: rops edit leaves no decrypted temporary file behind.  True whenever the program ends, whichever way. *)
Theorem C59_partial : forall re tp ag cd O c s s' o, removable O -> sy_file s (os_temp O) = Absent -> run_command re tp ag cd O c s = (s', o) -> sy_file s' (os_temp O) = Absent.
Proof.
  intros re tp ag cd O c s s' o RM TA H. rewrite run_split in H. unfold chain in H. destruct (compute O re tp ag cd c s) as [s1 r] eqn:C. pose proof (temp_gone _ _ _ _ _ _ _ _ _ RM TA C) as G.
  destruct r as [[t|]|e|]; try (injection H as <- _; exact G). apply compute_ok in C. apply deliver_trace in H. destruct H as (l & _ & FS & _ & D). rewrite FS.
  assert (N : output_file O c <> Some (os_temp O)).
  { intro E. destruct C as (rules & f & x & _ & S & _). assert (P : input_file c = Some (os_temp O)).
    { destruct c as [a|a|a|a|a|a]; cbn [output_file input_file] in *; auto; try (destruct (is_set _); [exact E|discriminate]). destruct (os_stdin O); [discriminate|exact E]. }
    destruct S as [(p & P' & _ & F)|(P' & _)]; congruence. }
  assert (PO : forall p l', output_file O c = Some p -> partly t p l' -> replay l' (sy_file s1) (os_temp O) = Absent) by (intros p l' E P; rewrite (partly_other t p) by (auto; congruence); exact G).
  inversion D as [E1 E2 E3|u SF E1 E2 E3|p SF E1 E2 E3|p k SF E1 E2 E3|p E1 E2 E3]; subst; auto; cbn [replay fold_left]; rewrite written_other; auto; congruence.
Qed.
Print Assumptions C59_partial.

(** False when the machine or the process stops during the session: the plaintext stays on disk. *)
Definition plain_text : bytes := Eval vm_compute in get [] (map_text ex_codec Yaml (fl_map small_df)).
Theorem C59_refuted : exists re tp ag cd O a s s' l fs, no_failures O /\ sy_file s (os_temp O) = Absent
  /\ run_command re tp ag cd O (Edit a) s = (s', Ok tt) /\ sy_ops s' = sy_ops s ++ l /\ stopped l (sy_file s) fs /\ fs (os_temp O) = Content plain_text
  /\ read_map cd Yaml plain_text = Ok small_doc.
Proof.
  exists ex_re, ex_tape, toy_age, ex_codec, (ex_os ex_gives_up), {| in_config := None; in_format := None; in_file := Some ex_path |}, ex_start.
  destruct (ex_run ex_gives_up ex_edit) as [s' o] eqn:R. assert (G : (snd (ex_run ex_gives_up ex_edit), sy_ops (fst (ex_run ex_gives_up ex_edit)))
    = (Ok tt, [Looked (lit "/home/.rops.toml"); Looked ex_path; MadeTemp ex_temp; Opened ex_temp; Wrote ex_temp plain_text; Edited ex_temp (Content (lit "[")); Looked ex_temp; Edited ex_temp (Content []); Looked ex_temp; Removed ex_temp])) by by_vm.
  rewrite R in G. cbn [fst snd] in G. injection G as -> G. exists s'. eexists. eexists. split; [intros ? ?; reflexivity|]. split; [reflexivity|]. split; [exact R|]. split; [exact G|]. split.
  - apply stop_between with (a := [Looked (lit "/home/.rops.toml"); Looked ex_path; MadeTemp ex_temp; Opened ex_temp; Wrote ex_temp plain_text]) (b := [Edited ex_temp (Content (lit "[")); Looked ex_temp; Edited ex_temp (Content []); Looked ex_temp; Removed ex_temp]). reflexivity.
  - split; by_vm.
Qed.
Print Assumptions C59_refuted.

(** * C60 *)

(** Full statement: a command that fails reports an error.  It is false of the code: an EDITOR without a word, say a blank one,
    aborts the program (cli/edit.rs:70-76),
    and so does standard output that can not be written to. *)
Theorem C60_editor_refuted : forall O v, os_editor_var O = Some v -> utf8_text v -> shell_words v [] -> select_editor O = Panic.
Proof.
  intros O v E U B. apply select_aborts. left. eauto.
Qed.
Print Assumptions C60_editor_refuted.
Theorem C60_output_refuted : forall O t s k, os_io O (sy_ops s) (Printed (t ++ [x0a])) = Some k -> snd (println O t s) = Panic.
Proof. intros O t s k H. unfold println, perform. now rewrite H. Qed.
Print Assumptions C60_output_refuted.
Definition ex_blank_os : os :=
  {| os_stdin := None; os_cwd := Some []; os_config_var := None; os_editor_var := Some (lit " "); os_which := fun _ => None; os_editor := fun _ => ex_attempts; os_temp := ex_temp;
     os_io := fun _ _ => None; os_env := ex_here |}.
Example C60_witness : snd (run_command ex_re ex_tape toy_age ex_codec ex_blank_os ex_edit ex_start) = Panic.
Proof. by_vm. Qed.
