(** The command line: C73 and C74. *)
From Verif.Model Require Import Args.
From Verif.Spec Require Import SpecArgs.
From Verif.Proofs Require Import BytesFacts Utf8Facts CliRun ArgsFacts.
From Verif.Props Require Import PMap PFormat ExWorld ExCodec PDocument PCli PAbort.
Open Scope byte_scope.
Local Open Scope nat_scope.

(** * C73 *)

(** A line runs a command exactly if it says so: its words spell options and values that mean the command. *)
Theorem C73_grammar : forall re ag ts c, parse_line re ag ts = Run c <-> line_says re ag ts c.
Proof. intros re ag ts c. apply parse_iff. Qed.
Print Assumptions C73_grammar.

(** Only what was given for each option counts, not the spelling and not the order among different options. *)
Theorem C73_order : forall re ag ws v ts ts' is is' c, names ws v -> spells v ts is -> spells v ts' is' ->
  (forall a, values a is = values a is') -> (forall a, times a is = times a is') -> files is = files is' ->
  parse_line re ag (ws ++ ts) = Run c -> parse_line re ag (ws ++ ts') = Run c.
Proof.
  intros re ag ws v ts ts' is is' c N S S' V T F H. apply parse_iff in H. destruct H as (ws1 & v1 & ts1 & is1 & E & N1 & S1 & M).
  assert (X : verb_of (ws ++ ts) = Some (v, ts)) by (apply verb_names; eauto). assert (X1 : verb_of (ws ++ ts) = Some (v1, ts1)) by (apply verb_names; eauto). rewrite X in X1. injection X1 as <- <-.
  apply split_line_iff in S1. pose proof S as S2. apply split_line_iff in S2. rewrite S1 in S2. injection S2 as ->. apply parse_iff. exists ws, v, ts', is'. split; auto. split; auto. split; auto.
  destruct M as [M0 M]. split; [now rewrite <- T|]. unfold says_input, says_keys, says_rule, says_flag, switch in *. destruct v, c; rewrite <- ?V, <- ?T, <- ?F; auto.
Qed.
Print Assumptions C73_order.

(** Every command whose parts can be written can be given. *)
Theorem C73_every : forall re ag c, accepted c -> writable re ag c -> exists ts, parse_line re ag ts = Run c.
Proof.
  assert (PL : forall re ag v ws k i b, names ws v -> (v = VDecrypt /\ k = Decrypt) \/ (v = VRefresh /\ k = Refresh) -> parse_place k i b = Some (k {| pl_input := i; pl_in_place := Some b |}) -> writable_input i -> (b = true -> in_file i <> None) ->
            exists ts, parse_line re ag ts = Run (k {| pl_input := i; pl_in_place := Some b |})).
  { intros re ag v ws k [ic fm fl] b N V _ [C F] NF. cbn [in_config in_file] in *. destruct (maybe_text _ _ C) as (cf & Cf). destruct (maybe_text _ _ F) as (ff & Ff). destruct (format_texts fm) as (mf & Mf).
    apply (line_written re ag v ws _ [] [] None None None None cf mf false b ff N).
    - apply items_of; auto; destruct V as [[-> _]|[-> _]]; discriminate.
    - split; [now items; destruct b|].
      assert (G : says_input (line_items [] [] None None None None cf mf false b ff) {| in_config := ic; in_format := fm; in_file := fl |} /\ says_flag AInPlace (line_items [] [] None None None None cf mf false b ff) (fl <> None) (Some b)).
      { split; [|exists b; split; auto; split; auto; unfold switch; now items; destruct b]. split; [|split]; cbn [in_config in_format in_file]; items; auto. }
      destruct V as [[-> ->]|[-> ->]]; exact G. }
  assert (KY : forall re ag v ws k a, names ws v -> (v = VAdd /\ k = AddKeys) \/ (v = VRemove /\ k = RemoveKeys) -> writable_keys ag (ka_keys a) -> can_write file_value (ka_file a) -> exists ts, parse_line re ag ts = Run (k a)).
  { intros re ag v ws k [ks fm fl] N V [A K] (f & F). cbn [ka_keys ka_format ka_file] in *. destruct (many_texts _ _ A) as (sa & SA). destruct (many_texts _ _ K) as (sk & SK). destruct (format_texts fm) as (mf & Mf).
    apply (line_written re ag v ws _ sa sk None None None None None mf false false (Some f) N).
    - apply items_of; auto; destruct V as [[-> _]|[-> _]]; discriminate.
    - split; [now items|]. assert (G : says_keys ag (line_items sa sk None None None None None mf false false (Some f)) ks /\ once names_format (values AFormat (line_items sa sk None None None None None mf false false (Some f))) fm /\ once file_value (files (line_items sa sk None None None None None mf false false (Some f))) (Some fl)).
      { split; [split; items; auto|]. split; items; auto. exists f. auto. }
      destruct V as [[-> ->]|[-> ->]]; exact G. }
  intros re ag c AC W. destruct AC as [l c P|i b c P|i b c P|a|a|a].
  - unfold parse_encrypt in P. cbv zeta in P. destruct (_ || _ || _) eqn:B in P; [discriminate|]. injection P as <-. apply orb_false_iff in B. destruct B as [B B3]. apply orb_false_iff in B. destruct B as [B1 B2]. apply Nat.ltb_ge in B1.
    destruct l as [ks p on [ic fm fl] ip]. cbn [el_keys el_partial el_only el_input el_in_place writable ea_keys ea_partial ea_input in_config in_file] in *. destruct W as ([C F] & [A K] & R). cbn [in_config in_file] in *.
    destruct (maybe_text _ _ C) as (cf & Cf). destruct (maybe_text _ _ F) as (ff & Ff). destruct (format_texts fm) as (mf & Mf). destruct (many_texts _ _ A) as (sa & SA). destruct (many_texts _ _ K) as (sk & SK).
    assert (G : exists es er us ur, once text_value (match es with Some s => [s] | None => [] end) (pa_esuffix p) /\ once (pattern_value re) (match er with Some s => [s] | None => [] end) (pa_eregex p)
        /\ once text_value (match us with Some s => [s] | None => [] end) (pa_usuffix p) /\ once (pattern_value re) (match ur with Some s => [s] | None => [] end) (pa_uregex p)).
    { destruct (options_given p =? 0) eqn:Z.
      - apply Nat.eqb_eq in Z. apply options_given_none in Z. subst p. exists None, None, None, None. repeat split.
      - destruct R as (R1 & R2 & R3 & R4). destruct (maybe_text _ _ R1) as (es & E1). destruct (maybe_text _ _ R2) as (er & E2). destruct (maybe_text _ _ R3) as (us & E3). destruct (maybe_text _ _ R4) as (ur & E4). exists es, er, us, ur. auto. }
    destruct G as (es & er & us & ur & G1 & G2 & G3 & G4).
    eapply (line_written re ag VEncrypt [lit "encrypt"] _ sa sk es er us ur cf mf on ip ff); [apply na_encrypt; now left| |].
    + apply items_of; discriminate.
    + split; [items; now destruct on, ip|]. cbn [ea_input ea_keys ea_partial ea_only ea_in_place in_file]. split; [split; [|split]; cbn [in_config in_format in_file]; items; auto|]. split; [split; items; auto|]. split; [|split].
      * destruct (options_given p =? 0) eqn:Z.
        -- apply Nat.eqb_eq in Z. apply options_given_none in Z. subst p. cbn in G1, G2, G3, G4. cbn. items. auto.
        -- apply Nat.eqb_neq in Z. cbn. items. split; auto. split; auto. split; auto. split; auto. apply options_given_one. lia.
      * exists on. split; auto. split; [unfold switch; items; now destruct on, ip|]. intros ->. cbn [andb] in B2. rewrite B2. discriminate.
      * exists ip. split; auto. split; [unfold switch; items; now destruct on, ip|]. intros ->. cbn [andb] in B3. apply Nat.eqb_neq in B3. intro N. apply B3. now apply given_one.
  - pose proof P as P'. unfold parse_place in P'. destruct (b && _) eqn:B; [discriminate|]. injection P' as <-. apply (PL re ag VDecrypt [lit "decrypt"] Decrypt i b); auto; [apply na_decrypt; now left|]. intros ->. cbn [andb] in B. apply Nat.eqb_neq in B. intro N. apply B. now apply given_one.
  - pose proof P as P'. unfold parse_place in P'. destruct (b && _) eqn:B; [discriminate|]. injection P' as <-. apply (PL re ag VRefresh [lit "refresh"] Refresh i b); auto; [apply na_refresh|]. intros ->. cbn [andb] in B. apply Nat.eqb_neq in B. intro N. apply B. now apply given_one.
  - destruct a as [ic fm fl], W as [C F]. cbn [in_config in_file] in *. destruct (maybe_text _ _ C) as (cf & Cf). destruct (maybe_text _ _ F) as (ff & Ff). destruct (format_texts fm) as (mf & Mf).
    apply (line_written re ag VEdit [lit "edit"] _ [] [] None None None None cf mf false false ff na_edit); [apply items_of; auto; discriminate|]. split; [now items|]. split; [|split]; cbn [in_config in_format in_file]; items; auto.
  - destruct W as [A F]. apply (KY re ag VAdd [lit "keys"; lit "add"] AddKeys a); auto. apply na_add. now left.
  - destruct W as [A F]. apply (KY re ag VRemove [lit "keys"; lit "remove"] RemoveKeys a); auto. apply na_remove. now left.
Qed.
Print Assumptions C73_every.

(** Reading the line aborts only at a KMS key whose reading aborts (C44). *)
Theorem C73_crash : forall re ag ts, parse_line re ag ts = Crash ->
  exists ws v ts' is s, ts = ws ++ ts' /\ names ws v /\ spells v ts' is /\ In s (values AKms is) /\ utf8_text s /\ parse_aws_key s = Panic.
Proof.
  intros re ag ts H. unfold parse_line in H. destruct (verb_of ts) as [[v ts']|] eqn:V; [|discriminate]. apply verb_names in V. destruct V as (ws & -> & N). destruct (split_line v ts') as [is|] eqn:L; [|discriminate].
  destruct (react_all re ag is no_fields) as [g| |] eqn:R; [destruct (command_of v g); discriminate|discriminate|]. apply react_crash in R. destruct R as (s & I & U & P).
  exists ws, v, ts', is, s. split; auto. split; auto. split; [now apply split_line_iff|]. split; auto. apply in_flat_map. exists (Option_ AKms s). split; auto. destruct (arg_dec AKms AKms); [now left|congruence].
Qed.
Print Assumptions C73_crash.

Lemma letters_files : forall v t is o f, letters v t is o -> ~ In (File f) is.
Proof. intros v t is o f L. induction L; cbn [In]; try tauto; intros [E|E]; try discriminate; tauto. Qed.
Lemma file_given : forall v ts is f, spells v ts is -> In f (files is) -> In f ts.
Proof.
  intros v ts is f S I. apply in_flat_map in I. destruct I as (i & I & E). destruct i as [a x|a|x]; try contradiction. destruct E as [->|[]].
  induction S as [|ts|t ts is P S IH|a x ts is A P S IH|a x ts is A S IH|a ts is A S IH|l is' ts is N L S IH|l a is' x ts is L P S IH]; cbn [In] in *; try tauto.
  - right. apply in_map_iff in I. destruct I as (y & E & I). now injection E as <-.
  - destruct I as [E|I]; [injection E as <-; auto|auto].
  - destruct I as [E|I]; [discriminate|auto].
  - destruct I as [E|I]; [discriminate|auto].
  - destruct I as [E|I]; [discriminate|auto].
  - apply in_app_iff in I. destruct I as [I|I]; [now apply (letters_files _ _ _ _ _ L) in I|auto].
  - apply in_app_iff in I. destruct I as [I|[E|I]]; [now apply (letters_files _ _ _ _ _ L) in I|discriminate|auto].
Qed.
Lemma once_in : forall vs o (q : bytes), once file_value vs o -> o = Some q -> In q vs.
Proof. intros vs o q H ->. destruct H as (s & -> & _ & ->). now left. Qed.

(** Whatever the line: a file other than the editor's temporary file, found changed at any moment, was one of its words. *)
Theorem C73_changes : forall re tp ag cd O ts c s s' o l fs q, parse_line re ag ts = Run c -> run_command re tp ag cd O c s = (s', o) ->
  sy_ops s' = sy_ops s ++ l -> stopped l (sy_file s) fs -> q <> os_temp O -> fs q <> sy_file s q -> In q ts.
Proof.
  intros re tp ag cd O ts c s s' o l fs q P H L S N D. destruct (C37_partial re tp ag cd O c s s' o l fs H L S q N) as [E|[OF _]]; [contradiction|]. clear H L S D.
  apply parse_iff in P. destruct P as (ws & v & ts' & is & -> & NV & SP & _ & M). apply in_app_iff. right. apply (file_given v ts' is); auto. unfold output_file in OF. unfold says_input in M.
  destruct v, c; try contradiction.
  - destruct (is_set _); [|discriminate]. destruct M as ((_ & _ & M) & _). eapply once_in; eauto.
  - destruct (is_set _); [|discriminate]. destruct M as ((_ & _ & M) & _). eapply once_in; eauto.
  - destruct (os_stdin O); [discriminate|]. destruct M as (_ & _ & M). eapply once_in; eauto.
  - destruct M as (_ & _ & M). eapply once_in; eauto.
  - destruct M as (_ & _ & M). eapply once_in; eauto.
  - destruct (is_set _); [|discriminate]. destruct M as ((_ & _ & M) & _). eapply once_in; eauto.
Qed.
Print Assumptions C73_changes.

(** C60 for everything that can be typed. *)
Theorem C60_line_partial : forall re tp ag cd O ts c s s', age_law ag -> parser_law cd -> printer_law cd -> parse_line re ag ts = Run c ->
  run_command re tp ag cd O c s = (s', Panic) -> aborts re ag cd O c (sy_file s).
Proof. intros re tp ag cd O ts c s s' AL PL WL P H. eapply C60_causes_partial; eauto using parse_accepted. Qed.
Print Assumptions C60_line_partial.

(** Several spellings of one command; one whose KMS key aborts. *)
Definition line_a : list bytes := Eval vm_compute in [lit "encrypt"; lit "--age"; toy_public ex_alice; lit "--in-place"; lit "--format"; lit "yaml"; lit "--encrypted-suffix"; lit "_x"; lit "s.yaml"].
Definition line_b : list bytes := Eval vm_compute in [lit "e"; lit "-if=yaml"; lit "--encrypted-suffix=_x"; lit "--age=" ++ toy_public ex_alice; lit "--"; lit "s.yaml"].
Definition line_c : list bytes := Eval vm_compute in [lit "keys"; lit "add"; lit "--aws-kms"; lit "default.arn:aws:kms:eu-north-1:822284028627:key/"; lit "s.yaml"].
Definition line_command : command := Eval vm_compute in
  Encrypt {| ea_keys := {| ks_age := [toy_public ex_alice]; ks_kms := [] |}; ea_partial := Some {| pa_esuffix := Some (lit "_x"); pa_eregex := None; pa_usuffix := None; pa_uregex := None |};
             ea_only := Some false; ea_input := {| in_config := None; in_format := Some Yaml; in_file := Some (lit "s.yaml") |}; ea_in_place := Some true |}.
Example C73_witness : line_a <> line_b /\ parse_line ex_re toy_age line_a = Run line_command /\ parse_line ex_re toy_age line_b = Run line_command
  /\ accepted line_command /\ writable ex_re toy_age line_command /\ parse_line ex_re toy_age line_c = Crash.
Proof.
  split; [discriminate|]. assert (A : parse_line ex_re toy_age line_a = Run line_command) by by_vm. split; [exact A|]. split; [by_vm|]. split; [eapply parse_accepted, A|]. split; [|by_vm].
  assert (U : utf8_text (lit "age1alice") /\ utf8_text (lit "_x")) by (split; apply utf8_lit; reflexivity). split; [split; cbn; auto|split; [split|]]; cbn.
  - exists (lit "s.yaml"). now split.
  - constructor; [|constructor]. exists (lit "age1alice"). split; [apply U|reflexivity].
  - constructor.
  - split; [|auto]. exists (lit "_x"). split; [apply U|reflexivity].
Qed.
Example C73_order_witness : exists is is', spells VEncrypt (skipn 1 line_a) is /\ spells VEncrypt (skipn 1 line_b) is'
  /\ (forall a, values a is = values a is') /\ (forall a, times a is = times a is') /\ files is = files is' /\ is <> is'.
Proof.
  destruct (split_line VEncrypt (skipn 1 line_a)) as [is|] eqn:A; [|vm_compute in A; discriminate]. destruct (split_line VEncrypt (skipn 1 line_b)) as [is'|] eqn:B; [|vm_compute in B; discriminate].
  exists is, is'. split; [now apply split_line_iff|]. split; [now apply split_line_iff|]. vm_compute in A, B. injection A as <-. injection B as <-. split; [intros []; reflexivity|]. split; [intros []; reflexivity|]. split; [reflexivity|discriminate].
Qed.
(** A line that changes the file it names. *)
Definition line_d : list bytes := Eval vm_compute in [lit "k"; lit "add"; ex_path; lit "--age"; ex_carol].
Example C73_changes_witness : parse_line ex_re toy_age line_d = Run ex_add /\ (snd (ex_run [] ex_add), file_after (ex_run [] ex_add) ex_path) = (Ok tt, added_text) /\ added_text <> small_text
  /\ ex_path <> ex_temp.
Proof. split; [by_vm|]. split; [apply C36_witness|]. split; [apply C36_witness|discriminate]. Qed.
(** A line whose command aborts: the extension of the file is not UTF-8. *)
Definition line_e : list bytes := Eval vm_compute in [lit "decrypt"; lit "/home/u/s.y" ++ [xff]].
Definition line_e_command : command := Eval vm_compute in match parse_line ex_re toy_age line_e with Run c => c | _ => ex_add end.
Example C60_line_witness : parse_line ex_re toy_age line_e = Run line_e_command /\ snd (ex_run [] line_e_command) = Panic.
Proof. split; by_vm. Qed.

(** * C74 *)

(** The keys of [--age] after one another, one option each. *)
Definition separately (ss : list bytes) : list bytes := flat_map (fun s => [lit "--age"; s]) ss.
(** The keys after one option, as the help says. *)
Definition as_list (ss : list bytes) : list bytes := match ss with [] => [] | _ => lit "--age" :: ss end.
Definition encrypting (rs : list bytes) (f : option bytes) : command :=
  Encrypt {| ea_keys := {| ks_age := rs; ks_kms := [] |}; ea_partial := None; ea_only := Some false; ea_input := {| in_config := None; in_format := None; in_file := f |}; ea_in_place := Some false |}.

Lemma separately_spelled : forall ss, Forall plain_value ss -> spells VEncrypt (separately ss) (map (Option_ AAge) ss).
Proof. intros ss P. induction P as [|s ss P Ps IH]; [constructor|]. apply (sp_long VEncrypt AAge s); auto. now left. Qed.
Lemma separately_values : forall ss a, values a (map (Option_ AAge) ss) = if arg_dec a AAge then ss else [].
Proof. induction ss as [|s ss IH]; intros a; [now destruct (arg_dec a AAge)|]. unfold values in *. cbn [map flat_map]. rewrite IH. now destruct (arg_dec a AAge). Qed.
Lemma separately_rest : forall ss a, times a (map (Option_ AAge) ss) = 0 /\ files (map (Option_ AAge) ss) = [].
Proof. induction ss as [|s ss IH]; intros a; [now split|]. destruct (IH a) as [T F]. now split. Qed.

(** Full statement: [forall ss rs, Forall plain_value ss -> Forall2 (age_value ag) ss rs -> parse_line re ag (lit "encrypt" :: as_list ss) = Run (encrypting rs None)].
    What holds: it does for keys given with one option each. *)
Theorem C74_partial : forall re ag ss rs, Forall plain_value ss -> Forall2 (age_value ag) ss rs ->
  parse_line re ag (lit "encrypt" :: separately ss) = Run (encrypting rs None).
Proof.
  intros re ag ss rs P F. apply parse_iff. exists [lit "encrypt"], VEncrypt, (separately ss), (map (Option_ AAge) ss). split; [reflexivity|]. split; [apply na_encrypt; now left|]. split; [now apply separately_spelled|].
  split; [apply separately_rest|]. unfold says_input, says_keys, says_rule, says_flag, switch. cbn [encrypting ea_input ea_keys ea_partial ea_only ea_in_place in_config in_format in_file ks_age ks_kms]. rewrite !separately_values, (proj2 (separately_rest ss AAge)). cbn.
  repeat split; auto; exists false; (split; [reflexivity|]); (split; [apply separately_rest|discriminate]).
Qed.
Print Assumptions C74_partial.

(** The second key of a list is taken for the file. *)
Theorem C74_second_refuted : forall re ag s1 s2 r, plain_value s1 -> plain_value s2 -> age_value ag s1 r -> s2 <> [] ->
  parse_line re ag (lit "encrypt" :: as_list [s1; s2]) = Run (encrypting [r] (Some s2)).
Proof.
  intros re ag s1 s2 r P1 P2 A N. apply parse_iff. exists [lit "encrypt"], VEncrypt, (as_list [s1; s2]), [Option_ AAge s1; File s2]. split; [reflexivity|]. split; [apply na_encrypt; now left|].
  split; [apply (sp_long VEncrypt AAge s1); auto; [now left|]; apply sp_file; auto; constructor|]. split; [reflexivity|].
  unfold says_input, says_keys, says_rule, says_flag, switch. cbn. repeat split; auto; try (exists false; repeat split; discriminate). exists s2. now repeat split.
Qed.
Print Assumptions C74_second_refuted.

(** A list of two keys before a file, or of three, is refused, whatever the keys. *)
Theorem C74_more_refuted : forall re ag s1 s2 s3 ss c, plain_value s1 -> plain_value s2 -> plain_value s3 -> Forall plain_value ss ->
  parse_line re ag (lit "encrypt" :: as_list (s1 :: s2 :: s3 :: ss)) <> Run c.
Proof.
  intros re ag s1 s2 s3 ss c P1 P2 P3 PS H. apply parse_iff in H. destruct H as (ws & v & ts & is & E & N & S & M).
  assert (SP : spells VEncrypt (as_list (s1 :: s2 :: s3 :: ss)) (Option_ AAge s1 :: map File (s2 :: s3 :: ss))).
  { apply (sp_long VEncrypt AAge s1); auto; [now left|]. cbn [map]. apply sp_file; auto. apply sp_file; auto. clear -PS. induction PS; [constructor|]. cbn [map]. now apply sp_file. }
  assert (X : verb_of (lit "encrypt" :: as_list (s1 :: s2 :: s3 :: ss)) = Some (VEncrypt, as_list (s1 :: s2 :: s3 :: ss))) by reflexivity.
  assert (X1 : verb_of (lit "encrypt" :: as_list (s1 :: s2 :: s3 :: ss)) = Some (v, ts)) by (apply verb_names; eauto). rewrite X in X1. injection X1 as <- <-.
  apply split_line_iff in S. apply split_line_iff in SP. cbn [as_list] in SP. rewrite SP in S. injection S as <-. destruct M as [_ M]. destruct c; try contradiction. destruct M as ((_ & _ & M) & _). cbn [files flat_map map app] in M.
  destruct (in_file (ea_input a)); cbn in M; [destruct M as (s & M & _)|]; discriminate.
Qed.
Print Assumptions C74_more_refuted.

Example C74_witness : let ss := [toy_public ex_alice; toy_public ex_bob] in Forall plain_value ss /\ Forall2 (age_value toy_age) ss ss
  /\ parse_line ex_re toy_age (lit "encrypt" :: separately ss) = Run (encrypting ss None)
  /\ parse_line ex_re toy_age (lit "encrypt" :: as_list ss) = Run (encrypting [toy_public ex_alice] (Some (toy_public ex_bob)))
  /\ parse_line ex_re toy_age (lit "encrypt" :: as_list ss ++ [lit "s.yaml"]) = Stop.
Proof.
  assert (U : utf8_text (toy_public ex_alice) /\ utf8_text (toy_public ex_bob)) by (split; apply utf8_lit; reflexivity).
  cbv zeta. split; [repeat constructor; discriminate|]. split; [constructor; [|constructor; [|constructor]]; split; try apply U; reflexivity|]. split; [by_vm|]. split; by_vm.
Qed.
