(** Who can open the files that commands write: C68; and who can use a file: C72. *)
From Verif.Model Require Import Cli.
From Verif.Spec Require Import SpecAccess.
From Verif.Proofs Require Import BytesFacts ValueFacts IntegrationFacts CliRun Access.
From Verif.Props Require Import PMap PFormat ExWorld ExCodec PDocument PCli PCliDoc.
Open Scope byte_scope.
Local Open Scope nat_scope.

(** Full statement: whoever runs a command that writes an encrypted file can open the file afterwards, if they could before.  It is false of
    refresh ([C68_refresh_refuted]; what holds of it is [C68_named]).  Proved for keys add, keys remove and edit; of a KMS service that is
    asked to encrypt it must be known that it decrypts the answer. *)
Theorem C68_open_partial : forall re tp ag cd O c fs n t, computes re tp ag cd O c fs n t ->
  (exists a, c = AddKeys a /\ (ks_kms (ka_keys a) = [] \/ kms_again (os_env O))) \/ (exists a, c = RemoveKeys a) \/ (exists a, c = Edit a) ->
  exists f ef key, file_text cd f ef = Ok t /\ retrieve_data_key ag (os_env O) (md_recipients (fl_meta ef)) = Ok key /\ holds_key ag (os_env O) (md_recipients (fl_meta ef)).
Proof.
  intros re tp ag cd O c fs n t (rules & f & s & _ & _ & _ & C) [(a & -> & KA)|[(a & ->)|(a & ->)]].
  - destruct C as (_ & n' & C). apply add_opens in C; auto. destruct C as (ef' & key & T & K). exists f, ef', key. split; auto. split; auto. eapply retrieve_holds; eauto.
  - destruct C as (_ & n' & C). apply remove_access in C. destruct C as (ef & ef' & key & _ & T & _ & K). exists f, ef', key. split; auto. split; auto. eapply retrieve_holds; eauto.
  - destruct C as (_ & ef & df & sv & t0 & m & n' & R & D & _ & _ & C). eapply edit_access in C; eauto. destruct C as (ef' & key & T & _ & K). exists f, ef', key. split; auto. split; auto. eapply retrieve_holds; eauto.
Qed.
Print Assumptions C68_open_partial.

(** Encrypt, and a refresh that changes the file, make a file for exactly those named by the keys and the rule, who can all open it with one and the same data key. *)
Theorem C68_named : forall re tp ag cd W O c fs n t, age_law ag -> kms_law W -> W (os_env O) -> computes re tp ag cd O c fs n t -> (exists a, c = Encrypt a) \/ (exists a, c = Refresh a) ->
  ((exists a, c = Refresh a) /\ only_source O fs (input_file c) t)
  \/ exists rules f ef key age kms, configured re ag cd O fs (config_path c) rules /\ named_keys re rules c age kms /\ file_text cd f ef = Ok t
     /\ (forall r, In r (map u_key (rc_age (md_recipients (fl_meta ef)))) <-> In r age) /\ (forall k, In k (map u_key (rc_kms (md_recipients (fl_meta ef)))) <-> In k kms)
     /\ forall E', W E' -> can_open ag E' (md_recipients (fl_meta ef)) -> retrieve_data_key ag E' (md_recipients (fl_meta ef)) = Ok key.
Proof.
  intros re tp ag cd W O c fs n t AL KL WE (rules & f & s & CF & S & _ & C) [(a & ->)|(a & ->)].
  - right. destruct C as (_ & n' & C). apply encrypt_text_ok in C. destruct C as (m & p & ef & _ & T & _ & B & _). destruct (build_named _ _ _ _ W _ _ _ _ _ AL KL WE B) as (A & K & key & U). exists rules, f, ef, key. cbn [bd_age bd_kms] in *.
    destruct (C38_merge re rules a _ eq_refl) as [MR MN]. destruct (find_first re rules (path_to_match (in_file (ea_input a)))) as [(r & FM & _)|(N & _)].
    + destruct (MR r FM) as (KA & KK & _). rewrite KA in A. rewrite KK in K. eexists _, _. split; [exact CF|]. split; [constructor; exact FM|]. auto.
    + rewrite (MN N) in *. eexists _, _. split; [exact CF|]. split; [constructor; exact N|]. auto.
  - destruct C as (_ & n' & C). unfold refresh_text in C. apply bind_ok in C. destruct C as (ef & R & C). cbn [input_file config_path] in *. destruct (find_first re rules (path_to_match (in_file (pl_input a)))) as [(r & FM & Q)|(_ & Q)]; rewrite Q in C; [|injection C as <- _; eauto].
    destruct (implies_metadata r (fl_meta ef)); [injection C as <- _; eauto|]. apply bind_ok in C. destruct C as (df & _ & C). apply bind_ok in C. destruct C as ([ef' n1] & B & C). apply bind_ok in C. destruct C as (t' & T & C). injection C as <- _. right.
    destruct (build_named _ _ _ _ W _ _ _ _ _ AL KL WE B) as (A & K & key & U). exists rules, f, ef', key. eexists _, _. split; [exact CF|]. split; [constructor; exact FM|]. auto.
Qed.
Print Assumptions C68_named.

(** Every encrypted file a command makes has a recipient. *)
Theorem C68_recipients : forall re tp ag cd O c fs n t, computes re tp ag cd O c fs n t -> (forall a, c <> Decrypt a) ->
  (exists f ef, file_text cd f ef = Ok t /\ somebody (md_recipients (fl_meta ef))) \/ (exists a, c = Refresh a /\ only_source O fs (input_file c) t).
Proof.
  intros re tp ag cd O c fs n t H ND. pose proof H as (rules & f & s & _ & S & _ & C). destruct c as [a|a|a|a|a|a].
  - left. destruct C as (_ & n' & C). apply encrypt_text_ok in C. destruct C as (m & p & ef & _ & T & _ & B & _). exists f, ef. split; auto. eapply build_access; eauto.
  - now destruct (ND a).
  - left. destruct (C68_open_partial _ _ _ _ _ _ _ _ _ H) as (f' & ef & key & T & _ & K); eauto 6. exists f', ef. split; auto. eapply holds_somebody; eauto.
  - left. destruct C as (_ & n' & C). apply add_access in C. destruct C as (ef & T & B). eauto.
  - left. destruct (C68_open_partial _ _ _ _ _ _ _ _ _ H) as (f' & ef & key & T & _ & K); eauto 6. exists f', ef. split; auto. eapply holds_somebody; eauto.
  - destruct C as (_ & n' & C). apply refresh_access in C. destruct C as [->|(ef & T & B)]; eauto.
Qed.
Print Assumptions C68_recipients.

(** Removing recipients until nobody is left whose private key is at hand fails; in particular removing everybody.  The file stays. *)
Theorem C68_last : forall re tp ag cd O a s s' o f x ef, run_command re tp ag cd O (RemoveKeys a) s = (s', o) ->
  only_source O (sy_file s) (Some (ka_file a)) x -> get_format (Some (ka_file a)) (ka_format a) = Ok f -> read_efile (re_valid re) ag cd f x = Ok ef ->
  (forall rc', remaining (ka_keys a) (md_recipients (fl_meta ef)) rc' -> ~ holds_key ag (os_env O) rc') ->
  o <> Ok tt /\ (no_failures O -> forall q, q <> os_temp O -> sy_file s' q = sy_file s q).
Proof.
  intros re tp ag cd O a s s' o f x ef H S GF R N.
  assert (NO : o <> Ok tt).
  { intros ->. apply run_trace in H. destruct H as (l1 & _ & [(_ & _ & _ & CA)|(t & l2 & C & _)]).
    - destruct (CA eq_refl) as (? & ? & ? & ? & ? & ? & ? & ? & ? & ? & ? & ? & ? & ? & X & _). discriminate X.
    - destruct C as (rules & f' & x' & _ & S' & _ & GF' & n' & C). cbn [input_file] in S'. rewrite GF in GF'. injection GF' as <-.
      assert (x' = x) as ->. { destruct S as [(p & Ep & _ & X)|(Ep & _)]; [|discriminate Ep]. destruct S' as [(p' & Ep' & _ & X')|(Ep' & _)]; [|discriminate Ep']. congruence. }
      apply remove_access in C. destruct C as (ef0 & ef' & key & R' & _ & RM & K). rewrite R in R'. injection R' as <-. exact (N _ RM (retrieve_holds _ _ _ _ K)). }
  split; auto. intros NF q NQ. destruct (C36_untouched _ _ _ _ _ _ _ _ _ NF H NO) as [_ U]. auto.
Qed.
Print Assumptions C68_last.

(** ** Examples: Bob runs the commands, on the file for Alice, Bob and a KMS key. *)
Definition os_at_bob : os :=
  {| os_stdin := None; os_cwd := Some [lit "work"; lit "u"; lit "home"]; os_config_var := None; os_editor_var := Some (lit "vi -n");
     os_which := fun _ => None; os_editor := fun _ => []; os_temp := ex_temp; os_io := fun _ _ => None; os_env := ex_at_bob |}.
Definition pair_ef : efile := Eval vm_compute in build Yaml {| bd_map := small_doc; bd_partial := None; bd_only := None; bd_age := [toy_public ex_alice; toy_public ex_bob]; bd_kms := [] |} 0.
Definition pair_text : bytes := Eval vm_compute in get [] (file_text ex_codec Yaml pair_ef).
Definition pair_start (config : bytes) : sys := ex_with config pair_text 20.
Definition bob_runs (c : command) (s : sys) : sys * outcome unit := run_command ex_re ex_tape toy_age ex_codec os_at_bob c s.
Definition remove_cmd (who : bytes) : key_args := {| ka_keys := {| ks_age := [who]; ks_kms := [] |}; ka_format := None; ka_file := ex_path |}.

(** Bob removes Alice, and can still open the file. *)
Definition alone_text : bytes := Eval vm_compute in file_after (bob_runs (RemoveKeys (remove_cmd (toy_public ex_alice))) (pair_start ex_config_text)) ex_path.
Definition alone_ef : efile := Eval vm_compute in read_back ex_codec Yaml alone_text.
Example C68_open_witness : (snd (bob_runs (RemoveKeys (remove_cmd (toy_public ex_alice))) (pair_start ex_config_text)), file_after (bob_runs (RemoveKeys (remove_cmd (toy_public ex_alice))) (pair_start ex_config_text)) ex_path) = (Ok tt, alone_text)
  /\ read_efile (re_valid ex_re) toy_age ex_codec Yaml alone_text = Ok alone_ef /\ map u_key (rc_age (md_recipients (fl_meta alone_ef))) = [toy_public ex_bob]
  /\ retrieve_data_key toy_age ex_at_bob (md_recipients (fl_meta alone_ef)) = Ok (draw_key ex_tape 20).
Proof. split; [by_vm|]. split; [by_vm|]. split; by_vm. Qed.

(** Bob adds Carol, and can still open the file. *)
Definition add_cmd : key_args := {| ka_keys := {| ks_age := [ex_carol]; ks_kms := [] |}; ka_format := None; ka_file := ex_path |}.
Definition trio_text : bytes := Eval vm_compute in file_after (bob_runs (AddKeys add_cmd) (pair_start ex_config_text)) ex_path.
Definition trio_ef : efile := Eval vm_compute in read_back ex_codec Yaml trio_text.
Example C68_add_witness : (snd (bob_runs (AddKeys add_cmd) (pair_start ex_config_text)), file_after (bob_runs (AddKeys add_cmd) (pair_start ex_config_text)) ex_path) = (Ok tt, trio_text)
  /\ read_efile (re_valid ex_re) toy_age ex_codec Yaml trio_text = Ok trio_ef /\ map u_key (rc_age (md_recipients (fl_meta trio_ef))) = [toy_public ex_alice; toy_public ex_bob; ex_carol]
  /\ retrieve_data_key toy_age ex_at_bob (md_recipients (fl_meta trio_ef)) = Ok (draw_key ex_tape 0) /\ kms_again ex_at_kms.
Proof.
  split; [by_vm|]. split; [by_vm|]. split; [by_vm|]. split; [by_vm|]. intros n req key b H. cbn [ex_at_kms ex_env e_kms_encrypt e_kms_decrypt] in *. injection H as <-. unfold toy_kms_decrypt. now rewrite strip_prefix_app.
Qed.
(** Bob can not remove Bob. *)
Example C68_last_witness :
  only_source os_at_bob (sy_file (pair_start ex_config_text)) (Some ex_path) pair_text /\ read_efile (re_valid ex_re) toy_age ex_codec Yaml pair_text = Ok pair_ef
  /\ (forall rc', remaining (ka_keys (remove_cmd (toy_public ex_bob))) (md_recipients (fl_meta pair_ef)) rc' -> ~ holds_key toy_age ex_at_bob rc')
  /\ snd (bob_runs (RemoveKeys (remove_cmd (toy_public ex_bob))) (pair_start ex_config_text)) = Err EMissingDataKey.
Proof.
  split; [left; exists ex_path; split; [reflexivity|split; reflexivity]|]. split; [by_vm|]. split; [|by_vm].
  intros rc' [A K] [(ids & i & P & I & J)|(ks & c & u & P & I & J & _)].
  - assert (X : age_private_keys toy_age ex_at_bob = Ok [ex_bob]) by by_vm. unfold age_available in P. rewrite X in P. injection P as <-. destruct I as [<-|[]]. apply A in J. destruct J as [_ J]. apply J. left. reflexivity.
  - apply (in_map u_key) in J. apply K in J. destruct J as [[] _].
Qed.

(** Refreshing under a rule for Carol only: Bob, who runs it, is locked out. *)
Definition carol_config : fmap :=
  [(FStr (lit "creation_rules"), FSeq [FMap [(FStr (lit "path_regex"), FStr ex_path); (FStr (lit "integration_keys"), FMap [ex_key_list (lit "age") [ex_carol]])]])].
Definition carol_config_text : bytes := Eval vm_compute in toy_value (FMap carol_config).
Definition carol_text : bytes := Eval vm_compute in file_after (bob_runs (Refresh ex_refresh_args) (pair_start carol_config_text)) ex_path.
Definition carol_ef : efile := Eval vm_compute in read_back ex_codec Yaml carol_text.
Theorem C68_refresh_refuted : exists re tp ag cd O a p f s s' x ef key t ef', age_law ag /\ no_failures O /\ in_file (pl_input a) = Some p /\ sy_file s p = Content x
  /\ read_efile (re_valid re) ag cd f x = Ok ef /\ retrieve_data_key ag (os_env O) (md_recipients (fl_meta ef)) = Ok key
  /\ run_command re tp ag cd O (Refresh a) s = (s', Ok tt) /\ sy_file s' p = Content t
  /\ read_efile (re_valid re) ag cd f t = Ok ef' /\ retrieve_data_key ag (os_env O) (md_recipients (fl_meta ef')) = Err EMissingDataKey.
Proof.
  assert (X : (snd (bob_runs (Refresh ex_refresh_args) (pair_start carol_config_text)), sy_file (fst (bob_runs (Refresh ex_refresh_args) (pair_start carol_config_text))) ex_path) = (Ok tt, Content carol_text)) by by_vm.
  destruct (bob_runs (Refresh ex_refresh_args) (pair_start carol_config_text)) as [s' o] eqn:R. cbn [fst snd] in X. injection X as -> F.
  exists ex_re, ex_tape, toy_age, ex_codec, os_at_bob, ex_refresh_args, ex_path, Yaml, (pair_start carol_config_text), s', pair_text, pair_ef, (draw_key ex_tape 0), carol_text, carol_ef.
  split; [exact toy_age_law|]. split; [intros h y; reflexivity|]. split; [reflexivity|]. split; [reflexivity|]. split; [by_vm|]. split; [by_vm|]. split; [exact R|]. split; [exact F|]. split; by_vm.
Qed.
Print Assumptions C68_refresh_refuted.
(** Carol can open it. *)
Definition ex_at_carol : env := ex_env (VarText (lit "AGE-SECRET-carol")) VarUnset ex_later true.
Example C68_named_witness : age_law toy_age /\ kms_law toy_world /\ toy_world ex_at_bob /\ toy_world ex_at_carol /\ snd (bob_runs (Refresh ex_refresh_args) (pair_start carol_config_text)) = Ok tt
  /\ carol_text <> pair_text /\ can_open toy_age ex_at_carol (md_recipients (fl_meta carol_ef)) /\ retrieve_data_key toy_age ex_at_carol (md_recipients (fl_meta carol_ef)) = Ok (draw_key ex_tape 20).
Proof.
  split; [exact toy_age_law|]. split; [exact toy_kms_law|]. split; [apply ex_env_world|]. split; [apply ex_env_world|]. split; [by_vm|]. split; [vm_compute; discriminate|]. split; [|by_vm].
  apply (open_age _ _ _ [lit "AGE-SECRET-carol"] (lit "AGE-SECRET-carol")); [unfold age_available; by_vm|now left|left; by_vm].
Qed.

(** * C72 *)

(** Who computes something from an encrypted file holds a private key of one of its recipients; except that refresh may give the file back as it is. *)
Theorem C72_needs_key : forall re tp ag cd O c fs n t, computes re tp ag cd O c fs n t -> (forall a, c <> Encrypt a) ->
  exists f x ef, format_of c = Ok f /\ only_source O fs (input_file c) x /\ read_efile (re_valid re) ag cd f x = Ok ef
  /\ (holds_key ag (os_env O) (md_recipients (fl_meta ef)) \/ (exists a, c = Refresh a) /\ t = x).
Proof.
  intros re tp ag cd O c fs n t (rules & f & x & _ & S & _ & C) NE. exists f, x. destruct c as [a|a|a|a|a|a]; cbn [format_of].
  - now destruct (NE a).
  - destruct C as (G & C). unfold decrypt_text in C. apply bind_ok in C. destruct C as (ef & R & C). apply bind_ok in C. destruct C as (df & D & _). apply decrypt_opens in D. destruct D as (key & K). exists ef. split; [exact G|]. split; [exact S|]. split; [exact R|]. left. eapply retrieve_holds; eauto.
  - destruct C as (G & ef & df & sv & t0 & m & n' & R & D & _). apply decrypt_save_opens in D. destruct D as (key & K). exists ef. split; [exact G|]. split; [exact S|]. split; [exact R|]. left. eapply retrieve_holds; eauto.
  - destruct C as (G & n' & C). unfold add_text in C. apply bind_ok in C. destruct C as (ef & R & C). exists ef. split; [exact G|]. split; [exact S|]. split; [exact R|]. left. unfold file_add_age in C.
    destruct (retrieve_data_key ag (os_env O) (md_recipients (fl_meta ef))) as [key|e|] eqn:K; [eapply retrieve_holds; eauto|discriminate C|discriminate C].
  - destruct C as (G & n' & C). unfold remove_text in C. apply bind_ok in C. destruct C as (ef & R & C). apply bind_ok in C. destruct C as (df & D & _). apply decrypt_opens in D. destruct D as (key & K). exists ef. split; [exact G|]. split; [exact S|]. split; [exact R|]. left. eapply retrieve_holds; eauto.
  - destruct C as (G & n' & C). unfold refresh_text in C. apply bind_ok in C. destruct C as (ef & R & C). exists ef. split; [exact G|]. split; [exact S|]. split; [exact R|]. destruct (matching_rule re (path_to_match (in_file (pl_input a))) rules) as [r|]; [|right; split; [eauto|congruence]].
    destruct (implies_metadata r (fl_meta ef)); [right; split; [eauto|congruence]|]. apply bind_ok in C. destruct C as (df & D & _). apply decrypt_opens in D. destruct D as (key & K). left. eapply retrieve_holds; eauto.
Qed.
Print Assumptions C72_needs_key.

(** Without such a key decrypt, edit, keys add and keys remove fail, whatever goes wrong besides; they print nothing and change no file. *)
Theorem C72_locked_out : forall re tp ag cd O c s s' o f, run_command re tp ag cd O c s = (s', o) -> uses_file c -> format_of c = Ok f ->
  (forall x ef, only_source O (sy_file s) (input_file c) x -> read_efile (re_valid re) ag cd f x = Ok ef -> ~ holds_key ag (os_env O) (md_recipients (fl_meta ef))) ->
  o <> Ok tt /\ sy_out s' = sy_out s /\ forall q, q <> os_temp O -> sy_file s' q = sy_file s q.
Proof.
  intros re tp ag cd O c s s' o f H U GF N. apply run_trace in H. destruct H as (l1 & TO & [(_ & FS & OU & CA)|(t & l2 & C & _)]).
  - split; [|split; [exact OU|intros q NQ; rewrite FS; eapply temp_only_keeps; eauto]]. intros ->.
    destruct (CA eq_refl) as (a & rules' & f' & y & ef' & df & sv & t0 & l & e & rest & c' & t & err & E & _ & S' & _ & GF' & R' & D & _). subst c. cbn [input_file format_of] in *. rewrite GF in GF'. injection GF' as <-.
    apply decrypt_save_opens in D. destruct D as (key & K). apply (N _ _ S' R'). eapply retrieve_holds; eauto.
  - exfalso. destruct (C72_needs_key _ _ _ _ _ _ _ _ _ C) as (f' & y & ef' & GF' & S' & R' & [K|((a & E) & _)]); [intros a ->; exact U| |subst c; exact U]. rewrite GF in GF'. injection GF' as <-. exact (N _ _ S' R' K).
Qed.
Print Assumptions C72_locked_out.

(** After somebody was removed as recipient they are locked out: the file is one they have no key for. *)
Theorem C72_removed_partial : forall re tp ag cd W g, age_law ag -> kms_law W -> time_law cd -> plain_world ag W ->
  forall O a p f m s s' t ef, codec_law cd g f -> history re tp ag cd W g p f m s -> W (os_env O) -> no_failures O -> os_temp O <> p ->
  ka_file a = p -> get_format (Some p) (ka_format a) = Ok f -> sy_file s p = Content t -> read_efile (re_valid re) ag cd f t = Ok ef ->
  run_command re tp ag cd O (RemoveKeys a) s = (s', Ok tt) ->
  forall O' c u u' o, (forall rc', remaining (ka_keys a) (md_recipients (fl_meta ef)) rc' -> ~ holds_key ag (os_env O') rc') ->
  uses_file c -> input_file c = Some p -> format_of c = Ok f -> sy_file u p = sy_file s' p -> run_command re tp ag cd O' c u = (u', o) ->
  o <> Ok tt /\ sy_out u' = sy_out u /\ forall q, q <> os_temp O' -> sy_file u' q = sy_file u q.
Proof.
  intros re tp ag cd W g AL KL TL PW O a p f m s s' t ef CL H WE NF NT KF GF F R RC O' c u u' o N U IF GC FU RU.
  destruct (C63_remove_partial re tp ag cd W g AL KL TL PW O a p f m s s' t ef CL H WE NF NT KF GF F R RC) as (t' & ef' & F' & R' & _ & KA & KK & _).
  eapply C72_locked_out; [exact RU|exact U|exact GC|]. intros x ef0 S R0. rewrite IF in S. destruct S as [(q & Q & _ & X)|(Q & _)]; [|discriminate Q]. injection Q as <-.
  assert (x = t') by congruence. subst x. rewrite R' in R0. injection R0 as <-. apply N. split; auto.
Qed.
Print Assumptions C72_removed_partial.

(** Alice removes Bob, who could decrypt the file before; Bob is locked out after. *)
Definition bob_decrypts : command := Decrypt {| pl_input := {| in_config := None; in_format := None; in_file := Some ex_path |}; pl_in_place := Some false |}.
Definition without_bob : bytes := Eval vm_compute in file_after (ran_on [] ex_remove ex_start) ex_path.
Definition small_shown : bytes := Eval vm_compute in get [] (decrypt_text ex_re toy_age ex_codec ex_at_bob Yaml small_text).
Example C72_removed_witness :
  ex_history small_doc ex_start /\ sy_file ex_start ex_path = Content small_text /\ read_efile (re_valid ex_re) toy_age ex_codec Yaml small_text = Ok small_ef
  /\ (snd (ran_on [] ex_remove ex_start), sy_file (fst (ran_on [] ex_remove ex_start)) ex_path) = (Ok tt, Content without_bob)
  /\ (forall rc', remaining (ka_keys (remove_cmd (toy_public ex_bob))) (md_recipients (fl_meta small_ef)) rc' -> ~ holds_key toy_age ex_at_bob rc')
  /\ uses_file bob_decrypts /\ input_file bob_decrypts = Some ex_path /\ format_of bob_decrypts = Ok Yaml
  /\ decrypt_text ex_re toy_age ex_codec ex_at_bob Yaml small_text = Ok small_shown
  /\ (snd (bob_runs bob_decrypts (ex_with ex_config_text small_text 20)), sy_out (fst (bob_runs bob_decrypts (ex_with ex_config_text small_text 20)))) = (Ok tt, small_shown ++ ["010"])
  /\ (snd (bob_runs bob_decrypts (ex_with ex_config_text without_bob 20)), sy_out (fst (bob_runs bob_decrypts (ex_with ex_config_text without_bob 20)))) = (Err EMissingDataKey, []).
Proof.
  split; [apply small_history; reflexivity|]. split; [reflexivity|]. split; [by_vm|]. split; [by_vm|]. split.
  { intros rc' [A K] [(ids & i & P & I & J)|(ks & c & u & P & I & J & _)].
    - assert (X : age_private_keys toy_age ex_at_bob = Ok [ex_bob]) by by_vm. unfold age_available in P. rewrite X in P. injection P as <-. destruct I as [<-|[]]. apply A in J. destruct J as [_ J]. apply J. left. reflexivity.
    - assert (X : kms_private_keys ex_at_bob = Ok []) by by_vm. unfold kms_available in P. rewrite X in P. injection P as <-. destruct I. }
  split; [exact Logic.I|]. split; [reflexivity|]. split; [by_vm|]. split; [by_vm|]. split; by_vm.
Qed.
