(** Commands on JSON files, with no assumption about serde_json and chrono: C40, C45, C50, C53, C55, C61, C62, C63 and C72 for the concrete reader and writer of
    Model/Json.v and Model/Chrono.v.  The codec [cd] stands for anything: it reads the configuration.  In all of them the full statement is
    that of the general theorem, and what is missing is the same. *)
From Verif.Model Require Import Cli Json Chrono.
From Verif.Spec Require Import SpecCli SpecJson SpecAccess.
From Verif.Proofs Require Import BytesFacts Utf8Facts JsonFacts JsonPrefix IntegrationFacts CliRun CliDoc.
From Verif.Props Require Import PMap PFormat ExWorld ExCodec PFile PDocument PCli PCliDoc PAccess PJson.
Open Scope byte_scope.
Local Open Scope nat_scope.

Theorem C55_json_partial : forall re tp ag cd W p m dm s s', age_law ag -> kms_law W -> plain_world ag W ->
  history re tp ag (json_codec cd) W json_float p Json m s -> dec_map_to_internal Json m = Ok dm -> sequence re tp ag (json_codec cd) W p Json dm s s' ->
  exists t ef, sy_file s' p = Content t /\ read_efile (re_valid re) ag (json_codec cd) Json t = Ok ef /\ decrypts_to re ag (json_codec cd) W Json t ef (normal_doc m).
Proof.
  intros re tp ag cd W p m dm s s' AL KL PW. exact (C55_partial re tp ag (json_codec cd) W json_float AL KL (json_codec_time cd) PW p Json m dm s s' (json_codec_law cd)).
Qed.
Print Assumptions C55_json_partial.

Theorem C62_json_partial : forall re tp ag cd W O a p m m' dm' s s' t0 t ef, age_law ag -> kms_law W -> plain_world ag W ->
  history re tp ag (json_codec cd) W json_float p Json m s -> W (os_env O) -> no_failures O -> os_temp O <> p ->
  in_file a = Some p -> get_format (Some p) (in_format a) = Ok Json -> map_text (json_codec cd) Json (normal_doc m) = Ok t0 -> session (json_codec cd) O Json t0 m' -> plain_document json_float Json m' dm' ->
  sy_file s p = Content t -> read_efile (re_valid re) ag (json_codec cd) Json t = Ok ef -> colon_safe_map (md_partial (fl_meta ef)) dm' -> run_command re tp ag (json_codec cd) O (Edit a) s = (s', Ok tt) ->
  history re tp ag (json_codec cd) W json_float p Json m' s'
  /\ exists t' ef', sy_file s' p = Content t' /\ read_efile (re_valid re) ag (json_codec cd) Json t' = Ok ef' /\ decrypts_to re ag (json_codec cd) W Json t' ef' (normal_doc m')
     /\ md_recipients (fl_meta ef') = md_recipients (fl_meta ef) /\ md_partial (fl_meta ef') = md_partial (fl_meta ef) /\ md_only (fl_meta ef') = md_only (fl_meta ef).
Proof.
  intros re tp ag cd W O a p m m' dm' s s' t0 t ef AL KL PW. exact (C62_partial re tp ag (json_codec cd) W json_float AL KL (json_codec_time cd) PW O a p Json m m' dm' s s' t0 t ef (json_codec_law cd)).
Qed.
Print Assumptions C62_json_partial.

Theorem C61_json_partial : forall re tp ag cd W O a p m s rules, age_law ag -> kms_law W -> plain_world ag W ->
  history re tp ag (json_codec cd) W json_float p Json m s -> W (os_env O) -> no_failures O -> os_temp O <> p -> os_stdin O = None ->
  in_file (pl_input a) = Some p -> get_format (Some p) (in_format (pl_input a)) = Ok Json -> configured re ag (json_codec cd) O (sy_file s) (in_config (pl_input a)) rules ->
  (forall t ef, sy_file s p = Content t -> read_efile (re_valid re) ag (json_codec cd) Json t = Ok ef -> can_open ag (os_env O) (md_recipients (fl_meta ef))) ->
  exists s' t, run_command re tp ag (json_codec cd) O (Decrypt a) s = (s', Ok tt) /\ read_map (json_codec cd) Json t = Ok (normal_doc m)
  /\ if is_set (pl_in_place a) then sy_file s' p = Content t /\ sy_out s' = sy_out s else sy_file s' p = sy_file s p /\ sy_out s' = sy_out s ++ t ++ [x0a].
Proof.
  intros re tp ag cd W O a p m s rules AL KL PW. exact (C61_decrypt_partial re tp ag (json_codec cd) W json_float AL KL (json_codec_time cd) PW O a p Json m s rules (with_json_text cd) (json_codec_law cd)).
Qed.
Print Assumptions C61_json_partial.

Theorem C63_json_add_partial : forall re tp ag cd W O a p m s s' t ef, age_law ag -> kms_law W -> plain_world ag W ->
  history re tp ag (json_codec cd) W json_float p Json m s -> W (os_env O) -> no_failures O -> os_temp O <> p ->
  ka_file a = p -> get_format (Some p) (ka_format a) = Ok Json -> plain_keys ag (ka_keys a) -> sy_file s p = Content t -> read_efile (re_valid re) ag (json_codec cd) Json t = Ok ef ->
  run_command re tp ag (json_codec cd) O (AddKeys a) s = (s', Ok tt) ->
  exists t' ef', sy_file s' p = Content t' /\ read_efile (re_valid re) ag (json_codec cd) Json t' = Ok ef' /\ decrypts_to re ag (json_codec cd) W Json t' ef' (normal_doc m)
  /\ (forall k, In k (map u_key (rc_age (md_recipients (fl_meta ef')))) <-> In k (map u_key (rc_age (md_recipients (fl_meta ef)))) \/ In k (ks_age (ka_keys a)))
  /\ (forall k, In k (map u_key (rc_kms (md_recipients (fl_meta ef')))) <-> In k (map u_key (rc_kms (md_recipients (fl_meta ef)))) \/ In k (ks_kms (ka_keys a)))
  /\ fl_map ef' = fl_map ef /\ md_partial (fl_meta ef') = md_partial (fl_meta ef) /\ md_only (fl_meta ef') = md_only (fl_meta ef) /\ md_modified (fl_meta ef') = md_modified (fl_meta ef).
Proof.
  intros re tp ag cd W O a p m s s' t ef AL KL PW. exact (C63_add_partial re tp ag (json_codec cd) W json_float AL KL (json_codec_time cd) PW O a p Json m s s' t ef (json_codec_law cd)).
Qed.
Print Assumptions C63_json_add_partial.

Theorem C63_json_remove_partial : forall re tp ag cd W O a p m s s' t ef, age_law ag -> kms_law W -> plain_world ag W ->
  history re tp ag (json_codec cd) W json_float p Json m s -> W (os_env O) -> no_failures O -> os_temp O <> p ->
  ka_file a = p -> get_format (Some p) (ka_format a) = Ok Json -> sy_file s p = Content t -> read_efile (re_valid re) ag (json_codec cd) Json t = Ok ef ->
  run_command re tp ag (json_codec cd) O (RemoveKeys a) s = (s', Ok tt) ->
  exists t' ef', sy_file s' p = Content t' /\ read_efile (re_valid re) ag (json_codec cd) Json t' = Ok ef' /\ decrypts_to re ag (json_codec cd) W Json t' ef' (normal_doc m)
  /\ (forall k, In k (map u_key (rc_age (md_recipients (fl_meta ef')))) <-> In k (map u_key (rc_age (md_recipients (fl_meta ef)))) /\ ~ In k (ks_age (ka_keys a)))
  /\ (forall k, In k (map u_key (rc_kms (md_recipients (fl_meta ef')))) <-> In k (map u_key (rc_kms (md_recipients (fl_meta ef)))) /\ ~ In k (ks_kms (ka_keys a)))
  /\ md_partial (fl_meta ef') = md_partial (fl_meta ef) /\ md_only (fl_meta ef') = md_only (fl_meta ef)
  /\ ((exists k, In k (ks_age (ka_keys a)) /\ In k (map u_key (rc_age (md_recipients (fl_meta ef))))) \/ (exists k, In k (ks_kms (ka_keys a)) /\ In k (map u_key (rc_kms (md_recipients (fl_meta ef))))) ->
      exists j, sy_draws s <= j /\ forall E k, W E -> retrieve_data_key ag E (md_recipients (fl_meta ef')) = Ok k -> k = draw_key tp j).
Proof.
  intros re tp ag cd W O a p m s s' t ef AL KL PW. exact (C63_remove_partial re tp ag (json_codec cd) W json_float AL KL (json_codec_time cd) PW O a p Json m s s' t ef (json_codec_law cd)).
Qed.
Print Assumptions C63_json_remove_partial.
Theorem C72_json_removed_partial : forall re tp ag cd W O a p m s s' t ef, age_law ag -> kms_law W -> plain_world ag W ->
  history re tp ag (json_codec cd) W json_float p Json m s -> W (os_env O) -> no_failures O -> os_temp O <> p ->
  ka_file a = p -> get_format (Some p) (ka_format a) = Ok Json -> sy_file s p = Content t -> read_efile (re_valid re) ag (json_codec cd) Json t = Ok ef ->
  run_command re tp ag (json_codec cd) O (RemoveKeys a) s = (s', Ok tt) ->
  forall O' c u u' o, (forall rc', remaining (ka_keys a) (md_recipients (fl_meta ef)) rc' -> ~ holds_key ag (os_env O') rc') ->
  uses_file c -> input_file c = Some p -> format_of c = Ok Json -> sy_file u p = sy_file s' p -> run_command re tp ag (json_codec cd) O' c u = (u', o) ->
  o <> Ok tt /\ sy_out u' = sy_out u /\ forall q, q <> os_temp O' -> sy_file u' q = sy_file u q.
Proof.
  intros re tp ag cd W O a p m s s' t ef AL KL PW. exact (C72_removed_partial re tp ag (json_codec cd) W json_float AL KL (json_codec_time cd) PW O a p Json m s s' t ef (json_codec_law cd)).
Qed.
Print Assumptions C72_json_removed_partial.

Theorem C40_json_partial : forall re tp ag cd W O a p m dm s s' rules r, age_law ag -> kms_law W -> plain_world ag W ->
  history re tp ag (json_codec cd) W json_float p Json m s -> dec_map_to_internal Json m = Ok dm -> W (os_env O) -> no_failures O -> os_temp O <> p ->
  is_set (pl_in_place a) = true -> in_file (pl_input a) = Some p -> get_format (Some p) (in_format (pl_input a)) = Ok Json ->
  configured re ag (json_codec cd) O (sy_file s) (in_config (pl_input a)) rules -> first_matching re rules (path_to_match (Some p)) r -> good_rule re ag dm r ->
  run_command re tp ag (json_codec cd) O (Refresh a) s = (s', Ok tt) ->
  exists t ef, sy_file s' p = Content t /\ read_efile (re_valid re) ag (json_codec cd) Json t = Ok ef /\ decrypts_to re ag (json_codec cd) W Json t ef (normal_doc m) /\ agrees (fl_meta ef) r
  /\ (cr_only r <> Some false -> forall O' s'' o, no_failures O' -> os_temp O' <> p -> configured re ag (json_codec cd) O' (sy_file s') (in_config (pl_input a)) rules ->
       run_command re tp ag (json_codec cd) O' (Refresh a) s' = (s'', o) -> sy_file s'' p = Content t).
Proof. intros re tp ag cd W O a p m dm s s' rules r AL KL PW. exact (C40_refresh_partial re tp ag (json_codec cd) W json_float AL KL (json_codec_time cd) PW O a p Json m dm s s' rules r (json_codec_law cd)). Qed.
Print Assumptions C40_json_partial.

(** The counterexamples C45 and C50 and the metadata (C53) in JSON. *)
Theorem C45_json_unreadable : forall re re_valid tp ag W cd E b n ef n' dm, plain_world ag W -> W E ->
  fmt_doc Json (bd_map b) -> dec_map_to_internal Json (bd_map b) = Ok dm -> colon_safe_map (bd_partial b) dm -> depth (FMap (bd_map b)) <= max_depth ->
  Forall (plain_recipient ag) (bd_age b) -> Forall plain_key (bd_kms b) -> plain_rule re_valid (bd_partial b) ->
  In (FStr (lit "sops")) (map fst (bd_map b)) -> builder_encrypt re tp ag E Json b n = Ok (ef, n') ->
  exists s, file_text (json_codec cd) Json ef = Ok s /\ read_efile re_valid ag (json_codec cd) Json s = Err EDuplicateField.
Proof. intros re re_valid tp ag W cd E b n ef n' dm PW WE. exact (C45_sops_unreadable re re_valid tp ag W (json_codec cd) json_float E Json b n ef n' dm (json_codec_law cd) PW WE ltac:(discriminate)). Qed.
Theorem C50_json_unreadable : forall re re_valid tp ag W cd E ef, plain_world ag W -> W E ->
  storable Json (FMap (fl_map ef)) -> depth (FMap (fl_map ef)) <= max_depth -> no_sops (fl_map ef) -> layout json_float Json (fl_map ef) = fl_map ef -> plain_meta re_valid ag (fl_meta ef) ->
  exists s m, file_text (json_codec cd) Json ef = Ok s /\ read_map (json_codec cd) Json s = Ok m
    /\ forall b n ef2 n' dm, bd_map b = m -> dec_map_to_internal Json m = Ok dm -> colon_safe_map (bd_partial b) dm ->
       Forall (plain_recipient ag) (bd_age b) -> Forall plain_key (bd_kms b) -> plain_rule re_valid (bd_partial b) ->
       builder_encrypt re tp ag E Json b n = Ok (ef2, n') -> exists s2, file_text (json_codec cd) Json ef2 = Ok s2 /\ read_efile re_valid ag (json_codec cd) Json s2 = Err EDuplicateField.
Proof. intros re re_valid tp ag W cd E ef PW WE. exact (C50_again_unreadable re re_valid tp ag W (json_codec cd) json_float E Json ef (json_codec_law cd) PW WE ltac:(discriminate)). Qed.
Theorem C53_json_partial : forall re_valid ag cd ef, storable Json (FMap (fl_map ef)) -> depth (FMap (fl_map ef)) <= max_depth -> no_sops (fl_map ef) -> plain_meta re_valid ag (fl_meta ef) ->
  exists s ef', file_text (json_codec cd) Json ef = Ok s /\ read_efile re_valid ag (json_codec cd) Json s = Ok ef' /\ fl_meta ef' = fl_meta ef.
Proof. intros re_valid ag cd ef. exact (C53_metadata_partial re_valid ag (json_codec cd) json_float Json ef (json_codec_law cd) (json_codec_time cd)). Qed.
Print Assumptions C53_json_partial.

Lemma json_codec_read : forall cd s, cd_read (json_codec cd) Json s = json_read s.
Proof. reflexivity. Qed.
(** Whatever moment a command is stopped at, and whatever fails: if the JSON file can be read at all, it is what it was before, or reads as
    the complete new text does.  The full statement of C37 is that it can be read; see [C37_refuted]. *)
Theorem C37_json_partial : forall re tp ag cd O c s s' o l fs q b m, run_command re tp ag (json_codec cd) O c s = (s', o) -> sy_ops s' = sy_ops s ++ l -> stopped l (sy_file s) fs -> q <> os_temp O ->
  fs q = Content b -> cd_read (json_codec cd) Json b = Ok m ->
  fs q = sy_file s q
  \/ (output_file O c = Some q /\ exists t, computes re tp ag (json_codec cd) O c (sy_file s) (sy_draws s) t /\ forall m', cd_read (json_codec cd) Json t = Ok m' -> m' = m).
Proof.
  intros re tp ag cd O c s s' o l fs q b m H L S N B R. destruct (C37_partial re tp ag (json_codec cd) O c s s' o l fs H L S q N) as [E|(OF & t & k & C & E)]; [now left|]. right. split; auto.
  exists t. split; auto. intros m' R'. rewrite B in E. assert (b = firstn k t) by congruence. subst b. rewrite json_codec_read in R, R'. rewrite <- (firstn_skipn k t) in R'. exact (proj1 (json_goes_on _ _ _ _ R R')).
Qed.
Print Assumptions C37_json_partial.

(** A JSON file: encrypted in place, Carol added, decrypted. *)
Definition json_path : bytes := lit "/home/u/s.json".
Definition json_source : bytes := "{" :: x22 :: lit "a" ++ x22 :: lit ":[1e2, " ++ x22 :: lit "x" ++ x22 :: lit "],  " ++ x22 :: lit "b" ++ x22 :: lit ": null}".
Definition json_doc : fmap := [(FStr (lit "a"), FSeq [FNum (NFlt (FFin false 7036874417766400 (-46))); FStr (lit "x")]); (FStr (lit "b"), FNull)].
Definition json_dm : dmap := [(lit "a", Seq [Leaf (VFloat (lit "100")); Leaf (VStr (lit "x"))]); (lit "b", Null)].
Notation the_codec := (json_codec ex_codec).
Definition json_run (c : command) (s : sys) : sys * outcome unit := run_command ex_re ex_tape toy_age the_codec (ex_os []) c s.
Definition json_at (t : bytes) (n : nat) : sys := {| sy_file := fun p => if bytes_eqb p json_path then Content t else Absent; sy_out := []; sy_ops := []; sy_draws := n |}.
Definition json_input : input_args := {| in_config := None; in_format := None; in_file := Some json_path |}.
Definition json_builder : builder := {| bd_map := json_doc; bd_partial := None; bd_only := None; bd_age := [toy_public ex_alice; toy_public ex_bob]; bd_kms := [] |}.
Definition json_ef : efile := Eval vm_compute in build Json json_builder 0.
Definition json_file : bytes := Eval vm_compute in get [] (file_text the_codec Json json_ef).
Definition json_grown : bytes := Eval vm_compute in file_after (json_run (AddKeys {| ka_keys := {| ks_age := [ex_carol]; ks_kms := [] |}; ka_format := None; ka_file := json_path |}) (json_at json_file 20)) json_path.
Definition json_pretty : bytes :=
  lit "{" ++ x0a :: lit "  " ++ json_string (lit "a") ++ lit ": [" ++ x0a :: lit "    100.0," ++ x0a :: lit "    " ++ json_string (lit "x") ++ x0a :: lit "  ]," ++ x0a
  :: lit "  " ++ json_string (lit "b") ++ lit ": null" ++ x0a :: lit "}" ++ [x0a].
Lemma json_plain : plain_document json_float Json json_doc json_dm.
Proof.
  split; [doc_ok|]. split; [by_vm|]. split; [apply Nat.leb_le; reflexivity|]. split.
  - intro H. cbn in H. repeat (destruct H as [H|H]; [discriminate H|]). destruct H.
  - intros x [<-|[]]. by_vm.
Qed.
Example C55_json_witness : read_map the_codec Json json_source = Ok json_doc /\ history ex_re ex_tape toy_age the_codec shown_world json_float json_path Json json_doc (json_at json_file 20)
  /\ (snd (json_run (AddKeys {| ka_keys := {| ks_age := [ex_carol]; ks_kms := [] |}; ka_format := None; ka_file := json_path |}) (json_at json_file 20)),
      file_after (json_run (AddKeys {| ka_keys := {| ks_age := [ex_carol]; ks_kms := [] |}; ka_format := None; ka_file := json_path |}) (json_at json_file 20)) json_path) = (Ok tt, json_grown)
  /\ (snd (json_run (Decrypt {| pl_in_place := None; pl_input := json_input |}) (json_at json_grown 40)), sy_out (fst (json_run (Decrypt {| pl_in_place := None; pl_input := json_input |}) (json_at json_grown 40)))) = (Ok tt, json_pretty).
Proof.
  split; [by_vm|]. split; [|split; by_vm]. change json_doc with (bd_map json_builder).
  assert (B : builder_encrypt ex_re ex_tape toy_age ex_here Json json_builder 0 = Ok (json_ef, 7)) by by_vm.
  eapply hi_encrypted; [exact here_shown|exact json_plain| | | |exact B|by_vm|reflexivity].
  - intros ks v _. right. exact Logic.I.
  - destruct ex_plain as [PA _]. split; [|constructor]. exact PA.
  - exact Logic.I.
Qed.

(** The same command stopped after 100 bytes: the file can not be read. *)
Example C37_json_witness : exists l fs, sy_ops (fst (json_run (AddKeys {| ka_keys := {| ks_age := [ex_carol]; ks_kms := [] |}; ka_format := None; ka_file := json_path |}) (json_at json_file 20))) = l
  /\ stopped l (sy_file (json_at json_file 20)) fs /\ fs json_path = Content (firstn 100 json_grown) /\ json_read (firstn 100 json_grown) = json_fail /\ is_ok (json_read json_grown) = true.
Proof.
  exists [Looked json_path; Opened json_path; Wrote json_path json_grown], (replay ([Looked json_path; Opened json_path] ++ [Wrote json_path (firstn 100 json_grown)]) (sy_file (json_at json_file 20))).
  split; [by_vm|]. split; [exact (stop_within _ _ [Looked json_path; Opened json_path] json_path json_grown [] 100 eq_refl)|]. split; [by_vm|]. split; by_vm.
Qed.
