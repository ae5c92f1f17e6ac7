(** Properties of recipients, private keys and the data key: C23 to C29, C42. *)
From Verif.Model Require Import File.
From Verif.Spec Require Import SpecFile.
From Verif.Proofs Require Import BytesFacts Base64Facts Base64Spec ValueFacts MapFacts IntegrationFacts FileFacts FileSafety FileKeys.
From Verif.Props Require Import PMap PFormat ExWorld.

Local Open Scope nat_scope.

(** C42: the private keys offered by an environment are those of the comma separated entries of the variable, then those of the
    non-blank lines of the key file, in this order; one malformed entry makes the retrieval an error. *)
Theorem C42_age_keys : forall ag E es p ts,
  env_entries (e_var E (lit "ROPS_AGE")) es -> key_file_path E (lit "age") = Ok p -> file_entries (e_file E p) ts ->
  (forall ids, age_available ag E ids <-> Forall2 (fun t i => ag_identity ag t = Some i) (es ++ ts) ids)
  /\ ((exists t, In t (es ++ ts) /\ ag_identity ag t = None) -> exists e, age_private_keys ag E = Err e).
Proof.
  intros ag E es p ts V P F.
  assert (NP : forall s, parse_age_identity ag s <> Panic) by (intro s; unfold parse_age_identity, ok_or; destruct (ag_identity ag s); discriminate).
  destruct (retrieve_entries E (lit "age") (parse_age_identity ag) es p ts NP V P F) as [H H']. split.
  - intro ids. unfold age_available, age_private_keys. rewrite H. clear.
    assert (Q : forall t i, parse_age_identity ag t = Ok i <-> ag_identity ag t = Some i).
    { intros t i. unfold parse_age_identity, ok_or. destruct (ag_identity ag t); split; intro Q; try discriminate; now injection Q as ->. }
    split; intro A; induction A; constructor; auto; now apply Q.
  - intros (t & I & N). apply H'. exists t, EIntegration. split; auto. unfold parse_age_identity. now rewrite N.
Qed.
Print Assumptions C42_age_keys.

Theorem C42_kms_keys : forall E es p ts,
  env_entries (e_var E (lit "ROPS_AWS_KMS")) es -> key_file_path E (lit "aws_kms") = Ok p -> file_entries (e_file E p) ts ->
  (forall ks, kms_available E ks <-> Forall2 (fun t k => parse_aws_secret t = Ok k) (es ++ ts) ks)
  /\ ((exists t e, In t (es ++ ts) /\ parse_aws_secret t = Err e) -> exists e, kms_private_keys E = Err e).
Proof.
  intros E es p ts V P F. exact (retrieve_entries E (lit "aws_kms") parse_aws_secret es p ts parse_secret_total V P F).
Qed.
Print Assumptions C42_kms_keys.

(** The key file is the one named by the override variable, else the one in the configuration directory. *)
Theorem C42_key_file : forall E name p,
  (e_var E (lit "ROPS_" ++ to_upper name ++ lit "_KEY_FILE") = VarText p -> key_file_path E name = Ok p)
  /\ (forall d, e_var E (lit "ROPS_" ++ to_upper name ++ lit "_KEY_FILE") = VarUnset -> e_config_dir E = Some d ->
      key_file_path E name = Ok (d ++ lit "/rops/" ++ name ++ lit "_keys")).
Proof.
  intros E name p. unfold key_file_path, key_file_var_name. split; [intros ->; reflexivity|intros d -> ->; reflexivity].
Qed.
Print Assumptions C42_key_file.

(** Two entries in the variable, a key file with blank lines, indentation and DOS line ends. *)
Definition key_env : env :=
  {| e_var := fun s => if bytes_eqb s (lit "ROPS_AGE") then VarText (lit "AGE-SECRET-a,AGE-SECRET-b") else VarUnset;
     e_config_dir := Some (lit "/home/u/.config");
     e_file := fun p => if bytes_eqb p (lit "/home/u/.config/rops/age_keys")
                        then FileText (lit "  AGE-SECRET-c" ++ [x0d; x0a; x0a] ++ lit "AGE-SECRET-a " ++ [x0a]) else FileAbsent;
     e_clock := fun _ => ex_time; e_kms_encrypt := fun _ _ _ => KmsFailed; e_kms_decrypt := fun _ _ => KmsFailed |}.
Example C42_witness :
  env_entries (e_var key_env (lit "ROPS_AGE")) [lit "AGE-SECRET-a"; lit "AGE-SECRET-b"]
  /\ file_entries (e_file key_env (lit "/home/u/.config/rops/age_keys")) [lit "AGE-SECRET-c"; lit "AGE-SECRET-a"]
  /\ age_private_keys toy_age key_env = Ok [lit "AGE-SECRET-a"; lit "AGE-SECRET-b"; lit "AGE-SECRET-c"; lit "AGE-SECRET-a"]
  /\ exists E, age_private_keys toy_age E = Err EIntegration /\ e_var E (lit "ROPS_AGE") = VarText (lit "AGE-SECRET-a, AGE-SECRET-b").
Proof.
  split; [|split; [|split]].
  - right. split; [discriminate|]. split; [|reflexivity]. intros e [<-|[<-|[]]]; intro H; cbn in H; repeat (destruct H as [H|H]; [discriminate H|]); destruct H.
  - right. exists [lit "  AGE-SECRET-c" ++ [x0d]; []; lit "AGE-SECRET-a "; []]. split; [discriminate|]. split; [|split; [reflexivity|]].
    { intros e [<-|[<-|[<-|[<-|[]]]]]; intro H; cbn in H; repeat (destruct H as [H|H]; [discriminate H|]); destruct H. }
    match goal with |- key_lines ?ls ?ts => replace ts with (filter (fun l => negb (bytes_eqb l [])) (map trim ls)) by reflexivity; apply key_lines_fun end.
  - reflexivity.
  - exists (ex_env (VarText (lit "AGE-SECRET-a, AGE-SECRET-b")) VarUnset ex_time true). split; reflexivity.
Qed.

(** C23: recipients of a built file.  Building without recipients does not succeed; otherwise there is one entry for each distinct
    recipient, and it opens with the recipient's private key to the data key that encrypts every value and the MAC. *)
Theorem C23_built_recipients : forall re tp ag W E f b n ef n', age_law ag -> kms_law W -> W E -> builder_encrypt re tp ag E f b n = Ok (ef, n') ->
  let rc := md_recipients (fl_meta ef) in
  (bd_age b <> [] \/ bd_kms b <> []) /\ distinct_recipients rc
  /\ (forall r, In r (map u_key (rc_age rc)) <-> In r (bd_age b)) /\ (forall k, In k (map u_key (rc_kms rc)) <-> In k (bd_kms b))
  /\ (forall u E' ids i, In u (rc_age rc) -> age_available ag E' ids -> In i ids -> ag_public ag i = u_key u ->
        age_decrypt_key ag E' (u_key u) (u_enc u) = Ok (Some (draw_key tp n)))
  /\ (forall u E' ks c, In u (rc_kms rc) -> W E' -> kms_available E' ks -> In c ks -> as_profile c = ak_profile (u_key u) ->
        kms_answers E' u -> kms_decrypt_key E' (u_key u) (u_enc u) = Ok (Some (draw_key tp n)))
  /\ exists em dm mac, dec_map_to_internal f (bd_map b) = Ok dm /\ enc_map_from_internal f em = Ok (fl_map ef) /\ encrypted_under (draw_key tp n) em dm
      /\ mac_of re (bd_only b) (bd_partial b) dm mac
      /\ gcm_encrypt (draw_key tp n) (ev_nonce (md_mac (fl_meta ef))) (timestamp_text (md_modified (fl_meta ef))) mac
         = Some (ev_data (md_mac (fl_meta ef)), ev_tag (md_mac (fl_meta ef))).
Proof. intros. now apply built_recipients with (W := W) (E := E) (n' := n'). Qed.
Print Assumptions C23_built_recipients.

Theorem C23_needs_recipient : forall re tp ag E f b n r, bd_age b = [] -> bd_kms b = [] -> builder_encrypt re tp ag E f b n <> Ok r.
Proof. intros. now apply no_recipients_fails. Qed.
Print Assumptions C23_needs_recipient.

Example C23_witness : builder_encrypt ex_re ex_tape toy_age ex_here Yaml ex_builder 0 = Ok (ex_ef, 12) /\ age_law toy_age /\ kms_law toy_world /\ toy_world ex_here
  /\ map u_key (rc_age (md_recipients (fl_meta ex_ef))) = [lit "age1alice"; lit "age1bob"] /\ bd_age ex_builder = [lit "age1alice"; lit "age1bob"; lit "age1alice"]
  /\ length (rc_kms (md_recipients (fl_meta ex_ef))) = 1 /\ age_available toy_age ex_at_bob [ex_bob]
  /\ match rc_kms (md_recipients (fl_meta ex_ef)) with u :: _ => kms_decrypt_key ex_at_kms (u_key u) (u_enc u) = Ok (Some (draw_key ex_tape 0)) | [] => False end
  /\ builder_encrypt ex_re ex_tape toy_age ex_here Yaml {| bd_map := ex_doc; bd_partial := None; bd_only := None; bd_age := []; bd_kms := [] |} 0 = Err EMissingKeys.
Proof.
  split; [exact ex_built|]. split; [exact toy_age_law|]. split; [exact toy_kms_law|]. split; [apply ex_env_world|].
  split; [by_vm|]. split; [reflexivity|]. split; [by_vm|]. split; [reflexivity|]. split; [vm_compute; reflexivity|by_vm].
Qed.

(** C24.  The full statement is: if some entry opens with an available private key, the data key is obtained,
      [(exists u k, In u (rc_age rc) /\ age_decrypt_key ag E (u_key u) (u_enc u) = Ok (Some k)) \/ (exists u k, In u (rc_kms rc) /\ kms_decrypt_key E (u_key u) (u_enc u) = Ok (Some k))
       -> exists key, retrieve_data_key ag E rc = Ok key].
    It is false: the first entry that has a matching private key decides, and an error there ends the search
    (metadata/integration/core.rs:32-51). *)
Definition damaged (u : wrapped bytes) : wrapped bytes := {| u_key := u_key u; u_created := u_created u; u_enc := lit "damaged" |}.
Definition damaged_recipients : recipients := Eval vm_compute in
  {| rc_kms := []; rc_age := match rc_age (md_recipients (fl_meta small_ef)) with a :: l => damaged a :: l | [] => [] end |}.
Theorem C24_any_key_refuted : exists ag E rc u key, age_law ag /\ In u (rc_age rc) /\ age_decrypt_key ag E (u_key u) (u_enc u) = Ok (Some key)
  /\ retrieve_data_key ag E rc = Err EIntegration.
Proof.
  exists toy_age, ex_here, damaged_recipients, {| u_key := toy_public ex_bob; u_created := None; u_enc := toy_wrap 4 (toy_public ex_bob) (draw_key ex_tape 0) |}, (draw_key ex_tape 0).
  split; [exact toy_age_law|]. split; [vm_compute; tauto|]. split; by_vm.
Qed.
Print Assumptions C24_any_key_refuted.

(** It is also false when the age variable is set but empty: its single empty entry does not parse, and the KMS entry is not tried. *)
Theorem C24_empty_variable_refuted : exists ag E E' rc u key, age_law ag /\ In u (rc_kms rc) /\ kms_decrypt_key E (u_key u) (u_enc u) = Ok (Some key)
  /\ e_var E (lit "ROPS_AGE") = VarText [] /\ retrieve_data_key ag E rc = Err EIntegration
  /\ e_var E' (lit "ROPS_AGE") = VarUnset /\ retrieve_data_key ag E' rc = Ok key.
Proof.
  exists toy_age, (ex_env (VarText []) ex_kms_var ex_time true), ex_at_kms, (md_recipients (fl_meta small_ef)),
    (match rc_kms (md_recipients (fl_meta small_ef)) with u :: _ => u | [] => {| u_key := no_kms; u_created := None; u_enc := [] |} end), (draw_key ex_tape 0).
  split; [exact toy_age_law|]. split; [vm_compute; tauto|]. split; [by_vm|]. split; [by_vm|]. split; [by_vm|]. split; by_vm.
Qed.
Print Assumptions C24_empty_variable_refuted.

(** It holds if no entry before the good one (of the same kind, or of age before KMS) has a matching private key.  The entries
    after it, and those before it, may be damaged (KMS entries before it must be Base64 text). *)
Theorem C24_age_partial : forall ag E ids rc a u b i key, age_law ag -> age_available ag E ids -> rc_age rc = a ++ u :: b ->
  (forall v j, In v a -> In j ids -> ag_public ag j <> u_key v) -> In i ids -> ag_public ag i = u_key u -> length key = 32 ->
  age_wraps ag key (u_key u) (u_enc u) -> retrieve_data_key ag E rc = Ok key.
Proof. intros. eapply one_age_entry; eauto. Qed.
Print Assumptions C24_age_partial.

Theorem C24_kms_partial : forall ag W E ids ks rc a u b c key, kms_law W -> W E -> age_available ag E ids ->
  (forall v j, In v (rc_age rc) -> In j ids -> ag_public ag j <> u_key v) ->
  kms_available E ks -> rc_kms rc = a ++ u :: b ->
  (forall v c', In v a -> In c' ks -> as_profile c' <> ak_profile (u_key v)) -> (forall v, In v a -> exists d, is_base64_text (u_enc v) d) ->
  In c ks -> as_profile c = ak_profile (u_key u) -> kms_answers E u -> length key = 32 ->
  kms_wraps W key (u_key u) (u_enc u) -> retrieve_data_key ag E rc = Ok key.
Proof. intros. eapply one_kms_entry; eauto. Qed.
Print Assumptions C24_kms_partial.

(** With undamaged entries any single private key suffices. *)
Theorem C24_undamaged_partial : forall ag W E rc key, age_law ag -> kms_law W -> W E -> length key = 32 -> all_wrap ag W key rc -> can_open ag E rc ->
  retrieve_data_key ag E rc = Ok key.
Proof. intros. eapply retrieve_open; eauto. Qed.
Print Assumptions C24_undamaged_partial.

(** Bob's identity alone opens the file although Alice's entry is damaged. *)
Example C24_partial_witness : exists a u b, rc_age damaged_recipients = a ++ u :: b /\ length a = 1 /\ age_available toy_age ex_at_bob [ex_bob]
  /\ (forall v j, In v a -> In j [ex_bob] -> ag_public toy_age j <> u_key v) /\ ag_public toy_age ex_bob = u_key u /\ age_wraps toy_age (draw_key ex_tape 0) (u_key u) (u_enc u)
  /\ retrieve_data_key toy_age ex_at_bob damaged_recipients = Ok (draw_key ex_tape 0).
Proof.
  exists [{| u_key := toy_public ex_alice; u_created := None; u_enc := lit "damaged" |}],
    {| u_key := toy_public ex_bob; u_created := None; u_enc := toy_wrap 4 (toy_public ex_bob) (draw_key ex_tape 0) |}, [].
  split; [by_vm|]. split; [reflexivity|]. split; [reflexivity|]. split; [intros v j [<-|[]] [<-|[]]; discriminate|]. split; [reflexivity|]. split; [now exists 4|by_vm].
Qed.
Example C24_kms_witness : retrieve_data_key toy_age ex_at_kms (md_recipients (fl_meta small_ef)) = Ok (draw_key ex_tape 0)
  /\ age_available toy_age ex_at_kms [] /\ exists c, kms_available ex_at_kms [c] /\ as_profile c = ak_profile ex_kms.
Proof. split; [by_vm|]. split; [reflexivity|]. eexists. split; [reflexivity|]. reflexivity. Qed.

(** C25: adding recipients.  [key] is the data key that the entries wrap. *)
Theorem C25_added_age : forall ag (W : env -> Prop) M E ids (fl fl' : file M) n o key, W E -> age_law ag -> kms_law W -> length key = 32 -> all_wrap ag W key (md_recipients (fl_meta fl)) ->
  file_add_age ag E ids fl n = (fl', o) ->
  let rc := md_recipients (fl_meta fl) in let rc' := md_recipients (fl_meta fl') in
  fl_map fl' = fl_map fl /\ md_mac (fl_meta fl') = md_mac (fl_meta fl) /\ md_modified (fl_meta fl') = md_modified (fl_meta fl)
  /\ md_partial (fl_meta fl') = md_partial (fl_meta fl) /\ md_only (fl_meta fl') = md_only (fl_meta fl)
  /\ rc_kms rc' = rc_kms rc /\ all_wrap ag W key rc' /\ (distinct_units (rc_age rc) -> distinct_units (rc_age rc'))
  /\ (forall u, In u (rc_age rc) -> ~ In (u_key u) ids -> In u (rc_age rc'))
  /\ (forall k, In k (map u_key (rc_age rc)) -> In k (map u_key (rc_age rc')))
  /\ (forall n', o = Ok n' -> forall k, In k (map u_key (rc_age rc')) <-> In k (map u_key (rc_age rc)) \/ In k ids).
Proof. intros. eapply added_age; eauto. Qed.
Print Assumptions C25_added_age.

Theorem C25_added_kms : forall ag (W : env -> Prop) M E ids (fl fl' : file M) n o key, W E -> age_law ag -> kms_law W -> length key = 32 -> all_wrap ag W key (md_recipients (fl_meta fl)) ->
  file_add_kms ag E ids fl n = (fl', o) ->
  let rc := md_recipients (fl_meta fl) in let rc' := md_recipients (fl_meta fl') in
  fl_map fl' = fl_map fl /\ md_mac (fl_meta fl') = md_mac (fl_meta fl) /\ md_modified (fl_meta fl') = md_modified (fl_meta fl)
  /\ md_partial (fl_meta fl') = md_partial (fl_meta fl) /\ md_only (fl_meta fl') = md_only (fl_meta fl)
  /\ rc_age rc' = rc_age rc /\ all_wrap ag W key rc' /\ (distinct_units (rc_kms rc) -> distinct_units (rc_kms rc'))
  /\ (forall u, In u (rc_kms rc) -> ~ In (u_key u) ids -> In u (rc_kms rc'))
  /\ (forall k, In k (map u_key (rc_kms rc)) -> In k (map u_key (rc_kms rc')))
  /\ (forall n', o = Ok n' -> forall k, In k (map u_key (rc_kms rc')) <-> In k (map u_key (rc_kms rc)) \/ In k ids).
Proof. intros. eapply added_kms; eauto. Qed.
Print Assumptions C25_added_kms.

(** Whoever cannot open the file cannot add recipients: the file stays as it is and the reason is reported. *)
Theorem C25_locked : forall ag M E ids kids (fl : file M) n,
  (forall e, retrieve_data_key ag E (md_recipients (fl_meta fl)) = Err e -> file_add_age ag E ids fl n = (fl, Err e) /\ file_add_kms ag E kids fl n = (fl, Err e))
  /\ (retrieve_data_key ag E (md_recipients (fl_meta fl)) = Panic -> file_add_age ag E ids fl n = (fl, Panic) /\ file_add_kms ag E kids fl n = (fl, Panic)).
Proof. intros ag M E ids kids fl n. unfold file_add_age, file_add_kms. split; [intros e H|intro H]; rewrite H; auto. Qed.
Print Assumptions C25_locked.

Example C25_locked_witness : let E := ex_env (VarText (lit "AGE-SECRET-carol")) VarUnset ex_time true in
  retrieve_data_key toy_age E (md_recipients (fl_meta small_df)) = Err EMissingDataKey
  /\ snd (file_add_age toy_age E [lit "age1carol"] small_df 20) = Err EMissingDataKey.
Proof. split; by_vm. Qed.

(** An entry that wraps the data key opens to it with the recipient's private key. *)
Theorem C25_entries_open : forall ag W key rc, age_law ag -> kms_law W -> length key = 32 -> all_wrap ag W key rc ->
  (forall u E ids i, In u (rc_age rc) -> age_available ag E ids -> In i ids -> ag_public ag i = u_key u -> age_decrypt_key ag E (u_key u) (u_enc u) = Ok (Some key))
  /\ (forall u E ks c, In u (rc_kms rc) -> W E -> kms_available E ks -> In c ks -> as_profile c = ak_profile (u_key u) ->
        kms_answers E u -> kms_decrypt_key E (u_key u) (u_enc u) = Ok (Some key)).
Proof. intros. now apply entries_open. Qed.
Print Assumptions C25_entries_open.

Example C25_witness : let r := file_add_age toy_age ex_at_bob [lit "age1carol"; lit "age1alice"] small_df 20 in
  snd r = Ok 22 /\ map u_key (rc_age (md_recipients (fl_meta (fst r)))) = [lit "age1alice"; lit "age1bob"; lit "age1carol"]
  /\ retrieve_data_key toy_age (ex_env (VarText (lit "AGE-SECRET-carol")) VarUnset ex_time true) (md_recipients (fl_meta (fst r))) = Ok (draw_key ex_tape 0)
  /\ retrieve_data_key toy_age (ex_env (VarText (lit "AGE-SECRET-carol")) VarUnset ex_time true) (md_recipients (fl_meta small_df)) = Err EMissingDataKey.
Proof. split; [by_vm|]. split; [by_vm|]. split; by_vm. Qed.

(** C26: after a removal the removed recipient has no entry and all entries wrap a newly drawn data key. *)
Theorem C26_removed_age : forall tp ag (W : env -> Prop) E r df n df' u n', W E -> distinct_recipients (md_recipients (fl_meta df)) -> file_remove_age tp ag E r df n = (df', Ok (Some u, n')) ->
  let rc := md_recipients (fl_meta df) in let rc' := md_recipients (fl_meta df') in
  fl_map df' = fl_map df /\ md_mac (fl_meta df') = md_mac (fl_meta df) /\ md_modified (fl_meta df') = md_modified (fl_meta df)
  /\ md_partial (fl_meta df') = md_partial (fl_meta df) /\ md_only (fl_meta df') = md_only (fl_meta df)
  /\ u_key u = r /\ In u (rc_age rc)
  /\ (forall k, In k (map u_key (rc_age rc')) <-> In k (map u_key (rc_age rc)) /\ k <> r)
  /\ map u_key (rc_kms rc') = map u_key (rc_kms rc) /\ all_wrap ag W (draw_key tp n) rc'.
Proof. intros. eapply removed_age; eauto. Qed.
Print Assumptions C26_removed_age.

Theorem C26_removed_kms : forall tp ag (W : env -> Prop) E r df n df' u n', W E -> distinct_recipients (md_recipients (fl_meta df)) -> file_remove_kms tp ag E r df n = (df', Ok (Some u, n')) ->
  let rc := md_recipients (fl_meta df) in let rc' := md_recipients (fl_meta df') in
  fl_map df' = fl_map df /\ md_mac (fl_meta df') = md_mac (fl_meta df) /\ md_modified (fl_meta df') = md_modified (fl_meta df)
  /\ md_partial (fl_meta df') = md_partial (fl_meta df) /\ md_only (fl_meta df') = md_only (fl_meta df)
  /\ u_key u = r /\ In u (rc_kms rc)
  /\ (forall k, In k (map u_key (rc_kms rc')) <-> In k (map u_key (rc_kms rc)) /\ k <> r)
  /\ map u_key (rc_age rc') = map u_key (rc_age rc) /\ all_wrap ag W (draw_key tp n) rc'.
Proof. intros. eapply removed_kms; eauto. Qed.
Print Assumptions C26_removed_kms.

(** C26: a file whose entries wrap [draw_key tp n] is encrypted under that key: all values and the MAC. *)
Theorem C26_next_encryption : forall re tp ag W E f fo df n m ef m', age_law ag -> kms_law W -> W E -> all_wrap ag W (draw_key tp n) (md_recipients (fl_meta df)) ->
  file_encrypt re tp ag E f fo df m = Ok (ef, m') ->
  md_recipients (fl_meta ef) = md_recipients (fl_meta df)
  /\ (exists em dm, document f df dm /\ enc_map_from_internal fo em = Ok (fl_map ef) /\ encrypted_under (draw_key tp n) em dm)
  /\ gcm_encrypt (draw_key tp n) (ev_nonce (md_mac (fl_meta ef))) (timestamp_text (md_modified (fl_meta ef))) (md_mac (fl_meta df))
     = Some (ev_data (md_mac (fl_meta ef)), ev_tag (md_mac (fl_meta ef))).
Proof. intros. eapply next_encryption; eauto. Qed.
Print Assumptions C26_next_encryption.

Definition without_alice : dfile := Eval vm_compute in fst (file_remove_age ex_tape toy_age ex_here (lit "age1alice") small_df 50).
Definition reencrypted : efile := Eval vm_compute in fst (get (no_efile, 0) (file_encrypt ex_re ex_tape toy_age ex_here Yaml Yaml without_alice 60)).
Example C26_witness : omap (fun x => option_map u_key (fst x)) (snd (file_remove_age ex_tape toy_age ex_here (lit "age1alice") small_df 50)) = Ok (Some (lit "age1alice"))
  /\ map u_key (rc_age (md_recipients (fl_meta without_alice))) = [lit "age1bob"]
  /\ retrieve_data_key toy_age ex_at_bob (md_recipients (fl_meta without_alice)) = Ok (draw_key ex_tape 50)
  /\ retrieve_data_key toy_age ex_at_kms (md_recipients (fl_meta without_alice)) = Ok (draw_key ex_tape 50)
  /\ draw_key ex_tape 50 <> draw_key ex_tape 0
  /\ file_encrypt ex_re ex_tape toy_age ex_here Yaml Yaml without_alice 60 = Ok (reencrypted, 63)
  /\ omap fl_map (file_decrypt ex_re toy_age ex_at_bob Yaml Yaml reencrypted) = Ok small_doc
  /\ file_decrypt ex_re toy_age (ex_env (VarText ex_alice) VarUnset ex_time true) Yaml Yaml reencrypted = Err EMissingDataKey.
Proof.
  split; [by_vm|]. split; [by_vm|]. split; [by_vm|]. split; [by_vm|]. split; [intro H; vm_compute in H; discriminate|]. split; [by_vm|]. split; by_vm.
Qed.

(** C27: removing an absent recipient changes nothing. *)
Theorem C27_absent_age : forall tp ag E r df n, ~ In r (map u_key (rc_age (md_recipients (fl_meta df)))) -> file_remove_age tp ag E r df n = (df, Ok (None, n)).
Proof. intros. now apply absent_age. Qed.
Print Assumptions C27_absent_age.
Theorem C27_absent_kms : forall tp ag E r df n, ~ In r (map u_key (rc_kms (md_recipients (fl_meta df)))) -> file_remove_kms tp ag E r df n = (df, Ok (None, n)).
Proof. intros. now apply absent_kms. Qed.
Print Assumptions C27_absent_kms.
Example C27_witness : ~ In (lit "age1carol") (map u_key (rc_age (md_recipients (fl_meta small_df)))) /\ length (rc_age (md_recipients (fl_meta small_df))) = 2.
Proof. split; [|by_vm]. intro H. vm_compute in H. repeat (destruct H as [H|H]; [discriminate H|]). destruct H. Qed.

(** C28.  The full statement is: [file_remove_age tp ag E r df n = (df', Err e) -> df' = df] (and the same for KMS).
    It is false: entries are removed and rewrapped one by one (metadata/core.rs:108-137).  Here KMS is unreachable when Alice is
    removed: the file is left without Alice, and the entries of Bob and of KMS open to different data keys. *)
Definition kms_down : env := ex_env ex_age_var ex_kms_var ex_time false.
Definition half_removed : dfile := Eval vm_compute in fst (file_remove_age ex_tape toy_age kms_down (lit "age1alice") small_df 50).
Theorem C28_atomic_refuted : exists tp ag (W : env -> Prop) E E1 E2 r df n df' k1 k2, age_law ag /\ kms_law W /\ W E /\ W E1 /\ W E2
  /\ file_remove_age tp ag E r df n = (df', Err EIntegration) /\ df' <> df
  /\ map u_key (rc_age (md_recipients (fl_meta df'))) <> map u_key (rc_age (md_recipients (fl_meta df)))
  /\ retrieve_data_key ag E1 (md_recipients (fl_meta df')) = Ok k1 /\ retrieve_data_key ag E2 (md_recipients (fl_meta df')) = Ok k2 /\ k1 <> k2.
Proof.
  exists ex_tape, toy_age, toy_world, kms_down, ex_at_bob, ex_at_kms, (lit "age1alice"), small_df, 50, half_removed, (draw_key ex_tape 50), (draw_key ex_tape 0).
  split; [exact toy_age_law|]. split; [exact toy_kms_law|]. split; [apply ex_env_world|]. split; [apply ex_env_world|]. split; [apply ex_env_world|]. split; [by_vm|].
  split; [intro H; apply (f_equal (fun d => length (rc_age (md_recipients (fl_meta d))))) in H; vm_compute in H; discriminate|].
  split; [intro H; vm_compute in H; discriminate|]. split; [by_vm|]. split; [by_vm|]. intro H. vm_compute in H. discriminate.
Qed.
Print Assumptions C28_atomic_refuted.

(** What does hold whatever the outcome: the document, MAC, timestamp and options are kept, only the removed recipient can lose
    its entry, and without KMS entries the operation does not fail. *)
Theorem C28_age_partial : forall tp ag E r df n df' o, file_remove_age tp ag E r df n = (df', o) ->
  let rc := md_recipients (fl_meta df) in let rc' := md_recipients (fl_meta df') in
  fl_map df' = fl_map df /\ md_mac (fl_meta df') = md_mac (fl_meta df) /\ md_modified (fl_meta df') = md_modified (fl_meta df)
  /\ md_partial (fl_meta df') = md_partial (fl_meta df) /\ md_only (fl_meta df') = md_only (fl_meta df)
  /\ (forall k, In k (map u_key (rc_age rc')) -> In k (map u_key (rc_age rc))) /\ (forall k, k <> r -> In k (map u_key (rc_age rc)) -> In k (map u_key (rc_age rc')))
  /\ map u_key (rc_kms rc') = map u_key (rc_kms rc)
  /\ (rc_kms rc = [] -> exists x, o = Ok x).
Proof. intros. eapply remove_age_any; eauto. Qed.
Print Assumptions C28_age_partial.
Theorem C28_kms_partial : forall tp ag E r df n df' o, file_remove_kms tp ag E r df n = (df', o) ->
  let rc := md_recipients (fl_meta df) in let rc' := md_recipients (fl_meta df') in
  fl_map df' = fl_map df /\ md_mac (fl_meta df') = md_mac (fl_meta df) /\ md_modified (fl_meta df') = md_modified (fl_meta df)
  /\ md_partial (fl_meta df') = md_partial (fl_meta df) /\ md_only (fl_meta df') = md_only (fl_meta df)
  /\ (forall k, In k (map u_key (rc_kms rc')) -> In k (map u_key (rc_kms rc))) /\ (forall k, k <> r -> In k (map u_key (rc_kms rc)) -> In k (map u_key (rc_kms rc')))
  /\ map u_key (rc_age rc') = map u_key (rc_age rc)
  /\ ((forall k, In k (map u_key (rc_kms rc)) -> k = r) -> distinct_units (rc_kms rc) -> exists x, o = Ok x).
Proof. intros. eapply remove_kms_any; eauto. Qed.
Print Assumptions C28_kms_partial.
Example C28_witness : (forall k, In k (map u_key (rc_kms (md_recipients (fl_meta small_df)))) -> k = ex_kms)
  /\ omap snd (snd (file_remove_kms ex_tape toy_age kms_down ex_kms small_df 50)) = Ok 53.
Proof. split; [|by_vm]. intros k H. replace (map u_key _) with [ex_kms] in H by (symmetry; by_vm). destruct H as [<-|[]]. reflexivity. Qed.

(** C29.  The full statement is: encrypting with the saved parameters after a removal gives a file that the remaining recipients
    decrypt,
      [file_decrypt_save .. = Ok (df, sv) -> file_remove_age .. df .. = (df', Ok (Some u, _)) -> file_encrypt_saved .. sv df' .. = Ok (ef', _) ->
       can_open ag E (md_recipients (fl_meta ef')) -> exists df'', file_decrypt .. E .. ef' = Ok df''].
    It is false: the saved parameters carry the old data key (file/core.rs:113-127). *)
Definition stale_ef : efile := Eval vm_compute in fst (get (no_efile, 0) (file_encrypt_saved ex_re ex_tape Yaml Yaml small_sv without_alice 70)).
Theorem C29_rotation_refuted : exists re tp ag W E E' f ef df sv r n df' u n' m ef' m',
  age_law ag /\ kms_law W /\ W E /\ W E' /\ file_decrypt_save re ag E f f ef = Ok (df, sv) /\ file_remove_age tp ag E r df n = (df', Ok (Some u, n'))
  /\ file_encrypt_saved re tp f f sv df' m = Ok (ef', m') /\ can_open ag E' (md_recipients (fl_meta ef')) /\ file_decrypt re ag E' f f ef' = Err ECipher.
Proof.
  exists ex_re, ex_tape, toy_age, toy_world, ex_here, ex_at_bob, Yaml, small_ef, small_df, small_sv, (lit "age1alice"), 50, without_alice.
  eexists _, _, 70, stale_ef, 70. split; [exact toy_age_law|]. split; [exact toy_kms_law|]. split; [apply ex_env_world|]. split; [apply ex_env_world|].
  split; [exact small_opened|]. split; [vm_compute; reflexivity|]. split; [by_vm|]. split; [|by_vm].
  apply open_age with (ids := [ex_bob]) (i := ex_bob); [reflexivity|now left|]. vm_compute. tauto.
Qed.
Print Assumptions C29_rotation_refuted.

(** What such a file is accepted for: only if the MAC's tag is right under both the saved and the recipients' key, so for different
    keys only by a tag collision. *)
Theorem C29_stale_parameters_partial : forall re tp ag E f fo sv df n ef n' key dfo, file_encrypt_saved re tp f fo sv df n = Ok (ef, n') ->
  retrieve_data_key ag E (md_recipients (fl_meta df)) = Ok key -> file_decrypt re ag E fo fo ef = Ok dfo ->
  let mac := md_mac (fl_meta ef) in let lm := timestamp_text (md_modified (fl_meta df)) in
  gcm_tag (sv_key sv) (ev_nonce mac) lm (ev_data mac) = gcm_tag key (ev_nonce mac) lm (ev_data mac).
Proof. intros. eapply stale_parameters; eauto. Qed.
Print Assumptions C29_stale_parameters_partial.
Example C29_witness : retrieve_data_key toy_age ex_here (md_recipients (fl_meta small_df)) = Ok (sv_key small_sv)
  /\ file_encrypt_saved ex_re ex_tape Yaml Yaml small_sv small_df 70 = Ok (small_ef, 70).
Proof. split; by_vm. Qed.
