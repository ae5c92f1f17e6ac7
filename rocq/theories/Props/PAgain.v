(** A file can be decrypted in place and encrypted again. *)
From Verif.Model Require Import Cli Json Chrono.
From Verif.Spec Require Import SpecCli SpecJson.
From Verif.Proofs Require Import BytesFacts ValueFacts DocumentFacts CliRun CliDoes CliDoc JsonFacts NormalAgain.
From Verif.Props Require Import PMap PFormat ExWorld ExCodec PDocument PCli PCliDoc PJson PJsonCli.
Open Scope byte_scope.

(** * C84 *)

Section Worlds.
  Context (re : regex_engine) (tp : tape) (ag : age_crate) (cd : codec) (W : env -> Prop) (g : f64 -> f64).
  Context (AL : age_law ag) (KL : kms_law W) (TL : time_law cd) (PW : plain_world ag W).

  Lemma history_plain : forall p f m s, history re tp ag cd W g p f m s -> exists dm, plain_document g f m dm.
  Proof. intros p f m s H. induction H; eauto. Qed.

  (** Somebody who can open the file decrypts it in place; somebody encrypts it again, for whomever and under any rule.  The file then
      holds the document, with everything that C55, C62 and C63 say about such files.  Full statement: as for C55. *)
  Theorem C84_partial : forall O O' a b p f m dm s s1 s2 rules, text_law cd f -> codec_law cd g f -> history re tp ag cd W g p f m s -> dec_map_to_internal f m = Ok dm ->
    W (os_env O) -> no_failures O -> os_temp O <> p -> os_stdin O = None -> in_file (pl_input a) = Some p -> get_format (Some p) (in_format (pl_input a)) = Ok f -> is_set (pl_in_place a) = true ->
    configured re ag cd O (sy_file s) (in_config (pl_input a)) rules ->
    (forall t ef, sy_file s p = Content t -> read_efile (re_valid re) ag cd f t = Ok ef -> can_open ag (os_env O) (md_recipients (fl_meta ef))) ->
    run_command re tp ag cd O (Decrypt a) s = (s1, Ok tt) ->
    W (os_env O') -> no_failures O' -> os_temp O' <> p -> in_file (ea_input b) = Some p -> get_format (Some p) (in_format (ea_input b)) = Ok f -> is_set (ea_in_place b) = true -> plain_keys ag (ea_keys b) ->
    (forall pa, ea_partial b = Some pa -> exists q, option_given pa q /\ plain_rule (re_valid re) (Some q) /\ colon_safe_map (Some q) dm) ->
    (forall rules r, configured re ag cd O' (sy_file s1) (in_config (ea_input b)) rules -> first_matching re rules (path_to_match (Some p)) r -> good_rule re ag dm r) ->
    run_command re tp ag cd O' (Encrypt b) s1 = (s2, Ok tt) ->
    (exists x, sy_file s1 p = Content x /\ read_map cd f x = Ok (normal_doc m)) /\ history re tp ag cd W g p f (normal_doc m) s2
    /\ exists t ef, sy_file s2 p = Content t /\ read_efile (re_valid re) ag cd f t = Ok ef /\ decrypts_to re ag cd W f t ef (normal_doc m).
  Proof.
    intros O O' a b p f m dm s s1 s2 rules TX CL H A WE NF NT SI IF GF IP CF CO R WE' NF' NT' IF' GF' IP' PK PO PR R'.
    destruct (C61_decrypt_partial re tp ag cd W g AL KL TL PW O a p f m s rules TX CL H WE NF NT SI IF GF CF CO) as (s1' & x & R1 & RM & X). rewrite R in R1. injection R1 as <-. rewrite IP in X. destruct X as [F1 _].
    destruct (history_plain _ _ _ _ H) as (dm' & PD). assert (dm' = dm) by (destruct PD as (_ & Q & _); congruence). subst dm'. apply normal_plain in PD.
    destruct (ran re tp ag cd O' (Encrypt b) s1 s2 p NF' NT') as (t & C & F2); [cbn [output_file]; rewrite IP'; exact IF'|intros q Q; discriminate Q|exact R'|].
    assert (HI : history re tp ag cd W g p f (normal_doc m) s2).
    { eapply (C61_encrypt_partial re tp ag cd W g O' b (sy_file s1) (sy_draws s1) t x p f (normal_doc m) dm s2); auto; rewrite IF' in *; auto.
      assert (OS : exists y, only_source O' (sy_file s1) (Some p) y). { destruct C as (? & ? & y & _ & OS & _). cbn [input_file] in OS. rewrite IF' in OS. eauto. }
      destruct OS as (y & OS). rewrite <- (only_here O' (sy_file s1) (Some p) p x y eq_refl F1 OS). exact OS. }
    split; [eauto|]. split; auto. pose proof (held_decrypts re tp ag cd W g AL KL p f (normal_doc m) s2 (history_holds re tp ag cd W g AL KL TL PW p f _ s2 CL HI)) as D. now rewrite normal_doc_again in D.
  Qed.
End Worlds.
Print Assumptions C84_partial.

(** For JSON files with no law assumed of the text format. *)
Theorem C84_json_partial : forall re tp ag cd W O O' a b p m dm s s1 s2 rules, age_law ag -> kms_law W -> plain_world ag W ->
  let jc := json_codec cd in
  history re tp ag jc W json_float p Json m s -> dec_map_to_internal Json m = Ok dm ->
  W (os_env O) -> no_failures O -> os_temp O <> p -> os_stdin O = None -> in_file (pl_input a) = Some p -> get_format (Some p) (in_format (pl_input a)) = Ok Json -> is_set (pl_in_place a) = true ->
  configured re ag jc O (sy_file s) (in_config (pl_input a)) rules ->
  (forall t ef, sy_file s p = Content t -> read_efile (re_valid re) ag jc Json t = Ok ef -> can_open ag (os_env O) (md_recipients (fl_meta ef))) ->
  run_command re tp ag jc O (Decrypt a) s = (s1, Ok tt) ->
  W (os_env O') -> no_failures O' -> os_temp O' <> p -> in_file (ea_input b) = Some p -> get_format (Some p) (in_format (ea_input b)) = Ok Json -> is_set (ea_in_place b) = true -> plain_keys ag (ea_keys b) ->
  (forall pa, ea_partial b = Some pa -> exists q, option_given pa q /\ plain_rule (re_valid re) (Some q) /\ colon_safe_map (Some q) dm) ->
  (forall rules r, configured re ag jc O' (sy_file s1) (in_config (ea_input b)) rules -> first_matching re rules (path_to_match (Some p)) r -> good_rule re ag dm r) ->
  run_command re tp ag jc O' (Encrypt b) s1 = (s2, Ok tt) ->
  (exists x, sy_file s1 p = Content x /\ read_map jc Json x = Ok (normal_doc m)) /\ history re tp ag jc W json_float p Json (normal_doc m) s2
  /\ exists t ef, sy_file s2 p = Content t /\ read_efile (re_valid re) ag jc Json t = Ok ef /\ decrypts_to re ag jc W Json t ef (normal_doc m).
Proof.
  intros re tp ag cd W O O' a b p m dm s s1 s2 rules AL KL PW jc. exact (C84_partial re tp ag (json_codec cd) W json_float AL KL (json_codec_time cd) PW O O' a b p Json m dm s s1 s2 rules (with_json_text cd) (json_codec_law cd)).
Qed.
Print Assumptions C84_json_partial.

(** The small file is decrypted in place and encrypted again for Alice alone, with an unencrypted suffix. *)
Definition open_cmd : command := Decrypt {| pl_input := {| in_config := None; in_format := None; in_file := Some ex_path |}; pl_in_place := Some true |}.
Definition opened_text : bytes := Eval vm_compute in file_after (ran_on [] open_cmd ex_start) ex_path.
Definition again_text : bytes := Eval vm_compute in file_after (ran_on [] (Encrypt ex_args) (ex_with ex_config_text opened_text 30)) ex_path.
Example C84_witness : ex_history small_doc ex_start
  /\ (snd (ran_on [] open_cmd ex_start), sy_file (fst (ran_on [] open_cmd ex_start)) ex_path) = (Ok tt, Content opened_text)
  /\ read_map ex_codec Yaml opened_text = Ok (normal_doc small_doc)
  /\ (let r := ran_on [] (Encrypt ex_args) (ex_with ex_config_text opened_text 30) in (snd r, sy_file (fst r) ex_path)) = (Ok tt, Content again_text)
  /\ again_text <> small_text /\ decrypt_text ex_re toy_age ex_codec ex_here Yaml again_text = Ok opened_text.
Proof. split; [apply small_history; reflexivity|]. split; [by_vm|]. split; [by_vm|]. split; [by_vm|]. split; [|by_vm]. vm_compute. discriminate. Qed.
