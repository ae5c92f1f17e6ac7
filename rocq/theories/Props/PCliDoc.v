(** Properties of sequences of commands on a file: C36 (converse), C40, C55, C61, C62, C63. *)
From Verif.Model Require Import Cli.
From Verif.Spec Require Import SpecCli.
From Verif.Proofs Require Import BytesFacts Utf8Facts ValueFacts IntFacts IntegrationFacts FileFacts FileSafety FileKeys DocumentFacts DocumentFile CliPath EditorFacts CliRun CliDoes CliDoc.
From Verif.Props Require Import PMap PFormat ExWorld ExCodec PFile PDocument PCli.
Open Scope byte_scope.

Local Open Scope nat_scope.

(** * C36, converse *)

(** If the result can be computed and nothing fails, the command succeeds and delivers it. *)
Theorem C36_complete : forall re tp ag cd O c s t, no_failures O -> ready O c -> computes re tp ag cd O c (sy_file s) (sy_draws s) t ->
  exists s', run_command re tp ag cd O c s = (s', Ok tt)
  /\ match output_file O c with
     | Some p => sy_file s' p = Content t /\ sy_out s' = sy_out s /\ forall q, q <> p -> q <> os_temp O -> sy_file s' q = sy_file s q
     | None => sy_out s' = sy_out s ++ t ++ [x0a] /\ forall q, q <> os_temp O -> sy_file s' q = sy_file s q
     end.
Proof. intros re tp ag cd O c s t NF RD C. now apply run_does. Qed.
Print Assumptions C36_complete.

Lemma ex_configured : configured ex_re toy_age ex_codec (ex_os []) ex_files None ex_rules.
Proof. apply C41_witness. Qed.
Example C36_complete_witness : no_failures (ex_os []) /\ ready (ex_os []) ex_add /\ computes ex_re ex_tape toy_age ex_codec (ex_os []) ex_add ex_files 0 added_text.
Proof.
  split; [now intros h o|]. split; [exact Logic.I|]. exists ex_rules, Yaml, small_text. split; [exact ex_configured|]. split; [left; exists ex_path; now repeat split|]. split; [reflexivity|]. split; [reflexivity|].
  exists 1. by_vm.
Qed.

(** * C55 *)

Section Worlds.
  Context (re : regex_engine) (tp : tape) (ag : age_crate) (cd : codec) (W : env -> Prop) (g : f64 -> f64).

  Lemma file_text_valid : forall f ef t, text_law cd f -> file_text cd f ef = Ok t -> utf8_valid t = true.
  Proof. intros f ef t TX H. unfold file_text, written in H. destruct (cd_write cd f (efile_entries ef)) eqn:E; try discriminate. injection H as <-. apply utf8_valid_iff. eapply TX; eauto. Qed.

  Context (AL : age_law ag) (KL : kms_law W) (TL : time_law cd) (PW : plain_world ag W).

  Lemma held_decrypts : forall p f m s, held re tp ag cd W g p f m s ->
    exists t ef, sy_file s p = Content t /\ read_efile (re_valid re) ag cd f t = Ok ef /\ decrypts_to re ag cd W f t ef (normal_doc m).
  Proof.
    intros p f m s (t & ef & key & dm & F & ST & _ & _ & TS & D). exists t, ef. split; auto. split; [apply ST|]. intros E WE CO. eapply decrypts; eauto.
  Qed.
  Lemma only_here : forall O (fs : bytes -> node) path p t x, path = Some p -> fs p = Content t -> only_source O fs path x -> x = t.
  Proof. intros O fs path p t x -> F [(q & Q & _ & FX)|(Q & _)]; congruence. Qed.
  Lemma one_configuration : forall O fs arg rules rules', configured re ag cd O fs arg rules -> configured re ag cd O fs arg rules' -> rules = rules'.
  Proof.
    intros O fs arg rules rules' (src & S1 & C1) (src' & S2 & C2). rewrite <- (C41_unique _ _ _ _ _ S1 S2) in C2. destruct src as [q|]; [|congruence].
    destruct C1 as (x & F1 & _ & R1), C2 as (x' & F2 & _ & R2). congruence.
  Qed.
  Lemma written_file : forall O c s s' l1 t l2 o p, no_failures O -> os_temp O <> p -> output_file O c = Some p -> delivered O t (output_file O c) l2 o -> sy_file s' = replay (l1 ++ l2) (sy_file s) -> sy_file s' p = Content t.
  Proof.
    intros O c s s' l1 t l2 o p NF NT OF D FS. assert (X : ~ some_failure O) by (intros (h & e & G); apply G, NF). rewrite OF in D.
    inversion D as [E1 E2 E3|u SF E1 E2 E3|q SF E1 E2 E3|q k SF E1 E2 E3|q E1 E2 E3]; try tauto; subst l2. rewrite FS, replay_app. apply written_here.
  Qed.
  Lemma ran : forall O c s s' p, no_failures O -> os_temp O <> p -> output_file O c = Some p -> (forall a, c <> Edit a) -> run_command re tp ag cd O c s = (s', Ok tt) ->
    exists t, computes re tp ag cd O c (sy_file s) (sy_draws s) t /\ sy_file s' p = Content t.
  Proof.
    intros O c s s' p NF NT OF NE R. apply run_trace in R. destruct R as (l1 & _ & [(_ & _ & _ & CA)|(t & l2 & C & D & _ & FS & _)]).
    - destruct (CA eq_refl) as (a & _ & _ & _ & _ & _ & _ & _ & _ & _ & _ & _ & _ & _ & E & _). destruct (NE a E).
    - exists t. split; auto. eapply written_file; eauto.
  Qed.

  (** Full statement: for all recipients, documents and rules, and with failing writes.  What can not be stored or read is excluded:
      see C08, C43, C45, C46, C48, C57, C58 and [C55_refuted]; a write that fails can truncate the file (C37). *)
  Theorem C55_partial : forall p f m dm s s', codec_law cd g f -> history re tp ag cd W g p f m s -> dec_map_to_internal f m = Ok dm -> sequence re tp ag cd W p f dm s s' ->
    exists t ef, sy_file s' p = Content t /\ read_efile (re_valid re) ag cd f t = Ok ef /\ decrypts_to re ag cd W f t ef (normal_doc m).
  Proof. intros p f m dm s s' CL H A SQ. apply held_decrypts, history_holds; auto. eapply hi_more; eauto. Qed.

  (** * C62 *)

  (** After an edit that ended with the document [m'], the file decrypts to [m'], for the same recipients and under the same rule.
      Full statement: as for C55. *)
  Theorem C62_partial : forall O a p f m m' dm' s s' t0 t ef, codec_law cd g f -> history re tp ag cd W g p f m s -> W (os_env O) -> no_failures O -> os_temp O <> p ->
    in_file a = Some p -> get_format (Some p) (in_format a) = Ok f -> map_text cd f (normal_doc m) = Ok t0 -> session cd O f t0 m' -> plain_document g f m' dm' ->
    sy_file s p = Content t -> read_efile (re_valid re) ag cd f t = Ok ef -> colon_safe_map (md_partial (fl_meta ef)) dm' -> run_command re tp ag cd O (Edit a) s = (s', Ok tt) ->
    history re tp ag cd W g p f m' s'
    /\ exists t' ef', sy_file s' p = Content t' /\ read_efile (re_valid re) ag cd f t' = Ok ef' /\ decrypts_to re ag cd W f t' ef' (normal_doc m')
       /\ md_recipients (fl_meta ef') = md_recipients (fl_meta ef) /\ md_partial (fl_meta ef') = md_partial (fl_meta ef) /\ md_only (fl_meta ef') = md_only (fl_meta ef).
  Proof.
    intros O a p f m m' dm' s s' t0 t ef CL H WE NF NT IF GF MT SE PD F R CS X. assert (H' : history re tp ag cd W g p f m' s').
    { eapply (hi_edited re tp ag cd W g p f m m' dm' O a s s' t0); eauto. intros u eu Fu Ru. rewrite F in Fu. injection Fu as <-. rewrite R in Ru. now injection Ru as <-. }
    split; auto. assert (HE : held re tp ag cd W g p f m s) by (apply history_holds; auto).
    destruct (edit_run re tp ag cd W g AL KL TL PW p f m m' dm' O a s s' t0 HE WE NF IF GF MT SE PD) as (HE' & t1 & ef1 & t' & ef' & F1 & R1 & F' & R' & Q1 & Q2 & Q3); auto.
    { intros u eu Fu Ru. rewrite F in Fu. injection Fu as <-. rewrite R in Ru. now injection Ru as <-. }
    rewrite F in F1. injection F1 as <-. rewrite R in R1. injection R1 as <-. destruct (held_decrypts p f m' s' HE') as (t2 & ef2 & F2 & R2 & D2). rewrite F' in F2. injection F2 as <-. rewrite R' in R2. injection R2 as <-.
    exists t', ef'. auto 10.
  Qed.

  (** * C61 *)

  (** The text that rops encrypt computes from a text that reads as [m], wherever it is stored, begins a history. *)
  Theorem C61_encrypt_partial : forall O a fs n t x p f m dm s, W (os_env O) -> computes re tp ag cd O (Encrypt a) fs n t -> only_source O fs (in_file (ea_input a)) x ->
    get_format (in_file (ea_input a)) (in_format (ea_input a)) = Ok f -> read_map cd f x = Ok m -> plain_document g f m dm -> plain_keys ag (ea_keys a) ->
    (forall pa, ea_partial a = Some pa -> exists q, option_given pa q /\ plain_rule (re_valid re) (Some q) /\ colon_safe_map (Some q) dm) ->
    (forall rules r, configured re ag cd O fs (in_config (ea_input a)) rules -> first_matching re rules (path_to_match (in_file (ea_input a))) r -> good_rule re ag dm r) ->
    sy_file s p = Content t -> history re tp ag cd W g p f m s.
  Proof.
    intros O a fs n t x p f m dm s WE (rules & f' & x' & CF & OS & _ & GF' & n' & C) OS' GF RM PD [PA PK] PO PR F. cbn [input_file config_path] in *.
    rewrite GF in GF'. injection GF' as <-. assert (x' = x). { destruct OS as [(q & Q & Z & FX)|(Q & Z)], OS' as [(q' & Q' & Z' & FX')|(Q' & Z')]; congruence. } subst x'.
    apply encrypt_text_ok in C. destruct C as (m' & pr & ef & RM' & T & P & B & _). rewrite RM in RM'. injection RM' as <-.
    change m with (bd_map {| bd_map := m; bd_partial := pr; bd_only := if is_set (ea_only (merge_encrypt re rules a)) then Some true else None; bd_age := ks_age (ea_keys (merge_encrypt re rules a)); bd_kms := ks_kms (ea_keys (merge_encrypt re rules a)) |}).
    specialize (PR rules). destruct (C38_merge re rules a _ eq_refl) as [MR MN].
    assert (X : plain_keys ag (ea_keys (merge_encrypt re rules a)) /\ plain_rule (re_valid re) pr /\ colon_safe_map pr dm).
    { assert (G : forall pa q, ea_partial a = Some pa -> partial_of_args pa = Ok q -> plain_rule (re_valid re) (Some q) /\ colon_safe_map (Some q) dm).
      { intros pa q EP Q. destruct (PO pa EP) as (q' & OG & Z). rewrite (given_option _ _ OG) in Q. now injection Q as <-. }
      destruct (find_first re rules (path_to_match (in_file (ea_input a)))) as [(r & FM & _)|(NM & _)].
      - destruct (MR r FM) as (KA & KK & PS & PN). destruct (PR r CF FM) as ([G1 G2] & G3 & G4). split; [split; [rewrite KA|rewrite KK]; apply Forall_app; auto|].
        destruct (ea_partial a) as [pa|] eqn:EP.
        + rewrite (PS _ eq_refl) in P. destruct P as (q & P & ->). eapply G; eauto.
        + specialize (PN eq_refl). destruct (cr_partial r) as [q|].
          * destruct PN as (pa & PN & OG). rewrite PN in P. destruct P as (q' & P & ->). rewrite (given_option _ _ OG) in P. injection P as <-. auto.
          * rewrite PN in P. subst pr. auto.
      - rewrite MN in * by exact NM. split; [now split|]. destruct (ea_partial a) as [pa|] eqn:EP.
        + destruct P as (q & P & ->). eapply G; eauto.
        + subst pr. split; [exact Logic.I|]. intros ks v _. right. exact Logic.I. }
    destruct X as ([XA XK] & XR & XC). eapply hi_encrypted; eauto. now split.
  Qed.

  (** What rops decrypt does with such a file: it succeeds, and what it prints or writes reads as the document.
      Full statement: as for C55. *)
  Theorem C61_decrypt_partial : forall O a p f m s rules, text_law cd f -> codec_law cd g f -> history re tp ag cd W g p f m s -> W (os_env O) -> no_failures O -> os_temp O <> p -> os_stdin O = None ->
    in_file (pl_input a) = Some p -> get_format (Some p) (in_format (pl_input a)) = Ok f -> configured re ag cd O (sy_file s) (in_config (pl_input a)) rules ->
    (forall t ef, sy_file s p = Content t -> read_efile (re_valid re) ag cd f t = Ok ef -> can_open ag (os_env O) (md_recipients (fl_meta ef))) ->
    exists s' t, run_command re tp ag cd O (Decrypt a) s = (s', Ok tt) /\ read_map cd f t = Ok (normal_doc m)
    /\ if is_set (pl_in_place a) then sy_file s' p = Content t /\ sy_out s' = sy_out s else sy_file s' p = sy_file s p /\ sy_out s' = sy_out s ++ t ++ [x0a].
  Proof.
    intros O a p f m s rules TX CL H WE NF NT SI IF GF CF CO. destruct (history_holds re tp ag cd W g AL KL TL PW p f m s CL H) as (t & ef & key & dm & F & ST & _ & _ & TS & D).
    pose proof ST as (R & _ & _ & FT & _). destruct (decrypts re tp ag cd W g AL KL _ f t ef key dm _ WE ST TS (CO _ _ F R) D) as (t' & DT & RM).
    assert (C : computes re tp ag cd O (Decrypt a) (sy_file s) (sy_draws s) t').
    { exists rules, f, t. split; auto. split; [left; exists p; auto|]. split; [eapply file_text_valid; eauto|]. rewrite IF. auto. }
    destruct (run_does re tp ag cd O NF (Decrypt a) s t') as (s' & RC & X); auto; [cbn; congruence|]. exists s', t'. split; auto. split; auto. cbn [output_file] in X. rewrite IF in X. destruct (is_set (pl_in_place a)).
    - tauto.
    - destruct X as [X1 X2]. auto.
  Qed.

  (** * C40 *)

  (** Whatever the file was: after a refresh its metadata agrees with the first matching rule; without one it is left alone. *)
  Theorem C40_agrees : forall O a fs n t, computes re tp ag cd O (Refresh a) fs n t ->
    exists rules f x, configured re ag cd O fs (in_config (pl_input a)) rules /\ get_format (in_file (pl_input a)) (in_format (pl_input a)) = Ok f /\ only_source O fs (in_file (pl_input a)) x
    /\ (forall r, first_matching re rules (path_to_match (in_file (pl_input a))) r ->
          exists ef, agrees (fl_meta ef) r /\ ((t = x /\ read_efile (re_valid re) ag cd f x = Ok ef) \/ file_text cd f ef = Ok t))
    /\ ((forall r, In r rules -> re_match re (cr_path r) (path_to_match (in_file (pl_input a))) = false) -> t = x).
  Proof.
    intros O a fs n t (rules & f & x & CF & OS & _ & GF & n' & C). cbn [input_file config_path] in *. exists rules, f, x. repeat (split; auto).
    - intros r FM. destruct (refresh_agrees re tp ag cd _ _ _ _ _ _ _ _ _ FM C) as (ef & A & [(-> & _ & R)|T]); exists ef; split; auto.
    - intro N. unfold refresh_text in C. apply bind_ok in C. destruct C as (ef & _ & C). destruct (find_first re rules (path_to_match (in_file (pl_input a)))) as [(r & (u & v & -> & M & _) & _)|(_ & Q)].
      + rewrite N in M; [discriminate|]. apply in_or_app. right. now left.
      + rewrite Q in C. now injection C as <- _.
  Qed.

  (** The document survives, and a second refresh changes nothing.  Full statement: also for rules with [mac_only_encrypted = false],
      for which it is false ([C40_refuted]), and otherwise as for C55. *)
  Theorem C40_refresh_partial : forall O a p f m dm s s' rules r, codec_law cd g f -> history re tp ag cd W g p f m s -> dec_map_to_internal f m = Ok dm -> W (os_env O) -> no_failures O -> os_temp O <> p ->
    is_set (pl_in_place a) = true -> in_file (pl_input a) = Some p -> get_format (Some p) (in_format (pl_input a)) = Ok f ->
    configured re ag cd O (sy_file s) (in_config (pl_input a)) rules -> first_matching re rules (path_to_match (Some p)) r -> good_rule re ag dm r ->
    run_command re tp ag cd O (Refresh a) s = (s', Ok tt) ->
    exists t ef, sy_file s' p = Content t /\ read_efile (re_valid re) ag cd f t = Ok ef /\ decrypts_to re ag cd W f t ef (normal_doc m) /\ agrees (fl_meta ef) r
    /\ (cr_only r <> Some false -> forall O' s'' o, no_failures O' -> os_temp O' <> p -> configured re ag cd O' (sy_file s') (in_config (pl_input a)) rules ->
         run_command re tp ag cd O' (Refresh a) s' = (s'', o) -> sy_file s'' p = Content t).
  Proof.
    intros O a p f m dm s s' rules r CL H A WE NF NT IP IF GF CF FM GR RC. destruct (history_holds re tp ag cd W g AL KL TL PW p f m s CL H) as (t & ef & key & dm' & F & ST & FD & A' & TS & D).
    rewrite A in A'. injection A' as <-. assert (OF : forall O, output_file O (Refresh a) = Some p) by (intro; cbn [output_file]; now rewrite IP).
    destruct (ran O (Refresh a) s s' p NF NT (OF O)) as (t' & C & F'); auto; [discriminate|]. destruct C as (rules' & f' & x & CF' & OS & _ & GF' & n' & C). cbn [input_file config_path] in *.
    rewrite (only_here _ _ _ _ _ _ IF F OS) in C. rewrite IF in GF', C. rewrite GF in GF'. injection GF' as <-. assert (rules' = rules) by (eapply one_configuration; eauto). subst rules'.
    assert (GA : forall r', first_matching re rules (path_to_match (Some p)) r' -> good_rule re ag dm r').
    { intros r' FM'. apply first_unique in FM, FM'. rewrite FM in FM'. now injection FM' as <-. }
    destruct (refresh_keeps re tp ag cd W g AL KL TL PW _ _ _ _ _ _ _ _ _ _ _ WE ST TS GA C) as (ef' & key' & ST' & _ & AG). specialize (AG r FM). destruct AG as [AG AG2].
    exists t', ef'. split; auto. split; [apply ST'|]. split; [intros E WE' CO; eapply decrypts; eauto|]. split; auto.
    intros NS O' s'' o NF' NT' CF2 RC'. apply run_trace in RC'. destruct RC' as (l1 & TM & [(_ & FS & _)|(t2 & l2 & C2 & D2 & _ & FS & _)]).
    - rewrite FS. erewrite temp_only_keeps by eauto. exact F'.
    - assert (E : sy_file s'' p = Content t2) by (eapply written_file; eauto). rewrite E. f_equal. destruct C2 as (rules2 & f2 & x2 & CF3 & OS2 & _ & GF2 & n2 & C2). cbn [input_file config_path] in *.
      rewrite (only_here _ _ _ _ _ _ IF F' OS2) in C2. rewrite IF in GF2, C2. rewrite GF in GF2. injection GF2 as <-. assert (rules2 = rules) by (eapply one_configuration; eauto). subst rules2.
      rewrite (AG2 NS) in C2. congruence.
  Qed.

  (** * C63 *)

  (** keys add: the new recipients are added to the old ones; nothing else changes.  Full statement: as for C55. *)
  Theorem C63_add_partial : forall O a p f m s s' t ef, codec_law cd g f -> history re tp ag cd W g p f m s -> W (os_env O) -> no_failures O -> os_temp O <> p ->
    ka_file a = p -> get_format (Some p) (ka_format a) = Ok f -> plain_keys ag (ka_keys a) -> sy_file s p = Content t -> read_efile (re_valid re) ag cd f t = Ok ef ->
    run_command re tp ag cd O (AddKeys a) s = (s', Ok tt) ->
    exists t' ef', sy_file s' p = Content t' /\ read_efile (re_valid re) ag cd f t' = Ok ef' /\ decrypts_to re ag cd W f t' ef' (normal_doc m)
    /\ (forall k, In k (map u_key (rc_age (md_recipients (fl_meta ef')))) <-> In k (map u_key (rc_age (md_recipients (fl_meta ef)))) \/ In k (ks_age (ka_keys a)))
    /\ (forall k, In k (map u_key (rc_kms (md_recipients (fl_meta ef')))) <-> In k (map u_key (rc_kms (md_recipients (fl_meta ef)))) \/ In k (ks_kms (ka_keys a)))
    /\ fl_map ef' = fl_map ef /\ md_partial (fl_meta ef') = md_partial (fl_meta ef) /\ md_only (fl_meta ef') = md_only (fl_meta ef) /\ md_modified (fl_meta ef') = md_modified (fl_meta ef).
  Proof.
    intros O a p f m s s' t ef CL H WE NF NT KF GF PK F R RC. destruct (history_holds re tp ag cd W g AL KL TL PW p f m s CL H) as (t0 & ef0 & key & dm & F0 & ST & FD & A' & TS & D).
    rewrite F in F0. injection F0 as <-. assert (ef0 = ef) by (destruct ST; congruence). subst ef0.
    destruct (ran O (AddKeys a) s s' p NF NT) as (t' & C & F'); auto; [cbn; congruence|discriminate|]. destruct C as (rules' & f' & x & CF' & OS & _ & GF' & n' & C). cbn [input_file config_path] in *.
    assert (x = t). { eapply only_here; [|exact F|exact OS]. congruence. } subst x. rewrite KF in GF'. rewrite GF in GF'. injection GF' as <-.
    destruct (add_keeps re tp ag cd W g AL KL TL PW _ _ _ _ _ _ _ _ _ _ WE ST TS PK C) as (ef' & ST' & KA & KK & Q1 & Q2 & Q3 & Q4).
    exists t', ef'. split; auto. split; [apply ST'|]. split; [intros E WE' CO; eapply decrypts; eauto|]. auto 10.
  Qed.

  (** keys remove: the given recipients are gone, the others stay.  If any of the given ones was there, then the file has a data key
      drawn during the command.  Full statement: as for C55. *)
  Theorem C63_remove_partial : forall O a p f m s s' t ef, codec_law cd g f -> history re tp ag cd W g p f m s -> W (os_env O) -> no_failures O -> os_temp O <> p ->
    ka_file a = p -> get_format (Some p) (ka_format a) = Ok f -> sy_file s p = Content t -> read_efile (re_valid re) ag cd f t = Ok ef ->
    run_command re tp ag cd O (RemoveKeys a) s = (s', Ok tt) ->
    exists t' ef', sy_file s' p = Content t' /\ read_efile (re_valid re) ag cd f t' = Ok ef' /\ decrypts_to re ag cd W f t' ef' (normal_doc m)
    /\ (forall k, In k (map u_key (rc_age (md_recipients (fl_meta ef')))) <-> In k (map u_key (rc_age (md_recipients (fl_meta ef)))) /\ ~ In k (ks_age (ka_keys a)))
    /\ (forall k, In k (map u_key (rc_kms (md_recipients (fl_meta ef')))) <-> In k (map u_key (rc_kms (md_recipients (fl_meta ef)))) /\ ~ In k (ks_kms (ka_keys a)))
    /\ md_partial (fl_meta ef') = md_partial (fl_meta ef) /\ md_only (fl_meta ef') = md_only (fl_meta ef)
    /\ ((exists k, In k (ks_age (ka_keys a)) /\ In k (map u_key (rc_age (md_recipients (fl_meta ef))))) \/ (exists k, In k (ks_kms (ka_keys a)) /\ In k (map u_key (rc_kms (md_recipients (fl_meta ef))))) ->
        exists j, sy_draws s <= j /\ forall E k, W E -> retrieve_data_key ag E (md_recipients (fl_meta ef')) = Ok k -> k = draw_key tp j).
  Proof.
    intros O a p f m s s' t ef CL H WE NF NT KF GF F R RC. destruct (history_holds re tp ag cd W g AL KL TL PW p f m s CL H) as (t0 & ef0 & key & dm & F0 & ST & FD & A' & TS & D).
    rewrite F in F0. injection F0 as <-. assert (ef0 = ef) by (destruct ST; congruence). subst ef0.
    destruct (ran O (RemoveKeys a) s s' p NF NT) as (t' & C & F'); auto; [cbn; congruence|discriminate|]. destruct C as (rules' & f' & x & CF' & OS & _ & GF' & n' & C). cbn [input_file config_path] in *.
    assert (x = t). { eapply only_here; [|exact F|exact OS]. congruence. } subst x. rewrite KF in GF'. rewrite GF in GF'. injection GF' as <-.
    destruct (remove_keeps re tp ag cd W g AL KL TL PW _ _ _ _ _ _ _ _ _ _ WE ST TS C) as (ef' & key' & ST' & KA & KK & Q1 & Q2 & Q3).
    exists t', ef'. split; auto. split; [apply ST'|]. split; [intros E WE' CO; eapply decrypts; eauto|]. repeat (split; [assumption|]). intro SOME. destruct Q3 as [(_ & N1 & N2)|(j & L & AW)].
    - exfalso. destruct SOME as [(k & I1 & I2)|(k & I1 & I2)]; [eapply N1|eapply N2]; eauto.
    - exists j. split; auto. intros E k WE' RK. eapply retrieve_safe; eauto.
  Qed.
End Worlds.
Print Assumptions C55_partial.
Print Assumptions C62_partial.
Print Assumptions C61_encrypt_partial.
Print Assumptions C61_decrypt_partial.
Print Assumptions C40_agrees.
Print Assumptions C40_refresh_partial.
Print Assumptions C63_add_partial.
Print Assumptions C63_remove_partial.

(** * Examples *)

Lemma here_shown : shown_world (os_env (ex_os [])).
Proof. apply ex_env_shown. auto. Qed.
Lemma small_plain : plain_document (fun x => x) Yaml small_doc small_dm.
Proof. split; [doc_ok|]. split; [by_vm|]. split; [apply Nat.leb_le; reflexivity|]. split; [|exact Logic.I]. intro H. cbn in H. repeat (destruct H as [H|H]; [discriminate H|]). destruct H. Qed.
Lemma carol_plain : plain_keys toy_age {| ks_age := [ex_carol]; ks_kms := [ex_kms] |}.
Proof. split; [|apply ex_plain]. repeat constructor. apply utf8_lit. reflexivity. Qed.
(** The small file is in the middle of its history. *)
Notation ex_history := (history ex_re ex_tape toy_age ex_codec shown_world (fun x => x) ex_path Yaml).
Notation ex_sequence := (sequence ex_re ex_tape toy_age ex_codec shown_world ex_path Yaml small_dm).
Lemma small_history : forall s, sy_file s ex_path = Content small_text -> ex_history small_doc s.
Proof.
  intros s F. change small_doc with (bd_map (small_builder Yaml small_doc)). eapply hi_encrypted; [exact here_shown|exact small_plain| | | |exact small_built| |exact F].
  - intros ks v _. right. exact Logic.I.
  - exact ex_plain.
  - exact Logic.I.
  - by_vm.
Qed.
(** The state with another text in the file. *)
Definition ex_with (config t : bytes) (n : nat) : sys :=
  {| sy_file := fun p => if bytes_eqb p ex_path then Content t else if bytes_eqb p (lit "/home/.rops.toml") then Content config else Absent; sy_out := []; sy_ops := []; sy_draws := n |}.
Lemma config_with : forall l cfg t n, config_source (ex_os l) (sy_file (ex_with cfg t n)) None (Some (lit "/home/.rops.toml")).
Proof.
  intros l cfg t n. change (lit "/home/.rops.toml") with (config_in [lit "home"]). eapply src_nearest with (a := [lit "work"; lit "u"]); try reflexivity; [discriminate|]. intros b e E L. cbn in L.
  destruct b as [|x [|y [|z b]]]; cbn [app] in E; subst.
  - reflexivity.
  - injection E as _ <-. reflexivity.
  - injection E as _ _ <-. cbn in L. lia.
  - apply (f_equal (@length _)) in E. cbn in E. rewrite app_length in E. lia.
Qed.
Lemma configured_with : forall l t n, configured ex_re toy_age ex_codec (ex_os l) (sy_file (ex_with ex_config_text t n)) None ex_rules.
Proof. intros l t n. exists (Some (lit "/home/.rops.toml")). split; [apply config_with|]. exists ex_config_text. split; [reflexivity|]. split; [reflexivity|]. exact ex_config_read. Qed.
Definition ran_on (attempts : list (node -> edited)) (c : command) (s : sys) : sys * outcome unit := run_command ex_re ex_tape toy_age ex_codec (ex_os attempts) c s.

(** Add Carol, remove Bob, close the editor without changes; then the file still decrypts for Alice. *)
Definition ex_remove : command := RemoveKeys {| ka_keys := {| ks_age := [toy_public ex_bob]; ks_kms := [] |}; ka_format := None; ka_file := ex_path |}.
Definition removed_text : bytes := Eval vm_compute in file_after (ran_on [] ex_remove (ex_with ex_config_text added_text 20)) ex_path.
Definition ex_shut : list (node -> edited) := [fun c => Closed c KeyPressed].
Definition shut_text : bytes := Eval vm_compute in file_after (ran_on ex_shut ex_edit (ex_with ex_config_text removed_text 40)) ex_path.
Definition shut_ef : efile := Eval vm_compute in read_back ex_codec Yaml shut_text.
Lemma ex_removed : sy_file (fst (ran_on [] ex_remove (ex_with ex_config_text added_text 20))) ex_path = Content removed_text.
Proof. by_vm. Qed.
Lemma ran_sequence : forall l s c s1 t, ex_sequence s s1 -> keeps_document ex_re toy_age ex_codec ex_path Yaml small_dm (ex_os l) (sy_file s1) c ->
  sy_file (fst (ran_on l c s1)) ex_path = Content t -> forall n, ex_sequence s (ex_with ex_config_text t n).
Proof.
  intros l s c s1 t S K F n. destruct (ran_on l c s1) as [s2 o] eqn:R. eapply seq_elsewhere; [|symmetry; exact F]. eapply seq_run with (O := ex_os l); [exact S|exact here_shown|intros h x; reflexivity|discriminate|exact K|exact R].
Qed.
Example C55_witness : snd (ran_on ex_shut ex_edit (ex_with ex_config_text removed_text 40)) = Ok tt /\ removed_text <> added_text /\ added_text <> small_text
  /\ exists s' ef t', ex_history small_doc ex_start /\ ex_sequence ex_start s' /\ sy_file s' ex_path = Content shut_text
  /\ read_efile (re_valid ex_re) toy_age ex_codec Yaml shut_text = Ok ef /\ ~ In (toy_public ex_bob) (map u_key (rc_age (md_recipients (fl_meta ef))))
  /\ decrypt_text ex_re toy_age ex_codec ex_here Yaml shut_text = Ok t' /\ read_map ex_codec Yaml t' = Ok small_doc.
Proof.
  split; [by_vm|]. split; [vm_compute; discriminate|]. split; [vm_compute; discriminate|].
  assert (H0 : ex_history small_doc ex_start) by (apply small_history; reflexivity).
  assert (FE : forall fmt, Ok Yaml = Ok fmt -> fmt = Yaml) by (intros fmt X; now injection X as <-).
  assert (S1 : ex_sequence ex_start (ex_with ex_config_text added_text 20)).
  { apply ran_sequence with (l := []) (c := ex_add) (s1 := ex_start); [apply seq_none| |by_vm]. apply kd_add; [exact FE|reflexivity|split; [|constructor]]. apply carol_plain. }
  assert (S2 : ex_sequence ex_start (ex_with ex_config_text removed_text 40)).
  { apply ran_sequence with (l := []) (c := ex_remove) (s1 := ex_with ex_config_text added_text 20); [exact S1| |exact ex_removed]. apply kd_remove; [exact FE|reflexivity]. }
  assert (S3 : ex_sequence ex_start (ex_with ex_config_text shut_text 60)).
  { apply ran_sequence with (l := ex_shut) (c := ex_edit) (s1 := ex_with ex_config_text removed_text 40); [exact S2| |by_vm]. apply kd_edit; [exact FE|reflexivity|]. intros l e c A I. rewrite (attempts_same _ _ _ A (ex_line_is ex_shut)) in I. destruct I as [<-|[]]. right. right. exists KeyPressed. reflexivity. }
  destruct (C55_partial ex_re ex_tape toy_age ex_codec shown_world (fun x => x) toy_age_law shown_kms_law ex_time_law toy_plain_world ex_path Yaml small_doc small_dm ex_start (ex_with ex_config_text shut_text 60) (ex_codec_law Yaml) H0) as (t & ef & F & R & D); [by_vm|exact S3|].
  change (sy_file (ex_with ex_config_text shut_text 60) ex_path) with (Content shut_text) in F. injection F as <-.
  assert (RE : ef = shut_ef). { assert (X : read_efile (re_valid ex_re) toy_age ex_codec Yaml shut_text = Ok shut_ef) by by_vm. congruence. } subst ef.
  destruct (D ex_here here_shown) as (t' & DT & RM). { apply open_age with (ids := [ex_alice; ex_bob]) (i := ex_alice); [reflexivity|now left|vm_compute; tauto]. }
  exists (ex_with ex_config_text shut_text 60), shut_ef, t'. split; auto. split; auto. split; auto. split; auto. split; [|now split]. vm_compute. intros H. repeat destruct H as [H|H]; try discriminate H. destruct H.
Qed.

(** Full statement of C55: for all recipients.  False: a KMS key without an account is accepted on the command line; after [keys add] the
    file can not be read any more. *)
Definition ex_alias : key_args := {| ka_keys := {| ks_age := []; ks_kms := [alias_key] |}; ka_format := None; ka_file := ex_path |}.
Definition alias_text : bytes := Eval vm_compute in file_after (ran_on [] (AddKeys ex_alias) ex_start) ex_path.
Theorem C55_refuted : exists re tp ag cd W g O a k x m s s' t e, age_law ag /\ kms_law W /\ (forall f, codec_law cd g f) /\ time_law cd /\ plain_world ag W
  /\ history re tp ag cd W g ex_path Yaml m s /\ W (os_env O) /\ no_failures O /\ parse_aws_key x = Ok k /\ ka_keys a = {| ks_age := []; ks_kms := [k] |} /\ ka_file a = ex_path
  /\ run_command re tp ag cd O (AddKeys a) s = (s', Ok tt) /\ sy_file s' ex_path = Content t /\ read_efile (re_valid re) ag cd Yaml t = Err e.
Proof.
  destruct (ran_on [] (AddKeys ex_alias) ex_start) as [s' o] eqn:R. assert (X : (snd (ran_on [] (AddKeys ex_alias) ex_start), sy_file (fst (ran_on [] (AddKeys ex_alias) ex_start)) ex_path) = (Ok tt, Content alias_text)) by by_vm.
  rewrite R in X. cbn [fst snd] in X. injection X as -> F.
  exists ex_re, ex_tape, toy_age, ex_codec, shown_world, (fun x => x), (ex_os []), ex_alias, alias_key, (lit "default.arn:aws:kms:eu-north-1::alias/backup"), small_doc, ex_start, s', alias_text, EInvalidField.
  split; [exact toy_age_law|]. split; [exact shown_kms_law|]. split; [exact ex_codec_law|]. split; [exact ex_time_law|]. split; [exact toy_plain_world|].
  split; [apply small_history; reflexivity|]. split; [exact here_shown|]. split; [intros h y; reflexivity|]. split; [by_vm|]. split; [reflexivity|]. split; [reflexivity|]. split; [exact R|]. split; [exact F|]. by_vm.
Qed.
Print Assumptions C55_refuted.

(** Refreshing the small file under the example configuration: Carol and the KMS key, with a rule and an option it did not have. *)
Definition ex_refresh_args : place_args := {| pl_input := {| in_config := None; in_format := None; in_file := Some ex_path |}; pl_in_place := Some true |}.
Definition refreshed_text : bytes := Eval vm_compute in file_after (ex_run [] (Refresh ex_refresh_args)) ex_path.
Definition refreshed_ef : efile := Eval vm_compute in read_back ex_codec Yaml refreshed_text.
Definition ex_rule2 : rule := nth 1 ex_rules (hd {| cr_path := []; cr_only := None; cr_partial := None; cr_keys := {| ks_age := []; ks_kms := [] |} |} ex_rules).
Lemma ex_first : first_matching ex_re ex_rules (path_to_match (Some ex_path)) ex_rule2.
Proof. exists [nth 0 ex_rules ex_rule2], [nth 2 ex_rules ex_rule2]. split; [reflexivity|]. split; [reflexivity|]. intros r [<-|[]]. reflexivity. Qed.
Lemma ex_good : good_rule ex_re toy_age small_dm ex_rule2.
Proof.
  split; [exact carol_plain|]. split; [apply utf8_lit; reflexivity|]. intros ks v I. left. cbn in I. destruct I as [I|[I|[]]]; injection I as <- _; (constructor; [|constructor]); intro H; cbn in H; repeat (destruct H as [H|H]; [discriminate H|]); destruct H.
Qed.
Example C40_witness : refreshed_text <> small_text /\ ex_history small_doc ex_start /\ configured ex_re toy_age ex_codec (ex_os []) (sy_file ex_start) None ex_rules
  /\ first_matching ex_re ex_rules (path_to_match (Some ex_path)) ex_rule2 /\ good_rule ex_re toy_age small_dm ex_rule2 /\ cr_only ex_rule2 = Some true
  /\ (snd (ex_run [] (Refresh ex_refresh_args)), file_after (ex_run [] (Refresh ex_refresh_args)) ex_path) = (Ok tt, refreshed_text)
  /\ read_efile (re_valid ex_re) toy_age ex_codec Yaml refreshed_text = Ok refreshed_ef /\ map u_key (rc_age (md_recipients (fl_meta refreshed_ef))) = [ex_carol].
Proof.
  split; [vm_compute; discriminate|]. split; [apply small_history; reflexivity|]. split; [exact ex_configured|]. split; [exact ex_first|]. split; [exact ex_good|]. split; [reflexivity|].
  split; [by_vm|]. split; by_vm.
Qed.

(** Full statement of C40: a second refresh changes nothing, whatever the rule.  False for rules with [mac_only_encrypted = false]:
    they never match the metadata, because the option is absent from files that do not set it.  Every run encrypts the file again with new keys. *)
Definition false_config : fmap :=
  [(FStr (lit "creation_rules"), FSeq [FMap [(FStr (lit "path_regex"), FStr ex_path); (FStr (lit "mac_only_encrypted"), FBool false); (FStr (lit "integration_keys"), FMap [ex_key_list (lit "age") [toy_public ex_alice]])]])].
Definition false_text : bytes := Eval vm_compute in toy_value (FMap false_config).
Definition false_rules : list rule := [{| cr_path := ex_path; cr_only := Some false; cr_partial := None; cr_keys := {| ks_age := [toy_public ex_alice]; ks_kms := [] |} |}].
Definition false_once : bytes := Eval vm_compute in file_after (ran_on [] (Refresh ex_refresh_args) (ex_with false_text small_text 20)) ex_path.
Definition false_twice : bytes := Eval vm_compute in file_after (ran_on [] (Refresh ex_refresh_args) (ex_with false_text false_once 40)) ex_path.
Theorem C40_refuted : exists re tp ag cd W g O a m s1 s2 s3 s4 rules, age_law ag /\ kms_law W /\ (forall f, codec_law cd g f) /\ time_law cd /\ plain_world ag W
  /\ history re tp ag cd W g ex_path Yaml m s1 /\ W (os_env O) /\ no_failures O /\ is_set (pl_in_place a) = true /\ in_file (pl_input a) = Some ex_path
  /\ configured re ag cd O (sy_file s1) (in_config (pl_input a)) rules /\ configured re ag cd O (sy_file s3) (in_config (pl_input a)) rules
  /\ run_command re tp ag cd O (Refresh a) s1 = (s2, Ok tt) /\ sy_file s3 ex_path = sy_file s2 ex_path /\ run_command re tp ag cd O (Refresh a) s3 = (s4, Ok tt)
  /\ sy_file s4 ex_path <> sy_file s3 ex_path.
Proof.
  set (s1 := ex_with false_text small_text 20). set (s3 := ex_with false_text false_once 40). set (c := Refresh ex_refresh_args).
  assert (X1 : (snd (ran_on [] c s1), sy_file (fst (ran_on [] c s1)) ex_path) = (Ok tt, Content false_once)) by by_vm.
  assert (X2 : (snd (ran_on [] c s3), sy_file (fst (ran_on [] c s3)) ex_path) = (Ok tt, Content false_twice)) by by_vm.
  destruct (ran_on [] c s1) as [s2 o1] eqn:R1. destruct (ran_on [] c s3) as [s4 o2] eqn:R2. cbn [fst snd] in X1, X2. injection X1 as -> F1. injection X2 as -> F2.
  assert (CF : forall t n, configured ex_re toy_age ex_codec (ex_os []) (sy_file (ex_with false_text t n)) None false_rules).
  { intros t n. exists (Some (lit "/home/.rops.toml")). split.
    - apply config_with.
    - exists false_text. split; [reflexivity|]. split; [reflexivity|]. by_vm. }
  exists ex_re, ex_tape, toy_age, ex_codec, shown_world, (fun x => x), (ex_os []), ex_refresh_args, small_doc, s1, s2, s3, s4, false_rules.
  split; [exact toy_age_law|]. split; [exact shown_kms_law|]. split; [exact ex_codec_law|]. split; [exact ex_time_law|]. split; [exact toy_plain_world|].
  split; [apply small_history; reflexivity|]. split; [exact here_shown|]. split; [intros h y; reflexivity|]. split; [reflexivity|]. split; [reflexivity|]. split; [apply CF|]. split; [apply CF|].
  split; [exact R1|]. split; [rewrite F1; reflexivity|]. split; [exact R2|]. rewrite F2. change (sy_file s3 ex_path) with (Content false_once). vm_compute. discriminate.
Qed.
Print Assumptions C40_refuted.

(** rops encrypt on the text of the small document, under the example configuration, then rops decrypt. *)
Definition ex_plain_args : place_args := {| pl_input := {| in_config := None; in_format := None; in_file := Some ex_path |}; pl_in_place := None |}.
Lemma ex_encrypts : computes ex_re ex_tape toy_age ex_codec (ex_os []) (Encrypt ex_args) (sy_file (ex_with ex_config_text doc_text 0)) 0 ex_encrypted.
Proof.
  exists ex_rules, Yaml, doc_text. split; [apply configured_with|]. split; [left; exists ex_path; now repeat split|]. split; [reflexivity|]. split; [reflexivity|]. exists 8. by_vm.
Qed.
Lemma suffix_safe : forall q, colon_safe_map q small_dm.
Proof.
  intros q ks v I. left. cbn in I. destruct I as [I|[I|[]]]; injection I as <- _; (constructor; [|constructor]); intro H; cbn in H; repeat (destruct H as [H|H]; [discriminate H|]); destruct H.
Qed.
Lemma encrypted_history : forall s, sy_file s ex_path = Content ex_encrypted -> ex_history small_doc s.
Proof.
  intros s F. apply (C61_encrypt_partial ex_re ex_tape toy_age ex_codec shown_world (fun x => x) (ex_os []) ex_args _ 0 ex_encrypted doc_text ex_path Yaml small_doc small_dm s here_shown ex_encrypts).
  - left. exists ex_path. now repeat split.
  - reflexivity.
  - by_vm.
  - exact small_plain.
  - split; [|constructor]. constructor; [|constructor]. destruct ex_plain as [P _]. now inversion P.
  - intros pa E. injection E as <-. exists (UnencryptedSuffix (lit "a")). split; [constructor|]. split; [apply utf8_lit; reflexivity|apply suffix_safe].
  - intros rules r CF FM. rewrite (one_configuration ex_re toy_age ex_codec _ _ _ _ _ CF (configured_with [] _ _)) in FM. pose proof ex_first as FM'. apply first_unique in FM, FM'. cbn [in_file ea_input ex_args el_input ex_line] in FM.
    rewrite FM in FM'. injection FM' as ->. exact ex_good.
  - exact F.
Qed.
Definition encrypted_ef : efile := Eval vm_compute in read_back ex_codec Yaml ex_encrypted.
Example C61_witness : computes ex_re ex_tape toy_age ex_codec (ex_os []) (Encrypt ex_args) (sy_file (ex_with ex_config_text doc_text 0)) 0 ex_encrypted
  /\ ex_history small_doc (ex_with ex_config_text ex_encrypted 20)
  /\ exists s' t, run_command ex_re ex_tape toy_age ex_codec (ex_os []) (Decrypt ex_plain_args) (ex_with ex_config_text ex_encrypted 20) = (s', Ok tt)
     /\ read_map ex_codec Yaml t = Ok small_doc /\ sy_out s' = t ++ [x0a].
Proof.
  split; [exact ex_encrypts|]. assert (H : ex_history small_doc (ex_with ex_config_text ex_encrypted 20)) by (apply encrypted_history; reflexivity). split; auto.
  destruct (C61_decrypt_partial ex_re ex_tape toy_age ex_codec shown_world (fun x => x) toy_age_law shown_kms_law ex_time_law toy_plain_world (ex_os []) ex_plain_args ex_path Yaml small_doc
    (ex_with ex_config_text ex_encrypted 20) ex_rules (toy_text_law _ _) (ex_codec_law Yaml) H here_shown) as (s' & t & R & M & _ & X); auto.
  - intros h o. reflexivity.
  - discriminate.
  - apply configured_with.
  - intros t ef F RE. change (sy_file (ex_with ex_config_text ex_encrypted 20) ex_path) with (Content ex_encrypted) in F. injection F as <-.
    assert (X : read_efile (re_valid ex_re) toy_age ex_codec Yaml ex_encrypted = Ok encrypted_ef) by by_vm. rewrite X in RE. injection RE as <-.
    apply open_age with (ids := [ex_alice; ex_bob]) (i := ex_alice); [reflexivity|now left|vm_compute; tauto].
  - exists s', t. auto.
Qed.

(** The edit of the example: two attempts that do not parse, then a changed document. *)
Definition ex_new_dm : dmap := [(lit "a", Leaf (VStr (lit "y"))); (lit "b", Leaf (VInt 5))].
Example C62_witness : ex_history small_doc ex_start /\ session ex_codec (ex_os ex_attempts) Yaml doc_text ex_new_doc /\ ex_new_doc <> small_doc
  /\ plain_document (fun x => x) Yaml ex_new_doc ex_new_dm /\ exists s', run_command ex_re ex_tape toy_age ex_codec (ex_os ex_attempts) ex_edit ex_start = (s', Ok tt) /\ ex_history ex_new_doc s'.
Proof.
  assert (H : ex_history small_doc ex_start) by (apply small_history; reflexivity). split; auto.
  assert (S : session ex_codec (ex_os ex_attempts) Yaml doc_text ex_new_doc).
  { exists ex_attempts, (nth 2 ex_attempts (fun _ => NoLaunch)), [], (Content (lit "[" ++ lit "[")), ex_new_text, KeyPressed. split; [apply ex_line_is|]. split; [|split; [reflexivity|split; [reflexivity|by_vm]]].
    destruct (read_map ex_codec Yaml (lit "[")) as [m|e|] eqn:E1; [vm_compute in E1; discriminate| |vm_compute in E1; discriminate]. eapply tried_one; [reflexivity|reflexivity|exact E1|].
    destruct (read_map ex_codec Yaml (lit "[" ++ lit "[")) as [m|e'|] eqn:E2; [vm_compute in E2; discriminate| |vm_compute in E2; discriminate]. eapply tried_one; [reflexivity|reflexivity|exact E2|]. constructor. }
  split; auto. split; [discriminate|]. assert (P : plain_document (fun x => x) Yaml ex_new_doc ex_new_dm).
  { split; [doc_ok|]. split; [by_vm|]. split; [apply Nat.leb_le; reflexivity|]. split; [|exact Logic.I]. intro X. cbn in X. repeat (destruct X as [X|X]; [discriminate X|]). destruct X. }
  split; auto. assert (R : snd (ran_on ex_attempts ex_edit ex_start) = Ok tt) by by_vm. destruct (ran_on ex_attempts ex_edit ex_start) as [s' o] eqn:X. cbn [snd] in R. subst o. exists s'. split; [exact X|].
  assert (RS : read_efile (re_valid ex_re) toy_age ex_codec Yaml small_text = Ok small_ef) by by_vm.
  destruct (C62_partial ex_re ex_tape toy_age ex_codec shown_world (fun x => x) toy_age_law shown_kms_law ex_time_law toy_plain_world (ex_os ex_attempts) {| in_config := None; in_format := None; in_file := Some ex_path |}
    ex_path Yaml small_doc ex_new_doc ex_new_dm ex_start s' doc_text small_text small_ef (ex_codec_law Yaml) H here_shown) as [H' _].
  - intros h o. reflexivity.
  - discriminate.
  - reflexivity.
  - reflexivity.
  - by_vm.
  - exact S.
  - exact P.
  - reflexivity.
  - exact RS.
  - intros ks v _. right. exact Logic.I.
  - exact X.
  - exact H'.
Qed.

(** Carol is added, then Bob removed; see also [C55_witness]. *)
Definition added_ef : efile := Eval vm_compute in read_back ex_codec Yaml added_text.
Example C63_witness : ex_history small_doc (ex_with ex_config_text added_text 20) /\ read_efile (re_valid ex_re) toy_age ex_codec Yaml added_text = Ok added_ef
  /\ map u_key (rc_age (md_recipients (fl_meta added_ef))) = [toy_public ex_alice; toy_public ex_bob; ex_carol]
  /\ In (toy_public ex_bob) (map u_key (rc_age (md_recipients (fl_meta added_ef)))) /\ snd (ran_on [] ex_remove (ex_with ex_config_text added_text 20)) = Ok tt
  /\ sy_file (fst (ran_on [] ex_remove (ex_with ex_config_text added_text 20))) ex_path = Content removed_text.
Proof.
  split.
  { eapply hi_more; [apply (small_history ex_start); reflexivity|by_vm|]. apply ran_sequence with (l := []) (c := ex_add) (s1 := ex_start); [apply seq_none| |by_vm].
    apply kd_add; [intros fmt X; now injection X as <-|reflexivity|split; [|constructor]]. apply carol_plain. }
  split; [by_vm|]. split; [by_vm|]. split; [vm_compute; tauto|]. split; [by_vm|exact ex_removed].
Qed.
