(** C79: the configuration file is read under the documented names. *)
From Verif.Model Require Import Config.
From Verif.Spec Require Import SpecConfig.
From Verif.Proofs Require Import BytesFacts ValueFacts FormatFacts IntegrationFacts DocumentFacts SopsFacts.
From Verif.Props Require Import PMap PFormat ExWorld ExCodec PDocument PCli.
Open Scope byte_scope.

Section Reading.
  Context (re : regex_engine) (ag : age_crate) (cd : codec).

  Lemma strings_ok : forall K (parse : bytes -> outcome K) (names : bytes -> K -> Prop) es k l, (forall s x, parse s = Ok x <-> names s x) ->
    (let* o := get_field k es in read_strings parse o) = Ok l <-> says_list es k names l.
  Proof.
    intros K parse names es k l P. rewrite bind_ok. unfold says_list. split.
    - intros (o & G & H). destruct o as [v|]; [|left; apply get_silent in G; cbn in H; split; congruence]. right. apply get_states in G. destruct v as [|vs| | | | | |]; try discriminate H. cbn [read_strings] in H. apply mapM_ok in H.
      assert (X : exists ts, vs = map FStr ts /\ Forall2 names ts l).
      { clear G. induction H as [|v x vs l V H IH]; [exists []; auto|]. destruct IH as (ts & -> & F). apply bind_ok in V. destruct V as (s & S & V). apply string_ok in S. subst v. exists (s :: ts). split; auto. constructor; auto. now apply P. }
      destruct X as (ts & -> & F). eauto.
    - intros [[S ->]|(ts & S & F)].
      + exists None. split; [now apply get_silent|reflexivity].
      + exists (Some (FSeq (map FStr ts))). split; [now apply get_states|]. cbn [read_strings]. apply mapM_ok. clear S. induction F as [|s x ts l N F IH]; constructor; auto. cbn [as_string bind]. now apply P.
  Qed.
  Lemma lists_ok : forall K (parse : bytes -> outcome K) (names : bytes -> K -> Prop) o l, (forall s x, parse s = Ok x <-> names s x) ->
    read_strings parse o = Ok l <-> lists o names l.
  Proof.
    intros K parse names o l P. unfold lists. split.
    - intro H. destruct o as [v|]; [|left; cbn in H; split; congruence]. right. destruct v as [|vs| | | | | |]; try discriminate H. cbn [read_strings] in H. apply mapM_ok in H.
      assert (X : exists ts, vs = map FStr ts /\ Forall2 names ts l).
      { induction H as [|v x vs l V H IH]; [exists []; auto|]. destruct IH as (ts & -> & F). apply bind_ok in V. destruct V as (s & S & V). apply string_ok in S. subst v. exists (s :: ts). split; auto. constructor; auto. now apply P. }
      destruct X as (ts & -> & F). eauto.
    - intros [[-> ->]|(ts & -> & F)]; [reflexivity|]. cbn [read_strings]. apply mapM_ok. induction F as [|s x ts l N F IH]; constructor; auto. cbn [as_string bind]. now apply P.
  Qed.
  Lemma age_named : forall s x, ok_or EConfig (ag_recipient ag s) = Ok x <-> names_age ag s x.
  Proof. intros s x. apply ok_or_ok. Qed.
  Lemma kms_named : forall s x, parse_aws_key s = Ok x <-> names_kms s x.
  Proof. intros s x. reflexivity. Qed.
  Lemma keys_ok : forall v ks, read_keys ag (Some v) = Ok ks <-> says_keys ag v ks.
  Proof.
    intros v ks. split.
    - intro H. destruct v as [es|l| | | | | |]; try discriminate H; cbn [read_keys as_map bind] in H.
      + rewrite <- bind_assoc in H. apply bind_ok in H. destruct H as (a & A & H). rewrite <- bind_assoc in H. apply bind_ok in H. destruct H as (k & K & H). assert (ks = {| ks_age := a; ks_kms := k |}) as -> by congruence. constructor; cbn [ks_age ks_kms].
        * apply (strings_ok _ _ _ _ _ _ age_named). exact A.
        * apply (strings_ok _ _ _ _ _ _ kms_named). exact K.
      + apply bind_ok in H. destruct H as (a & A & H). apply bind_ok in H. destruct H as (k & K & H). assert (ks = {| ks_age := a; ks_kms := k |}) as -> by congruence. constructor; cbn [ks_age ks_kms].
        * apply (lists_ok _ _ _ _ _ age_named). exact A.
        * apply (lists_ok _ _ _ _ _ kms_named). exact K.
    - intros [es ks' A K|l ks' A K]; cbn [read_keys as_map bind].
      + rewrite <- bind_assoc. apply bind_ok. exists (ks_age ks'). split; [apply (strings_ok _ _ _ _ _ _ age_named); exact A|]. rewrite <- bind_assoc. apply bind_ok. exists (ks_kms ks'). split; [apply (strings_ok _ _ _ _ _ _ kms_named); exact K|now destruct ks'].
      + apply bind_ok. exists (ks_age ks'). split; [apply (lists_ok _ _ _ _ _ age_named); exact A|]. apply bind_ok. exists (ks_kms ks'). split; [apply (lists_ok _ _ _ _ _ kms_named); exact K|now destruct ks'].
  Qed.
  Lemma partial_ok : forall o p, read_partial re o = Ok p <->
    match p with Some p => exists kv, o = Some (FMap [kv]) /\ says_rule (re_valid re) kv p | None => o = None end.
  Proof.
    intros o p. split.
    - intro H. destruct o as [v|]; [|cbn in H; assert (p = None) as -> by congruence; reflexivity]. destruct v as [[|kv [|kv' m]]| | | | | | |]; try discriminate H. cbn [read_partial] in H. destruct (is_rule_entry kv) eqn:R; [|discriminate H]. apply bind_ok in H. destruct H as (q & Q & H). assert (p = Some q) as -> by congruence. apply ok_or_ok in Q. exists kv. split; auto. apply rule_says in Q; auto. now apply rule_named.
    - destruct p as [p|]; [|intros ->; reflexivity]. intros (kv & -> & S). cbn [read_partial]. assert (N : named_rule kv) by (destruct S; eexists; (split; [|reflexivity]); cbn; auto).
      rewrite (proj2 (rule_named kv) N). apply rule_says in S; auto. rewrite S. reflexivity.
  Qed.
  Lemma only_ok : forall es o, (let* m := get_field (lit "mac_only_encrypted") es in read_only m) = Ok o
    <-> match o with Some b => states es (lit "mac_only_encrypted") (FBool b) | None => silent es (lit "mac_only_encrypted") end.
  Proof.
    intros es o. rewrite bind_ok. split.
    - intros (m & G & H). destruct m as [v|]; [destruct v; try discriminate H; injection H as <-; now apply get_states|injection H as <-; now apply get_silent].
    - destruct o as [b|]; intro S; [exists (Some (FBool b)); split; [now apply get_states|reflexivity]|exists None; split; [now apply get_silent|reflexivity]].
  Qed.
  Lemma field_partial : forall es p, (let* pe := get_field (lit "partial_encryption") es in read_partial re pe) = Ok p
    <-> match p with Some p => exists kv, states es (lit "partial_encryption") (FMap [kv]) /\ says_rule (re_valid re) kv p | None => silent es (lit "partial_encryption") end.
  Proof.
    intros es p. rewrite bind_ok. split.
    - intros (o & G & H). apply partial_ok in H. destruct p as [p|]; [destruct H as (kv & -> & S); exists kv; split; auto; now apply get_states|subst o; now apply get_silent].
    - destruct p as [p|]; [intros (kv & S & R); exists (Some (FMap [kv])); split; [now apply get_states|]; apply partial_ok; eauto|intro S; exists None; split; [now apply get_silent|reflexivity]].
  Qed.
  Lemma field_keys : forall es ks, (let* ik := get_field (lit "integration_keys") es in read_keys ag ik) = Ok ks
    <-> silent es (lit "integration_keys") /\ ks = {| ks_age := []; ks_kms := [] |} \/ exists w, states es (lit "integration_keys") w /\ says_keys ag w ks.
  Proof.
    intros es ks. rewrite bind_ok. split.
    - intros (o & G & H). destruct o as [v|]; [|left; cbn in H; apply get_silent in G; split; congruence]. right. exists v. split; [now apply get_states|now apply keys_ok].
    - intros [[S ->]|(w & S & K)]; [exists None; split; [now apply get_silent|reflexivity]|]. exists (Some w). split; [now apply get_states|now apply keys_ok].
  Qed.
  Lemma rule_table_ok : forall v r, read_rule_table re ag v = Ok r <-> says_table re ag v r.
  Proof.
    intros v r. unfold read_rule_table, says_table. rewrite bind_ok. split.
    - intros (es & M & H). apply as_map_ok in M. exists es. split; auto. apply string_field in H. destruct H as (s & S & H). destruct (re_valid re s) eqn:V; [|discriminate H].
      rewrite <- bind_assoc in H. apply bind_ok in H. destruct H as (only & ON & H). rewrite <- bind_assoc in H. apply bind_ok in H. destruct H as (part & PA & H). rewrite <- bind_assoc in H. apply bind_ok in H. destruct H as (ks & KS & H).
      assert (r = {| cr_path := s; cr_only := only; cr_partial := part; cr_keys := ks |}) as -> by congruence. cbn [cr_path cr_only cr_partial cr_keys]. split; auto. split; auto. split; [now apply only_ok|]. split; [now apply field_partial|now apply field_keys].
    - intros (es & -> & S & V & ON & PA & KS). exists es. split; auto. apply string_field. exists (cr_path r). split; auto. rewrite V.
      rewrite <- bind_assoc. apply bind_ok. exists (cr_only r). split; [now apply only_ok|]. rewrite <- bind_assoc. apply bind_ok. exists (cr_partial r). split; [now apply field_partial|]. rewrite <- bind_assoc. apply bind_ok. exists (cr_keys r). split; [now apply field_keys|now destruct r].
  Qed.
  Lemma rest_keys : forall rest ks, read_keys ag (hd_error rest) = Ok ks <-> rest = [] /\ ks = {| ks_age := []; ks_kms := [] |} \/ exists w rest', rest = w :: rest' /\ says_keys ag w ks.
  Proof.
    intros [|w rest] ks; cbn [hd_error]; split.
    - intro H. left. cbn in H. split; congruence.
    - intros [[_ ->]|(w & rest' & E & _)]; [reflexivity|discriminate E].
    - intro H. right. exists w, rest. split; auto. now apply keys_ok.
    - intros [[E _]|(w' & rest' & E & S)]; [discriminate E|]. injection E as <- <-. now apply keys_ok.
  Qed.
  Lemma rule_array_ok : forall l r, read_rule_array re ag l = Ok r <-> says_array re ag (FSeq l) r.
  Proof.
    intros l r. unfold says_array. split.
    - intro H. destruct l as [|p [|m [|pe rest]]]; try discriminate H. cbn [read_rule_array] in H. apply bind_ok in H. destruct H as (s & S & H). apply string_ok in S. subst p. destruct (re_valid re s) eqn:V; [|discriminate H].
      apply bind_ok in H. destruct H as (only & ON & H). apply bind_ok in H. destruct H as (part & PA & H). apply bind_ok in H. destruct H as (ks & KS & H). assert (r = {| cr_path := s; cr_only := only; cr_partial := part; cr_keys := ks |}) as -> by congruence. cbn [cr_path cr_only cr_partial cr_keys].
      apply partial_ok in PA. destruct part as [q|]; [|discriminate PA]. destruct PA as (kv & E & SR). assert (pe = FMap [kv]) as -> by congruence. cbn [read_only] in ON. destruct m; try discriminate ON. assert (only = Some b) as -> by congruence.
      exists b, kv, q, rest. split; auto. split; auto. split; auto. split; auto. split; auto. now apply rest_keys.
    - intros (b & kv & q & rest & E & V & ON & PA & SR & KS). assert (l = FStr (cr_path r) :: FBool b :: FMap [kv] :: rest) as -> by congruence. cbn [read_rule_array as_string bind]. rewrite V. cbn [read_only bind]. apply bind_ok. exists (Some q). split; [apply partial_ok; eauto|].
      apply bind_ok. exists (cr_keys r). split; [now apply rest_keys|]. destruct r as [rp ro rq rk]. cbn [cr_path cr_only cr_partial cr_keys] in *. congruence.
  Qed.
  Lemma creation_rule_ok : forall v r, read_creation_rule re ag v = Ok r <-> says_creation_rule re ag v r.
  Proof.
    intros v r. unfold says_creation_rule. destruct v as [m|l|s|b|n| |tg v|s]; cbn [read_creation_rule]; try (rewrite rule_table_ok; split; [auto|intros [H|(? & ? & ? & ? & E & _)]; [exact H|discriminate E]]).
    rewrite rule_array_ok. split; [auto|]. intros [(es & E & _)|H]; [discriminate E|exact H].
  Qed.

  (** The configuration is read exactly if its entries say, under the documented names, what the rules are. *)
  Theorem C79_read : forall s rs, read_config re ag cd s = Ok rs <-> exists es, cd_read cd Toml s = Ok es /\ says_config re ag es rs.
  Proof.
    intros s rs. unfold read_config, says_config. rewrite bind_ok. split.
    - intros (es & R & H). exists es. split; auto. apply bind_ok in H. destruct H as (o & G & H). apply bind_ok in H. destruct H as (v & N & H). apply need_ok in N. subst o. destruct v as [|l| | | | | |]; try discriminate H. exists l. split; [now apply get_states|]. apply mapM_ok in H. clear -H. induction H; constructor; auto. now apply creation_rule_ok.
    - intros (es & R & l & S & F). exists es. split; auto. apply bind_ok. exists (Some (FSeq l)). split; [now apply get_states|]. cbn [need ok_or bind]. apply mapM_ok. clear -F. induction F; constructor; auto. now apply creation_rule_ok.
  Qed.
  (** A misspelled name is no error: an entry with any other name changes nothing. *)
  Theorem C79_other_names : forall a b k v, (forall n, In n rule_fields -> k <> FStr n) ->
    read_creation_rule re ag (FMap (a ++ (k, v) :: b)) = read_creation_rule re ag (FMap (a ++ b)).
  Proof.
    intros a b k v N. assert (G : forall n, In n rule_fields -> get_field n (a ++ (k, v) :: b) = get_field n (a ++ b)).
    { intros n I. unfold get_field. rewrite !filter_app. cbn [filter]. destruct (key_is n (k, v)) eqn:K; [|reflexivity]. apply key_is_iff in K. destruct (N n I K). }
    cbn [read_creation_rule]. unfold read_rule_table. cbn [as_map bind]. rewrite !G by (cbn; auto). reflexivity.
  Qed.
  (** The same among the keys of a rule. *)
  Theorem C79_other_keys : forall a b k v, k <> FStr (lit "age") -> k <> FStr (lit "aws_kms") ->
    read_keys ag (Some (FMap (a ++ (k, v) :: b))) = read_keys ag (Some (FMap (a ++ b))).
  Proof.
    intros a b k v A K. assert (G : forall n, k <> FStr n -> get_field n (a ++ (k, v) :: b) = get_field n (a ++ b)).
    { intros n N. unfold get_field. rewrite !filter_app. cbn [filter]. destruct (key_is n (k, v)) eqn:E; [|reflexivity]. apply key_is_iff in E. destruct (N E). }
    cbn [read_keys as_map bind]. rewrite !G by assumption. reflexivity.
  Qed.
  (** A rule written as an array is the table with the fields under their names, in the order of the code; what follows in the array is not looked at. *)
  Theorem C79_array : forall p m pe ks more, read_creation_rule re ag (FSeq (p :: m :: pe :: ks :: more))
    = read_creation_rule re ag (FMap (combine (map FStr rule_fields) [p; m; pe; ks])).
  Proof. intros. reflexivity. Qed.
  (** Without its last field it has no keys; a shorter array is refused. *)
  Theorem C79_array_short : (forall p m pe, read_creation_rule re ag (FSeq [p; m; pe]) = read_creation_rule re ag (FMap (combine (map FStr rule_fields) [p; m; pe])))
    /\ forall l, length l < 3 -> read_creation_rule re ag (FSeq l) = Err EConfig.
  Proof. split; [intros; reflexivity|]. intros [|a [|b [|c l]]] H; cbn [length] in H; try reflexivity. exfalso. lia. Qed.
End Reading.

(** Witnesses: a configuration with three rules, what it says, and a rule with two misspelled names, which has no keys and encrypts everything. *)
Definition ex_config_entries : fmap := Eval vm_compute in ex_config.
Example C79_read_witness : cd_read ex_codec Toml ex_config_text = Ok ex_config_entries /\ read_config ex_re toy_age ex_codec ex_config_text = Ok ex_rules.
Proof. split; by_vm. Qed.
Definition ex_misspelled : fvalue :=
  FMap [(FStr (lit "path_regex"), FStr ex_path); (FStr (lit "partial_encryptions"), FMap [(FStr (lit "encrypted_suffix"), FStr (lit "b"))]);
        (FStr (lit "integration_key"), FMap [ex_key_list (lit "age") [ex_carol]])].
Example C79_other_names_witness : read_creation_rule ex_re toy_age ex_misspelled = Ok {| cr_path := ex_path; cr_only := None; cr_partial := None; cr_keys := {| ks_age := []; ks_kms := [] |} |}
  /\ forall n, In n rule_fields -> FStr (lit "integration_key") <> FStr n.
Proof. split; [by_vm|]. intros n I E. injection E as <-. vm_compute in I. intuition discriminate. Qed.
Example C79_other_keys_witness : read_keys toy_age (Some (FMap [ex_key_list (lit "Age") [ex_carol]; ex_key_list (lit "age") [lit "age1last"]])) = Ok {| ks_age := [lit "age1last"]; ks_kms := [] |}.
Proof. by_vm. Qed.
(** The same rule as an array, with an entry too many; and its keys as an array. *)
Example C79_array_witness : read_creation_rule ex_re toy_age
    (FSeq [FStr ex_path; FBool true; FMap [(FStr (lit "encrypted_suffix"), FStr (lit "b"))]; FSeq [FSeq [FStr (lit "age1last")]]; FNull])
  = Ok {| cr_path := ex_path; cr_only := Some true; cr_partial := Some (EncryptedSuffix (lit "b")); cr_keys := {| ks_age := [lit "age1last"]; ks_kms := [] |} |}.
Proof. by_vm. Qed.
