(** JSON files, without assumptions about the parser: C11 and C58 for JSON, C64, C65, C66, C67. *)
From Coq Require Import QArith.
From Verif.Model Require Import Document Json Chrono.
From Verif.Spec Require Import SpecDocument SpecFileHistory SpecJson SpecTime.
From Verif.Proofs Require Import BytesFacts Utf8Facts FloatFacts RoundFacts ShortestFacts JsonFloat JsonExact JsonError JsonFacts JsonPrefix ChronoFacts MapFacts FormatFacts FileFacts DocumentFacts.
From Verif.Props Require Import PMap PFormat ExWorld ExCodec PIntegration PFile PDocument.

Local Open Scope nat_scope.

(** * Floats *)

Lemma json_float_near : forall x, f64_canonical x = true -> f64_finite x = true -> near_float x (json_float x).
Proof.
  intros [| |neg m e] C F; try discriminate F. destruct (read_close neg m e C) as (m' & e' & C' & R & L & U). rewrite (json_float_is _ _ _ _ R).
  exists neg, m, e, m', e'. repeat split; auto.
Qed.
Lemma json_float_short : forall x, short_decimal x -> json_float x = x.
Proof.
  intros x (neg & m & e & -> & C & [[-> ->]|(d & k & M & D & K & [L U] & V)]); apply json_float_is.
  - apply read_zero.
  - apply (read_exact neg d k m e); auto. destruct (dec_ratio d k) as (num & den & P & R & ->). apply round_ratio_near; auto; rewrite R; auto.
Qed.
Lemma short_same : forall v, (forall x, In x (floats_of v) -> short_decimal x) -> map_floats json_float v = v.
Proof.
  fix IH 1. intros [m|l|s|b|[z|x]| |t w|d] H; try reflexivity; cbn [map_floats floats_of] in *.
  - f_equal. induction m as [|[k w] m IHm]; [reflexivity|]. cbn [map flat_map fst snd] in *. f_equal; [f_equal; apply IH; intros x X; apply H, in_or_app; now left|]. apply IHm. intros x X. apply H, in_or_app. now right.
  - f_equal. induction l as [|w l IHl]; [reflexivity|]. cbn [map flat_map] in *. f_equal; [apply IH; intros x X; apply H, in_or_app; now left|]. apply IHl. intros x X. apply H, in_or_app. now right.
  - do 2 f_equal. apply json_float_short, H. now left.
  - f_equal. apply IH. exact H.
Qed.

(** * C64: JSON text *)

(** Every document that rops writes as JSON is read back as it was, whatever its keys, strings, numbers and nesting (up to 100 levels),
    if its floats are decimals of up to 15 digits. *)
Theorem C64_json_text : forall es, printable Json es -> (forall x, In x (floats_of (FMap es)) -> short_decimal x) ->
  exists s, json_write es = Ok s /\ utf8_text s /\ json_read s = Ok es.
Proof.
  intros es P S. destruct (json_document_back es P) as (s & W & T & R). exists s. split; auto. split; auto. rewrite R, short_same by exact S. reflexivity.
Qed.
Print Assumptions C64_json_text.
(** Hence different documents have different texts. *)
Theorem C64_json_injective : forall es es' s, printable Json es -> printable Json es' -> (forall x, In x (floats_of (FMap es)) -> short_decimal x) -> (forall x, In x (floats_of (FMap es')) -> short_decimal x) ->
  json_write es = Ok s -> json_write es' = Ok s -> es = es'.
Proof.
  intros es es' s P P' S S' W W'. destruct (C64_json_text es P S) as (t & X & _ & R). destruct (C64_json_text es' P' S') as (t' & X' & _ & R'). congruence.
Qed.
Print Assumptions C64_json_injective.
(** A text that was cut off can not be read. *)
Theorem C64_json_cut : forall es s k, printable Json es -> json_write es = Ok s -> k < length s -> forall m, json_read (firstn k s) <> Ok m.
Proof.
  intros es s k P W L m R. destruct (json_document_back es P) as (t & X & _ & B). assert (t = s) by congruence. subst t. pose proof (json_beginning _ _ _ _ _ W B R) as E.
  pose proof (firstn_length k s) as F. rewrite E in F. lia.
Qed.
Print Assumptions C64_json_cut.

(** * C65: floats in JSON text *)

(** For all finite floats: every document can be read back, and nothing but floats changes, each to one of the same sign at most eight units
    in the last place away. *)
Theorem C65_json_floats : exists g, (forall x, f64_canonical x = true -> f64_finite x = true -> near_float x (g x)) /\ (forall x, short_decimal x -> g x = x)
  /\ forall es, printable Json es -> exists s, json_write es = Ok s /\ utf8_text s /\ json_read s = Ok (doc_of (map_floats g (FMap es))).
Proof.
  exists json_float. split; [exact json_float_near|]. split; [exact json_float_short|]. exact json_document_back.
Qed.
Print Assumptions C65_json_floats.

(** * C66: timestamps *)

(** What is printed is read back; what is read exists; a time with an offset is read as the same instant in UTC. *)
Theorem C66_times : forall t, real_time t -> time_read (time_text t) = Some t.
Proof. exact time_read_back. Qed.
Print Assumptions C66_times.
Theorem C66_real : forall s t, time_read s = Some t -> real_time t.
Proof. exact time_read_real. Qed.
Print Assumptions C66_real.
Theorem C66_offsets : forall t west h m, real_time t -> (-262142 <= t_year t <= 262141)%Z -> (h < 24)%N -> (m < 60)%N ->
  exists t', time_read (local_text t ++ offset_text west h m) = Some t' /\ real_time t' /\ minute_of t' = (minute_of t - offset_minutes west h m)%Z
    /\ shown_sec t' = shown_sec t /\ (t_nano t' mod 1000000000 = t_nano t mod 1000000000)%N.
Proof. exact time_read_offset. Qed.
Print Assumptions C66_offsets.

(** * C67: whole JSON files *)

(** The codec of JSON files, with anything for the other formats. *)
Lemma json_same : forall cd cd', (forall ef, file_text (json_codec cd) Json ef = file_text (json_codec cd') Json ef)
  /\ (forall m, map_text (json_codec cd) Json m = map_text (json_codec cd') Json m) /\ (forall s, read_map (json_codec cd) Json s = read_map (json_codec cd') Json s)
  /\ (forall re_valid ag s, read_efile re_valid ag (json_codec cd) Json s = read_efile re_valid ag (json_codec cd') Json s).
Proof.
  intros cd cd'. unfold file_text, map_text, read_map, read_efile, written, efile_of_entries, read_meta, read_units, read_unit, as_time.
  cbn [json_codec with_json cd_write cd_read cd_time]. split; [intro; reflexivity|]. split; [intro; reflexivity|]. split; [intro; reflexivity|]. intros; reflexivity.
Qed.
Lemma json_codec_law : forall cd, codec_law (json_codec cd) json_float Json.
Proof. exact with_json_law. Qed.
Lemma json_codec_time : forall cd, time_law (json_codec cd).
Proof. intros cd t R. exact (time_read_back t R). Qed.

(** C11 for JSON, with no assumption about serde_json or chrono.  The full statement would have no conditions on the document; what is missing
    is false of the code, as for [C11_text_partial]. *)
Theorem C67_json_file_partial : forall re re_valid tp ag W cd E E' b n ef n' dm, age_law ag -> kms_law W -> plain_world ag W -> W E -> W E' ->
  fmt_doc Json (bd_map b) -> dec_map_to_internal Json (bd_map b) = Ok dm -> colon_safe_map (bd_partial b) dm ->
  depth (FMap (bd_map b)) <= max_depth -> no_sops (bd_map b) -> (forall x, In x (floats_of (FMap (bd_map b))) -> short_decimal x) ->
  Forall (plain_recipient ag) (bd_age b) -> Forall plain_key (bd_kms b) -> plain_rule re_valid (bd_partial b) ->
  builder_encrypt re tp ag E Json b n = Ok (ef, n') -> can_open ag E' (md_recipients (fl_meta ef)) ->
  exists s df s', file_text (json_codec cd) Json ef = Ok s /\ read_efile re_valid ag (json_codec cd) Json s = Ok ef /\ file_decrypt re ag E' Json Json ef = Ok df
    /\ fl_map df = normal_doc (bd_map b) /\ map_text (json_codec cd) Json (fl_map df) = Ok s' /\ read_map (json_codec cd) Json s' = Ok (normal_doc (bd_map b)).
Proof.
  intros re re_valid tp ag W cd E E' b n ef n' dm AL KL PW WE WE' FD A CS DP NS SF PR PK PP H O. destruct (json_same cd ex_codec) as (J1 & J2 & J3 & J4).
  assert (KT : kept_by_text json_float Json (bd_map b)) by (intros x I; apply json_float_short, SF, I).
  destruct (C11_text_partial re re_valid tp ag W (json_codec ex_codec) json_float E E' Json b n ef n' dm) as (s & df & s' & X1 & X2 & X3 & X4 & X5 & X6); auto using json_codec_law, json_codec_time.
  exists s, df, s'. rewrite J1, J2, J3, J4. auto 10.
Qed.
Print Assumptions C67_json_file_partial.
(** Floats that are encrypted may be any. *)
Theorem C67_json_encrypted_partial : forall re re_valid tp ag W cd E b n ef n' dm, plain_world ag W -> W E ->
  fmt_doc Json (bd_map b) -> dec_map_to_internal Json (bd_map b) = Ok dm -> colon_safe_map (bd_partial b) dm -> depth (FMap (bd_map b)) <= max_depth -> no_sops (bd_map b) ->
  (forall ks x, f64_canonical x = true -> In (ks, VFloat (f64_text x)) (map_values dm) -> ~ in_scope re (bd_partial b) ks -> short_decimal x) ->
  Forall (plain_recipient ag) (bd_age b) -> Forall plain_key (bd_kms b) -> plain_rule re_valid (bd_partial b) -> builder_encrypt re tp ag E Json b n = Ok (ef, n') ->
  exists s, file_text (json_codec cd) Json ef = Ok s /\ read_efile re_valid ag (json_codec cd) Json s = Ok ef.
Proof.
  intros re re_valid tp ag W cd E b n ef n' dm PW WE FD A CS DP NS SF PR PK PP H. destruct (json_same cd ex_codec) as (J1 & J2 & J3 & J4).
  destruct (C58_plain_floats_partial re re_valid tp ag W (json_codec ex_codec) json_float E b n ef n' dm) as (s & X & Y); auto using json_codec_law, json_codec_time.
  - intros ks x C I N. apply json_float_short. eapply SF; eauto.
  - exists s. rewrite J1, J4. auto.
Qed.
Print Assumptions C67_json_encrypted_partial.

(** * Examples *)

(** format/json/mock.rs:29-50, with more escapes. *)
Definition mock_float : f64 := Eval vm_compute in dec_to_f64 false 123456789 (-5).
Definition mock_json : fmap :=
  [(FStr (lit "hello"), FStr (lit "world!"));
   (FStr (lit "nested_map"), FMap
      [(FStr (lit "null_key"), FNull);
       (FStr (lit "array"), FSeq
          [FStr (lit "string"); FMap [(FStr (lit "nested_map_in_array"), FMap [(FStr (lit "integer"), FNum (NInt 1234))])]; FMap [(FStr (lit "float"), FNum (NFlt mock_float))]])]);
   (FStr (lit "booleans"), FSeq [FBool true; FBool false]);
   (FStr (lit "escape_unencrypted"), FStr (lit "plaintext"));
   (FStr (lit "quote "" and \"), FStr ([x09; x0a; x00; x1f] ++ [xc3; xa9] ++ lit "/"))].
Definition nl : bytes := [x0a].
Definition mock_json_text : bytes := lit "{" ++ nl ++ lit "  ""hello"": ""world!""," ++ nl ++ lit "  ""nested_map"": {" ++ nl ++ lit "    ""null_key"": null," ++ nl ++ lit "    ""array"": [" ++ nl
  ++ lit "      ""string""," ++ nl ++ lit "      {" ++ nl ++ lit "        ""nested_map_in_array"": {" ++ nl ++ lit "          ""integer"": 1234" ++ nl ++ lit "        }" ++ nl ++ lit "      }," ++ nl
  ++ lit "      {" ++ nl ++ lit "        ""float"": 1234.56789" ++ nl ++ lit "      }" ++ nl ++ lit "    ]" ++ nl ++ lit "  }," ++ nl
  ++ lit "  ""booleans"": [" ++ nl ++ lit "    true," ++ nl ++ lit "    false" ++ nl ++ lit "  ]," ++ nl ++ lit "  ""escape_unencrypted"": ""plaintext""," ++ nl
  ++ lit "  ""quote \"" and \\"": ""\t\n\u0000\u001f" ++ [xc3; xa9] ++ lit "/""" ++ nl ++ lit "}".
Example mock_short : short_decimal mock_float.
Proof.
  unfold mock_float. do 3 eexists. split; [reflexivity|]. split; [reflexivity|]. right. exists 123456789%N, (-5)%Z. split; [reflexivity|]. split; [split; reflexivity|]. split; [discriminate|].
  split; [split; vm_compute; reflexivity|]. left. vm_compute. reflexivity.
Qed.
Ltac text_ok := match goal with |- utf8_text ?s => apply utf8_valid_iff; reflexivity end.
Example C64_witness : printable Json mock_json /\ (forall x, In x (floats_of (FMap mock_json)) -> short_decimal x) /\ json_write mock_json = Ok mock_json_text /\ json_read mock_json_text = Ok mock_json.
Proof.
  split; [|split; [|split; by_vm]].
  - split; [|apply Nat.leb_le; reflexivity]. intros k v I. assert (ST : storable Json (FMap mock_json)).
    { cbn. repeat match goal with |- _ /\ _ => split | |- True => exact Logic.I | |- exists s, FStr ?t = FStr s /\ _ => exists t; split; [reflexivity|text_ok] | |- utf8_text _ => text_ok | |- _ <> _ => discriminate
        | |- NoDup _ => constructor | |- ~ _ => let H := fresh in intro H; cbn in H; repeat (destruct H as [H|H]; [discriminate H|]); exact H | |- _ -> _ => intros _; reflexivity | |- _ => reflexivity | |- _ => lia end. }
    cbn [storable] in ST. destruct ST as [_ ST]. rewrite each_Forall, Forall_forall in ST. exact (ST (k, v) I).
  - intros x I. cbn in I. destruct I as [<-|[]]. exact mock_short.
Qed.

(** A float that changes: 9007199254740991 is printed as 9007199254740991.0, whose seventeen digits do not fit into a float. *)
Definition odd_float : f64 := FFin false 9007199254740991 0.
Example C65_witness : json_number (NFlt odd_float) = lit "9007199254740991.0" /\ json_float odd_float = FFin false 9007199254740990 0 /\ ~ short_decimal odd_float
  /\ json_number (NFlt mock_float) = lit "1234.56789" /\ json_float mock_float = mock_float.
Proof.
  split; [by_vm|]. assert (J : json_float odd_float = FFin false 9007199254740990 0) by by_vm. split; [exact J|]. split.
  - intro S. apply json_float_short in S. rewrite J in S. discriminate S.
  - split; [by_vm|]. apply json_float_short, mock_short.
Qed.

(** crates/lib/src/file/timestamp.rs:35-40, and the same instant given with an offset, across the end of a leap year's February. *)
Definition mock_time : timestamp := {| t_year := 2023; t_month := 12; t_day := 27; t_hour := 20; t_min := 37; t_sec := 5; t_nano := 0 |}.
Definition leap_time : timestamp := {| t_year := 2024; t_month := 2; t_day := 29; t_hour := 23; t_min := 30; t_sec := 59; t_nano := 1500000000 |}.
Example C66_witness : real_time mock_time /\ time_text mock_time = lit "2023-12-27T20:37:05Z" /\ time_read (lit "2023-12-27T20:37:05Z") = Some mock_time
  /\ real_time leap_time /\ local_text leap_time ++ offset_text true 0 45 = lit "2024-02-29T23:30:60.500-00:45"
  /\ time_read (lit "2024-02-29T23:30:60.500-00:45") = Some {| t_year := 2024; t_month := 3; t_day := 1; t_hour := 0; t_min := 15; t_sec := 59; t_nano := 1500000000 |}
  /\ time_read (lit "2023-02-29T00:00:00Z") = None /\ time_read (lit "2024-01-01T00:00:00") = None.
Proof. repeat split; try by_vm; cbn; lia. Qed.

(** A whole file. *)
Definition json_doc : fmap := [(FStr (lit "v"), FStr (lit "1")); (FStr (lit "t"), FMap [(FStr (lit "x_secret"), FSeq [FBool true; FNum (NFlt mock_float); FNull])])].
Definition json_builder : builder := {| bd_map := json_doc; bd_partial := public_rule; bd_only := None; bd_age := [toy_public ex_alice; toy_public ex_bob]; bd_kms := [ex_kms] |}.
Definition json_dm : dmap := Eval vm_compute in get [] (dec_map_to_internal Json json_doc).
Definition json_ef : efile := Eval vm_compute in build Json json_builder 0.
Definition json_ef_text : bytes := Eval vm_compute in text_of (json_codec ex_codec) Json json_ef.
Example C67_witness : dec_map_to_internal Json json_doc = Ok json_dm /\ builder_encrypt ex_re ex_tape toy_age ex_here Json json_builder 0 = Ok (json_ef, 9)
  /\ file_text (json_codec ex_codec) Json json_ef = Ok json_ef_text
  /\ exists s df s', file_text (json_codec ex_codec) Json json_ef = Ok s /\ read_efile all_valid toy_age (json_codec ex_codec) Json s = Ok json_ef /\ file_decrypt ex_re toy_age ex_at_bob Json Json json_ef = Ok df
    /\ fl_map df = normal_doc json_doc /\ map_text (json_codec ex_codec) Json (fl_map df) = Ok s' /\ read_map (json_codec ex_codec) Json s' = Ok (normal_doc json_doc).
Proof.
  assert (A : dec_map_to_internal Json json_doc = Ok json_dm) by by_vm.
  assert (B : builder_encrypt ex_re ex_tape toy_age ex_here Json json_builder 0 = Ok (json_ef, 9)) by by_vm.
  assert (W1 : shown_world ex_here) by (apply ex_env_shown; auto). assert (W2 : shown_world ex_at_bob) by (apply ex_env_shown; auto).
  split; [exact A|]. split; [exact B|]. split; [by_vm|]. destruct ex_plain as [P1 P2].
  apply (C67_json_file_partial ex_re all_valid ex_tape toy_age shown_world ex_codec ex_here ex_at_bob json_builder 0 json_ef 9 json_dm); auto.
  - exact toy_age_law.
  - exact shown_kms_law.
  - exact toy_plain_world.
  - doc_ok.
  - intros ks v I. right. intro H. cbn in H. repeat (destruct H as [H|H]; [discriminate H|]). destruct H.
  - apply Nat.leb_le. reflexivity.
  - intro H. cbn in H. repeat (destruct H as [H|H]; [discriminate H|]). destruct H.
  - intros x I. cbn in I. destruct I as [<-|[]]. exact mock_short.
  - apply utf8_lit. reflexivity.
  - apply open_age with (ids := [ex_bob]) (i := ex_bob); [reflexivity|now left|vm_compute; tauto].
Qed.

(** * C58 with the grammar of serde_json *)

(** A float left in plaintext that serde_json does not read as it wrote it: the file that rops writes no longer verifies. *)
Definition odd_doc : fmap := [(FStr (lit "x"), FNum (NFlt odd_float))].
Definition odd_ef : efile := Eval vm_compute in build_doc Json public_rule odd_doc.
Definition odd_text : bytes := Eval vm_compute in text_of (json_codec ex_codec) Json odd_ef.
Definition odd_back : efile := Eval vm_compute in read_back (json_codec ex_codec) Json odd_text.
Theorem C58_json_refuted : forall cd, exists re re_valid tp ag W E b ef n' s ef', age_law ag /\ kms_law W /\ plain_world ag W /\ W E
  /\ fmt_doc Json (bd_map b) /\ no_sops (bd_map b) /\ builder_encrypt re tp ag E Json b 0 = Ok (ef, n') /\ can_open ag E (md_recipients (fl_meta ef))
  /\ file_text (json_codec cd) Json ef = Ok s /\ read_efile re_valid ag (json_codec cd) Json s = Ok ef' /\ file_decrypt re ag E Json Json ef' = Err EMacMismatch.
Proof.
  intro cd. destruct (json_same cd ex_codec) as (J1 & J2 & J3 & J4). exists ex_re, all_valid, ex_tape, toy_age, shown_world, ex_here.
  exists {| bd_map := odd_doc; bd_partial := public_rule; bd_only := None; bd_age := [toy_public ex_alice; toy_public ex_bob]; bd_kms := [] |}, odd_ef, 5, odd_text, odd_back.
  rewrite J1, J4. split; [exact toy_age_law|]. split; [exact shown_kms_law|]. split; [exact toy_plain_world|]. split; [apply ex_env_shown; auto|].
  split; [doc_ok|]. split. { intro H. cbn in H. repeat (destruct H as [H|H]; [discriminate H|]). destruct H. } split; [by_vm|].
  split; [apply open_age with (ids := [ex_alice; ex_bob]) (i := ex_bob); [reflexivity|right; now left|vm_compute; tauto]|]. split; [by_vm|]. split; by_vm.
Qed.
Print Assumptions C58_json_refuted.
