(** Properties of files as text: C11 (whole), C45, C47, C50, C53, C57. *)
From Verif.Model Require Import Document.
From Verif.Spec Require Import SpecDocument SpecFileHistory.
From Verif.Proofs Require Import BytesFacts Utf8Facts ValueFacts MapFacts FormatFacts FileFacts FileKeys DocumentFacts DocumentFile DocumentSops.
From Verif.Props Require Import PMap PFormat ExWorld ExCodec PIntegration PFile.

Local Open Scope nat_scope.

(** * The setting of the examples *)

Definition ex_codec : codec := toy_codec (fun x => x).
Lemma ex_codec_law : forall f, codec_law ex_codec (fun x => x) f.
Proof. apply toy_codec_law. auto. Qed.
Lemma ex_time_law : time_law ex_codec.
Proof. apply toy_time_law. Qed.
Definition all_valid (s : bytes) : bool := true.

(** The toy world, where clocks show the times of the examples. *)
Definition shown_world (E : env) : Prop := toy_world E /\ forall n, e_clock E n = ex_time \/ e_clock E n = ex_later.
Lemma shown_kms_law : kms_law shown_world.
Proof. intros E E' n req req' key b [W _] [W' _]. apply toy_kms_law; auto. Qed.
Lemma ex_env_shown : forall a k t up, t = ex_time \/ t = ex_later -> shown_world (ex_env a k t up).
Proof. intros a k t up H. split; [apply ex_env_world|]. intro n. exact H. Qed.
Lemma utf8_app : forall a b, utf8_text a -> utf8_text b -> utf8_text (a ++ b).
Proof. intros a b (x & X & ->) (y & Y & ->). exists (x ++ y). split; [now apply Forall_app|]. now rewrite flat_map_app. Qed.
Lemma hex_ascii : forall s, all_ascii (hex_encode_upper s) = true.
Proof.
  induction s as [|b s IH]; auto. cbn [hex_encode_upper]. rewrite !all_ascii_cons, IH. destruct b; reflexivity.
Qed.
Lemma toy_plain_world : plain_world toy_age shown_world.
Proof.
  split.
  - intros E n [_ H]. destruct (H n) as [-> | ->]; (split; [reflexivity|cbn; lia]).
  - intros n r key U. cbn [toy_age ag_wrap]. unfold toy_wrap. repeat apply utf8_app; auto; try (apply utf8_lit; reflexivity); apply ascii_text; [apply hex_ascii|apply N_text_ascii].
Qed.
Lemma ex_plain : Forall (plain_recipient toy_age) [toy_public ex_alice; toy_public ex_bob] /\ Forall plain_key [ex_kms].
Proof.
  split; repeat constructor; try (apply utf8_lit; reflexivity); try discriminate. exists ex_kms_text. vm_compute. reflexivity.
Qed.

(** * C11: the whole path *)

(** From a document to the text of the encrypted file, and from that text to the text of the decrypted document.  [C11_file_partial]
    (see PFile) is the same without text.  Missing: keys with colons that interfere with the rule (refuted: [C11_file_refuted]); a top-level
    key sops (C45), TOML tables before values (C47), JSON floats (C58), documents nested deeper than 100, KMS keys without partition or account
    (C53): in those cases the statement is false. *)
Theorem C11_text_partial : forall re re_valid tp ag W cd g E E' f b n ef n' dm, age_law ag -> kms_law W -> codec_law cd g f -> time_law cd -> plain_world ag W -> W E -> W E' ->
  fmt_doc f (bd_map b) -> dec_map_to_internal f (bd_map b) = Ok dm -> colon_safe_map (bd_partial b) dm ->
  depth (FMap (bd_map b)) <= max_depth -> no_sops (bd_map b) -> kept_by_text g f (bd_map b) ->
  Forall (plain_recipient ag) (bd_age b) -> Forall plain_key (bd_kms b) -> plain_rule re_valid (bd_partial b) ->
  builder_encrypt re tp ag E f b n = Ok (ef, n') -> can_open ag E' (md_recipients (fl_meta ef)) ->
  exists s df s', file_text cd f ef = Ok s /\ read_efile re_valid ag cd f s = Ok ef /\ file_decrypt re ag E' f f ef = Ok df
    /\ fl_map df = normal_doc (bd_map b) /\ map_text cd f (fl_map df) = Ok s' /\ read_map cd f s' = Ok (normal_doc (bd_map b)).
Proof.
  intros re re_valid tp ag W cd g E E' f b n ef n' dm AL KL CL TL PW WE WE' FD A CS DP NS KT PR PK PP H O.
  pose proof (user_text g f _ _ FD A DP NS KT) as TS. destruct (native_good _ _ _ FD A) as (G & NT & NJ).
  assert (F : fits f (bd_partial b) dm) by (split; auto). pose proof (built_holds re tp ag W _ _ _ _ _ _ _ WE FD A F H) as Ho.
  pose proof (built_plain re re_valid tp ag W PW E f b n ef n' WE PR PK PP H) as PM.
  destruct (stored_back re re_valid tp ag W cd g TL f ef _ dm CL Ho TS PM) as (s & X & Y).
  destruct (built_decrypts re tp ag W AL KL E E' f b n ef n' dm WE WE' FD A CS H O) as (df & D & M & _).
  destruct (dec_map_to_from f _ _ FD A) as (B & _ & _ & _). destruct (document_back cd g f dm _ CL G TS B) as (s' & X' & Y').
  exists s, df, s'. rewrite M. repeat split; auto.
Qed.
Print Assumptions C11_text_partial.

(** The text of an encrypted file and the file read from a text. *)
Definition text_of (cd : codec) (f : fmt) (ef : efile) : bytes := get [] (file_text cd f ef).
Definition read_back (cd : codec) (f : fmt) (s : bytes) : efile := get no_efile (read_efile all_valid toy_age cd f s).
Definition plain_of (cd : codec) (f : fmt) (s : bytes) : fmap := get [] (read_map cd f s).

(** In a concrete document the values come before the tables. *)
Ltac order_ok := cbn [values_first each fst snd]; repeat match goal with
  | |- _ /\ _ => split
  | |- True => exact Logic.I
  | |- table_like _ = true -> _ => let T := fresh in intro T; (discriminate T || cbn [each values_first])
  | |- forall a x b y, _ = _ -> _ =>
      let H := fresh in let J := fresh in let T := fresh in let a := fresh "a" in let x := fresh "x" in let b := fresh "b" in let y := fresh "y" in
      intros a x b y H J T;
      repeat (destruct a as [|? a]; [cbn in H; injection H as <- <-; try discriminate T; repeat (destruct J as [<-|J]; [try reflexivity|]); try destruct J
                                    |cbn in H; injection H as _ H]); try (destruct a; discriminate H)
  end.
Definition text_doc : fmap :=
  [(FStr (lit "id"), FNum (NInt 7)); (FStr (lit "pw_secret"), FStr (lit "hunter2")); (FStr (lit "at"), FDate (lit "1979-05-27"));
   (FStr (lit "t"), FMap [(FStr (lit "x_secret"), FSeq [FBool true; FNum (NFlt (FFin false 6755399441055744 (-52)))])])].
Definition text_builder : builder :=
  {| bd_map := text_doc; bd_partial := public_rule; bd_only := None; bd_age := [toy_public ex_alice; toy_public ex_bob]; bd_kms := [ex_kms] |}.
Definition text_dm : dmap := Eval vm_compute in get [] (dec_map_to_internal Toml text_doc).
Definition text_ef : efile := Eval vm_compute in build Toml text_builder 0.
Lemma text_ok : fmt_doc Toml text_doc /\ depth (FMap text_doc) <= max_depth /\ no_sops text_doc /\ kept_by_text (fun x => x) Toml text_doc.
Proof.
  split; [doc_ok|]. split; [apply Nat.leb_le; reflexivity|]. split. { intro H. cbn in H. repeat (destruct H as [H|H]; [discriminate H|]). destruct H. }
  cbn [kept_by_text]. unfold text_doc. order_ok.
Qed.
Lemma text_safe_colons : colon_safe_map public_rule text_dm.
Proof.
  intros ks v I. right. intro H. cbn in H. repeat (destruct H as [H|H]; [discriminate H|]). destruct H.
Qed.
Example C11_text_witness : (forall f, codec_law ex_codec (fun x => x) f) /\ time_law ex_codec /\ plain_world toy_age shown_world /\ shown_world ex_here /\ shown_world ex_at_bob
  /\ dec_map_to_internal Toml text_doc = Ok text_dm /\ builder_encrypt ex_re ex_tape toy_age ex_here Toml text_builder 0 = Ok (text_ef, 10)
  /\ exists s df s', file_text ex_codec Toml text_ef = Ok s /\ read_efile all_valid toy_age ex_codec Toml s = Ok text_ef /\ file_decrypt ex_re toy_age ex_at_bob Toml Toml text_ef = Ok df
    /\ fl_map df = normal_doc text_doc /\ map_text ex_codec Toml (fl_map df) = Ok s' /\ read_map ex_codec Toml s' = Ok (normal_doc text_doc).
Proof.
  assert (A : dec_map_to_internal Toml text_doc = Ok text_dm) by by_vm.
  assert (B : builder_encrypt ex_re ex_tape toy_age ex_here Toml text_builder 0 = Ok (text_ef, 10)) by by_vm.
  assert (W1 : shown_world ex_here) by (apply ex_env_shown; auto). assert (W2 : shown_world ex_at_bob) by (apply ex_env_shown; auto).
  split; [exact ex_codec_law|]. split; [exact ex_time_law|]. split; [exact toy_plain_world|]. split; auto. split; auto. split; auto. split; auto.
  destruct text_ok as (F & D & N & K). destruct ex_plain as [P1 P2].
  apply (C11_text_partial ex_re all_valid ex_tape toy_age shown_world ex_codec (fun x => x) ex_here ex_at_bob Toml text_builder 0 text_ef 10 text_dm); auto.
  - exact toy_age_law.
  - exact shown_kms_law.
  - apply ex_codec_law.
  - exact ex_time_law.
  - exact toy_plain_world.
  - exact text_safe_colons.
  - apply utf8_lit. reflexivity.
  - apply open_age with (ids := [ex_bob]) (i := ex_bob); [reflexivity|now left|vm_compute; tauto].
Qed.

(** * C45 *)

(** The full statement is [C11_text_partial] without [no_sops].  It is false of the code, for every document with a top-level key sops:
    the metadata is written under the same key.  In YAML and JSON the file that rops writes without complaint can never be read again. *)
Theorem C45_sops_unreadable : forall re re_valid tp ag W cd g E f b n ef n' dm, codec_law cd g f -> plain_world ag W -> W E -> f <> Toml ->
  fmt_doc f (bd_map b) -> dec_map_to_internal f (bd_map b) = Ok dm -> colon_safe_map (bd_partial b) dm -> depth (FMap (bd_map b)) <= max_depth ->
  Forall (plain_recipient ag) (bd_age b) -> Forall plain_key (bd_kms b) -> plain_rule re_valid (bd_partial b) ->
  In (FStr (lit "sops")) (map fst (bd_map b)) -> builder_encrypt re tp ag E f b n = Ok (ef, n') ->
  exists s, file_text cd f ef = Ok s /\ read_efile re_valid ag cd f s = Err EDuplicateField.
Proof.
  intros re re_valid tp ag W cd g E f b n ef n' dm CL PW WE NT FD A CS DP PR PK PP S H.
  destruct (built_shape re tp ag W E f b n ef n' dm WE FD A CS DP H) as (ST & D & K & _ & _).
  apply (sops_twice re_valid ag cd g f ef CL NT ST D); [now rewrite K|]. eapply built_plain; eauto.
Qed.
Print Assumptions C45_sops_unreadable.
(** In TOML the user's entry is silently replaced by the metadata. *)
Theorem C45_sops_lost : forall re re_valid tp ag W cd g E b n ef n' dm, codec_law cd g Toml -> time_law cd -> plain_world ag W -> W E ->
  fmt_doc Toml (bd_map b) -> dec_map_to_internal Toml (bd_map b) = Ok dm -> colon_safe_map (bd_partial b) dm -> depth (FMap (bd_map b)) <= max_depth ->
  Forall (plain_recipient ag) (bd_age b) -> Forall plain_key (bd_kms b) -> plain_rule re_valid (bd_partial b) ->
  In (FStr (lit "sops")) (map fst (bd_map b)) -> builder_encrypt re tp ag E Toml b n = Ok (ef, n') ->
  exists s ef', file_text cd Toml ef = Ok s /\ read_efile re_valid ag cd Toml s = Ok ef' /\ fl_meta ef' = fl_meta ef /\ ~ In (FStr (lit "sops")) (map fst (fl_map ef')).
Proof.
  intros re re_valid tp ag W cd g E b n ef n' dm CL TL PW WE FD A CS DP PR PK PP S H.
  destruct (built_shape re tp ag W E Toml b n ef n' dm WE FD A CS DP H) as (ST & D & K & _ & _).
  destruct (sops_overwritten re_valid ag cd g TL ef CL ST D) as (s & X & Y); [now rewrite K|eapply built_plain; eauto|]. do 2 eexists. split; [exact X|]. split; [exact Y|]. split; [reflexivity|]. cbn [fl_map].
  intro I. rewrite (layout_keys g Toml) in I by (apply tidy_filter; eapply storable_tidy; eauto). apply in_map_iff in I. destruct I as (kv & Q & I). apply filter_In in I. destruct I as [_ I].
  unfold other in I. rewrite (proj2 (key_is_str kv) Q) in I. discriminate.
Qed.
Print Assumptions C45_sops_lost.

Definition sops_doc : fmap := [(FStr (lit "sops"), FStr (lit "mine")); (FStr (lit "a"), FStr (lit "x"))].
Definition sops_dm : dmap := Eval vm_compute in get [] (dec_map_to_internal Toml sops_doc).
Definition sops_ef (f : fmt) : efile := build f (small_builder f sops_doc) 0.
Definition sops_ef_yaml : efile := Eval vm_compute in sops_ef Yaml.
Definition sops_ef_toml : efile := Eval vm_compute in sops_ef Toml.
Definition sops_back_toml : efile := Eval vm_compute in read_back ex_codec Toml (text_of ex_codec Toml sops_ef_toml).
Theorem C45_any_key_refuted : exists re re_valid tp ag W cd g E b ef n' dm, age_law ag /\ kms_law W /\ (forall f, codec_law cd g f) /\ time_law cd /\ plain_world ag W /\ W E
  /\ fmt_doc Yaml (bd_map b) /\ dec_map_to_internal Yaml (bd_map b) = Ok dm /\ colon_safe_map (bd_partial b) dm
  /\ builder_encrypt re tp ag E Yaml b 0 = Ok (ef, n') /\ exists s, file_text cd Yaml ef = Ok s /\ read_efile re_valid ag cd Yaml s = Err EDuplicateField.
Proof.
  exists ex_re, all_valid, ex_tape, toy_age, shown_world, ex_codec, (fun x => x), ex_here, (small_builder Yaml sops_doc), sops_ef_yaml, 9, sops_dm.
  assert (B : builder_encrypt ex_re ex_tape toy_age ex_here Yaml (small_builder Yaml sops_doc) 0 = Ok (sops_ef_yaml, 9)) by by_vm.
  assert (F : fmt_doc Yaml sops_doc) by doc_ok. assert (A : dec_map_to_internal Yaml sops_doc = Ok sops_dm) by by_vm. assert (C : colon_safe_map None sops_dm) by (intros ks v I; right; exact Logic.I).
  assert (W1 : shown_world ex_here) by (apply ex_env_shown; auto). destruct ex_plain as [P1 P2].
  split; [exact toy_age_law|]. split; [exact shown_kms_law|]. split; [exact ex_codec_law|]. split; [exact ex_time_law|]. split; [exact toy_plain_world|]. split; auto. split; auto. split; auto. split; auto. split; auto.
  apply (C45_sops_unreadable ex_re all_valid ex_tape toy_age shown_world ex_codec (fun x => x) ex_here Yaml (small_builder Yaml sops_doc) 0 sops_ef_yaml 9 sops_dm); auto.
  - apply ex_codec_law.
  - exact toy_plain_world.
  - discriminate.
  - apply Nat.leb_le. reflexivity.
  - exact Logic.I.
  - now left.
Qed.
Print Assumptions C45_any_key_refuted.
(** The TOML file that lost the entry is read but never decrypted. *)
Theorem C45_toml_refuted : exists re re_valid tp ag cd g E b ef n' s ef', age_law ag /\ (forall f, codec_law cd g f) /\ time_law cd /\ fmt_doc Toml (bd_map b)
  /\ builder_encrypt re tp ag E Toml b 0 = Ok (ef, n') /\ file_text cd Toml ef = Ok s /\ read_efile re_valid ag cd Toml s = Ok ef' /\ file_decrypt re ag E Toml Toml ef' = Err EMacMismatch.
Proof.
  exists ex_re, all_valid, ex_tape, toy_age, ex_codec, (fun x => x), ex_here, (small_builder Toml sops_doc), sops_ef_toml, 9, (text_of ex_codec Toml sops_ef_toml), sops_back_toml.
  split; [exact toy_age_law|]. split; [exact ex_codec_law|]. split; [exact ex_time_law|]. split; [doc_ok|]. split; [by_vm|]. split; [by_vm|]. split; by_vm.
Qed.
Print Assumptions C45_toml_refuted.
(** What holds: every other key; see [C11_text_partial]. *)

(** * C47 *)

(** What is read from the text of an encrypted TOML file: the same metadata, and the values of every table before its tables. *)
Theorem C47_layout_partial : forall re_valid ag cd g ef, codec_law cd g Toml -> time_law cd -> storable Toml (FMap (fl_map ef)) -> depth (FMap (fl_map ef)) <= max_depth ->
  no_sops (fl_map ef) -> plain_meta re_valid ag (fl_meta ef) ->
  exists s ef', file_text cd Toml ef = Ok s /\ read_efile re_valid ag cd Toml s = Ok ef' /\ fl_meta ef' = fl_meta ef
    /\ FMap (fl_map ef') = toml_order (FMap (fl_map ef)) /\ (values_first (FMap (fl_map ef)) -> ef' = ef).
Proof.
  intros re_valid ag cd g ef CL TL ST DP NS PM. destruct (file_text_back re_valid ag cd g TL Toml ef CL ST DP NS PM) as (s & X & Y). pose proof (storable_tidy _ _ ST) as T.
  do 2 eexists. split; [exact X|]. split; [exact Y|]. split; [reflexivity|]. cbn [fl_map]. split.
  - cbn [layout]. rewrite once_same by exact T. reflexivity.
  - intro V. rewrite layout_same by auto. now destruct ef.
Qed.
Print Assumptions C47_layout_partial.

(** The full statement is [C11_text_partial] for TOML without [kept_by_text].  It is false: in a document whose table comes before a plain
    value (written as an inline table), the order changes and the MAC no longer fits. *)
Definition inline_doc : fmap := [(FStr (lit "t"), FMap [(FStr (lit "x"), FStr (lit "1"))]); (FStr (lit "v"), FStr (lit "2"))].
Definition inline_ef : efile := Eval vm_compute in build Toml (small_builder Toml inline_doc) 0.
Definition inline_text : bytes := Eval vm_compute in text_of ex_codec Toml inline_ef.
Definition inline_back : efile := Eval vm_compute in read_back ex_codec Toml inline_text.
Theorem C47_toml_order_refuted : exists re re_valid tp ag W cd g E b ef n' s ef', age_law ag /\ kms_law W /\ (forall f, codec_law cd g f) /\ time_law cd /\ plain_world ag W /\ W E
  /\ fmt_doc Toml (bd_map b) /\ no_sops (bd_map b) /\ depth (FMap (bd_map b)) <= max_depth /\ bd_partial b = None
  /\ builder_encrypt re tp ag E Toml b 0 = Ok (ef, n') /\ can_open ag E (md_recipients (fl_meta ef))
  /\ file_text cd Toml ef = Ok s /\ read_efile re_valid ag cd Toml s = Ok ef' /\ file_decrypt re ag E Toml Toml ef' = Err EMacMismatch.
Proof.
  exists ex_re, all_valid, ex_tape, toy_age, shown_world, ex_codec, (fun x => x), ex_here, (small_builder Toml inline_doc), inline_ef, 9, inline_text, inline_back.
  split; [exact toy_age_law|]. split; [exact shown_kms_law|]. split; [exact ex_codec_law|]. split; [exact ex_time_law|]. split; [exact toy_plain_world|]. split; [apply ex_env_shown; auto|].
  split; [doc_ok|]. split. { intro H. cbn in H. repeat (destruct H as [H|H]; [discriminate H|]). destruct H. }
  split; [apply Nat.leb_le; reflexivity|]. split; [reflexivity|]. split; [by_vm|].
  split; [apply open_age with (ids := [ex_alice; ex_bob]) (i := ex_bob); [reflexivity|right; now left|vm_compute; tauto]|]. split; [by_vm|]. split; by_vm.
Qed.
Print Assumptions C47_toml_order_refuted.
(** With values before tables the file verifies: [C11_text_partial], for [f = Toml]; the witness [text_doc] has a table after values. *)

(** * C50 *)

(** The full statement: a file encrypted again is refused, or can be read and opened.  For YAML and JSON it is false of every encrypted file
    that rops writes: encrypting it again succeeds like any encryption, and the result can never be read again. *)
Theorem C50_again_unreadable : forall re re_valid tp ag W cd g E f ef, codec_law cd g f -> plain_world ag W -> W E -> f <> Toml ->
  storable f (FMap (fl_map ef)) -> depth (FMap (fl_map ef)) <= max_depth -> no_sops (fl_map ef) -> layout g f (fl_map ef) = fl_map ef -> plain_meta re_valid ag (fl_meta ef) ->
  exists s m, file_text cd f ef = Ok s /\ read_map cd f s = Ok m
    /\ forall b n ef2 n' dm, bd_map b = m -> dec_map_to_internal f m = Ok dm -> colon_safe_map (bd_partial b) dm ->
       Forall (plain_recipient ag) (bd_age b) -> Forall plain_key (bd_kms b) -> plain_rule re_valid (bd_partial b) ->
       builder_encrypt re tp ag E f b n = Ok (ef2, n') -> exists s2, file_text cd f ef2 = Ok s2 /\ read_efile re_valid ag cd f s2 = Err EDuplicateField.
Proof.
  intros re re_valid tp ag W cd g E f ef CL PW WE NT ST DP NS LY PM.
  destruct (cipher_as_plain re_valid ag cd g f ef CL ST DP NS LY PM) as (s & m & X & Y & SM & D & I & _). exists s, m. split; auto. split; auto.
  intros b n ef2 n' dm Q A CS PR PK PP H. subst m. eapply C45_sops_unreadable with (W := W) (b := b) (dm := dm); eauto. now apply storable_fmt.
Qed.
Print Assumptions C50_again_unreadable.

Definition small_text : bytes := Eval vm_compute in text_of ex_codec Yaml small_ef.
Definition small_again : fmap := Eval vm_compute in plain_of ex_codec Yaml small_text.
Definition again_builder (f : fmt) (m : fmap) : builder :=
  {| bd_map := m; bd_partial := Some (EncryptedSuffix (lit "secret")); bd_only := None; bd_age := [toy_public ex_alice]; bd_kms := [] |}.
Definition again_ef : efile := Eval vm_compute in build Yaml (again_builder Yaml small_again) 20.
Theorem C50_again_refuted : exists re re_valid tp ag cd g E ef s b ef2 n' s2, age_law ag /\ (forall f, codec_law cd g f) /\ time_law cd
  /\ read_efile re_valid ag cd Yaml s = Ok ef /\ (exists df, file_decrypt re ag E Yaml Yaml ef = Ok df)
  /\ read_map cd Yaml s = Ok (bd_map b) /\ builder_encrypt re tp ag E Yaml b 20 = Ok (ef2, n') /\ file_text cd Yaml ef2 = Ok s2 /\ read_efile re_valid ag cd Yaml s2 = Err EDuplicateField.
Proof.
  exists ex_re, all_valid, ex_tape, toy_age, ex_codec, (fun x => x), ex_here, small_ef, small_text, (again_builder Yaml small_again), again_ef, 24, (text_of ex_codec Yaml again_ef).
  split; [exact toy_age_law|]. split; [exact ex_codec_law|]. split; [exact ex_time_law|]. split; [by_vm|]. split; [exists small_df; exact small_decrypted|]. split; [by_vm|]. split; [by_vm|]. split; by_vm.
Qed.
Print Assumptions C50_again_refuted.

(** TOML: the inner metadata, and with it the wrapped keys of the inner file, is gone; the outer file does not decrypt either. *)
Definition tsmall_ef : efile := Eval vm_compute in build Toml (small_builder Toml small_doc) 0.
Definition tsmall_text : bytes := Eval vm_compute in text_of ex_codec Toml tsmall_ef.
Definition tsmall_again : fmap := Eval vm_compute in plain_of ex_codec Toml tsmall_text.
Definition tagain_ef : efile := Eval vm_compute in build Toml (again_builder Toml tsmall_again) 20.
Definition tagain_text : bytes := Eval vm_compute in text_of ex_codec Toml tagain_ef.
Definition tagain_back : efile := Eval vm_compute in read_back ex_codec Toml tagain_text.
Theorem C50_toml_refuted : exists re re_valid tp ag cd g E ef s b ef2 n' s2 ef3, age_law ag /\ (forall f, codec_law cd g f) /\ time_law cd
  /\ read_efile re_valid ag cd Toml s = Ok ef /\ read_map cd Toml s = Ok (bd_map b) /\ builder_encrypt re tp ag E Toml b 20 = Ok (ef2, n')
  /\ file_text cd Toml ef2 = Ok s2 /\ read_efile re_valid ag cd Toml s2 = Ok ef3 /\ file_decrypt re ag E Toml Toml ef3 = Err EMacMismatch.
Proof.
  exists ex_re, all_valid, ex_tape, toy_age, ex_codec, (fun x => x), ex_here, tsmall_ef, tsmall_text, (again_builder Toml tsmall_again), tagain_ef, 24, tagain_text, tagain_back.
  split; [exact toy_age_law|]. split; [exact ex_codec_law|]. split; [exact ex_time_law|]. split; [by_vm|]. split; [by_vm|]. split; [by_vm|]. split; [by_vm|]. split; by_vm.
Qed.
Print Assumptions C50_toml_refuted.

Example C50_witness : storable Yaml (FMap (fl_map small_ef)) /\ depth (FMap (fl_map small_ef)) <= max_depth /\ no_sops (fl_map small_ef)
  /\ layout (fun x => x) Yaml (fl_map small_ef) = fl_map small_ef /\ plain_meta all_valid toy_age (fl_meta small_ef).
Proof.
  destruct ex_plain as [P1 P2]. assert (W1 : shown_world ex_here) by (apply ex_env_shown; auto). assert (F : fmt_doc Yaml small_doc) by doc_ok.
  assert (A : dec_map_to_internal Yaml small_doc = Ok small_dm) by by_vm. assert (C : colon_safe_map None small_dm) by (intros ks v I; right; exact Logic.I).
  destruct (built_shape ex_re ex_tape toy_age shown_world ex_here Yaml (small_builder Yaml small_doc) 0 small_ef 9 small_dm W1 F A C) as (S & D & K & _ & _); [apply Nat.leb_le; reflexivity|exact small_built|].
  split; auto. split; auto. split. { unfold no_sops. rewrite K. intro H. cbn in H. repeat (destruct H as [H|H]; [discriminate H|]). destruct H. } split; [reflexivity|].
  apply (built_plain ex_re all_valid ex_tape toy_age shown_world toy_plain_world ex_here Yaml (small_builder Yaml small_doc) 0 small_ef 9); auto; exact Logic.I.
Qed.

(** * C53 *)

(** Metadata written into a file is read back unchanged: recipients with their wrapped keys and creation times, time, MAC, rule and options.
    Missing: KMS keys whose ARN has no partition or no account, for which it is false (below); [plain_meta] otherwise says what the Rust types
    guarantee, except that the age crate reads a recipient it has printed as the same recipient. *)
Theorem C53_metadata_partial : forall re_valid ag cd g f ef, codec_law cd g f -> time_law cd -> storable f (FMap (fl_map ef)) -> depth (FMap (fl_map ef)) <= max_depth ->
  no_sops (fl_map ef) -> plain_meta re_valid ag (fl_meta ef) ->
  exists s ef', file_text cd f ef = Ok s /\ read_efile re_valid ag cd f s = Ok ef' /\ fl_meta ef' = fl_meta ef.
Proof.
  intros re_valid ag cd g f ef CL TL ST DP NS PM. destruct (file_text_back re_valid ag cd g TL f ef CL ST DP NS PM) as (s & X & Y). eauto 6.
Qed.
Print Assumptions C53_metadata_partial.
Example C53_witness : plain_meta all_valid toy_age (fl_meta text_ef) /\ length (rc_age (md_recipients (fl_meta text_ef))) = 2 /\ length (rc_kms (md_recipients (fl_meta text_ef))) = 1
  /\ md_partial (fl_meta text_ef) = public_rule.
Proof.
  split; [|repeat split; by_vm]. destruct ex_plain as [P1 P2].
  apply (built_plain ex_re all_valid ex_tape toy_age shown_world toy_plain_world ex_here Toml text_builder 0 text_ef 10); auto; [apply ex_env_shown; auto|apply utf8_lit; reflexivity].
Qed.
(** A file encrypted for a KMS key without account is written, and cannot be read again. *)
Definition alias_key : aws_key := Eval vm_compute in match parse_aws_key (lit "default.arn:aws:kms:eu-north-1::alias/backup") with Ok k => k | _ => no_kms end.
Definition alias_builder : builder := {| bd_map := small_doc; bd_partial := None; bd_only := None; bd_age := [toy_public ex_alice]; bd_kms := [alias_key] |}.
Definition alias_ef : efile := Eval vm_compute in build Json alias_builder 0.
Theorem C53_metadata_refuted : exists re re_valid tp ag cd g E t k b ef n' s, age_law ag /\ (forall f, codec_law cd g f) /\ time_law cd
  /\ parse_aws_key t = Ok k /\ bd_kms b = [k] /\ builder_encrypt re tp ag E Json b 0 = Ok (ef, n') /\ file_text cd Json ef = Ok s /\ exists e, read_efile re_valid ag cd Json s = Err e.
Proof.
  exists ex_re, all_valid, ex_tape, toy_age, ex_codec, (fun x => x), ex_here, (lit "default.arn:aws:kms:eu-north-1::alias/backup"), alias_key, alias_builder, alias_ef, 8, (text_of ex_codec Json alias_ef).
  split; [exact toy_age_law|]. split; [exact ex_codec_law|]. split; [exact ex_time_law|]. split; [by_vm|]. split; [reflexivity|]. split; [by_vm|]. split; [by_vm|]. exists EInvalidField. by_vm.
Qed.
Print Assumptions C53_metadata_refuted.

(** * C57 *)

(** A rule in the metadata is applied or refused.  Full statement: if the metadata has an entry named like a rule, then reading the file fails or the
    file has that rule.  It is false: an entry with an invalid regular expression is ignored without an error, and so is a second rule. *)
Theorem C57_rule_refuted : forall re_valid s t, re_valid s = false -> re_valid t = true ->
  read_rule re_valid [field (lit "encrypted_regex") (FStr s)] = None
  /\ read_rule re_valid [field (lit "encrypted_regex") (FStr s); field (lit "unencrypted_regex") (FStr t)] = None
  /\ read_rule re_valid [field (lit "unencrypted_suffix") (FStr s); field (lit "encrypted_regex") (FStr t)] = Some (UnencryptedSuffix s)
  /\ read_rule re_valid [field (lit "encrypted_suffix") (FBool true)] = None.
Proof.
  intros re_valid s t H K. split; [|split; [|split]]; [| |reflexivity|reflexivity].
  - change (read_rule re_valid [field (lit "encrypted_regex") (FStr s)]) with (if re_valid s then Some (EncryptedRegex s) else None). now rewrite H.
  - match goal with |- ?l = _ => change l with (if re_valid s then Some (EncryptedRegex s) else None) end. now rewrite H.
Qed.
Print Assumptions C57_rule_refuted.
(** Whole files: the metadata of [lost_rule_back] comes from a text that names a rule, which the file read does not have. *)
Definition no_bracket (s : bytes) : bool := negb (bytes_eqb s (lit "[")).
Definition lost_rule_ef : efile := Eval vm_compute in
  {| fl_map := fl_map small_ef; fl_meta := {| md_recipients := md_recipients (fl_meta small_ef); md_modified := md_modified (fl_meta small_ef); md_mac := md_mac (fl_meta small_ef);
     md_partial := Some (UnencryptedRegex (lit "[")); md_only := None |} |}.
Theorem C57_file_refuted : exists re re_valid ag cd g E s ef df, age_law ag /\ (forall f, codec_law cd g f) /\ time_law cd /\ file_text cd Yaml lost_rule_ef = Ok s
  /\ md_partial (fl_meta lost_rule_ef) = Some (UnencryptedRegex (lit "[")) /\ re_valid (lit "[") = false
  /\ read_efile re_valid ag cd Yaml s = Ok ef /\ md_partial (fl_meta ef) = None /\ file_decrypt re ag E Yaml Yaml ef = Ok df.
Proof.
  exists ex_re, no_bracket, toy_age, ex_codec, (fun x => x), ex_here, (text_of ex_codec Yaml lost_rule_ef), small_ef, small_df.
  split; [exact toy_age_law|]. split; [exact ex_codec_law|]. split; [exact ex_time_law|]. split; [by_vm|]. split; [reflexivity|]. split; [reflexivity|]. split; [by_vm|]. split; [reflexivity|exact small_decrypted].
Qed.
Print Assumptions C57_file_refuted.
(** What holds: a single well-formed rule is read. *)
Theorem C57_rule_partial : forall re_valid p es, plain_rule re_valid (Some p) -> filter is_rule_entry es = [rule_field p] -> read_rule re_valid es = Some p.
Proof.
  intros re_valid p es H F. unfold read_rule. rewrite find_filter, F.
  destruct p; cbn [plain_rule] in H; unfold read_rule_entry, rule_field; cbn [snd field]; try reflexivity.
  - match goal with |- ?l = _ => change l with (if re_valid p then Some (EncryptedRegex p) else None) end. now rewrite (proj2 H).
  - match goal with |- ?l = _ => change l with (if re_valid p then Some (UnencryptedRegex p) else None) end. now rewrite (proj2 H).
Qed.
Print Assumptions C57_rule_partial.

(** * C58 *)

(** The float that serde_json (de.rs, [f64_from_parts], without the feature float_roundtrip) reads from the digits [sig] with [k] of them
    after the point: the digits are rounded to a float, which is divided by 10^k and rounded again. *)
Definition serde_float (neg : bool) (sig : N) (k : nat) : f64 :=
  match round_ratio neg sig 1 with
  | FFin _ m e => let '(a, b) := scaled m (10 ^ N.of_nat k) (- e) in round_ratio neg a b
  | x => x
  end.
(** What it reads from the text of a float with up to 22 digits after the point and fewer than 20 digits. *)
Definition reread (x : f64) : f64 :=
  match x with
  | FFin neg _ _ =>
      let s := match f64_text x with c :: r => if beqb c "-" then r else c :: r | [] => [] end in
      let '(ip, r) := span_digits s in
      match r with
      | _ :: fp => if Nat.ltb (length (ip ++ fp)) 20 && Nat.ltb (length fp) 23 then
                     let y := serde_float neg (digits_N (ip ++ fp)) (length fp) in if f64_canonical y then y else x
                   else x
      | [] => x
      end
  | _ => x
  end.
Lemma reread_canonical : forall x, f64_canonical x = true -> f64_canonical (reread x) = true.
Proof.
  intros [| |neg m e] H; auto. unfold reread. destruct (span_digits _) as [ip [|c fp]]; auto. destruct (_ && _); auto. cbv zeta. destruct (f64_canonical (serde_float _ _ _)) eqn:E; auto.
Qed.
(** JSON: 9.44395555026398092 is read as a float that is printed as 9.443955550263981, which is read as 9.44395555026398. *)
Definition drift_float : f64 := Eval vm_compute in serde_float false 944395555026398092 17.
Example drift_text : f64_text drift_float = lit "9.443955550263981" /\ f64_text (reread drift_float) = lit "9.44395555026398" /\ f64_canonical drift_float = true.
Proof. repeat split; by_vm. Qed.
Definition drift_doc : fmap := [(FStr (lit "x"), FNum (NFlt drift_float))].
Definition drift_ef : efile := Eval vm_compute in build_doc Json public_rule drift_doc.
Definition drift_text_ef : bytes := Eval vm_compute in text_of (toy_codec reread) Json drift_ef.
Definition drift_back : efile := Eval vm_compute in read_back (toy_codec reread) Json drift_text_ef.
(** Full statement: [C11_text_partial] for JSON without [kept_by_text].  It is false for floats left in plaintext: the file no longer verifies. *)
Theorem C58_float_refuted : exists re re_valid tp ag W cd E b ef n' s ef', age_law ag /\ kms_law W /\ (forall f, codec_law cd reread f) /\ time_law cd /\ plain_world ag W /\ W E
  /\ fmt_doc Json (bd_map b) /\ no_sops (bd_map b) /\ builder_encrypt re tp ag E Json b 0 = Ok (ef, n') /\ can_open ag E (md_recipients (fl_meta ef))
  /\ file_text cd Json ef = Ok s /\ read_efile re_valid ag cd Json s = Ok ef' /\ file_decrypt re ag E Json Json ef' = Err EMacMismatch.
Proof.
  exists ex_re, all_valid, ex_tape, toy_age, shown_world, (toy_codec reread), ex_here.
  exists {| bd_map := drift_doc; bd_partial := public_rule; bd_only := None; bd_age := [toy_public ex_alice; toy_public ex_bob]; bd_kms := [] |}, drift_ef, 5, drift_text_ef, drift_back.
  split; [exact toy_age_law|]. split; [exact shown_kms_law|]. split; [apply toy_codec_law, reread_canonical|]. split; [apply toy_time_law|]. split; [exact toy_plain_world|]. split; [apply ex_env_shown; auto|].
  split; [doc_ok|]. split. { intro H. cbn in H. repeat (destruct H as [H|H]; [discriminate H|]). destruct H. } split; [by_vm|].
  split; [apply open_age with (ids := [ex_alice; ex_bob]) (i := ex_bob); [reflexivity|right; now left|vm_compute; tauto]|]. split; [by_vm|]. split; by_vm.
Qed.
Print Assumptions C58_float_refuted.
(** What holds: the encrypted file is read back exactly if the floats left in plaintext are read as printed; encrypted floats do not matter. *)
Theorem C58_plain_floats_partial : forall re re_valid tp ag W cd g E b n ef n' dm, codec_law cd g Json -> time_law cd -> plain_world ag W -> W E ->
  fmt_doc Json (bd_map b) -> dec_map_to_internal Json (bd_map b) = Ok dm -> colon_safe_map (bd_partial b) dm -> depth (FMap (bd_map b)) <= max_depth -> no_sops (bd_map b) ->
  (forall ks x, f64_canonical x = true -> In (ks, VFloat (f64_text x)) (map_values dm) -> ~ in_scope re (bd_partial b) ks -> g x = x) ->
  Forall (plain_recipient ag) (bd_age b) -> Forall plain_key (bd_kms b) -> plain_rule re_valid (bd_partial b) -> builder_encrypt re tp ag E Json b n = Ok (ef, n') ->
  exists s, file_text cd Json ef = Ok s /\ read_efile re_valid ag cd Json s = Ok ef.
Proof.
  intros re re_valid tp ag W cd g E b n ef n' dm CL TL PW WE FD A CS DP NS G PR PK PP H.
  destruct (built_shape re tp ag W E Json b n ef n' dm WE FD A CS DP H) as (ST & D & K & _ & FL).
  pose proof (built_plain re re_valid tp ag W PW E Json b n ef n' WE PR PK PP H) as PM.
  destruct (file_text_back re_valid ag cd g TL Json ef CL ST D) as (s & X & Y); auto; [unfold no_sops; now rewrite K|]. exists s. split; auto. rewrite Y.
  rewrite layout_same; [now destruct ef|eapply storable_tidy; eauto|]. cbn [kept_by_text]. intros x I. destruct (FL x I) as (C & ks & N & J). eapply G; eauto.
Qed.
Print Assumptions C58_plain_floats_partial.
(** The float of [drift_doc], encrypted. *)
Definition safe_doc : fmap := [(FStr (lit "x_secret"), FNum (NFlt drift_float))].
Definition safe_ef : efile := Eval vm_compute in build_doc Json public_rule safe_doc.
Example C58_witness : reread drift_float <> drift_float /\ exists s, file_text (toy_codec reread) Json safe_ef = Ok s /\ read_efile all_valid toy_age (toy_codec reread) Json s = Ok safe_ef.
Proof.
  split; [intro H; vm_compute in H; discriminate H|]. assert (A : dec_map_to_internal Json safe_doc = Ok [(lit "x_secret", Leaf (VFloat (lit "9.443955550263981")))]) by by_vm. destruct ex_plain as [P1 P2].
  apply (C58_plain_floats_partial ex_re all_valid ex_tape toy_age shown_world (toy_codec reread) reread ex_here
    {| bd_map := safe_doc; bd_partial := public_rule; bd_only := None; bd_age := [toy_public ex_alice; toy_public ex_bob]; bd_kms := [] |} 0 safe_ef 6 [(lit "x_secret", Leaf (VFloat (lit "9.443955550263981")))]); auto.
  - apply toy_codec_law, reread_canonical.
  - apply toy_time_law.
  - exact toy_plain_world.
  - apply ex_env_shown; auto.
  - doc_ok.
  - intros ks v I. left. cbn in I. destruct I as [I|[]]. injection I as <- _. constructor; [|constructor]. intro H. cbn in H. repeat (destruct H as [H|H]; [discriminate H|]). destruct H.
  - apply Nat.leb_le. reflexivity.
  - intro H. cbn in H. destruct H as [H|[]]. discriminate H.
  - intros ks x _ I N. exfalso. apply N. cbn in I. destruct I as [I|[]]. injection I as <- _. exists (lit "x_secret"). split; [now left|]. exists (lit "x"). reflexivity.
  - constructor.
  - apply utf8_lit. reflexivity.
Qed.
