(** C76: the layout of files. *)
From Verif.Model Require Import Document.
From Verif.Spec Require Import SpecSops.
From Verif.Proofs Require Import BytesFacts ValueFacts FormatFacts IntegrationFacts DocumentFacts SopsFacts.
From Verif.Props Require Import ExWorld PFile PDocument.
Open Scope byte_scope.

(** A file that is read has exactly one entry [sops], whose entries say what the metadata is; all other entries are the document. *)
Theorem C76_read : forall re_valid ag cd f s ef, read_efile re_valid ag cd f s = Ok ef ->
  exists a ms b, cd_read cd f s = Ok (a ++ (FStr (lit "sops"), FMap ms) :: b) /\ ~ In (FStr (lit "sops")) (map fst (a ++ b))
    /\ says_meta re_valid ag cd ms (fl_meta ef) /\ settle_map f (a ++ b) = Ok (fl_map ef).
Proof.
  intros re_valid ag cd f s ef H. unfold read_efile in H. apply bind_ok in H. destruct H as (es & R & H). apply entries_read in H. destruct H as (a & ms & b & -> & N & M & S). eauto 8.
Qed.
Print Assumptions C76_read.
(** Every such file is read, whatever else is in the metadata. *)
Theorem C76_accepts : forall re_valid ag cd f s a ms b md m, cd_read cd f s = Ok (a ++ (FStr (lit "sops"), FMap ms) :: b) -> ~ In (FStr (lit "sops")) (map fst (a ++ b)) ->
  says_meta re_valid ag cd ms md -> settle_map f (a ++ b) = Ok m -> (forall kv, In kv (a ++ b) -> scalar_key (fst kv) = true /\ buffered (snd kv) = true) ->
  exists ef, read_efile re_valid ag cd f s = Ok ef /\ fl_map ef = m /\ same_meta (fl_meta ef) md.
Proof.
  intros re_valid ag cd f s a ms b md m R N M S B. destruct (entries_accepted re_valid ag cd f a ms b md m N M S B) as (ef & X & Y). exists ef. split; auto. unfold read_efile. now rewrite R.
Qed.
Print Assumptions C76_accepts.
(** What is written: the entries of the document, in order, and then [sops] with entries that say what the metadata is, under names of SOPS
    and no others. *)
Definition sops_names : list bytes := [lit "kms"; lit "age"; lit "lastmodified"; lit "mac"; lit "mac_only_encrypted"] ++ rule_names.
Theorem C76_written : forall re_valid ag cd f ef s, time_law cd -> plain_meta re_valid ag (fl_meta ef) -> file_text cd f ef = Ok s ->
  exists ms, cd_write cd f (fl_map ef ++ [(FStr (lit "sops"), FMap ms)]) = Ok s /\ says_meta re_valid ag cd ms (fl_meta ef)
    /\ NoDup (map fst ms) /\ forall kv, In kv ms -> exists n, In n sops_names /\ fst kv = FStr n.
Proof.
  intros re_valid ag cd f ef s TL PM H. exists (meta_entries evalue_text (fl_meta ef)). split; [|split; [|split; [apply meta_nodup|]]].
  - unfold file_text, written in H. destruct (cd_write cd f (efile_entries ef)) eqn:W; try discriminate. injection H as <-. exact W.
  - apply meta_says. rewrite <- (part_none (fun _ => false) (meta_entries evalue_text (fl_meta ef))) by auto. now apply read_meta_back.
  - intros kv I. unfold meta_entries in I. rewrite !in_app_iff in I. unfold sops_names. setoid_rewrite in_app_iff. unfold rule_names. cbn [In].
    destruct I as [I|[I|[I|[I|I]]]].
    + unfold units_field in I. destruct (rc_kms _); [destruct I|]. destruct I as [<-|[]]. exists (lit "kms"). auto 10.
    + unfold units_field in I. destruct (rc_age _); [destruct I|]. destruct I as [<-|[]]. exists (lit "age"). auto 10.
    + destruct I as [<-|[<-|[]]]; [exists (lit "lastmodified")|exists (lit "mac")]; auto 10.
    + destruct (md_partial _) as [p|]; [|destruct I]. destruct I as [<-|[]]. destruct p; eexists; (split; [|reflexivity]); auto 10.
    + unfold opt_field in I. destruct (md_only _); [|destruct I]. destruct I as [<-|[]]. exists (lit "mac_only_encrypted"). auto 10.
Qed.
Print Assumptions C76_written.
(** An integration that is listed as null, as SOPS itself does for those without recipients, makes the file unreadable. *)
Theorem C76_null : forall re_valid ag cd f s a ms b k, cd_read cd f s = Ok (a ++ (FStr (lit "sops"), FMap ms) :: b) -> k = lit "kms" \/ k = lit "age" ->
  In (FStr k, FNull) ms -> forall ef, read_efile re_valid ag cd f s <> Ok ef.
Proof.
  intros re_valid ag cd f s a ms b k R K I ef H. apply C76_read in H. destruct H as (a' & ms' & b' & R' & N & M & _). rewrite R in R'. injection R' as E.
  assert (ms = ms') as <-.
  { assert (J : In (FStr (lit "sops"), FMap ms) (a' ++ (FStr (lit "sops"), FMap ms') :: b')) by (rewrite <- E; apply in_or_app; right; now left).
    apply in_app_or in J. destruct J as [J|[J|J]]; [|now injection J|]; exfalso; apply N; rewrite map_app, in_app_iff; [left|right]; apply (in_map fst) in J; exact J. }
  assert (L : forall L (says : fvalue -> wrapped L -> Prop) us, says_recipients ms k says us -> False).
  { intros L says us [[Z _]|(l & ws & (x & y & -> & Z) & _)]; [apply Z; apply (in_map fst) in I; exact I|]. apply in_app_or in I. destruct I as [I|[I|I]]; [|discriminate I|]; apply Z; rewrite map_app, in_app_iff; [left|right]; apply (in_map fst) in I; exact I. }
  destruct M as (_ & _ & _ & KM & AG & _). destruct K as [->| ->]; [apply (L _ _ _ KM)|apply (L _ _ _ AG)].
Qed.
Print Assumptions C76_null.

(** A file with fields that are not known, two entries for one recipient and a regular expression, as it is read; and the same with a null. *)
Definition sops_unit (r : bytes) (enc : bytes) : fvalue := FMap [(FStr (lit "recipient"), FStr r); (FStr (lit "enc"), FStr enc)].
Definition sops_mac : bytes := Eval vm_compute in evalue_text (md_mac (fl_meta text_ef)).
Definition sops_time : bytes := Eval vm_compute in time_text (md_modified (fl_meta text_ef)).
Definition sops_entries (kms : list (fvalue * fvalue)) : fmap :=
  [(FStr (lit "id"), FNum (NInt 7));
   (FStr (lit "sops"), FMap (kms ++ [(FStr (lit "pgp"), FSeq []); (FStr (lit "age"), FSeq [sops_unit (toy_public ex_alice) (lit "one"); sops_unit (toy_public ex_bob) (lit "two"); sops_unit (toy_public ex_alice) (lit "three")]);
     (FStr (lit "unencrypted_regex"), FStr (lit "^i")); (FStr (lit "mac"), FStr sops_mac); (FStr (lit "lastmodified"), FStr sops_time); (FStr (lit "version"), FStr (lit "3.9.0"))]));
   (FStr (lit "at"), FStr (lit "home"))].
Definition sops_codec : codec := {| cd_write := cd_write ex_codec; cd_read := fun _ s => Ok (sops_entries (if bytes_eqb s [] then [] else [(FStr (lit "kms"), FNull)])); cd_time := cd_time ex_codec |}.
Definition sops_ef : efile := Eval vm_compute in get text_ef (read_efile all_valid toy_age sops_codec Json []).
Example C76_witness : read_efile all_valid toy_age sops_codec Json [] = Ok sops_ef
  /\ fl_map sops_ef = [(FStr (lit "id"), FNum (NInt 7)); (FStr (lit "at"), FStr (lit "home"))] /\ md_partial (fl_meta sops_ef) = Some (UnencryptedRegex (lit "^i"))
  /\ map u_enc (rc_age (md_recipients (fl_meta sops_ef))) = [lit "three"; lit "two"]
  /\ forall ef, read_efile all_valid toy_age sops_codec Json (lit "n") <> Ok ef.
Proof.
  split; [by_vm|]. split; [reflexivity|]. split; [reflexivity|]. split; [by_vm|]. intros ef. change (lit "kms") with k_kms.
  apply (C76_null all_valid toy_age sops_codec Json (lit "n") [(FStr (lit "id"), FNum (NInt 7))] _ [(FStr (lit "at"), FStr (lit "home"))] (lit "kms") eq_refl); auto. now left.
Qed.
Example C76_written_witness : time_law ex_codec /\ plain_meta all_valid toy_age (fl_meta text_ef) /\ exists s, file_text ex_codec Toml text_ef = Ok s.
Proof. split; [exact ex_time_law|]. split; [apply C53_witness|]. exists (text_of ex_codec Toml text_ef). by_vm. Qed.
