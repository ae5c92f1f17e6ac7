(** What an encrypted file reveals: C69. *)
From Verif.Model Require Import Document Json Chrono.
From Verif.Spec Require Import SpecReveal.
From Verif.Proofs Require Import BytesFacts ValueFacts MapFacts NonceFacts FormatFacts FileFacts Reveal.
From Verif.Props Require Import PMap PFormat ExWorld ExCodec PDocument PJson.
Open Scope byte_scope.
Local Open Scope nat_scope.

(** C69: encryption shows of an encrypted value its type and its length.  Documents that differ in nothing else are encrypted alike, up to the
    ciphertexts and tags; whether encryption succeeds, and how much randomness it draws, does not depend on the secrets either. *)
Theorem C69_map : forall re tp key rule m n em n' m', encrypt_map re tp None key rule m n = Ok (em, n') -> secret_edit em m m' ->
  exists em', encrypt_map re tp None key rule m' n = Ok (em', n') /\ same_view em em'.
Proof.
  intros re tp key rule m n em n' m' E S. destruct (encrypt_view _ _ _ _ _ _ _ _ _ E S) as (em' & E' & Sk & V). exists em'. split; auto. now apply view_same.
Qed.
Print Assumptions C69_map.

(** Whole files: documents that differ in the scope of the rule only give files that differ in ciphertexts and tags only, those of the MAC
    included; recipients, time stamp, rule and flag are the same.  As JSON text the files have the same length. *)
Theorem C69_file : forall re tp ag E f b n ef n' dm m' dm', builder_encrypt re tp ag E f b n = Ok (ef, n') -> dec_map_to_internal f (bd_map b) = Ok dm ->
  dec_map_to_internal f m' = Ok dm' -> scope_edit re (bd_partial b) dm dm' ->
  exists ef', builder_encrypt re tp ag E f {| bd_map := m'; bd_partial := bd_partial b; bd_only := bd_only b; bd_age := bd_age b; bd_kms := bd_kms b |} n = Ok (ef', n')
    /\ blurred (FMap (fl_map ef)) (FMap (fl_map ef'))
    /\ md_recipients (fl_meta ef') = md_recipients (fl_meta ef) /\ md_modified (fl_meta ef') = md_modified (fl_meta ef)
    /\ md_partial (fl_meta ef') = md_partial (fl_meta ef) /\ md_only (fl_meta ef') = md_only (fl_meta ef)
    /\ only_ciphertext (md_mac (fl_meta ef)) (md_mac (fl_meta ef'))
    /\ forall cd t t', f = Json -> file_text (json_codec cd) f ef = Ok t -> file_text (json_codec cd) f ef' = Ok t' -> length t' = length t.
Proof.
  intros re tp ag E f b n ef n' dm m' dm' H D D' (Sk & SE). pose proof H as X. apply build_ok in X. destruct X as (dm0 & em & n1 & rc & n2 & e & D0 & M & _).
  assert (dm0 = dm) as -> by congruence.
  assert (S : secret_edit em dm dm').
  { split; auto. intros i ks v V. destruct (SE i ks v V) as (v' & V' & C). exists v'. split; auto. destruct C as [C|(NC & I & T & L)]; auto. right. split; auto.
    destruct (encrypt_map_values_at re tp _ _ _ _ _ _ _ _ _ _ M V) as (l & Hl).
    destruct (proj2 (C07_rule_partial _ _ _ _ _ _ _ _ _ _ _ _ M Hl (or_introl NC)) I) as (e0 & ->). eauto. }
  destruct (build_view re tp ag E f b n ef n' dm em n1 m' dm' H D M D' S) as (ef' & B & F & Me & O). exists ef'. split; auto.
  split; [now constructor|]. rewrite Me. unfold with_mac. cbn [md_recipients md_modified md_mac md_partial md_only]. do 4 (split; [reflexivity|]). split; auto.
  intros cd t t' -> T T'. unfold file_text, written in T, T'. cbn [json_codec with_json cd_write cd_read cd_time] in T, T'. unfold json_write in T, T'.
  destruct (json_value 0 (FMap (efile_entries ef))) as [s| |] eqn:J; cbn [bind] in T; try discriminate T. destruct (utf8_valid s); try discriminate T. injection T as <-.
  destruct (json_value 0 (FMap (efile_entries ef'))) as [s'| |] eqn:J'; cbn [bind] in T'; try discriminate T'. destruct (utf8_valid s'); try discriminate T'. injection T' as <-.
  exact (json_view _ _ (entries_blurred _ _ F Me O) _ _ _ J J').
Qed.
Print Assumptions C69_file.

(** Full statement: nothing but the type is revealed of an encrypted boolean.  It is false: the length shows which of the two it is. *)
Theorem C69_booleans_refuted : forall b b' nonce nonce' key key' path path' e e', encrypt_value (VBool b) nonce key path = Ok e -> encrypt_value (VBool b') nonce' key' path' = Ok e' ->
  (length (ev_data e) = length (ev_data e') <-> b = b').
Proof.
  intros b b' nonce nonce' key key' path path' e e' H H'. apply encrypt_value_ok in H. destruct H as (_ & _ & ->). apply encrypt_value_ok in H'. destruct H' as (_ & _ & ->).
  cbn [ev_data]. rewrite !GcmFacts.gcm_ctr_length. destruct b, b'; cbn; split; intro X; try reflexivity; discriminate X.
Qed.
Print Assumptions C69_booleans_refuted.

(** Examples: two passwords of the same length. *)
Definition secret_doc (pw : bytes) : fmap := [(FStr (lit "user"), FStr (lit "ann")); (FStr (lit "password"), FStr pw); (FStr (lit "flag_public"), FBool true)].
Definition secret_builder (pw : bytes) : builder :=
  {| bd_map := secret_doc pw; bd_partial := Some (UnencryptedSuffix (lit "_public")); bd_only := None; bd_age := [toy_public ex_alice]; bd_kms := [] |}.
Definition secret_internal (pw : bytes) : dmap := [(lit "user", Leaf (VStr (lit "ann"))); (lit "password", Leaf (VStr pw)); (lit "flag_public", Leaf (VBool true))].
Definition ef_hunter2 : efile := Eval vm_compute in build Json (secret_builder (lit "hunter2")) 0.
Definition ef_letmein : efile := Eval vm_compute in build Json (secret_builder (lit "letmein")) 0.
Definition text_hunter2 : bytes := Eval vm_compute in get [] (file_text (json_codec ex_codec) Json ef_hunter2).
Definition text_letmein : bytes := Eval vm_compute in get [] (file_text (json_codec ex_codec) Json ef_letmein).

Example C69_witness : builder_encrypt ex_re ex_tape toy_age ex_here Json (secret_builder (lit "hunter2")) 0 = Ok (ef_hunter2, 6)
  /\ builder_encrypt ex_re ex_tape toy_age ex_here Json (secret_builder (lit "letmein")) 0 = Ok (ef_letmein, 6)
  /\ dec_map_to_internal Json (secret_doc (lit "hunter2")) = Ok (secret_internal (lit "hunter2")) /\ dec_map_to_internal Json (secret_doc (lit "letmein")) = Ok (secret_internal (lit "letmein"))
  /\ scope_edit ex_re (bd_partial (secret_builder [])) (secret_internal (lit "hunter2")) (secret_internal (lit "letmein"))
  /\ (bytes_eqb text_hunter2 text_letmein, Nat.eqb (length text_hunter2) (length text_letmein)) = (false, true).
Proof.
  split; [by_vm|]. split; [by_vm|]. split; [by_vm|]. split; [by_vm|]. split; [|by_vm]. split; [reflexivity|].
  intros [|[|[|i]]] ks v V; unfold value_at in *; cbn in V; try (destruct i; discriminate V); injection V as <- <-.
  - eexists. split; [reflexivity|]. now left.
  - eexists. split; [reflexivity|]. right. split. { constructor; [|constructor]. intro X. cbn in X. intuition discriminate. } split; [|split; reflexivity].
    intros (k & [<-|[]] & a & X). apply (f_equal (@rev byte)) in X. rewrite rev_app_distr in X. discriminate X.
  - eexists. split; [reflexivity|]. now left.
Qed.
