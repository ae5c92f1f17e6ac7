(** Integrity, nonces and recipients of whole files. *)
From Verif.Model Require Import File.
From Verif.Spec Require Import SpecFile SpecFileHistory.
From Verif.Proofs Require Import BytesFacts Base64Facts Utf8Facts GcmFacts ValueFacts TreeFacts MapFacts NonceFacts MacFacts FormatFacts FormatEnc AwsFacts TimestampFacts IntegrationFacts FileFacts.

Local Open Scope nat_scope.

Section Safety.
  Context (re : regex_engine) (tp : tape) (ag : age_crate).

  (** ** C12 *)
  Lemma decrypt_mac_some : forall e key lm mac nonce, decrypt_mac e key lm = Ok (mac, nonce) ->
    gcm_decrypt key (ev_nonce e) lm (ev_data e) (ev_tag e) = Some mac /\ nonce = ev_nonce e.
  Proof.
    intros e key lm mac nonce H. unfold decrypt_mac in H. apply bind_ok in H. destruct H as (m & D & H). injection H as -> <-.
    apply cipher_decrypt_ok in D. auto.
  Qed.

  Lemma decrypt_sound : forall E f fo ef df, file_decrypt re ag E f fo ef = Ok df ->
    exists dm, content re ag E f ef dm /\ authentic_mac ag E ef (md_mac (fl_meta df))
      /\ mac_of re (md_only (fl_meta ef)) (md_partial (fl_meta ef)) dm (md_mac (fl_meta df))
      /\ dec_map_from_internal fo dm = Ok (fl_map df)
      /\ md_partial (fl_meta df) = md_partial (fl_meta ef) /\ md_only (fl_meta df) = md_only (fl_meta ef)
      /\ md_modified (fl_meta df) = md_modified (fl_meta ef) /\ md_recipients (fl_meta df) = md_recipients (fl_meta ef).
  Proof.
    intros E f fo ef df H. apply decrypt_inv in H. destruct H as (key & mac & nonce & em & dm & K & M & A & D & Mc & C & Em).
    apply decrypt_mac_some in M. destruct M as [M _]. exists dm. rewrite Em. cbn [with_mac md_mac md_partial md_only md_modified md_recipients].
    split. { exists key, em. auto. } split. { exists key. auto. } split. { rewrite Mc. apply mac_of_compute. } auto.
  Qed.

  Lemma content_unique : forall E f ef dm dm', content re ag E f ef dm -> content re ag E f ef dm' -> dm = dm'.
  Proof.
    intros E f ef dm dm' (key & em & K & A & D) (key' & em' & K' & A' & D'). rewrite K in K'. injection K' as <-. rewrite A in A'. injection A' as <-.
    rewrite D in D'. now injection D' as ->.
  Qed.

  (** A stored MAC that does not match is never accepted. *)
  Lemma decrypt_mismatch : forall E f fo ef dm mac, content re ag E f ef dm -> authentic_mac ag E ef mac ->
    ~ mac_of re (md_only (fl_meta ef)) (md_partial (fl_meta ef)) dm mac ->
    file_decrypt re ag E f fo ef = if utf8_valid mac then Err EMacMismatch else Panic.
  Proof.
    intros E f fo ef dm mac (key & em & K & A & D) (key' & K' & M) N. rewrite K in K'. injection K' as <-.
    unfold file_decrypt. rewrite K. cbn [bind]. unfold decrypt_mac. apply cipher_decrypt_ok in M. rewrite M. cbn [bind]. rewrite A. cbn [bind]. rewrite D. cbn [bind fst].
    unfold validate_mac. cbn [with_mac md_mac md_only md_partial].
    destruct (bytes_eqb (compute_mac re (md_only (fl_meta ef)) (md_partial (fl_meta ef)) dm) mac) eqn:B.
    - apply bytes_eqb_eq in B. exfalso. apply N. rewrite <- B. apply mac_of_compute.
    - unfold mac_text. destruct (utf8_valid mac); reflexivity.
  Qed.

  (** ** When decryption aborts *)
  Lemma retrieve_keys_panic : forall {P} E name (parse : bytes -> outcome P), (forall s, parse s <> Panic) -> retrieve_private_keys E name parse <> Panic.
  Proof.
    intros P E name parse NP H. unfold retrieve_private_keys in H. apply bind_panic in H. destruct H as [H|(a & _ & H)].
    - unfold private_keys_from_env in H. destruct (e_var E (env_var_name name)); try discriminate. apply mapM_panic in H. destruct H as (x & _ & H). now apply NP in H.
    - apply bind_panic in H. destruct H as [H|(b & _ & H)]; try discriminate. unfold private_keys_from_file in H. apply bind_panic in H. destruct H as [H|(p & _ & H)].
      + unfold key_file_path in H. destruct (e_var E (key_file_var_name name)); try discriminate; destruct (e_config_dir E); discriminate.
      + destruct (e_file E p); try discriminate. apply mapM_panic in H. destruct H as (x & _ & H). now apply NP in H.
  Qed.
  Lemma parse_secret_total : forall s, parse_aws_secret s <> Panic.
  Proof.
    intros s H. unfold parse_aws_secret in H. repeat (match type of H with context [match ?x with _ => _ end] => destruct x end; try discriminate).
  Qed.
  Lemma age_keys_panic : forall E, age_private_keys ag E <> Panic.
  Proof. intro E. apply retrieve_keys_panic. intros s. unfold parse_age_identity, ok_or. destruct (ag_identity ag s); discriminate. Qed.
  Lemma kms_keys_panic : forall E, kms_private_keys E <> Panic.
  Proof. intro E. apply retrieve_keys_panic. apply parse_secret_total. Qed.

  Lemma first_key_panic : forall {K} (open : K -> bytes -> outcome (option bytes)) us, first_key open us = Panic -> exists u, In u us /\ open (u_key u) (u_enc u) = Panic.
  Proof.
    intros K open us. induction us as [|u us IH]; cbn [first_key]; intro H; try discriminate.
    destruct (open (u_key u) (u_enc u)) as [[k|]|e|] eqn:E; try discriminate.
    - destruct (IH H) as (v & I & V). exists v. split; auto. now right.
    - exists u. split; auto. now left.
  Qed.

  Lemma retrieve_panic : forall E rc, retrieve_data_key ag E rc = Panic ->
    (exists i u, In u (rc_age rc) /\ ag_open ag i (u_enc u) = AgePassphrase) \/ (exists req b, e_kms_decrypt E req b = KmsEmpty).
  Proof.
    intros E rc H. unfold retrieve_data_key in H. apply bind_panic in H. destruct H as [H|(o & _ & H)]; [|destruct o; discriminate].
    unfold decrypt_data_key in H. apply bind_panic in H. destruct H as [H|(a & _ & H)].
    - apply first_key_panic in H. destruct H as (u & I & H). unfold age_decrypt_key in H. apply bind_panic in H. destruct H as [H|(ids & _ & H)]; [now apply age_keys_panic in H|].
      destruct (find _ ids) as [i|]; try discriminate. destruct (ag_open ag i (u_enc u)) eqn:O; try discriminate. { left. eauto. }
      destruct (Nat.leb key_size (List.length b)); discriminate.
    - destruct a as [k|]; try discriminate. apply first_key_panic in H. destruct H as (u & I & H). unfold kms_decrypt_key in H. apply bind_panic in H. destruct H as [H|(b & _ & H)].
      { unfold decode_base64_vec, ok_or in H. destruct (b64_decode_nopad (trim_end_c "="%byte (u_enc u))); discriminate. }
      apply bind_panic in H. destruct H as [H|(c & _ & H)].
      { unfold find_client in H. apply bind_panic in H. destruct H as [H|(ids & _ & H)]; [now apply kms_keys_panic in H|discriminate]. }
      destruct c as [req|]; try discriminate. destruct (e_kms_decrypt E req b) eqn:Q; try discriminate. { right. eauto. } destruct (Nat.eqb _ _); discriminate.
  Qed.

  Lemma validate_key_panic : forall k, validate_key k <> Panic.
  Proof. intros k H. unfold validate_key in H. destruct k; discriminate. Qed.

  Lemma enc_read_panic : forall f v r, enc_to_internal re f r v = Panic -> exists ks s, at_path v ks (FStr s) /\ parse_evalue s = Panic.
  Proof.
    intros f. induction v as [m IH|l IH|s|b|x| |t v IH|s] using fvalue_ind'; intros r H; cbn [enc_to_internal] in H.
    - apply bind_panic in H. destruct H as [H|(l & _ & H)]; try discriminate. apply mapM_panic in H. destruct H as ([k w] & I & H). cbn [fst snd] in H.
      apply bind_panic in H. destruct H as [H|(k' & V & H)]; [now apply validate_key_panic in H|].
      apply bind_panic in H. destruct H as [H|(t & _ & H)]; try discriminate. rewrite Forall_forall in IH. specialize (IH _ I _ H). cbn [snd] in IH.
      destruct IH as (ks & s & A & B). unfold validate_key in V. destruct k; try discriminate. injection V as <-. exists (s0 :: ks), s. split; auto. eapply at_key; eauto.
    - apply bind_panic in H. destruct H as [H|(l' & _ & H)]; try discriminate. apply mapM_panic in H. destruct H as (w & I & H). rewrite Forall_forall in IH.
      destruct (IH _ I _ H) as (ks & s & A & B). exists ks, s. split; auto. eapply at_elem; eauto.
    - destruct (is_toml_null f s); try discriminate. destruct (escapes r); try discriminate. apply bind_panic in H. destruct H as [H|(e & _ & H)]; try discriminate.
      exists [], s. split. constructor. destruct (parse_evalue s); try discriminate. reflexivity.
    - unfold plain_leaf in H. destruct (escapes r); discriminate.
    - unfold plain_leaf in H. destruct (escapes r); try discriminate. destruct x; cbn in H; try discriminate. destruct (in_i64 z); discriminate.
    - discriminate.
    - destruct (IH _ H) as (ks & s & A & B). exists ks, s. split; auto. now constructor.
    - unfold plain_leaf in H. destruct (escapes r); discriminate.
  Qed.

  Lemma enc_map_read_panic : forall f pc m, enc_map_to_internal re f pc m = Panic -> exists ks s, at_path (FMap m) ks (FStr s) /\ parse_evalue s = Panic.
  Proof.
    intros f pc m H. apply (enc_read_panic f (FMap m) (initial pc)). cbn [enc_to_internal]. unfold enc_map_to_internal in H.
    match goal with |- (let* l := ?x in _) = _ => match type of H with (let* l := ?y in _) = _ => change x with y; destruct y end end; try discriminate. reflexivity.
  Qed.

  (** Values read by decryption are values Rust can hold. *)
  Lemma enc_plain_rust : forall f v r t, fmt_value f v -> enc_to_internal re f r v = Ok t ->
    forall ks ks' w, In (ks', Escaped w) (values_under ks t) -> rust_value w.
  Proof.
    intros f. induction v as [m IH|l IH|s|b|x| |tg v IH|s] using fvalue_ind'; intros r t WF H ks ks' w I; cbn [enc_to_internal] in H; unfold plain_leaf in H.
    - apply bind_ok in H. destruct H as (l & E & H). injection H as <-. apply mapM_ok in E. cbn [values_under] in I. apply in_flat_map in I.
      destruct I as ([k t] & I & I'). apply collect_in in I. destruct (Forall2_in_r _ _ _ _ E I) as (kv & J & E'). apply eentry_to in E'. destruct E' as [_ E'].
      destruct WF as [_ WF]. apply each_Forall in WF. rewrite Forall_forall in WF, IH. destruct (WF _ J) as [_ W1]. eapply IH; eauto.
    - apply bind_ok in H. destruct H as (l' & E & H). injection H as <-. apply mapM_ok in E. cbn [values_under] in I. apply in_flat_map in I.
      destruct I as (t & I & I'). destruct (Forall2_in_r _ _ _ _ E I) as (u & J & E'). cbn [fmt_value] in WF. apply each_Forall in WF. rewrite Forall_forall in WF, IH. eapply IH; eauto.
    - destruct (is_toml_null f s); [injection H as <-; destruct I|]. destruct (escapes r).
      + injection H as <-. destruct I as [I|[]]. injection I as _ <-. now constructor.
      + apply bind_ok in H. destruct H as (e & _ & H). injection H as <-. destruct I as [I|[]]. discriminate I.
    - destruct (escapes r); try discriminate. injection H as <-. destruct I as [I|[]]. injection I as _ <-. constructor.
    - destruct (escapes r); try discriminate. apply bind_ok in H. destruct H as (y & E & H). injection H as <-. destruct I as [I|[]]. injection I as _ <-.
      destruct x as [z|x]; cbn [to_internal_number] in E.
      + destruct (in_i64 z) eqn:R; try discriminate. injection E as <-. constructor. now apply in_i64_iff.
      + injection E as <-. destruct WF. now constructor.
    - injection H as <-. destruct I.
    - destruct WF as [_ WF]. eauto.
    - destruct (escapes r); try discriminate. injection H as <-. destruct I as [I|[]]. injection I as _ <-. constructor. apply WF.
  Qed.

  Lemma enc_map_plain_rust : forall f pc m em ks w, fmt_doc f m -> enc_map_to_internal re f pc m = Ok em -> In (ks, Escaped w) (map_values em) -> rust_value w.
  Proof. intros f pc m em ks w FD H I. assert (T : enc_to_internal re f (initial pc) (FMap m) = Ok (Map em)) by (apply enc_map_tree; eauto). eapply enc_plain_rust; eauto. Qed.

  Lemma decrypt_rust : forall f pc m key em dm, fmt_doc f m -> enc_map_to_internal re f pc m = Ok em -> decrypt_map key em = Ok dm -> rust_map dm.
  Proof.
    intros f pc m key em dm FD A D ks v I. destruct (decrypt_map_values _ _ _ _ _ D I) as (l & J & X). destruct l as [e|w]; cbn [decrypts] in X.
    - apply decrypt_value_ok in X. tauto.
    - subst w. eapply enc_map_plain_rust; eauto.
  Qed.

  Lemma decrypt_panic : forall E f fo ef, fmt_doc f (fl_map ef) -> file_decrypt re ag E f fo ef = Panic ->
    (exists i u, In u (rc_age (md_recipients (fl_meta ef))) /\ ag_open ag i (u_enc u) = AgePassphrase)
    \/ (exists req b, e_kms_decrypt E req b = KmsEmpty)
    \/ (exists ks s, at_path (FMap (fl_map ef)) ks (FStr s) /\ parse_evalue s = Panic)
    \/ (exists mac, authentic_mac ag E ef mac /\ ~ utf8_text mac)
    \/ (fo = Json /\ exists dm ks v, content re ag E f ef dm /\ In (ks, v) (map_values dm) /\ non_finite v).
  Proof.
    intros E f fo ef FD H. unfold file_decrypt in H. apply bind_panic in H. destruct H as [H|(key & K & H)].
    { apply retrieve_panic in H. tauto. }
    apply bind_panic in H. destruct H as [H|([mac nonce] & M & H)].
    { unfold decrypt_mac in H. apply bind_panic in H. destruct H as [H|(m & _ & H)]; try discriminate.
      unfold cipher_decrypt, ok_or in H. destruct (gcm_decrypt _ _ _ _ _); discriminate. }
    apply bind_panic in H. destruct H as [H|(em & A & H)].
    { apply enc_map_read_panic in H. tauto. }
    apply bind_panic in H. destruct H as [H|(dm & D & H)].
    { now apply decrypt_map_no_panic in H. }
    apply bind_panic in H. destruct H as [H|(u & V & H)].
    { right. right. right. left. exists mac. apply decrypt_mac_some in M. destruct M as [M _]. split. { exists key. auto. }
      unfold validate_mac in H. cbn [with_mac md_mac md_only md_partial fst] in H.
      destruct (bytes_eqb (compute_mac re (md_only (fl_meta ef)) (md_partial (fl_meta ef)) dm) mac); try discriminate.
      unfold mac_text in H. destruct (utf8_valid mac) eqn:U; try discriminate. intro X. apply utf8_valid_iff in X. congruence. }
    apply bind_panic in H. destruct H as [H|(fm & C & H)]; try discriminate.
    right. right. right. right. apply (conversion_outcome fo dm) in H; [|eapply decrypt_rust; eauto].
    destruct H as [-> (ks & v & I & N)]. split; auto. exists dm, ks, v. split; auto. exists key, em. auto.
  Qed.

  (** ** C13 *)
  Lemma two_files : forall E E' f f' fo fo' ef ef' df df', file_decrypt re ag E f fo ef = Ok df -> file_decrypt re ag E' f' fo' ef' = Ok df' ->
    md_mac (fl_meta df) = md_mac (fl_meta df') ->
    exists dm dm' vs vs', content re ag E f ef dm /\ content re ag E' f' ef' dm'
      /\ kept (covered re (match md_only (fl_meta ef) with Some true => true | _ => false end) (md_partial (fl_meta ef))) (map_values dm) vs
      /\ kept (covered re (match md_only (fl_meta ef') with Some true => true | _ => false end) (md_partial (fl_meta ef'))) (map_values dm') vs'
      /\ (hashed (md_only (fl_meta ef)) vs = hashed (md_only (fl_meta ef')) vs'
          \/ (hashed (md_only (fl_meta ef)) vs <> hashed (md_only (fl_meta ef')) vs'
              /\ sha512 (hashed (md_only (fl_meta ef)) vs) = sha512 (hashed (md_only (fl_meta ef')) vs'))).
  Proof.
    intros E E' f f' fo fo' ef ef' df df' H H' Q. apply decrypt_sound in H. destruct H as (dm & C & _ & (vs & K & M) & _).
    apply decrypt_sound in H'. destruct H' as (dm' & C' & _ & (vs' & K' & M') & _).
    exists dm, dm', vs, vs'. split; auto. split; auto. split; auto. split; auto. rewrite M, M' in Q. apply hex_encode_injective in Q.
    fold (hashed (md_only (fl_meta ef)) vs) in Q. fold (hashed (md_only (fl_meta ef')) vs') in Q.
    destruct (bytes_eqb (hashed (md_only (fl_meta ef)) vs) (hashed (md_only (fl_meta ef')) vs')) eqn:B.
    - left. now apply bytes_eqb_eq.
    - right. split; auto. intro X. rewrite X, bytes_eqb_refl in B. discriminate.
  Qed.

  Lemma same_stored_mac : forall E E' f f' fo fo' ef ef' df df' key, file_decrypt re ag E f fo ef = Ok df -> file_decrypt re ag E' f' fo' ef' = Ok df' ->
    retrieve_data_key ag E (md_recipients (fl_meta ef)) = Ok key -> retrieve_data_key ag E' (md_recipients (fl_meta ef')) = Ok key ->
    ev_data (md_mac (fl_meta ef)) = ev_data (md_mac (fl_meta ef')) -> ev_nonce (md_mac (fl_meta ef)) = ev_nonce (md_mac (fl_meta ef')) ->
    md_mac (fl_meta df) = md_mac (fl_meta df').
  Proof.
    intros E E' f f' fo fo' ef ef' df df' key H H' K K' D N. apply decrypt_sound in H. destruct H as (dm & _ & (key1 & K1 & M) & _).
    apply decrypt_sound in H'. destruct H' as (dm' & _ & (key2 & K2 & M') & _). rewrite K in K1. injection K1 as <-. rewrite K' in K2. injection K2 as <-.
    apply gcm_decrypt_some in M. apply gcm_decrypt_some in M'. destruct M as (_ & -> & _). destruct M' as (_ & -> & _). now rewrite D, N.
  Qed.

  (** ** C16 *)
  Lemma timestamp_bound : forall E f fo ef df t df', file_decrypt re ag E f fo ef = Ok df -> file_decrypt re ag E f fo (with_modified ef t) = Ok df' ->
    exists key, retrieve_data_key ag E (md_recipients (fl_meta ef)) = Ok key
      /\ gcm_tag key (ev_nonce (md_mac (fl_meta ef))) (timestamp_text (md_modified (fl_meta ef))) (ev_data (md_mac (fl_meta ef))) = ev_tag (md_mac (fl_meta ef))
      /\ gcm_tag key (ev_nonce (md_mac (fl_meta ef))) (timestamp_text t) (ev_data (md_mac (fl_meta ef))) = ev_tag (md_mac (fl_meta ef)).
  Proof.
    intros E f fo ef df t df' H H'. apply decrypt_sound in H. destruct H as (dm & _ & (key & K & M) & _).
    apply decrypt_sound in H'. destruct H' as (dm' & _ & (key2 & K2 & M') & _). cbn [with_modified fl_meta md_recipients md_mac md_modified] in K2, M'.
    rewrite K in K2. injection K2 as <-. exists key. split; auto. apply gcm_decrypt_some in M. apply gcm_decrypt_some in M'.
    destruct M as (M & _). destruct M' as (M' & _). split; now symmetry.
  Qed.
End Safety.

(** ** C30: the equality of documents *)
Section FInd2.
  Context (P : fvalue -> Prop).
  Context (HM : forall m, Forall (fun kv => P (fst kv) /\ P (snd kv)) m -> P (FMap m)) (HS : forall l, Forall P l -> P (FSeq l))
    (Hs : forall s, P (FStr s)) (Hb : forall b, P (FBool b)) (Hn : forall n, P (FNum n)) (H0 : P FNull) (Ht : forall t v, P v -> P (FTagged t v)) (Hd : forall s, P (FDate s)).
  Fixpoint fvalue_ind2 (v : fvalue) : P v :=
    match v with
    | FMap m => HM m ((fix go m : Forall (fun kv => P (fst kv) /\ P (snd kv)) m :=
                         match m with [] => Forall_nil _ | kv :: m' => Forall_cons _ (conj (fvalue_ind2 (fst kv)) (fvalue_ind2 (snd kv))) (go m') end) m)
    | FSeq l => HS l ((fix go l : Forall P l := match l with [] => Forall_nil _ | x :: l' => Forall_cons _ (fvalue_ind2 x) (go l') end) l)
    | FStr s => Hs s
    | FBool b => Hb b
    | FNum n => Hn n
    | FNull => H0
    | FTagged t v => Ht t v (fvalue_ind2 v)
    | FDate s => Hd s
    end.
End FInd2.

Lemma num_eqb_iff : forall f x y, num_eqb f (NFlt x) (NFlt y) = true <-> same_float f x y.
Proof.
  intros f x y. unfold same_float. cbn [num_eqb]. split.
  - intro H.
    assert (Q : (f = Yaml /\ x = FNaN /\ y = FNaN) \/ f64_rust_eq x y = true).
    { destruct f, x, y; cbn in *; auto; discriminate. }
    destruct Q as [(-> & -> & ->)|Q]. { left. auto. }
    destruct x as [|a|a m e], y as [|b|b m' e']; cbn in Q; try discriminate.
    + apply Bool.eqb_prop in Q. subst b. left. split; auto. discriminate.
    + apply andb_true_iff in Q. destruct Q as [Q R]. apply andb_true_iff in Q. destruct Q as [Q S]. apply N.eqb_eq in Q. apply Z.eqb_eq in S. subst m' e'.
      apply orb_true_iff in R. destruct R as [R|R]. { apply Bool.eqb_prop in R. subst b. left. split; auto. discriminate. }
      apply N.eqb_eq in R. subst m. right. eauto.
  - intros [[-> N]|(s & t & e & -> & ->)].
    + destruct y as [|b|b m e]; cbn.
      * now rewrite N.
      * destruct f; apply Bool.eqb_reflx.
      * rewrite N.eqb_refl, Z.eqb_refl, Bool.eqb_reflx. destruct f; reflexivity.
    + cbn. rewrite Z.eqb_refl. rewrite orb_true_r. destruct f; reflexivity.
Qed.

Lemma fvalue_eqb_iff : forall f a b, fvalue_eqb f a b = true <-> alike f a b.
Proof.
  intros f a. induction a as [m IH|l IH|s|x|n| |t v IH|s] using fvalue_ind2; intros b; destruct b as [m'|l'|s'|x'|n'| |t' v'|s'];
    cbn [fvalue_eqb]; try (split; [discriminate|intro H; inversion H]).
  - rewrite andb_true_iff, Nat.eqb_eq, forallb_forall. split.
    + intros [L F]. constructor; auto. intros k v I. specialize (F _ I). apply existsb_exists in F. destruct F as ([k' v'] & I' & F). cbn [fst snd] in F.
      apply andb_true_iff in F. rewrite Forall_forall in IH. destruct (IH _ I) as [I1 I2]. cbn [fst snd] in I1, I2. exists k', v'. split; auto. split; [now apply I1|now apply I2].
    + intro H. inversion H as [? ? L F| | | | | | | |]; subst. split; auto. intros [k v] I. destruct (F _ _ I) as (k' & v' & I' & A & B). apply existsb_exists. exists (k', v'). split; auto.
      rewrite Forall_forall in IH. destruct (IH _ I) as [I1 I2]. cbn [fst snd] in *. apply andb_true_iff. split; [now apply I1|now apply I2].
  - revert l'. induction IH as [|x l Hx _ IHl]; intros [|y l']; cbn [list_eqb].
    + split; auto. intros _. constructor. constructor.
    + split; [discriminate|]. intro H. inversion H as [|? ? F| | | | | | |]. inversion F.
    + split; [discriminate|]. intro H. inversion H as [|? ? F| | | | | | |]. inversion F.
    + rewrite andb_true_iff, Hx, IHl. split.
      * intros [A B]. inversion B as [|? ? F| | | | | | |]; subst. constructor. now constructor.
      * intro H. inversion H as [|? ? F| | | | | | |]; subst. inversion F; subst. split; auto. now constructor.
  - rewrite bytes_eqb_eq. split; [intros ->; constructor|]. intro H. now inversion H.
  - rewrite Bool.eqb_true_iff. split; [intros ->; constructor|]. intro H. now inversion H.
  - destruct n as [z|x], n' as [z'|x'].
    + cbn [num_eqb]. rewrite Z.eqb_eq. split; [intros ->; constructor|]. intro H. now inversion H.
    + cbn [num_eqb]. split; [discriminate|intro H; inversion H].
    + cbn [num_eqb]. split; [discriminate|intro H; inversion H].
    + rewrite num_eqb_iff. split; [intro; now constructor|]. intro H. now inversion H.
  - split; auto. intros _. constructor.
  - rewrite andb_true_iff, bytes_eqb_eq, IH. split.
    + intros [-> A]. now constructor.
    + intro H. inversion H; subst. auto.
  - rewrite bytes_eqb_eq. split; [intros ->; constructor|]. intro H. now inversion H.
Qed.

Lemma set_map_ok : forall re E f df other n df', file_set_map re E f df other n = Ok df' ->
  exists dm, dec_map_to_internal f other = Ok dm /\ dec_map_from_internal f dm = Ok (fl_map df')
    /\ mac_of re (md_only (fl_meta df)) (md_partial (fl_meta df)) dm (md_mac (fl_meta df'))
    /\ (alike f (FMap (fl_map df)) (FMap other) -> md_modified (fl_meta df') = md_modified (fl_meta df))
    /\ (~ alike f (FMap (fl_map df)) (FMap other) -> md_modified (fl_meta df') = whole_second (e_clock E n))
    /\ md_recipients (fl_meta df') = md_recipients (fl_meta df) /\ md_partial (fl_meta df') = md_partial (fl_meta df) /\ md_only (fl_meta df') = md_only (fl_meta df).
Proof.
  intros re E f df other n df' H. unfold file_set_map in H. apply bind_ok in H. destruct H as (dm & A & H). apply bind_ok in H. destruct H as (m & B & H).
  injection H as <-. cbn [fl_map fl_meta md_mac md_modified md_recipients md_partial md_only]. exists dm. split; auto. split; auto. split. apply mac_of_compute.
  unfold fmap_eqb. destruct (fvalue_eqb f (FMap (fl_map df)) (FMap other)) eqn:Q.
  - apply fvalue_eqb_iff in Q. split; auto. split; auto. contradiction.
  - split; auto. intro X. apply fvalue_eqb_iff in X. congruence.
Qed.
