(** Byte form, text form and encryption of single values. *)
From Verif.Model Require Import Value Sha512.
From Verif.Proofs Require Import BytesFacts Base64Facts Base64Spec IntFacts FloatFacts Utf8Facts GcmFacts.
From Verif.Spec Require Import SpecValue.

Global Opaque sha512.

Lemma in_i64_iff : forall z, in_i64 z = true <-> (- 2 ^ 63 <= z < 2 ^ 63)%Z.
Proof.
  intro z. unfold in_i64, i64_min, i64_max. rewrite andb_true_iff, !Z.leb_le.
  change (2 ^ 63)%Z with 9223372036854775808%Z. lia.
Qed.

Lemma variant_of_type : forall v, variant_of v = type_of v.
Proof. now intros []. Qed.
Lemma variant_text_name : forall t, variant_text t = type_name t.
Proof. now intros []. Qed.

Lemma parse_variant_name : forall t, parse_variant (type_name t) = Some t.
Proof. now intros []. Qed.
Lemma parse_variant_some : forall s t, parse_variant s = Some t <-> s = type_name t.
Proof.
  intros s t. split; [|intros ->; apply parse_variant_name].
  unfold parse_variant.
  destruct (bytes_eqb s (lit "str")) eqn:E1. { apply bytes_eqb_eq in E1. intro H. inversion H. now subst. }
  destruct (bytes_eqb s (lit "bool")) eqn:E2. { apply bytes_eqb_eq in E2. intro H. inversion H. now subst. }
  destruct (bytes_eqb s (lit "int")) eqn:E3. { apply bytes_eqb_eq in E3. intro H. inversion H. now subst. }
  destruct (bytes_eqb s (lit "float")) eqn:E4. { apply bytes_eqb_eq in E4. intro H. inversion H. now subst. }
  discriminate.
Qed.

Lemma value_bytes_round : forall v, rust_value v -> value_from_bytes (value_bytes v) (type_of v) = Ok v.
Proof.
  intros v H. destruct H as [s Hs|[|]|z Hz|x Hx]; cbn [value_bytes type_of value_from_bytes]; try reflexivity.
  - apply utf8_valid_iff in Hs. now rewrite Hs.
  - rewrite int_text_utf8, parse_int_text; auto. now apply in_i64_iff.
  - rewrite f64_text_utf8, parse_f64_text by auto. reflexivity.
Qed.

Lemma value_from_bytes_typed : forall b ty v, value_from_bytes b ty = Ok v ->
  type_of v = ty /\ rust_value v /\ ((ty = TyStr \/ ty = TyBool) -> value_bytes v = b).
Proof.
  intros b ty v H. destruct ty; cbn [value_from_bytes] in H.
  - destruct (utf8_valid b) eqn:U; inversion H. subst. repeat split; auto. constructor. now apply utf8_valid_iff.
  - destruct (bytes_eqb b (lit "True")) eqn:T.
    + apply bytes_eqb_eq in T. inversion H. subst. repeat split; auto. constructor.
    + destruct (bytes_eqb b (lit "False")) eqn:F; inversion H.
      apply bytes_eqb_eq in F. subst. repeat split; auto. constructor.
  - destruct (utf8_valid b); try discriminate. destruct (parse_i64 b) eqn:P; inversion H. subst.
    repeat split; auto.
    + constructor. apply in_i64_iff. eapply parse_i64_range; eauto.
    + intros [K|K]; discriminate.
  - destruct (utf8_valid b); try discriminate. destruct (parse_f64 b) eqn:P; inversion H. subst.
    repeat split; auto.
    + constructor. eapply parse_f64_canonical; eauto.
    + intros [K|K]; discriminate.
Qed.

Lemma value_from_bytes_no_panic : forall b ty, value_from_bytes b ty <> Panic.
Proof.
  intros b ty. destruct ty; cbn [value_from_bytes].
  - destruct (utf8_valid b); discriminate.
  - destruct (bytes_eqb b (lit "True")); try discriminate. destruct (bytes_eqb b (lit "False")); discriminate.
  - destruct (utf8_valid b); try discriminate. destruct (parse_i64 b); discriminate.
  - destruct (utf8_valid b); try discriminate. destruct (parse_f64 b); discriminate.
Qed.

Lemma value_bytes_injective : forall v w, rust_value v -> rust_value w -> type_of v = type_of w -> value_bytes v = value_bytes w -> v = w.
Proof.
  intros v w Hv Hw T B. apply value_bytes_round in Hv. apply value_bytes_round in Hw. rewrite T, B in Hv. congruence.
Qed.

Lemma value_eqb_eq : forall v w, value_eqb v w = true <-> v = w.
Proof.
  intros v w. destruct v, w; simpl; split; intro H; try discriminate; try (inversion H; fail).
  - apply bytes_eqb_eq in H. congruence.
  - inversion H. apply bytes_eqb_refl.
  - apply eqb_prop in H. congruence.
  - inversion H. apply eqb_reflx.
  - apply Z.eqb_eq in H. congruence.
  - inversion H. apply Z.eqb_refl.
  - apply bytes_eqb_eq in H. congruence.
  - inversion H. apply bytes_eqb_refl.
Qed.
Lemma value_eqb_refl : forall v, value_eqb v v = true.
Proof. intro v. now apply value_eqb_eq. Qed.

(** ** Text of encrypted values *)

Ltac invert_bind H x :=
  match type of H with
  | bind ?e _ = Ok _ => let E := fresh "E" in destruct e as [x| |] eqn:E; cbn [bind] in H; [|discriminate H|discriminate H]
  end.

Lemma bind_ok : forall {A B} (o : outcome A) (f : A -> outcome B) b, bind o f = Ok b <-> exists a, o = Ok a /\ f a = Ok b.
Proof.
  intros A B o f b. split.
  - destruct o as [a| |]; simpl; try discriminate. eauto.
  - intros (a & -> & H). exact H.
Qed.
Lemma bind_panic : forall {A B} (o : outcome A) (f : A -> outcome B), bind o f = Panic <-> o = Panic \/ exists a, o = Ok a /\ f a = Panic.
Proof.
  intros A B o f. split.
  - destruct o as [a|e|]; simpl; try discriminate; eauto.
  - intros [->|(a & -> & H)]; auto.
Qed.
Lemma ok_or_ok : forall {A} e (o : option A) a, ok_or e o = Ok a <-> o = Some a.
Proof. intros A e [x|] a; simpl; split; intro H; inversion H; auto. Qed.
Lemma ok_or_panic : forall {A} e (o : option A), ok_or e o <> Panic.
Proof. intros A e [x|]; discriminate. Qed.

Lemma component_ok : forall p cs x, component p cs = Ok x <-> exists rest, cs = (p ++ x) :: rest.
Proof.
  intros p [|c cs] x; unfold component.
  - split. discriminate. intros (r & H). discriminate.
  - rewrite ok_or_ok, strip_prefix_some. split. intros ->. eauto. intros (r & H). now inversion H.
Qed.
Lemma component_panic : forall p cs, component p cs <> Panic.
Proof. intros p [|c cs]; unfold component. discriminate. apply ok_or_panic. Qed.

(** Full characterisation of the accepted component lists. *)
Definition fields (cs : list bytes) (d i t : bytes) (ty : variant) : Prop :=
  exists rest, cs = lit "AES256_GCM" :: (lit "data:" ++ d) :: (lit "iv:" ++ i) :: (lit "tag:" ++ t) :: (lit "type:" ++ type_name ty) :: rest.

Lemma parse_evalue_components : forall s e, parse_evalue s = Ok e <->
  exists body d i t, s = lit "ENC[" ++ body ++ lit "]" /\ fields (split_on "," body) d i t (ev_type e)
    /\ decode_base64_vec d = Ok (ev_data e) /\ decode_base64_slice 32 i = Ok (ev_nonce e) /\ decode_base64_slice 16 t = Ok (ev_tag e).
Proof.
  intros s e. unfold parse_evalue, nonce_size, tag_size. split.
  - intro H. apply bind_ok in H. destruct H as (s1 & E1 & H). apply ok_or_ok, strip_prefix_some in E1.
    apply bind_ok in H. destruct H as (s2 & E2 & H). apply ok_or_ok, strip_prefix_some in E2.
    apply bind_ok in H. destruct H as (s3 & E3 & H). apply ok_or_ok, strip_suffix1_some in E3.
    cbv zeta in H. apply bind_ok in H. destruct H as (name & E4 & H).
    destruct (split_on "," s3) as [|c cs] eqn:S; [discriminate|]. inversion E4. subst name. clear E4.
    destruct (negb (bytes_eqb c cipher_name)) eqn:N; [discriminate|].
    apply negb_false_iff, bytes_eqb_eq in N. subst c. cbn [skipn] in H.
    apply bind_ok in H. destruct H as (d & Ed & H). apply component_ok in Ed. destruct Ed as (r1 & ->).
    apply bind_ok in H. destruct H as (data & Edd & H). cbn [skipn] in H.
    apply bind_ok in H. destruct H as (i & Ei & H). apply component_ok in Ei. destruct Ei as (r2 & ->).
    apply bind_ok in H. destruct H as (nonce & Ein & H). cbn [skipn] in H.
    apply bind_ok in H. destruct H as (t & Et & H). apply component_ok in Et. destruct Et as (r3 & ->).
    apply bind_ok in H. destruct H as (tag & Ett & H). cbn [skipn] in H.
    apply bind_ok in H. destruct H as (ty & Ety & H). apply component_ok in Ety. destruct Ety as (r4 & ->).
    apply bind_ok in H. destruct H as (v & Ev & H). apply ok_or_ok, parse_variant_some in Ev. subst ty.
    inversion H. subst e. cbn [ev_data ev_nonce ev_tag ev_type].
    exists s3, d, i, t. split.
    + subst. reflexivity.
    + rewrite S. unfold fields. repeat split; auto. now exists r4.
  - intros (body & d & i & t & -> & (rest & F) & D & I & T).
    change (lit "ENC[" ++ body ++ lit "]") with (lit "ENC" ++ (lit "[" ++ (body ++ ["]"%byte]))).
    rewrite strip_prefix_app. cbn [ok_or bind]. rewrite strip_prefix_app. cbn [ok_or bind].
    rewrite strip_suffix1_app. cbn [ok_or bind]. cbv zeta. rewrite F. cbn [bind].
    change (negb (bytes_eqb (lit "AES256_GCM") cipher_name)) with false. cbn iota. cbn [skipn].
    unfold component. rewrite !strip_prefix_app. cbn [ok_or bind]. rewrite D. cbn [bind].
    rewrite I. cbn [bind]. rewrite T. cbn [bind]. rewrite parse_variant_name. cbn [ok_or bind].
    now destruct e.
Qed.

Lemma comma_foreign : b64_val "," = None.
Proof. reflexivity. Qed.

Lemma no_comma_b64 : forall s, ~ In ","%byte (encode_base64 s).
Proof. intro s. apply encode_base64_foreign; [reflexivity|discriminate]. Qed.

Lemma notin_lit : forall c l, forallb (fun x => negb (beqb x c)) l = true -> ~ In c l.
Proof.
  intros c l H K. rewrite forallb_forall in H. specialize (H c K). rewrite beqb_refl in H. discriminate.
Qed.

Lemma evalue_text_shape : forall e, evalue_text e =
  lit "ENC[" ++ (lit "AES256_GCM" ++ ","%byte :: (lit "data:" ++ encode_base64 (ev_data e)) ++ ","%byte :: (lit "iv:" ++ encode_base64 (ev_nonce e))
   ++ ","%byte :: (lit "tag:" ++ encode_base64 (ev_tag e)) ++ ","%byte :: (lit "type:" ++ type_name (ev_type e))) ++ lit "]".
Proof.
  intro e. unfold evalue_text. rewrite variant_text_name. unfold cipher_name.
  change (lit ",data:") with (","%byte :: lit "data:"). change (lit ",iv:") with (","%byte :: lit "iv:").
  change (lit ",tag:") with (","%byte :: lit "tag:"). change (lit ",type:") with (","%byte :: lit "type:").
  repeat (rewrite <- ?app_assoc, <- ?app_comm_cons). reflexivity.
Qed.

Lemma evalue_text_round : forall e, rust_evalue e -> parse_evalue (evalue_text e) = Ok e.
Proof.
  intros e [Ln Lt]. apply parse_evalue_components. rewrite evalue_text_shape.
  eexists _, (encode_base64 (ev_data e)), (encode_base64 (ev_nonce e)), (encode_base64 (ev_tag e)).
  split; [reflexivity|]. split.
  - exists []. assert (P : forall p s, (~ In ","%byte p) -> ~ In ","%byte (p ++ encode_base64 s)).
    { intros. apply not_in_app; auto. apply no_comma_b64. }
    rewrite split_on_app by (apply notin_lit; reflexivity).
    rewrite split_on_app by (apply P; apply notin_lit; reflexivity).
    rewrite split_on_app by (apply P; apply notin_lit; reflexivity).
    rewrite split_on_app by (apply P; apply notin_lit; reflexivity).
    rewrite split_on_nosep; [reflexivity|]. destruct (ev_type e); apply notin_lit; reflexivity.
  - split; [apply decode_encode_vec|]. split; apply decode_encode_slice; auto.
Qed.

Lemma parse_evalue_sizes : forall s e, parse_evalue s = Ok e -> rust_evalue e.
Proof.
  intros s e H. apply parse_evalue_components in H. destruct H as (b & d & i & t & _ & _ & _ & I & T).
  split; eapply decode_slice_length; eauto.
Qed.

(** The documented shape, in terms of whole strings. *)
Definition tail_ok (r : bytes) : Prop := r = [] \/ exists r', r = ","%byte :: r'.

Lemma join_cons : forall c x l, l <> [] -> join_with c (x :: l) = x ++ c :: join_with c l.
Proof. intros c x [|y l] H; [congruence|reflexivity]. Qed.

Lemma fields_text : forall body d i t ty, fields (split_on "," body) d i t ty <->
  exists r, tail_ok r /\ ~ In ","%byte d /\ ~ In ","%byte i /\ ~ In ","%byte t
    /\ body = lit "AES256_GCM,data:" ++ d ++ lit ",iv:" ++ i ++ lit ",tag:" ++ t ++ lit ",type:" ++ type_name ty ++ r.
Proof.
  intros body d i t ty. split.
  - intros (rest & F). pose proof (split_on_pieces "," body) as P. rewrite F in P.
    assert (B : body = join_with "," (split_on "," body)) by (symmetry; apply join_split).
    rewrite F in B.
    exists (match rest with [] => [] | _ => ","%byte :: join_with "," rest end).
    repeat split.
    + destruct rest; [left|right]; eauto.
    + intro K. apply (P (lit "data:" ++ d)); [simpl; auto|]. apply in_or_app. now right.
    + intro K. apply (P (lit "iv:" ++ i)); [simpl; auto|]. apply in_or_app. now right.
    + intro K. apply (P (lit "tag:" ++ t)); [simpl; auto|]. apply in_or_app. now right.
    + rewrite B. rewrite !join_cons by discriminate.
      change (lit "AES256_GCM,data:") with (lit "AES256_GCM" ++ ","%byte :: lit "data:").
      change (lit ",iv:") with (","%byte :: lit "iv:").
      change (lit ",tag:") with (","%byte :: lit "tag:"). change (lit ",type:") with (","%byte :: lit "type:").
      destruct rest as [|r rest].
      * repeat (rewrite <- ?app_assoc, <- ?app_comm_cons). cbn [join_with]. now rewrite app_nil_r.
      * rewrite join_cons by discriminate. repeat (rewrite <- ?app_assoc, <- ?app_comm_cons). reflexivity.
  - intros (r & R & Hd & Hi & Ht & ->).
    assert (forall p s, ~ In ","%byte p -> ~ In ","%byte s -> ~ In ","%byte (p ++ s)) as N by (intros; now apply not_in_app).
    assert (Ty : ~ In ","%byte (lit "type:" ++ type_name ty)) by (destruct ty; apply notin_lit; reflexivity).
    replace (lit "AES256_GCM,data:" ++ d ++ lit ",iv:" ++ i ++ lit ",tag:" ++ t ++ lit ",type:" ++ type_name ty ++ r)
      with (lit "AES256_GCM" ++ ","%byte :: (lit "data:" ++ d) ++ ","%byte :: (lit "iv:" ++ i) ++ ","%byte :: (lit "tag:" ++ t) ++ ","%byte :: (lit "type:" ++ type_name ty) ++ r).
    2:{ change (lit "AES256_GCM,data:") with (lit "AES256_GCM" ++ ","%byte :: lit "data:").
        change (lit ",iv:") with (","%byte :: lit "iv:").
        change (lit ",tag:") with (","%byte :: lit "tag:"). change (lit ",type:") with (","%byte :: lit "type:").
        repeat (rewrite <- ?app_assoc, <- ?app_comm_cons). reflexivity. }
    rewrite split_on_app by (apply notin_lit; reflexivity).
    rewrite split_on_app by (apply N; auto; apply notin_lit; reflexivity).
    rewrite split_on_app by (apply N; auto; apply notin_lit; reflexivity).
    rewrite split_on_app by (apply N; auto; apply notin_lit; reflexivity).
    destruct R as [->|(r' & ->)].
    + rewrite app_nil_r, split_on_nosep by auto. now exists [].
    + rewrite split_on_app by auto. now exists (split_on "," r').
Qed.

Lemma no_comma_base64_text : forall t d, is_base64_text t d -> ~ In ","%byte t.
Proof.
  intros t d (t' & k & B & ->). apply base64_of_unique in B. subst. apply not_in_app.
  - now apply b64_encode_nopad_foreign.
  - intro K. apply repeat_spec in K. discriminate.
Qed.

Lemma decode_slice_text_iff : forall n t s, decode_base64_slice n t = Ok s <-> exists d, is_base64_text t d /\ padded n d s.
Proof.
  intros n t s. rewrite decode_slice_iff. unfold padded. split; intros (d & A & B); exists d; [rewrite is_base64_text_iff|rewrite <- is_base64_text_iff]; tauto.
Qed.

Lemma parse_evalue_iff : forall s e, parse_evalue s = Ok e <->
  exists d i t i0 t0 r, tail_ok r
    /\ s = lit "ENC[AES256_GCM,data:" ++ d ++ lit ",iv:" ++ i ++ lit ",tag:" ++ t ++ lit ",type:" ++ type_name (ev_type e) ++ r ++ lit "]"
    /\ is_base64_text d (ev_data e) /\ is_base64_text i i0 /\ padded 32 i0 (ev_nonce e) /\ is_base64_text t t0 /\ padded 16 t0 (ev_tag e).
Proof.
  intros s e. rewrite parse_evalue_components. split.
  - intros (body & d & i & t & -> & F & D & I & T).
    apply fields_text in F. destruct F as (r & R & Hd & Hi & Ht & ->).
    apply is_base64_text_iff in D. apply decode_slice_text_iff in I. apply decode_slice_text_iff in T.
    destruct I as (i0 & I0 & I1). destruct T as (t0 & T0 & T1).
    exists d, i, t, i0, t0, r. repeat (split; [now auto|]). split; [|tauto].
    change (lit "ENC[AES256_GCM,data:") with (lit "ENC[" ++ lit "AES256_GCM,data:").
    repeat (rewrite <- ?app_assoc). reflexivity.
  - intros (d & i & t & i0 & t0 & r & R & -> & D & I0 & I1 & T0 & T1).
    exists (lit "AES256_GCM,data:" ++ d ++ lit ",iv:" ++ i ++ lit ",tag:" ++ t ++ lit ",type:" ++ type_name (ev_type e) ++ r), d, i, t.
    split.
    { change (lit "ENC[AES256_GCM,data:") with (lit "ENC[" ++ lit "AES256_GCM,data:").
      repeat (rewrite <- ?app_assoc). reflexivity. }
    split.
    { apply fields_text. exists r. repeat split; auto; eapply no_comma_base64_text; eauto. }
    split; [now apply is_base64_text_iff|]. split; apply decode_slice_text_iff; eauto.
Qed.

(** When parsing aborts. *)
Lemma parse_evalue_panic : forall s, parse_evalue s = Panic ->
  exists body c, s = lit "ENC[" ++ body ++ lit "]" /\ In c (split_on "," body)
    /\ exists d x, (c = lit "iv:" ++ x /\ is_base64_text x d /\ 32 < length d) \/ (c = lit "tag:" ++ x /\ is_base64_text x d /\ 16 < length d).
Proof.
  intros s H. unfold parse_evalue, nonce_size, tag_size in H.
  apply bind_panic in H. destruct H as [H|(s1 & E1 & H)]; [now apply ok_or_panic in H|]. apply ok_or_ok, strip_prefix_some in E1.
  apply bind_panic in H. destruct H as [H|(s2 & E2 & H)]; [now apply ok_or_panic in H|]. apply ok_or_ok, strip_prefix_some in E2.
  apply bind_panic in H. destruct H as [H|(s3 & E3 & H)]; [now apply ok_or_panic in H|]. apply ok_or_ok, strip_suffix1_some in E3.
  cbv zeta in H. exists s3.
  apply bind_panic in H. destruct H as [H|(name & E4 & H)]; [destruct (split_on "," s3); discriminate|].
  destruct (negb (bytes_eqb name cipher_name)); [discriminate|].
  assert (Sk : forall cs (x : bytes), In x (skipn 1 cs) -> In x cs) by (intros [|? ?] x Hx; [destruct Hx|now right]).
  apply bind_panic in H. destruct H as [H|(d & Ed & H)]; [now apply component_panic in H|].
  apply bind_panic in H. destruct H as [H|(data & Edd & H)]; [unfold decode_base64_vec in H; now apply ok_or_panic in H|].
  apply bind_panic in H. destruct H as [H|(i & Ei & H)]; [now apply component_panic in H|].
  apply component_ok in Ei. destruct Ei as (r2 & Ei).
  apply bind_panic in H. destruct H as [H|(nonce & Ein & H)].
  { apply decode_slice_panic_iff in H. destruct H as (d0 & D0 & L). apply is_base64_text_iff in D0.
    exists (lit "iv:" ++ i). split; [now subst|]. split.
    - apply Sk, Sk. rewrite Ei. now left.
    - exists d0, i. left. auto. }
  apply bind_panic in H. destruct H as [H|(t & Et & H)]; [now apply component_panic in H|].
  apply component_ok in Et. destruct Et as (r3 & Et).
  apply bind_panic in H. destruct H as [H|(tag & Ett & H)].
  { apply decode_slice_panic_iff in H. destruct H as (d0 & D0 & L). apply is_base64_text_iff in D0.
    exists (lit "tag:" ++ t). split; [now subst|]. split.
    - apply Sk, Sk, Sk. rewrite Et. now left.
    - exists d0, t. right. auto. }
  apply bind_panic in H. destruct H as [H|(ty & Ety & H)]; [now apply component_panic in H|].
  apply bind_panic in H. destruct H as [H|(v & Ev & H)]; [now apply ok_or_panic in H|]. discriminate.
Qed.

(** ** Encryption *)

Lemma gcm_fits_blen : forall s, gcm_fits s <-> (blen s <= gcm_max)%N.
Proof. intro s. unfold gcm_fits, blen, gcm_max. change (2 ^ 36)%N with 68719476736%N. reflexivity. Qed.

Lemma encrypt_value_ok : forall v nonce key path e, encrypt_value v nonce key path = Ok e <->
  gcm_fits (value_bytes v) /\ gcm_fits path
  /\ e = EValue (gcm_ctr key nonce (value_bytes v)) nonce (gcm_tag key nonce path (gcm_ctr key nonce (value_bytes v))) (type_of v).
Proof.
  intros v nonce key path e. unfold encrypt_value. split.
  - intro H. apply bind_ok in H. destruct H as ([c t] & E & H). apply cipher_encrypt_ok, gcm_encrypt_some in E.
    destruct E as (-> & -> & A & B). cbn [fst snd] in H. injection H as <-. rewrite variant_of_type.
    split; [now apply gcm_fits_blen|]. split; [now apply gcm_fits_blen|]. reflexivity.
  - intros (A & B & ->). apply gcm_fits_blen in A. apply gcm_fits_blen in B.
    unfold cipher_encrypt. rewrite gcm_encrypt_total by auto. cbn [ok_or bind fst snd]. now rewrite variant_of_type.
Qed.

Lemma encrypt_value_total : forall v nonce key path, gcm_fits (value_bytes v) -> gcm_fits path ->
  exists e, encrypt_value v nonce key path = Ok e.
Proof. intros. eexists. apply encrypt_value_ok. repeat split; auto. Qed.

Lemma encrypt_value_err : forall v nonce key path, encrypt_value v nonce key path = Err ECipher \/ exists e, encrypt_value v nonce key path = Ok e.
Proof.
  intros. unfold encrypt_value, cipher_encrypt. destruct (gcm_encrypt key nonce path (value_bytes v)); cbn; eauto.
Qed.

Lemma decrypt_encrypt_value : forall v nonce key path e, rust_value v -> encrypt_value v nonce key path = Ok e -> decrypt_value e key path = Ok v.
Proof.
  intros v nonce key path e R H. unfold encrypt_value in H. apply bind_ok in H. destruct H as ([c t] & E & H).
  apply cipher_encrypt_ok in E. apply gcm_decrypt_encrypt in E. injection H as <-.
  unfold decrypt_value. cbn [ev_nonce ev_data ev_tag ev_type fst snd].
  apply cipher_decrypt_ok in E. rewrite E. cbn [bind]. rewrite variant_of_type. now apply value_bytes_round.
Qed.

Lemma decrypt_value_ok : forall e key path v, decrypt_value e key path = Ok v ->
  ev_tag e = gcm_tag key (ev_nonce e) path (ev_data e)
  /\ value_from_bytes (gcm_ctr key (ev_nonce e) (ev_data e)) (ev_type e) = Ok v
  /\ rust_value v /\ type_of v = ev_type e.
Proof.
  intros e key path v H. unfold decrypt_value in H. apply bind_ok in H. destruct H as (p & E & H).
  apply cipher_decrypt_ok, gcm_decrypt_some in E. destruct E as (T & -> & _ & _).
  pose proof (value_from_bytes_typed _ _ _ H) as (A & B & _). auto.
Qed.

Lemma decrypt_value_no_panic : forall e key path, decrypt_value e key path <> Panic.
Proof.
  intros e key path H. unfold decrypt_value in H. apply bind_panic in H. destruct H as [H|(p & _ & H)].
  - unfold cipher_decrypt in H. now apply ok_or_panic in H.
  - now apply value_from_bytes_no_panic in H.
Qed.

Lemma encrypt_value_wf : forall v nonce key path e, length nonce = 32 -> encrypt_value v nonce key path = Ok e -> rust_evalue e.
Proof. intros v nonce key path e L H. apply encrypt_value_ok in H. destruct H as (_ & _ & ->). split; [exact L|apply gcm_tag_length]. Qed.
