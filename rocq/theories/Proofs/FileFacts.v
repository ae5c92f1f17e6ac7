(** Facts about whole files. *)
From Verif.Model Require Import File.
From Verif.Spec Require Import SpecFile SpecFileHistory.
From Verif.Proofs Require Import BytesFacts Base64Facts Utf8Facts GcmFacts ValueFacts MapFacts NonceFacts MacFacts FormatFacts FormatEnc TimestampFacts IntegrationFacts.

Local Open Scope nat_scope.

(** ** Small facts *)
Lemma decrypt_map_values : forall key em m ks v, decrypt_map key em = Ok m -> In (ks, v) (map_values m) ->
  exists l, In (ks, l) (map_values em) /\ decrypts key ks l v.
Proof.
  intros key em m ks v D I. apply decrypt_map_iff in D. destruct D as [_ F]. destruct (Forall2_in_r _ _ _ _ F I) as ([ks' l] & J & [K X]).
  cbn [fst snd] in *. subst ks'. eauto.
Qed.

Lemma mac_of_compute : forall re only rule dm, mac_of re only rule dm (compute_mac re only rule dm).
Proof.
  intros re only rule dm. unfold mac_of. destruct (kept_exists re (mac_only_flag only) rule dm) as (vs & K).
  assert (Q : (match only with Some true => true | _ => false end) = mac_only_flag only) by now destruct only as [[|]|].
  rewrite Q. exists vs. split; auto. unfold compute_mac. rewrite (mac_kept re _ _ _ _ K). destruct only as [[|]|]; reflexivity.
Qed.
Lemma mac_of_unique : forall re only rule dm mac, mac_of re only rule dm mac -> mac = compute_mac re only rule dm.
Proof.
  intros re only rule dm mac (vs & K & ->).
  assert (Q : (match only with Some true => true | _ => false end) = mac_only_flag only) by now destruct only as [[|]|].
  rewrite Q in K. unfold compute_mac. rewrite (mac_kept re _ _ _ _ K). destruct only as [[|]|]; reflexivity.
Qed.

Section FileFacts.
  Context (re : regex_engine) (tp : tape) (ag : age_crate) (W : env -> Prop).

  (** The stored nonce of a MAC has 32 bytes. *)
  Definition mac_saved_ok (sv : option saved) : Prop := forall s, sv = Some s -> saved_ok (Some (sv_map s)).

  Lemma encrypt_mac_ok : forall sv mac key lm n e n', encrypt_mac tp sv mac key lm n = Ok (e, n') ->
    decrypt_mac e key lm = Ok (mac, ev_nonce e)
    /\ gcm_encrypt key (ev_nonce e) lm mac = Some (ev_data e, ev_tag e)
    /\ ((exists m0, sv = Some (m0, ev_nonce e) /\ m0 = mac /\ n' = n) \/ (ev_nonce e = draw_nonce tp n /\ n' = S n
         /\ forall m0 nonce0, sv = Some (m0, nonce0) -> m0 <> mac)).
  Proof.
    intros sv mac key lm n e n' H. unfold encrypt_mac in H.
    assert (Q : exists nonce n1, (match sv with Some (m0, nonce0) => if bytes_eqb m0 mac then (nonce0, n) else (draw_nonce tp n, S n) | None => (draw_nonce tp n, S n) end) = (nonce, n1)
      /\ ((exists m0, sv = Some (m0, nonce) /\ m0 = mac /\ n1 = n) \/ (nonce = draw_nonce tp n /\ n1 = S n /\ forall m0 nonce0, sv = Some (m0, nonce0) -> m0 <> mac))).
    { destruct sv as [[m0 nonce0]|].
      - destruct (bytes_eqb m0 mac) eqn:B.
        + apply bytes_eqb_eq in B. exists nonce0, n. split; auto. left. exists m0. auto.
        + exists (draw_nonce tp n), (S n). split; auto. right. split; auto. split; auto. intros m1 n1 X. injection X as <- _. intro Y.
          apply bytes_eqb_eq in Y. congruence.
      - exists (draw_nonce tp n), (S n). split; auto. right. split; auto. split; auto. discriminate. }
    destruct Q as (nonce & n1 & Q & C). rewrite Q in H. apply bind_ok in H. destruct H as ([c t] & X & H). injection H as <- <-.
    apply cipher_encrypt_ok in X. cbn [ev_nonce ev_data ev_tag fst snd]. split; [|split; [exact X|exact C]].
    unfold decrypt_mac. cbn [ev_nonce ev_data ev_tag]. apply gcm_decrypt_encrypt, cipher_decrypt_ok in X. now rewrite X.
  Qed.

  Lemma encrypt_parts_ok : forall fo sv key dm md n ef n', encrypt_parts re tp fo sv key dm md n = Ok (ef, n') ->
    exists em n1 e, encrypt_map re tp (option_map sv_map sv) key (md_partial md) dm n = Ok (em, n1)
      /\ encrypt_mac tp (option_map sv_mac sv) (md_mac md) key (timestamp_text (md_modified md)) n1 = Ok (e, n')
      /\ enc_map_from_internal fo em = Ok (fl_map ef) /\ fl_meta ef = with_mac md e.
  Proof.
    intros fo sv key dm md n ef n' H. unfold encrypt_parts in H. apply bind_ok in H. destruct H as ([em n1] & A & H).
    apply bind_ok in H. destruct H as ([emd n2] & B & H). unfold encrypt_meta in B. apply bind_ok in B. destruct B as ([e n3] & B & B'). injection B' as <- <-.
    apply bind_ok in H. destruct H as (m & C & H). injection H as <- <-. cbn [fst snd] in *. exists em, n1, e. auto.
  Qed.

  (** The document as an internal map is one that Rust can hold. *)
  Definition good_doc (dm : dmap) : Prop := rust_map dm /\ distinct_keys (Map dm).

  (** The encrypted file holds the document [dm] under the data key [key], with the right MAC. *)
  Definition holds (f : fmt) (ef : efile) (key : bytes) (dm : dmap) : Prop :=
    length key = 32 /\ all_wrap ag W key (md_recipients (fl_meta ef))
    /\ good_doc dm /\ fits f (md_partial (fl_meta ef)) dm
    /\ ev_type (md_mac (fl_meta ef)) = TyStr
    /\ exists em saved0 n0 n1 nonce, saved_ok saved0 /\ encrypt_map re tp saved0 key (md_partial (fl_meta ef)) dm n0 = Ok (em, n1)
       /\ enc_map_from_internal f em = Ok (fl_map ef)
       /\ decrypt_mac (md_mac (fl_meta ef)) key (timestamp_text (md_modified (fl_meta ef)))
          = Ok (compute_mac re (md_only (fl_meta ef)) (md_partial (fl_meta ef)) dm, nonce).
  (** The decrypted file holds the document, with the right MAC and one data key. *)
  Definition holds_plain (f : fmt) (df : dfile) (sv : option saved) (dm : dmap) : Prop :=
    good_doc dm /\ fits f (md_partial (fl_meta df)) dm /\ document f df dm
    /\ md_mac (fl_meta df) = compute_mac re (md_only (fl_meta df)) (md_partial (fl_meta df)) dm
    /\ mac_saved_ok sv
    /\ exists key, length key = 32 /\ all_wrap ag W key (md_recipients (fl_meta df)) /\ forall s, sv = Some s -> sv_key s = key.

  Lemma fits_toml : forall f rule dm, fits f rule dm -> f = Toml -> forall ks, In (ks, VStr (lit "null")) (map_values dm) -> in_scope re rule ks.
  Proof. intros f rule dm (_ & T & _) E ks I. destruct (T E ks I). Qed.

  (** Such a file is read back as encrypted. *)
  Lemma holds_read : forall f ef key dm, holds f ef key dm ->
    exists em nonce, enc_map_to_internal re f (md_partial (fl_meta ef)) (fl_map ef) = Ok em /\ decrypt_map key em = Ok dm
       /\ decrypt_mac (md_mac (fl_meta ef)) key (timestamp_text (md_modified (fl_meta ef)))
          = Ok (compute_mac re (md_only (fl_meta ef)) (md_partial (fl_meta ef)) dm, nonce)
       /\ exists saved0 n0 n1, encrypt_map re tp saved0 key (md_partial (fl_meta ef)) dm n0 = Ok (em, n1) /\ enc_map_from_internal f em = Ok (fl_map ef).
  Proof.
    intros f ef key dm (L & AW & [R D] & F & _ & em & saved0 & n0 & n1 & nonce & SO & A & C & M). exists em, nonce. split; [|split; [|split; [exact M|]]].
    - eapply written_readable; eauto. { intros ks v I. apply (proj1 F ks v I). } now apply fits_toml.
    - eapply decrypt_encrypt_map; eauto.
    - exists saved0, n0, n1. auto.
  Qed.

  Lemma encrypt_mac_type : forall sv mac key lm n e n', encrypt_mac tp sv mac key lm n = Ok (e, n') -> ev_type e = TyStr.
  Proof.
    intros sv mac key lm n e n' H. unfold encrypt_mac in H. match type of H with (let '(_, _) := ?x in _) = _ => destruct x as [nonce n1] end.
    apply bind_ok in H. destruct H as (ct & _ & H). now injection H as <- _.
  Qed.

  Lemma encrypt_parts_holds : forall fo sv key dm md n ef n', mac_saved_ok sv -> good_doc dm -> fits fo (md_partial md) dm -> length key = 32 ->
    all_wrap ag W key (md_recipients md) -> md_mac md = compute_mac re (md_only md) (md_partial md) dm ->
    encrypt_parts re tp fo sv key dm md n = Ok (ef, n') -> holds fo ef key dm.
  Proof.
    intros fo sv key dm md n ef n' SO [R D] F L AW M H. apply encrypt_parts_ok in H. destruct H as (em & n1 & e & A & B & C & Em).
    unfold holds. rewrite Em. cbn [with_mac md_recipients md_partial md_only md_mac md_modified].
    assert (SO' : saved_ok (option_map sv_map sv)).
    { destruct sv as [s|]; cbn [option_map]; [now apply SO|]. intros s p v nonce X. discriminate X. }
    split; auto. split; auto. split; [split; auto|]. split; auto. split. { eapply encrypt_mac_type; eauto. }
    exists em, (option_map sv_map sv), n, n1, (ev_nonce e). split; auto. split; auto. split; auto.
    rewrite <- M. apply (encrypt_mac_ok _ _ _ _ _ _ _ B).
  Qed.

  Lemma validate_good : forall dm md, md_mac md = compute_mac re (md_only md) (md_partial md) dm -> validate_mac re dm md = Ok tt.
  Proof. intros dm md H. unfold validate_mac. rewrite H, bytes_eqb_refl. reflexivity. Qed.

  Lemma validate_ok : forall dm md, validate_mac re dm md = Ok tt -> md_mac md = compute_mac re (md_only md) (md_partial md) dm.
  Proof.
    intros dm md H. unfold validate_mac in H. destruct (bytes_eqb _ (md_mac md)) eqn:E. { apply bytes_eqb_eq in E. auto. }
    unfold mac_text in H. destruct (utf8_valid (md_mac md)); discriminate.
  Qed.

  (** Conversion to a format the document fits in. *)
  Lemma fits_convert : forall f rule dm, good_doc dm -> fits f rule dm -> exists fm, dec_map_from_internal f dm = Ok fm /\ dec_map_to_internal f fm = Ok dm.
  Proof.
    intros f rule dm [R D] (_ & T & J). destruct (conversion_outcome f dm R) as [P N].
    destruct (dec_map_from_internal f dm) as [fm|e|] eqn:E.
    - exists fm. split; auto. destruct (conversion_back f dm fm D R E) as (dm' & B & _ & X). now rewrite X in B by exact T.
    - exfalso. exact (N e eq_refl).
    - exfalso. destruct P as [P _]. destruct (P eq_refl) as (-> & ks & v & I & X). exact (J eq_refl ks v I X).
  Qed.

  Lemma decrypt_inv : forall E f fo ef df, file_decrypt re ag E f fo ef = Ok df ->
    exists key mac nonce em dm, retrieve_data_key ag E (md_recipients (fl_meta ef)) = Ok key
      /\ decrypt_mac (md_mac (fl_meta ef)) key (timestamp_text (md_modified (fl_meta ef))) = Ok (mac, nonce)
      /\ enc_map_to_internal re f (md_partial (fl_meta ef)) (fl_map ef) = Ok em /\ decrypt_map key em = Ok dm
      /\ mac = compute_mac re (md_only (fl_meta ef)) (md_partial (fl_meta ef)) dm
      /\ dec_map_from_internal fo dm = Ok (fl_map df) /\ fl_meta df = with_mac (fl_meta ef) mac.
  Proof.
    intros E f fo ef df H. unfold file_decrypt in H. apply bind_ok in H. destruct H as (key & K & H). apply bind_ok in H. destruct H as ([mac nonce] & M & H).
    apply bind_ok in H. destruct H as (em & A & H). apply bind_ok in H. destruct H as (dm & D & H). apply bind_ok in H. destruct H as (u & V & H).
    apply bind_ok in H. destruct H as (m & C & H). injection H as <-. destruct u. apply validate_ok in V. cbn in V.
    exists key, mac, nonce, em, dm. cbn [fst fl_map fl_meta]. repeat (split; [assumption|]). reflexivity.
  Qed.

  Lemma decrypt_save_inv : forall E f fo ef df sv, file_decrypt_save re ag E f fo ef = Ok (df, sv) ->
    file_decrypt re ag E f fo ef = Ok df /\
    exists key mac nonce em dm s, retrieve_data_key ag E (md_recipients (fl_meta ef)) = Ok key
      /\ decrypt_mac (md_mac (fl_meta ef)) key (timestamp_text (md_modified (fl_meta ef))) = Ok (mac, nonce)
      /\ enc_map_to_internal re f (md_partial (fl_meta ef)) (fl_map ef) = Ok em /\ decrypt_map_save key em = Ok (dm, s)
      /\ mac = compute_mac re (md_only (fl_meta ef)) (md_partial (fl_meta ef)) dm
      /\ dec_map_from_internal fo dm = Ok (fl_map df) /\ fl_meta df = with_mac (fl_meta ef) mac
      /\ sv = {| sv_key := key; sv_map := s; sv_mac := (mac, nonce) |}.
  Proof.
    intros E f fo ef df sv H. unfold file_decrypt_save in H. apply bind_ok in H. destruct H as (key & K & H). apply bind_ok in H. destruct H as ([mac nonce] & M & H).
    apply bind_ok in H. destruct H as (em & A & H). apply bind_ok in H. destruct H as ([dm s] & D & H). apply bind_ok in H. destruct H as (u & V & H).
    apply bind_ok in H. destruct H as (m & C & H). injection H as <- <-. destruct u. pose proof (validate_ok _ _ V) as V'. cbn in V'. split.
    - unfold file_decrypt. rewrite K. cbn [bind]. rewrite M. cbn [bind]. rewrite A. cbn [bind]. rewrite (decrypt_save_map _ _ _ _ D). cbn [bind fst] in *.
      rewrite V. cbn [bind]. rewrite C. reflexivity.
    - exists key, mac, nonce, em, dm, s. cbn [fst snd fl_map fl_meta] in *. repeat (split; [assumption|]). split; reflexivity.
  Qed.

  (** Plain and saving decryption succeed alike. *)
  Lemma decrypt_save_of_decrypt : forall E f fo ef df, file_decrypt re ag E f fo ef = Ok df -> exists sv, file_decrypt_save re ag E f fo ef = Ok (df, sv).
  Proof.
    intros E f fo ef df H. unfold file_decrypt in H. unfold file_decrypt_save. apply bind_ok in H. destruct H as (key & -> & H). apply bind_ok in H. destruct H as ([mac nonce] & M & H).
    cbn [bind]. rewrite M. apply bind_ok in H. destruct H as (em & A & H). cbn [bind]. rewrite A. apply bind_ok in H. destruct H as (dm & D & H). cbn [bind].
    unfold decrypt_map in D. destruct (decrypt_map_save key em) as [[dm' s]|e|] eqn:Q; try discriminate. injection D as ->. cbn [bind fst].
    apply bind_ok in H. destruct H as (u & V & H). cbn [fst] in V. rewrite V. cbn [bind]. apply bind_ok in H. destruct H as (m & C & H). rewrite C. cbn [bind]. injection H as <-. eauto.
  Qed.

  Lemma holds_decrypts : forall E f fo ef key dm, retrieve_data_key ag E (md_recipients (fl_meta ef)) = Ok key -> holds f ef key dm ->
    fits fo (md_partial (fl_meta ef)) dm ->
    exists df, file_decrypt re ag E f fo ef = Ok df /\ document fo df dm
      /\ fl_meta df = with_mac (fl_meta ef) (compute_mac re (md_only (fl_meta ef)) (md_partial (fl_meta ef)) dm).
  Proof.
    intros E f fo ef key dm K H F'. pose proof (holds_read _ _ _ _ H) as (em & nonce & A & D & M & _). destruct H as (L & AW & G & F & _). destruct (fits_convert fo _ dm G F') as (fm & C & C').
    eexists. split; [|split]; [unfold file_decrypt; rewrite K; cbn [bind]; rewrite M; cbn [bind]; rewrite A; cbn [bind]; rewrite D; cbn [bind fst];
      rewrite validate_good by reflexivity; cbn [bind]; rewrite C; reflexivity| |reflexivity].
    exact C'.
  Qed.

  (** A document converted from a parsed file fits its own format as far as strings and floats are concerned. *)
  Lemma native_good : forall f m dm, fmt_doc f m -> dec_map_to_internal f m = Ok dm ->
    good_doc dm /\ (f = Toml -> forall ks, ~ In (ks, VStr (lit "null")) (map_values dm)) /\ (f = Json -> forall ks v, In (ks, v) (map_values dm) -> ~ non_finite v).
  Proof.
    intros f m dm F H. destruct (dec_map_to_from f m dm F H) as (B & D & R & _). split; [split; auto|]. split.
    - intros ->. apply (toml_native m dm F H).
    - intros -> ks v I N. destruct (conversion_outcome Json dm R) as [[_ P] _]. rewrite P in B; [discriminate|]. split; auto. eauto.
  Qed.

  Lemma build_ok : forall E f b n ef n', builder_encrypt re tp ag E f b n = Ok (ef, n') ->
    exists dm em n1 rc n2 e, dec_map_to_internal f (bd_map b) = Ok dm
      /\ encrypt_map re tp None (draw_key tp n) (bd_partial b) dm (S n) = Ok (em, n1)
      /\ build_recipients ag E (bd_age b) (bd_kms b) (draw_key tp n) n1 = Ok (rc, n2)
      /\ encrypt_mac tp None (compute_mac re (bd_only b) (bd_partial b) dm) (draw_key tp n) (timestamp_text (now E n2)) (S n2) = Ok (e, n')
      /\ enc_map_from_internal f em = Ok (fl_map ef)
      /\ fl_meta ef = {| md_recipients := rc; md_modified := now E n2; md_mac := e; md_partial := bd_partial b; md_only := bd_only b |}.
  Proof.
    intros E f b n ef n' H. unfold builder_encrypt in H. cbv zeta in H. apply bind_ok in H. destruct H as (dm & A & H).
    destruct (encrypt_map re tp None (draw_key tp n) (bd_partial b) dm (S n)) as [[em n1]|e|] eqn:B.
    - apply bind_ok in H. destruct H as ([rc n2] & C & H). cbn [bind fst snd] in H. apply bind_ok in H. destruct H as ([emd n3] & D & H).
      unfold encrypt_meta in D. cbn [option_map md_mac md_modified] in D. apply bind_ok in D. destruct D as ([e n4] & D & D'). injection D' as <- <-.
      apply bind_ok in H. destruct H as (m & F & H). injection H as <- <-. exists dm, em, n1, rc, n2, e. cbn [fst snd fl_map fl_meta] in *.
      repeat (split; [assumption|]). reflexivity.
    - apply bind_ok in H. destruct H as ([rc n2] & C & H). discriminate.
    - exfalso. exact (encrypt_map_no_panic _ _ _ _ _ _ _ B).
  Qed.

  Lemma built_holds : forall E f b n ef n' dm, W E -> fmt_doc f (bd_map b) -> dec_map_to_internal f (bd_map b) = Ok dm -> fits f (bd_partial b) dm ->
    builder_encrypt re tp ag E f b n = Ok (ef, n') -> holds f ef (draw_key tp n) dm.
  Proof.
    intros E f b n ef n' dm WE FD A F H. apply build_ok in H. destruct H as (dm' & em & n1 & rc & n2 & e & A' & B & C & D & G & Em).
    assert (Q : dm' = dm) by (rewrite A in A'; now injection A' as ->). subst dm'. destruct (native_good _ _ _ FD A) as ([R DK] & _).
    destruct (build_recipients_ok ag W _ _ _ _ _ _ _ WE C) as (_ & AW & _). unfold holds. rewrite Em. cbn [md_recipients md_partial md_only md_mac md_modified].
    split. { apply draw_key_len. } split; auto. split; [split; auto|]. split; auto. split. { eapply encrypt_mac_type; eauto. }
    exists em, None, (S n), n1, (ev_nonce e). split. { intros s p v nonce X. discriminate X. } split; auto. split; auto.
    apply (encrypt_mac_ok _ _ _ _ _ _ _ D).
  Qed.
End FileFacts.

(** ** The operations keep the invariant *)
Section Invariant.
  Context (re : regex_engine) (tp : tape) (ag : age_crate) (W : env -> Prop) (AL : age_law ag) (KL : kms_law W).

  Lemma saved_table_ok : forall f rule m key em dm s, enc_map_to_internal re f rule m = Ok em -> decrypt_map_save key em = Ok (dm, s) -> saved_ok (Some s).
  Proof.
    intros f rule m key em dm s A D s0 p v nonce Q I. injection Q as <-. apply (decrypt_save_table _ _ _ _ _ _ _ D) in I.
    destruct I as (i & ks & e & [X Y] & -> & ->). apply enc_map_read in A. destruct A as [_ A]. apply nth_error_In in X. specialize (A _ _ X). cbn in A. apply A.
  Qed.

  Lemma decrypt_keeps : forall E f fo ef df key dm, W E -> holds re tp ag W f ef key dm -> fits fo (md_partial (fl_meta ef)) dm ->
    file_decrypt re ag E f fo ef = Ok df ->
    holds_plain re ag W fo df None dm.
  Proof.
    intros E f fo ef df key dm WE H F' D. pose proof (holds_read _ _ _ _ _ _ _ _ H) as (em & nonce & A & De & M & _). pose proof H as (L & AW & G & F & _).
    apply decrypt_inv in D. destruct D as (key' & mac & nonce' & em' & dm' & K & M' & A' & De' & Mc & C & Em).
    assert (key' = key) by (eapply retrieve_safe; eauto). subst key'.
    assert (em' = em) by (rewrite A in A'; now injection A' as ->). subst em'.
    assert (dm' = dm) by (rewrite De in De'; now injection De' as ->). subst dm'.
    unfold holds_plain. rewrite Em. cbn [with_mac md_recipients md_partial md_only md_mac md_modified].
    split; auto. split; auto. split.
    { destruct (fits_convert fo _ dm G F') as (fm & C1 & C2). rewrite C in C1. injection C1 as <-. exact C2. }
    split; auto. split. { intros s X. discriminate X. } exists key. split; auto. split; auto. discriminate.
  Qed.

  Lemma decrypt_save_keeps : forall E f fo ef df sv key dm, W E -> holds re tp ag W f ef key dm -> fits fo (md_partial (fl_meta ef)) dm ->
    file_decrypt_save re ag E f fo ef = Ok (df, sv) ->
    holds_plain re ag W fo df (Some sv) dm.
  Proof.
    intros E f fo ef df sv key dm WE H F' D. apply decrypt_save_inv in D. destruct D as [D D'].
    pose proof (decrypt_keeps _ _ _ _ _ _ _ WE H F' D) as (G & Fi & Do & Mm & _ & key0 & L0 & AW0 & _).
    destruct D' as (key' & mac & nonce & em & dm' & s & K & M & A & De & Mc & C & Em & ->).
    split; auto. split; auto. split; auto. split; auto. split.
    - intros s0 X. injection X as <-. cbn [sv_map]. eapply saved_table_ok; eauto.
    - exists key'. destruct H as (L & AW & _). assert (key' = key) by (eapply retrieve_safe; eauto). subst key'.
      split; auto. rewrite Em. cbn [with_mac md_recipients]. split; auto. intros s0 X. now injection X as <-.
  Qed.

  Lemma add_age_file : forall {M} E ids (fl : file M) n fl' r key, W E -> length key = 32 -> all_wrap ag W key (md_recipients (fl_meta fl)) -> file_add_age ag E ids fl n = (fl', r) ->
    exists rc, fl' = with_recipients fl rc /\ all_wrap ag W key rc.
  Proof.
    intros M E ids fl n fl' r key WE L AW H. unfold file_add_age in H.
    destruct (retrieve_data_key ag E (md_recipients (fl_meta fl))) as [k|e|] eqn:K.
    - destruct (add_age ag ids k (md_recipients (fl_meta fl)) n) as [rc o] eqn:A. injection H as <- <-. exists rc. split; auto.
      assert (k = key) by (eapply retrieve_safe; eauto). subst k. eapply add_age_wrap; eauto.
    - injection H as <- <-. exists (md_recipients (fl_meta fl)). split; auto. now destruct fl as [m [? ? ? ? ?]].
    - injection H as <- <-. exists (md_recipients (fl_meta fl)). split; auto. now destruct fl as [m [? ? ? ? ?]].
  Qed.
  Lemma add_kms_file : forall {M} E ids (fl : file M) n fl' r key, W E -> length key = 32 -> all_wrap ag W key (md_recipients (fl_meta fl)) -> file_add_kms ag E ids fl n = (fl', r) ->
    exists rc, fl' = with_recipients fl rc /\ all_wrap ag W key rc.
  Proof.
    intros M E ids fl n fl' r key WE L AW H. unfold file_add_kms in H.
    destruct (retrieve_data_key ag E (md_recipients (fl_meta fl))) as [k|e|] eqn:K.
    - destruct (add_kms E ids k (md_recipients (fl_meta fl)) n) as [rc o] eqn:A. injection H as <- <-. exists rc. split; auto.
      assert (k = key) by (eapply retrieve_safe; eauto). subst k. eapply add_kms_wrap; eauto.
    - injection H as <- <-. exists (md_recipients (fl_meta fl)). split; auto. now destruct fl as [m [? ? ? ? ?]].
    - injection H as <- <-. exists (md_recipients (fl_meta fl)). split; auto. now destruct fl as [m [? ? ? ? ?]].
  Qed.

  (** The remaining entries after a removal. *)
  Lemma remove_age_some : forall E r rc n rc' u n', W E -> remove_age tp ag E r rc n = (rc', Ok (Some u, n')) ->
    exists rest, unit_remove bytes_eqb r (rc_age rc) = Some (u, rest) /\ all_wrap ag W (draw_key tp n) rc'
      /\ map u_key (rc_age rc') = map u_key rest /\ map u_key (rc_kms rc') = map u_key (rc_kms rc).
  Proof.
    intros E r rc n rc' u n' WE H. unfold remove_age in H. destruct (unit_remove bytes_eqb r (rc_age rc)) as [[v rest]|] eqn:U; [|discriminate].
    destruct (rotate tp ag E {| rc_kms := rc_kms rc; rc_age := rest |} n) as [rc1 o] eqn:R. injection H as <- H. destruct o as [m|e|]; try discriminate.
    cbn [omap] in H. injection H as -> ->. exists rest. split; auto. apply (rotate_ok tp ag W _ _ _ _ _ WE R).
  Qed.
  Lemma remove_kms_some : forall E k rc n rc' u n', W E -> remove_kms tp ag E k rc n = (rc', Ok (Some u, n')) ->
    exists rest, unit_remove aws_key_eqb k (rc_kms rc) = Some (u, rest) /\ all_wrap ag W (draw_key tp n) rc'
      /\ map u_key (rc_age rc') = map u_key (rc_age rc) /\ map u_key (rc_kms rc') = map u_key rest.
  Proof.
    intros E k rc n rc' u n' WE H. unfold remove_kms in H. destruct (unit_remove aws_key_eqb k (rc_kms rc)) as [[v rest]|] eqn:U; [|discriminate].
    destruct (rotate tp ag E {| rc_kms := rest; rc_age := rc_age rc |} n) as [rc1 o] eqn:R. injection H as <- H. destruct o as [m|e|]; try discriminate.
    cbn [omap] in H. injection H as -> ->. exists rest. split; auto. apply (rotate_ok tp ag W _ _ _ _ _ WE R).
  Qed.
  Lemma remove_age_none : forall E r rc n, ~ In r (map u_key (rc_age rc)) -> remove_age tp ag E r rc n = (rc, Ok (None, n)).
  Proof. intros E r rc n H. unfold remove_age. apply (unit_remove_none bytes_eqb bytes_eqb_eq) in H. now rewrite H. Qed.
  Lemma remove_kms_none : forall E k rc n, ~ In k (map u_key (rc_kms rc)) -> remove_kms tp ag E k rc n = (rc, Ok (None, n)).
  Proof. intros E k rc n H. unfold remove_kms. apply (unit_remove_none aws_key_eqb aws_key_eqb_eq) in H. now rewrite H. Qed.
  Lemma remove_age_absent : forall E r rc n rc' n', remove_age tp ag E r rc n = (rc', Ok (None, n')) -> rc' = rc.
  Proof.
    intros E r rc n rc' n' H. unfold remove_age in H. destruct (unit_remove bytes_eqb r (rc_age rc)) as [[v rest]|]; [|now injection H as <- _].
    destruct (rotate tp ag E {| rc_kms := rc_kms rc; rc_age := rest |} n) as [rc1 [m|e|]]; discriminate.
  Qed.
  Lemma remove_kms_absent : forall E k rc n rc' n', remove_kms tp ag E k rc n = (rc', Ok (None, n')) -> rc' = rc.
  Proof.
    intros E k rc n rc' n' H. unfold remove_kms in H. destruct (unit_remove aws_key_eqb k (rc_kms rc)) as [[v rest]|]; [|now injection H as <- _].
    destruct (rotate tp ag E {| rc_kms := rest; rc_age := rc_age rc |} n) as [rc1 [m|e|]]; discriminate.
  Qed.

  Lemma with_recipients_same : forall {M} (fl : file M), with_recipients fl (md_recipients (fl_meta fl)) = fl.
  Proof. now intros M [m [? ? ? ? ?]]. Qed.

  Lemma holds_plain_recipients : forall f df sv dm rc sv' key, holds_plain re ag W f df sv dm -> length key = 32 -> all_wrap ag W key rc ->
    mac_saved_ok sv' -> (forall s, sv' = Some s -> sv_key s = key) -> holds_plain re ag W f (with_recipients df rc) sv' dm.
  Proof.
    intros f df sv dm rc sv' key (G & F & D & M & S & _) L AW S' K. split; auto. split; auto. split; auto. split; auto. split; auto. exists key. auto.
  Qed.

  Definition inv (s : state) (dm : dmap) : Prop :=
    match s with Enc f ef => exists key, holds re tp ag W f ef key dm | Dec f df sv => holds_plain re ag W f df sv dm end.

  Lemma hist_inv : forall s dm, hist re tp ag W s dm -> inv s dm.
  Proof.
    induction 1 as [E f b n dm ef n' WE FD A F H|E f fo ef dm df WE _ IH F H|E f fo ef dm df sv WE _ IH F H|E f df sv dm other n df' dm' WE _ IH FD A F H
      |E f df sv dm ids n df' r WE _ IH H|E f df sv dm ids n df' r WE _ IH H|E f ef dm ids n ef' r WE _ IH H|E f ef dm ids n ef' r WE _ IH H
      |E f df sv dm r n df' u n' WE _ IH H|E f df sv dm k n df' u n' WE _ IH H|E f fo df sv dm n ef n' WE _ IH F H|f fo df sv dm n ef n' _ IH F H]; cbn [inv] in *.
    - exists (draw_key tp n). eapply built_holds; eauto.
    - destruct IH as (key & IH). eapply decrypt_keeps; eauto.
    - destruct IH as (key & IH). eapply decrypt_save_keeps; eauto.
    - destruct IH as (_ & _ & _ & _ & S & key & L & AW & K). unfold file_set_map in H. cbv zeta in H. rewrite A in H. cbn [bind] in H.
      destruct (native_good _ _ _ FD A) as (G & _). destruct (fits_convert f _ dm' G F) as (fm & C & C'). rewrite C in H. cbn [bind] in H. injection H as <-.
      split; auto. split; [exact F|]. split. { exact C'. } split; auto. split; auto. exists key. auto.
    - pose proof IH as (_ & _ & _ & _ & S & key & L & AW & K). destruct (add_age_file _ _ _ _ _ _ _ WE L AW H) as (rc & -> & AW').
      eapply holds_plain_recipients; eauto.
    - pose proof IH as (_ & _ & _ & _ & S & key & L & AW & K). destruct (add_kms_file _ _ _ _ _ _ _ WE L AW H) as (rc & -> & AW').
      eapply holds_plain_recipients; eauto.
    - destruct IH as (key & L & AW & IH). destruct (add_age_file _ _ _ _ _ _ _ WE L AW H) as (rc & -> & AW'). exists key. split; auto.
    - destruct IH as (key & L & AW & IH). destruct (add_kms_file _ _ _ _ _ _ _ WE L AW H) as (rc & -> & AW'). exists key. split; auto.
    - unfold file_remove_age in H. destruct (remove_age tp ag E r (md_recipients (fl_meta df)) n) as [rc o] eqn:R. injection H as <- ->. destruct u as [u|].
      + apply remove_age_some in R; auto. destruct R as (rest & _ & AW & _). eapply holds_plain_recipients; eauto. { apply draw_key_len. } { intros s X. discriminate X. } discriminate.
      + apply remove_age_absent in R. subst rc. now rewrite with_recipients_same.
    - unfold file_remove_kms in H. destruct (remove_kms tp ag E k (md_recipients (fl_meta df)) n) as [rc o] eqn:R. injection H as <- ->. destruct u as [u|].
      + apply remove_kms_some in R; auto. destruct R as (rest & _ & AW & _). eapply holds_plain_recipients; eauto. { apply draw_key_len. } { intros s X. discriminate X. } discriminate.
      + apply remove_kms_absent in R. subst rc. now rewrite with_recipients_same.
    - destruct IH as (G & _ & D & M & _ & key & L & AW & _). unfold file_encrypt in H. apply bind_ok in H. destruct H as (k & K & H).
      assert (k = key) by (eapply retrieve_safe; eauto). subst k. unfold document in D. rewrite D in H. cbn [bind] in H. exists key.
      eapply encrypt_parts_holds; eauto. intros s X. discriminate X.
    - destruct IH as (G & _ & D & M & S & key & L & AW & K). unfold file_encrypt_saved in H. unfold document in D. rewrite D in H. cbn [bind] in H.
      rewrite (K sv eq_refl) in H. exists key. eapply encrypt_parts_holds; eauto.
  Qed.

  Lemma hist_decrypts : forall f fo ef dm E, hist re tp ag W (Enc f ef) dm -> W E -> can_open ag E (md_recipients (fl_meta ef)) -> fits fo (md_partial (fl_meta ef)) dm ->
    exists df, file_decrypt re ag E f fo ef = Ok df /\ document fo df dm.
  Proof.
    intros f fo ef dm E H WE O F. apply hist_inv in H. destruct H as (key & H). pose proof H as (L & AW & G & _).
    destruct (holds_decrypts re tp ag W E f fo ef key dm) as (df & A & B & _); eauto. eapply retrieve_open; eauto.
  Qed.

  Lemma built_decrypts : forall E E' f b n ef n' dm, W E -> W E' -> fmt_doc f (bd_map b) -> dec_map_to_internal f (bd_map b) = Ok dm -> colon_safe_map (bd_partial b) dm ->
    builder_encrypt re tp ag E f b n = Ok (ef, n') -> can_open ag E' (md_recipients (fl_meta ef)) ->
    exists df, file_decrypt re ag E' f f ef = Ok df /\ fl_map df = normal_doc (bd_map b)
      /\ md_partial (fl_meta df) = bd_partial b /\ md_only (fl_meta df) = bd_only b /\ mac_of re (bd_only b) (bd_partial b) dm (md_mac (fl_meta df)).
  Proof.
    intros E E' f b n ef n' dm WE WE' FD A CS H O. destruct (native_good _ _ _ FD A) as (G & T & J). assert (F : fits f (bd_partial b) dm) by (split; auto).
    pose proof (built_holds re tp ag W _ _ _ _ _ _ _ WE FD A F H) as Ho. pose proof Ho as (L & AW & _).
    apply build_ok in H. destruct H as (dm' & em & n1 & rc & n2 & e & A' & _ & _ & _ & _ & Em).
    assert (F' : fits f (md_partial (fl_meta ef)) dm) by (rewrite Em; exact F).
    destruct (holds_decrypts re tp ag W E' f f ef (draw_key tp n) dm) as (df & X & Y & Z); auto. { eapply retrieve_open; eauto. }
    exists df. split; auto. rewrite Z, Em. cbn [with_mac md_partial md_only md_mac]. split.
    - pose proof (decrypt_inv re ag _ _ _ _ _ X) as (key' & mac & nonce & em' & dm2 & K & _ & A2 & De & _ & C & _).
      destruct (holds_read _ _ _ _ _ _ _ _ Ho) as (em3 & nonce3 & A3 & De3 & _).
      assert (key' = draw_key tp n) by (eapply retrieve_safe; eauto). subst key'. rewrite A3 in A2. injection A2 as <-.
      assert (dm2 = dm) by (rewrite De3 in De; now injection De as ->). subst dm2.
      rewrite (proj1 (dec_map_to_from f _ _ FD A)) in C. now injection C as <-.
    - split; auto. split; auto. apply mac_of_compute.
  Qed.
End Invariant.
