(** Integrity of values, nonces, recipients and saved parameters of whole files. *)
From Verif.Model Require Import File.
From Verif.Spec Require Import SpecFile SpecFileHistory SpecHistory.
From Verif.Proofs Require Import BytesFacts Base64Facts Base64Spec Utf8Facts GcmFacts ValueFacts TreeFacts MapFacts NonceFacts MacFacts FormatFacts FormatEnc AwsFacts
  TimestampFacts IntegrationFacts FileFacts FileSafety.

Local Open Scope nat_scope.

(** ** C14: values under the assumption that nothing was forged *)
Lemma colon_cut : forall k k' r r', no_colon k -> no_colon k' -> k ++ ":"%byte :: r = k' ++ ":"%byte :: r' -> k = k' /\ r = r'.
Proof.
  induction k as [|x k IH]; intros [|x' k'] r r' N N' H; cbn in H.
  - injection H as ->. auto.
  - injection H as <- _. exfalso. apply N'. now left.
  - injection H as -> _. exfalso. apply N. now left.
  - injection H as -> H. apply IH in H. { destruct H as [-> ->]. auto. } { intro I. apply N. now right. } { intro I. apply N'. now right. }
Qed.
Lemma path_text_inj : forall ks ks', Forall no_colon ks -> Forall no_colon ks' -> path_text ks = path_text ks' -> ks = ks'.
Proof.
  induction ks as [|k ks IH]; intros [|k' ks'] N N' H; cbn in H; auto.
  - exfalso. destruct k'; discriminate H.
  - exfalso. destruct k; discriminate H.
  - inversion N; inversion N'; subst. rewrite <- !app_assoc in H. cbn in H. apply colon_cut in H; auto. destruct H as [-> H]. f_equal. now apply IH.
Qed.

Lemma tampered_values : forall key em dm em' dm', rust_map dm -> encrypted_under key em dm -> decrypt_map key em' = Ok dm' -> no_forgery em em' ->
  forall i ks e' v', pair_at em' dm' i ks e' v' ->
  exists j ks0 v, value_at dm j ks0 v /\ path_text ks0 = path_text ks /\ (Forall no_colon ks -> Forall no_colon ks0 -> ks0 = ks)
    /\ value_from_bytes (value_bytes v) (type_of v') = Ok v' /\ (type_of v = type_of v' -> v = v').
Proof.
  intros key em dm em' dm' RM EU D NF i ks e' v' P. pose proof (decrypt_pair _ _ _ _ _ _ _ D P) as V. destruct P as [P _].
  destruct (NF _ _ _ P) as (j & ks0 & e & Pe & Qn & Qd & Qt & Qp). destruct (EU _ _ _ Pe) as (v & Pv & Ev).
  apply decrypt_value_ok in V. destruct V as (_ & V & _ & Ty). apply encrypt_value_ok in Ev. destruct Ev as (_ & _ & Ev).
  exists j, ks0, v. split; auto. split; auto. split. { intros. apply path_text_inj; auto. }
  assert (Q : gcm_ctr key (ev_nonce e') (ev_data e') = value_bytes v).
  { rewrite Qn, Qd. rewrite Ev at 2. cbn [ev_data]. apply gcm_ctr_involutive. }
  rewrite Q in V. rewrite Ty. split; auto. intro X. rewrite <- X in V. rewrite (value_bytes_round v) in V. now injection V.
  apply nth_error_In in Pv. eapply RM; eauto.
Qed.

Section Keys.
  Context (re : regex_engine) (tp : tape) (ag : age_crate).

  (** ** C17 *)
  Lemma fresh_parts : forall fo key dm md n ef n', encrypt_parts re tp fo None key dm md n = Ok (ef, n') ->
    exists em k, enc_map_from_internal fo em = Ok (fl_map ef) /\ nonces_of em = map (draw_nonce tp) (seq n k)
      /\ ev_nonce (md_mac (fl_meta ef)) = draw_nonce tp (n + k) /\ n' = S (n + k) /\ encrypted_under key em dm.
  Proof.
    intros fo key dm md n ef n' H. apply encrypt_parts_ok in H. destruct H as (em & n1 & e & A & B & C & Em). cbn [option_map] in A, B.
    pose proof (fresh_nonces _ _ _ _ _ _ _ _ A) as [Q N]. exists em, (length (nonces_of em)). split; auto. split; auto. rewrite Em. cbn [with_mac md_mac].
    apply encrypt_mac_ok in B. destruct B as (_ & _ & [(m0 & X & _)|(X & Y & _)]); [discriminate X|]. rewrite X, Y, Q. split; auto. split; auto.
    intros i ks l V. destruct (encrypt_map_at re tp _ _ _ _ _ _ _ _ _ _ A V) as (v & V' & [(_ & Z)|(_ & e' & Z & Z' & _)]); [discriminate Z|].
    injection Z as <-. eauto.
  Qed.

  Lemma add_units_mono : forall {K} (eqb : K -> K -> bool) mk ids us n us' n', (forall k n u n', mk k n = Ok (u, n') -> n <= n') ->
    add_units eqb mk ids us n = (us', Ok n') -> n <= n'.
  Proof.
    intros K eqb mk ids. induction ids as [|k ids IH]; intros us n us' n' M H; cbn [add_units] in H.
    - injection H as _ ->. auto.
    - destruct (mk k n) as [[u n1]|e|] eqn:Q; try discriminate. apply M in Q. apply IH in H; auto. lia.
  Qed.
  Lemma build_mono : forall E a k key n rc n', build_recipients ag E a k key n = Ok (rc, n') -> n <= n'.
  Proof.
    intros E a k key n rc n' H.
    assert (G : (let '(rc1, o1) := add_age ag a key no_recipients n in let* n1 := o1 in let '(rc2, o2) := add_kms E k key rc1 n1 in let* n2 := o2 in Ok (rc2, n2)) = Ok (rc, n')).
    { unfold build_recipients in H. destruct a, k; try exact H. discriminate. }
    clear H. unfold add_age, add_kms in G. destruct (add_units bytes_eqb (new_age_unit ag key) a (rc_age no_recipients) n) as [us o] eqn:Ua.
    destruct o as [n1|e|]; try discriminate. cbn [bind rc_kms] in G.
    destruct (add_units aws_key_eqb (new_kms_unit E key) k (rc_kms no_recipients) n1) as [us' o'] eqn:Uk. destruct o' as [n2|e|]; try discriminate. cbn [bind] in G. injection G as _ <-.
    apply add_units_mono in Ua. 2: { intros x m u m' Q. unfold new_age_unit, age_encrypt_key in Q. cbn in Q. injection Q as _ <-. lia. }
    apply add_units_mono in Uk. 2: { intros x m u m' Q. unfold new_kms_unit in Q. apply bind_ok in Q. destruct Q as ([e m1] & Q & R). injection R as _ <-.
      unfold kms_encrypt_key in Q. apply bind_ok in Q. destruct Q as (c & _ & Q). destruct c; try discriminate. destruct (e_kms_encrypt E _ _ _); try discriminate. injection Q as _ <-. cbn. lia. }
    lia.
  Qed.

  Lemma fresh_built : forall E f b n ef n', builder_encrypt re tp ag E f b n = Ok (ef, n') ->
    exists em k j, enc_map_from_internal f em = Ok (fl_map ef) /\ nonces_of em = map (draw_nonce tp) (seq (S n) k)
      /\ ev_nonce (md_mac (fl_meta ef)) = draw_nonce tp j /\ S n + k <= j < n'.
  Proof.
    intros E f b n ef n' H. apply build_ok in H. destruct H as (dm & em & n1 & rc & n2 & e & A & B & C & D & F & Em).
    pose proof (fresh_nonces _ _ _ _ _ _ _ _ B) as [Q N]. apply build_mono in C. apply encrypt_mac_ok in D.
    destruct D as (_ & _ & [(m0 & X & _)|(X & Y & _)]); [discriminate X|]. exists em, (length (nonces_of em)), (S n2). rewrite Em. cbn [md_mac].
    split; auto. split; auto. split; auto. lia.
  Qed.

  Lemma draws_differ : forall a k j, (forall x y, a <= x <= j -> a <= y <= j -> draw_nonce tp x = draw_nonce tp y -> x = y) -> a + k <= j ->
    NoDup (draw_nonce tp j :: map (draw_nonce tp) (seq a k)).
  Proof.
    intros a k j D L. constructor.
    - intro I. apply in_map_iff in I. destruct I as (x & Q & I). apply in_seq in I. apply D in Q; lia.
    - assert (G : forall l, NoDup l -> (forall x, In x l -> a <= x <= j) -> NoDup (map (draw_nonce tp) l)).
      { induction l as [|x l IH]; intros N B; cbn [map]; constructor; inversion N; subst.
        - intro I. apply in_map_iff in I. destruct I as (y & Q & I). apply D in Q; [subst y; contradiction|apply B; now right|apply B; now left].
        - apply IH; auto. intros y I. apply B. now right. }
      apply G. apply seq_NoDup. intros x I. apply in_seq in I. lia.
  Qed.

  (** ** C20 *)
  Lemma unedited : forall W E f ef key dm df sv n, age_law ag -> kms_law W -> W E -> holds re tp ag W f ef key dm -> file_decrypt_save re ag E f f ef = Ok (df, sv) ->
    (forall em, enc_map_to_internal re f (md_partial (fl_meta ef)) (fl_map ef) = Ok em ->
       forall i j ks ks' e e' v, pair_at em dm i ks e v -> pair_at em dm j ks' e' v -> path_text ks = path_text ks' -> ev_nonce e = ev_nonce e') ->
    file_encrypt_saved re tp f f sv df n = Ok (ef, n).
  Proof.
    intros W E f ef key dm df sv n AL KL WE Hh Hd Hu. destruct (holds_read _ _ _ _ _ _ _ _ Hh) as (em & nonce & Re & Dm & Mac & saved0 & n0 & n1 & En & Wr).
    apply decrypt_save_inv in Hd. destruct Hd as (_ & key' & mac & nonce' & em' & dm' & s & K & M & A & D & Mc & C & Em & ->).
    destruct Hh as (L & AW & GD & F & Ty & _).
    assert (key' = key) by (eapply retrieve_safe; eauto). subst key'. rewrite Re in A. injection A as <-.
    assert (dm' = dm). { apply decrypt_save_map in D. rewrite Dm in D. now injection D as ->. } subst dm'.
    rewrite Mac in M. injection M as <- <-.
    destruct (fits_convert _ _ _ GD F) as (fm & C' & T). rewrite C in C'. injection C' as <-.
    unfold file_encrypt_saved. rewrite T. cbn [bind sv_key]. unfold encrypt_parts. cbn [option_map sv_map sv_mac]. rewrite Em. cbn [with_mac md_partial].
    rewrite (reencrypt_identical re tp saved0 key _ dm n0 em n1 s n (proj1 GD) En D (Hu em Re)). cbn [bind fst snd].
    unfold encrypt_meta, encrypt_mac. cbn [with_mac md_mac md_modified]. rewrite bytes_eqb_refl.
    apply decrypt_mac_some in Mac. destruct Mac as [Mac Nn].
    apply gcm_encrypt_decrypt in Mac. 2: { apply (proj1 (gcm_fits_blen _)). unfold gcm_fits. rewrite (proj1 (compute_mac_shape _ _ _ _)). now vm_compute. }
    rewrite Nn. apply cipher_encrypt_ok in Mac. rewrite Mac. cbn [bind fst snd]. rewrite Wr. cbn [bind]. do 3 f_equal.
    destruct ef as [fm0 md]. destruct md as [rc lm e pc on]. cbn in *. unfold with_mac. cbn. f_equal. f_equal. destruct e as [d no t ty]. cbn in *. now subst ty.
  Qed.

  (** ** C24: one matching intact entry is enough *)
  Lemma first_key_at : forall {K} (open : K -> bytes -> outcome (option bytes)) a u b key,
    (forall v, In v a -> open (u_key v) (u_enc v) = Ok None) -> open (u_key u) (u_enc u) = Ok (Some key) -> first_key open (a ++ u :: b) = Ok (Some key).
  Proof. intros K open a u b key N O. apply first_key_ok. exists a, u, b. split; auto. split; auto. now apply Forall_forall. Qed.

  Lemma one_age_entry : forall E ids rc a u b i key, age_law ag -> age_available ag E ids -> rc_age rc = a ++ u :: b ->
    (forall v j, In v a -> In j ids -> ag_public ag j <> u_key v) -> In i ids -> ag_public ag i = u_key u -> length key = 32 ->
    age_wraps ag key (u_key u) (u_enc u) -> retrieve_data_key ag E rc = Ok key.
  Proof.
    intros E ids rc a u b i key AL A R N I Q L Wr. unfold retrieve_data_key, decrypt_data_key. rewrite R.
    rewrite (first_key_at _ a u b key). { reflexivity. }
    - intros v J. unfold age_decrypt_key. unfold age_available in A. rewrite A. cbn [bind]. destruct (find _ ids) as [j|] eqn:F; auto.
      apply find_some in F. destruct F as [F1 F2]. apply bytes_eqb_eq in F2. exfalso. eapply N; eauto.
    - rewrite (age_open_wrapped ag AL E ids (u_key u) key (u_enc u) A L Wr).
      assert (X : existsb (fun j => bytes_eqb (ag_public ag j) (u_key u)) ids = true).
      { apply existsb_exists. exists i. split; auto. now apply bytes_eqb_eq. }
      now rewrite X.
  Qed.

  Lemma one_kms_entry : forall W E E0 ids ks rc a u b c key, kms_law W -> W E -> age_available ag E ids ->
    (forall v j, In v (rc_age rc) -> In j ids -> ag_public ag j <> u_key v) ->
    kms_available E ks -> rc_kms rc = a ++ u :: b ->
    (forall v c', In v a -> In c' ks -> as_profile c' <> ak_profile (u_key v)) -> (forall v, In v a -> exists d, is_base64_text (u_enc v) d) ->
    In c ks -> as_profile c = ak_profile (u_key u) -> kms_answers E u -> length key = 32 ->
    W E0 -> kms_wraps W key (u_key u) (u_enc u) -> retrieve_data_key ag E rc = Ok key.
  Proof.
    intros W E E0 ids ks rc a u b c key KL WE A NA KA R NK B64 Ic Pc Up L WE0 Wr. unfold retrieve_data_key, decrypt_data_key.
    assert (F : first_key (age_decrypt_key ag E) (rc_age rc) = Ok None).
    { apply first_key_none. apply Forall_forall. intros v J. unfold age_decrypt_key. unfold age_available in A. rewrite A. cbn [bind]. destruct (find _ ids) as [j|] eqn:F; auto.
      apply find_some in F. destruct F as [F1 F2]. apply bytes_eqb_eq in F2. exfalso. eapply NA; eauto. }
    rewrite F. cbn [bind]. rewrite R. unfold kms_available in KA. rewrite (first_key_at _ a u b key). { reflexivity. }
    - intros v J. destruct (B64 v J) as (d & D). apply is_base64_text_iff in D. unfold kms_decrypt_key. rewrite D. cbn [map_err bind]. unfold find_client. rewrite KA. cbn [bind].
      destruct (find _ ks) as [p|] eqn:Fp; auto. apply find_some in Fp. destruct Fp as [F1 F2]. apply bytes_eqb_eq in F2. exfalso. exact (NK v p J F1 F2).
    - destruct Wr as (E1 & n & req & bl & WE1 & En & Rg & Kr & Eq). unfold kms_decrypt_key. rewrite Eq, decode_encode_vec. cbn [map_err bind]. unfold find_client. rewrite KA. cbn [bind].
      destruct (find (fun p => bytes_eqb (as_profile p) (ak_profile (u_key u))) ks) as [p|] eqn:Fp.
      + match goal with |- context [e_kms_decrypt E ?r bl] => set (req' := r) in * end.
        destruct (KL E1 E n req req' key bl WE1 WE En) as [Q|Q]; [symmetry; exact Rg|symmetry; exact Kr| |]; rewrite Q.
        * rewrite L. reflexivity.
        * exfalso. exact (Up req' bl eq_refl eq_refl Eq Q).
      + exfalso. pose proof (find_none _ _ Fp c Ic) as X. cbn in X. rewrite Pc, bytes_eqb_refl in X. discriminate.
  Qed.

  (** ** C19: the AES-GCM invocations of a history of edits *)
  Definition sound_uses (key : bytes) (used : message -> Prop) (f : fmt) (ef : efile) (n : nat) : Prop :=
    exists em uv nh mac, enc_map_to_internal re f (md_partial (fl_meta ef)) (fl_map ef) = Ok em /\ history re tp key uv em nh /\ nh <= n
      /\ (forall nonce a p, used (ForValue nonce a p) -> exists v, uv (nonce, a, v) /\ p = value_bytes v)
      /\ (forall nonce a p, used (ForMac nonce a p) -> (exists i, i < n /\ nonce = draw_nonce tp i) /\ forall a' v, ~ uv (nonce, a', v))
      /\ (forall nonce a p a' p', used (ForMac nonce a p) -> used (ForMac nonce a' p') -> p = p')
      /\ decrypt_mac (md_mac (fl_meta ef)) key (timestamp_text (md_modified (fl_meta ef))) = Ok (mac, ev_nonce (md_mac (fl_meta ef)))
      /\ exists a, used (ForMac (ev_nonce (md_mac (fl_meta ef))) a mac).

  Lemma sent_inv : forall f ef dm mac em m, enc_map_to_internal re f (md_partial (fl_meta ef)) (fl_map ef) = Ok em -> sent re f ef dm mac m ->
    match m with
    | ForValue nonce a p => exists v, uses_of em dm (nonce, a, v) /\ p = value_bytes v
    | ForMac nonce a p => nonce = ev_nonce (md_mac (fl_meta ef)) /\ p = mac
    end.
  Proof.
    intros f ef dm mac em m A [em' i ks e v A' P|].
    - rewrite A in A'. injection A' as <-. exists v. split; auto. exists i, ks, e, v. auto.
    - auto.
  Qed.

  Lemma fresh_sound : forall key fo ef dm mac em n n1 m0 n', good_doc dm -> fits fo (md_partial (fl_meta ef)) dm ->
    encrypt_map re tp None key (md_partial (fl_meta ef)) dm n = Ok (em, n1) -> enc_map_from_internal fo em = Ok (fl_map ef) -> n1 <= m0 ->
    encrypt_mac tp None mac key (timestamp_text (md_modified (fl_meta ef))) m0 = Ok (md_mac (fl_meta ef), n') ->
    (forall i j, i < n' -> j < n' -> draw_nonce tp i = draw_nonce tp j -> i = j) ->
    sound_uses key (sent re fo ef dm mac) fo ef n'.
  Proof.
    intros key fo ef dm mac em n n1 m0 n' [RM DK] F A C L B D. destruct (encrypt_mac_ok _ _ _ _ _ _ _ _ B) as (M & _ & [(x & X & _)|(X & Y & _)]); [discriminate X|].
    assert (R : enc_map_to_internal re fo (md_partial (fl_meta ef)) (fl_map ef) = Ok em).
    { eapply written_readable; eauto. intros s p v nonce Q. discriminate Q. intros ks v I. apply (proj1 F ks v I). now apply fits_toml. }
    assert (HH : history re tp key (uses_of em dm) em n1) by (econstructor; eauto).
    exists em, (uses_of em dm), n1, mac. split; auto. split; auto. split. lia.
    assert (Inj : forall i j, i < n1 -> j < n1 -> draw_nonce tp i = draw_nonce tp j -> i = j) by (intros; apply D; auto; lia).
    destruct (history_invariant _ _ _ _ _ _ Inj HH) as (Hd & _ & _).
    split. { intros nonce a p S. apply (sent_inv _ _ _ _ em) in S; auto. }
    split. { intros nonce a p S. apply (sent_inv _ _ _ _ em) in S; auto. destruct S as [-> _]. rewrite X. split. { exists m0. split; auto. lia. }
      intros a' v U. destruct (Hd _ _ _ U) as (i & Li & Q). apply D in Q; lia. }
    split. { intros nonce a p a' p' S S'. apply (sent_inv _ _ _ _ em) in S; auto. apply (sent_inv _ _ _ _ em) in S'; auto. destruct S as [_ ->]. now destruct S' as [_ ->]. }
    split; auto. exists (timestamp_text (md_modified (fl_meta ef))). constructor.
  Qed.

  Lemma edits_sound : forall key used f ef n, (forall i j, i < n -> j < n -> draw_nonce tp i = draw_nonce tp j -> i = j) ->
    edits re tp ag key used f ef n -> sound_uses key used f ef n.
  Proof.
    intros key used f ef n D H. revert D.
    induction H as [E f fo df n ef n' dm FD Do F K H|E f b n ef n' dm FD Do F Kq H|E used f fo ft ef n df sv df2 dm2 k ef2 n2 H IH Hd Ks FD Do F Lk He]; intro D.
    - unfold file_encrypt in H. rewrite K in H. cbn [bind] in H. unfold document in Do. rewrite Do in H. cbn [bind] in H.
      apply encrypt_parts_ok in H. destruct H as (em & n1 & e & A & B & C & Em). cbn [option_map] in A, B.
      destruct (native_good _ _ _ FD Do) as [GD _].
      eapply (fresh_sound key fo ef dm (md_mac (fl_meta df)) em n n1 n1 n'); auto; rewrite Em; cbn [with_mac md_partial md_modified md_mac]; auto.
    - apply build_ok in H. destruct H as (dm' & em & n1 & rc & n2 & e & A & B & C & M & W & Em). rewrite Do in A. injection A as <-.
      destruct (native_good _ _ _ FD Do) as [GD _]. apply build_mono in C. rewrite <- Kq in B, M.
      eapply (fresh_sound key f ef dm _ em (S n) n1 (S n2) n'); auto; rewrite Em; cbn [md_partial md_modified md_mac]; auto.
    - unfold file_encrypt_saved in He. unfold document in Do. rewrite Do in He. cbn [bind] in He. apply encrypt_parts_ok in He.
      destruct He as (em2 & n1 & e & A & B & C & Em). cbn [option_map] in A, B. rewrite Ks in A, B.
      apply decrypt_save_inv in Hd. destruct Hd as (_ & key' & mac0 & nonce0 & em & dm & s & K & M & Re & Dm & Mc & Cv & Em0 & Sv). subst sv. cbn [sv_key sv_map sv_mac] in *. subst key'.
      destruct (native_good _ _ _ FD Do) as [[RM2 DK2] _].
      pose proof (encrypt_map_mono _ _ _ _ _ _ _ _ _ A) as L1.
      destruct (encrypt_mac_ok _ _ _ _ _ _ _ _ B) as (M2 & _ & Mc2).
      assert (L2 : n1 <= n2) by (destruct Mc2 as [(x & _ & _ & ->)|(_ & -> & _)]; lia).
      destruct IH as (em' & uv & nh & mac & Re' & HH & Lh & UV & UM & MM & Md & a0 & Ua). { intros i j Li Lj. apply D; lia. }
      rewrite Re in Re'. injection Re' as <-. rewrite M in Md. injection Md as <- ->.
      assert (HH2 : history re tp key (fun u => uv u \/ uses_of em2 dm2 u) em2 n1). { apply (history_edit re tp key uv em nh k dm s dm2 (md_partial (fl_meta df2)) em2 n1); auto; lia. }
      assert (R2 : enc_map_to_internal re ft (md_partial (fl_meta ef2)) (fl_map ef2) = Ok em2).
      { rewrite Em. cbn [with_mac md_partial]. eapply written_readable; eauto. eapply saved_table_ok; eauto. intros ks v I. apply (proj1 F ks v I). now apply fits_toml. }
      assert (Inj1 : forall i j, i < n1 -> j < n1 -> draw_nonce tp i = draw_nonce tp j -> i = j) by (intros; apply D; auto; lia).
      destruct (history_invariant _ _ _ _ _ _ Inj1 HH2) as (Hd2 & _ & _).
      assert (Inj0 : forall i j, i < nh -> j < nh -> draw_nonce tp i = draw_nonce tp j -> i = j) by (intros; apply D; auto; lia).
      destruct (history_invariant _ _ _ _ _ _ Inj0 HH) as (Hd0 & _ & m1 & Rm1 & Dm1 & Us1).
      assert (m1 = dm). { apply decrypt_save_map in Dm. rewrite Dm1 in Dm. now injection Dm as ->. } subst m1.
      (* the value nonces of the new file are saved ones or new draws *)
      assert (New : forall nonce a v, uses_of em2 dm2 (nonce, a, v) -> (exists a' v', uv (nonce, a', v')) \/ exists j, k <= j < n1 /\ nonce = draw_nonce tp j).
      { intros nonce a v (i & ks & e1 & v1 & [P1 P2] & Q). injection Q as -> -> ->.
        destruct (encrypt_map_at re tp _ _ _ _ _ _ _ _ _ _ A P1) as (v2 & V2 & [(_ & Z)|(_ & e2 & Z & _ & Z')]); [discriminate Z|]. injection Z as <-.
        destruct Z' as [(s0 & Q & G)|((j & Lj & Qj) & _)].
        - injection Q as <-. left. apply saved_get_in in G. apply (decrypt_save_table _ _ _ _ _ _ _ Dm) in G. destruct G as (i' & ks' & e' & Pa & _ & ->).
          exists (path_text ks'), v2. apply Us1. exists i', ks', e', v2. auto.
        - right. eauto. }
      assert (Mac2 : ev_nonce e = ev_nonce (md_mac (fl_meta ef)) /\ md_mac (fl_meta df2) = mac0 \/ ev_nonce e = draw_nonce tp n1 /\ n2 = S n1).
      { destruct Mc2 as [(x & Q & Qx & _)|(Q & Q' & _)]; [left|right; auto]. injection Q as -> Q. auto. }
      exists em2, (fun u => uv u \/ uses_of em2 dm2 u), n1, (md_mac (fl_meta df2)). split; auto. split; auto. split; auto.
      assert (MacNonce : ev_nonce (md_mac (fl_meta ef2)) = ev_nonce e) by (rewrite Em; reflexivity).
      assert (Fresh : (exists i, i < n2 /\ ev_nonce e = draw_nonce tp i) /\ forall a' v, ~ (uv (ev_nonce e, a', v) \/ uses_of em2 dm2 (ev_nonce e, a', v))).
      { destruct Mac2 as [[Q _]|[Q Q2]]; rewrite Q.
        - destruct (UM _ _ _ Ua) as [(i & Li & Qi) Nv]. split. { exists i. split; auto. lia. }
          intros a' v [U|U]. { now apply Nv in U. }
          destruct (New _ _ _ U) as [(a1 & v1 & U1)|(j & Lj & Qj)]. { now apply Nv in U1. }
          rewrite Qi in Qj. apply D in Qj; lia.
        - split. { exists n1. split; auto. lia. }
          intros a' v U. destruct (Hd2 _ _ _ U) as (i & Li & Qi). apply D in Qi; lia. }
      split.
      { intros nonce a p [U|U].
        - destruct (UV _ _ _ U) as (v & Uv & ->). eauto.
        - apply (sent_inv _ _ _ _ em2) in U; auto. destruct U as (v & Uv & ->). eauto. }
      split.
      { intros nonce a p [U|U].
        - destruct (UM _ _ _ U) as [(i & Li & Qi) Nv]. split. { exists i. split; auto. lia. }
          intros a' v [V|V]. { now apply Nv in V. }
          destruct (New _ _ _ V) as [(a1 & v1 & U1)|(j & Lj & Qj)]. { now apply Nv in U1. }
          rewrite Qi in Qj. apply D in Qj; lia.
        - apply (sent_inv _ _ _ _ em2) in U; auto. destruct U as [-> _]. rewrite MacNonce. exact Fresh. }
      assert (Cross : forall nonce a p, used (ForMac nonce a p) -> nonce = ev_nonce e -> p = md_mac (fl_meta df2)).
      { intros nonce a p U ->. destruct Mac2 as [[Q ->]|[Q Q2]].
        - rewrite Q in U. eapply MM; eauto.
        - destruct (UM _ _ _ U) as [(i & Li & Qi) _]. rewrite Q in Qi. apply D in Qi; lia. }
      split.
      { intros nonce a p a' p' [U|U] [V|V].
        - eapply MM; eauto.
        - apply (sent_inv _ _ _ _ em2) in V; auto. destruct V as [-> ->]. eapply Cross; eauto.
        - apply (sent_inv _ _ _ _ em2) in U; auto. destruct U as [-> ->]. symmetry. eapply Cross; eauto.
        - apply (sent_inv _ _ _ _ em2) in U; auto. apply (sent_inv _ _ _ _ em2) in V; auto. destruct U as [_ ->]. now destruct V as [_ ->]. }
      split. { rewrite Em. cbn [with_mac md_mac md_modified]. exact M2. }
      exists (timestamp_text (md_modified (fl_meta ef2))). right. constructor.
  Qed.

  Lemma edits_messages : forall key used f ef n m m', (forall i j, i < n -> j < n -> draw_nonce tp i = draw_nonce tp j -> i = j) ->
    edits re tp ag key used f ef n -> used m -> used m' -> nonce_of m = nonce_of m' ->
    plain_of m = plain_of m' /\ (aad_of m = aad_of m' \/ is_mac m /\ is_mac m').
  Proof.
    intros key used f ef n m m' D H U U' Q. apply edits_sound in H; auto. destruct H as (em & uv & nh & mac & _ & HH & Lh & UV & UM & MM & _).
    assert (Inj0 : forall i j, i < nh -> j < nh -> draw_nonce tp i = draw_nonce tp j -> i = j) by (intros; apply D; auto; lia).
    destruct (history_invariant _ _ _ _ _ _ Inj0 HH) as (_ & Hs & _).
    destruct m as [x a p|x a p], m' as [x' a' p'|x' a' p']; cbn [nonce_of aad_of plain_of is_mac] in *; subst x'.
    - destruct (UV _ _ _ U) as (v & V & ->). destruct (UV _ _ _ U') as (v' & V' & ->). destruct (Hs _ _ _ _ _ V V') as [-> ->]. auto.
    - destruct (UV _ _ _ U) as (v & V & ->). destruct (UM _ _ _ U') as [_ N]. now apply N in V.
    - destruct (UV _ _ _ U') as (v & V & ->). destruct (UM _ _ _ U) as [_ N]. now apply N in V.
    - split; auto. eapply MM; eauto.
  Qed.

  Context (W : env -> Prop) (AL : age_law ag) (KL : kms_law W).

  (** ** C23 *)
  Lemma entries_open : forall key rc, length key = 32 -> all_wrap ag W key rc ->
    (forall u E ids i, In u (rc_age rc) -> age_available ag E ids -> In i ids -> ag_public ag i = u_key u -> age_decrypt_key ag E (u_key u) (u_enc u) = Ok (Some key))
    /\ (forall u E ks c, In u (rc_kms rc) -> W E -> kms_available E ks -> In c ks -> as_profile c = ak_profile (u_key u) ->
          kms_answers E u -> kms_decrypt_key E (u_key u) (u_enc u) = Ok (Some key)).
  Proof.
    intros key rc L [WA WK]. split.
    { intros u E' ids i I A' I' Q. rewrite (age_open_wrapped ag AL E' ids (u_key u) key (u_enc u) A' L) by auto.
      assert (X : existsb (fun j => bytes_eqb (ag_public ag j) (u_key u)) ids = true). { apply existsb_exists. exists i. split; auto. now apply bytes_eqb_eq. }
      now rewrite X. }
    { intros u E' ks c I WE' KA' Ic Pc Up. destruct (WK u I) as (E1 & m & req & bl & WE1 & En & Rg & Kr & Eq). unfold kms_available in KA'.
      unfold kms_decrypt_key. rewrite Eq, decode_encode_vec. cbn [map_err bind]. unfold find_client. rewrite KA'. cbn [bind].
      destruct (find (fun p => bytes_eqb (as_profile p) (ak_profile (u_key u))) ks) as [p|] eqn:Fp.
      + match goal with |- context [e_kms_decrypt E' ?r bl] => set (req' := r) in * end.
        destruct (KL E1 E' m req req' key bl WE1 WE' En) as [Q|Q]; [symmetry; exact Rg|symmetry; exact Kr| |]; rewrite Q.
        * rewrite L. reflexivity.
        * exfalso. exact (Up req' bl eq_refl eq_refl Eq Q).
      + exfalso. pose proof (find_none _ _ Fp c Ic) as X. cbn in X. rewrite Pc, bytes_eqb_refl in X. discriminate. }
  Qed.

  Lemma built_recipients : forall E f b n ef n', W E -> builder_encrypt re tp ag E f b n = Ok (ef, n') ->
    let rc := md_recipients (fl_meta ef) in
    (bd_age b <> [] \/ bd_kms b <> []) /\ distinct_recipients rc
    /\ (forall r, In r (map u_key (rc_age rc)) <-> In r (bd_age b)) /\ (forall k, In k (map u_key (rc_kms rc)) <-> In k (bd_kms b))
    /\ (forall u E' ids i, In u (rc_age rc) -> age_available ag E' ids -> In i ids -> ag_public ag i = u_key u ->
          age_decrypt_key ag E' (u_key u) (u_enc u) = Ok (Some (draw_key tp n)))
    /\ (forall u E' ks c, In u (rc_kms rc) -> W E' -> kms_available E' ks -> In c ks -> as_profile c = ak_profile (u_key u) ->
          kms_answers E' u -> kms_decrypt_key E' (u_key u) (u_enc u) = Ok (Some (draw_key tp n)))
    /\ exists em dm mac, dec_map_to_internal f (bd_map b) = Ok dm /\ enc_map_from_internal f em = Ok (fl_map ef) /\ encrypted_under (draw_key tp n) em dm
        /\ mac_of re (bd_only b) (bd_partial b) dm mac
        /\ gcm_encrypt (draw_key tp n) (ev_nonce (md_mac (fl_meta ef))) (timestamp_text (md_modified (fl_meta ef))) mac
           = Some (ev_data (md_mac (fl_meta ef)), ev_tag (md_mac (fl_meta ef))).
  Proof.
    intros E f b n ef n' WE H. apply build_ok in H. destruct H as (dm & em & n1 & rc & n2 & e & A & B & C & M & F & Em). cbn zeta. rewrite Em. cbn [md_recipients md_mac md_modified].
    apply (build_recipients_ok ag W) in C; auto. destruct C as (N & [WA WK] & D & KA & KK). pose proof (draw_key_len tp n) as L.
    split; auto. split; auto. split; auto. split; auto. split.
    { apply (entries_open (draw_key tp n) rc L). split; auto. }
    split.
    { apply (entries_open (draw_key tp n) rc L). split; auto. }
    apply encrypt_mac_ok in M. destruct M as (_ & M & _).
    exists em, dm, (compute_mac re (bd_only b) (bd_partial b) dm). split; auto. split; auto. split; [|split; auto; apply mac_of_compute].
    intros i ks l V. destruct (encrypt_map_at re tp _ _ _ _ _ _ _ _ _ _ B V) as (v & V' & [(_ & Z)|(_ & e' & Z & Z' & _)]); [discriminate Z|].
    injection Z as <-. eauto.
  Qed.

  Lemma no_recipients_fails : forall E f b n, bd_age b = [] -> bd_kms b = [] -> forall r, builder_encrypt re tp ag E f b n <> Ok r.
  Proof.
    intros E f b n A K [ef n'] H. apply build_ok in H. destruct H as (dm & em & n1 & rc & n2 & e & _ & _ & C & _). rewrite A, K in C. discriminate C.
  Qed.

  (** ** C25 *)
  Lemma added_age : forall {M} E ids (fl fl' : file M) n o key, W E -> length key = 32 -> all_wrap ag W key (md_recipients (fl_meta fl)) ->
    file_add_age ag E ids fl n = (fl', o) ->
    let rc := md_recipients (fl_meta fl) in let rc' := md_recipients (fl_meta fl') in
    fl_map fl' = fl_map fl /\ md_mac (fl_meta fl') = md_mac (fl_meta fl) /\ md_modified (fl_meta fl') = md_modified (fl_meta fl)
    /\ md_partial (fl_meta fl') = md_partial (fl_meta fl) /\ md_only (fl_meta fl') = md_only (fl_meta fl)
    /\ rc_kms rc' = rc_kms rc /\ all_wrap ag W key rc' /\ (distinct_units (rc_age rc) -> distinct_units (rc_age rc'))
    /\ (forall u, In u (rc_age rc) -> ~ In (u_key u) ids -> In u (rc_age rc'))
    /\ (forall k, In k (map u_key (rc_age rc)) -> In k (map u_key (rc_age rc')))
    /\ (forall n', o = Ok n' -> forall k, In k (map u_key (rc_age rc')) <-> In k (map u_key (rc_age rc)) \/ In k ids).
  Proof.
    intros M E ids fl fl' n o key WE L AW H. cbn zeta. unfold file_add_age in H. destruct (retrieve_data_key ag E (md_recipients (fl_meta fl))) as [k|e|] eqn:K.
    - apply (retrieve_safe ag W AL KL E _ key) in K; auto. subst k. destruct (add_age ag ids key (md_recipients (fl_meta fl)) n) as [rc' o'] eqn:A. injection H as <- <-.
      cbn [with_recipients fl_map fl_meta md_mac md_modified md_partial md_only md_recipients].
      pose proof (add_age_wrap ag W _ _ _ _ _ _ AW A) as AW'. apply add_age_spec in A. destruct A as (Kq & (_ & D & Ko & Kp & Ok') & _).
      do 7 (split; auto). split; auto. split; auto. split; auto. intros n' ->. apply Ok'. eauto.
    - injection H as <- <-. do 7 (split; auto). split; auto. split; auto. split; auto. discriminate.
    - injection H as <- <-. do 7 (split; auto). split; auto. split; auto. split; auto. discriminate.
  Qed.
  Lemma added_kms : forall {M} E ids (fl fl' : file M) n o key, W E -> length key = 32 -> all_wrap ag W key (md_recipients (fl_meta fl)) ->
    file_add_kms ag E ids fl n = (fl', o) ->
    let rc := md_recipients (fl_meta fl) in let rc' := md_recipients (fl_meta fl') in
    fl_map fl' = fl_map fl /\ md_mac (fl_meta fl') = md_mac (fl_meta fl) /\ md_modified (fl_meta fl') = md_modified (fl_meta fl)
    /\ md_partial (fl_meta fl') = md_partial (fl_meta fl) /\ md_only (fl_meta fl') = md_only (fl_meta fl)
    /\ rc_age rc' = rc_age rc /\ all_wrap ag W key rc' /\ (distinct_units (rc_kms rc) -> distinct_units (rc_kms rc'))
    /\ (forall u, In u (rc_kms rc) -> ~ In (u_key u) ids -> In u (rc_kms rc'))
    /\ (forall k, In k (map u_key (rc_kms rc)) -> In k (map u_key (rc_kms rc')))
    /\ (forall n', o = Ok n' -> forall k, In k (map u_key (rc_kms rc')) <-> In k (map u_key (rc_kms rc)) \/ In k ids).
  Proof.
    intros M E ids fl fl' n o key WE L AW H. cbn zeta. unfold file_add_kms in H. destruct (retrieve_data_key ag E (md_recipients (fl_meta fl))) as [k|e|] eqn:K.
    - apply (retrieve_safe ag W AL KL E _ key) in K; auto. subst k. destruct (add_kms E ids key (md_recipients (fl_meta fl)) n) as [rc' o'] eqn:A. injection H as <- <-.
      cbn [with_recipients fl_map fl_meta md_mac md_modified md_partial md_only md_recipients].
      pose proof (add_kms_wrap ag W _ _ _ _ _ _ _ WE AW A) as AW'. apply (add_kms_spec W) in A; auto. destruct A as (Kq & (_ & D & Ko & Kp & Ok')).
      do 7 (split; auto). split; auto. split; auto. split; auto. intros n' ->. apply Ok'. eauto.
    - injection H as <- <-. do 7 (split; auto). split; auto. split; auto. split; auto. discriminate.
    - injection H as <- <-. do 7 (split; auto). split; auto. split; auto. split; auto. discriminate.
  Qed.

  (** ** C26 *)
  Lemma next_encryption : forall E f fo df n m ef m', W E -> all_wrap ag W (draw_key tp n) (md_recipients (fl_meta df)) ->
    file_encrypt re tp ag E f fo df m = Ok (ef, m') ->
    md_recipients (fl_meta ef) = md_recipients (fl_meta df)
    /\ (exists em dm, document f df dm /\ enc_map_from_internal fo em = Ok (fl_map ef) /\ encrypted_under (draw_key tp n) em dm)
    /\ gcm_encrypt (draw_key tp n) (ev_nonce (md_mac (fl_meta ef))) (timestamp_text (md_modified (fl_meta ef))) (md_mac (fl_meta df))
       = Some (ev_data (md_mac (fl_meta ef)), ev_tag (md_mac (fl_meta ef))).
  Proof.
    intros E f fo df n m ef m' WE AW H. unfold file_encrypt in H. apply bind_ok in H. destruct H as (key & K & H). apply bind_ok in H. destruct H as (dm & D & H).
    apply (retrieve_safe ag W AL KL E _ (draw_key tp n)) in K; auto. subst key.
    pose proof H as H'. apply fresh_parts in H'. destruct H' as (em & k & Fm & _ & _ & _ & Eu).
    apply encrypt_parts_ok in H. destruct H as (em' & n1 & e & A & B & C & Em). apply encrypt_mac_ok in B. destruct B as (_ & B & _).
    rewrite Em. cbn [with_mac md_recipients md_mac md_modified]. split; auto. split; auto. exists em, dm. auto.
  Qed.

  Lemma removed_age : forall E r df n df' u n', W E -> distinct_recipients (md_recipients (fl_meta df)) -> file_remove_age tp ag E r df n = (df', Ok (Some u, n')) ->
    let rc := md_recipients (fl_meta df) in let rc' := md_recipients (fl_meta df') in
    fl_map df' = fl_map df /\ md_mac (fl_meta df') = md_mac (fl_meta df) /\ md_modified (fl_meta df') = md_modified (fl_meta df)
    /\ md_partial (fl_meta df') = md_partial (fl_meta df) /\ md_only (fl_meta df') = md_only (fl_meta df)
    /\ u_key u = r /\ In u (rc_age rc)
    /\ (forall k, In k (map u_key (rc_age rc')) <-> In k (map u_key (rc_age rc)) /\ k <> r)
    /\ map u_key (rc_kms rc') = map u_key (rc_kms rc) /\ all_wrap ag W (draw_key tp n) rc'.
  Proof.
    intros E r df n df' u n' WE [D _] H. cbn zeta. unfold file_remove_age in H. destruct (remove_age tp ag E r (md_recipients (fl_meta df)) n) as [rc' o] eqn:R.
    injection H as <- ->. cbn [with_recipients fl_map fl_meta md_mac md_modified md_partial md_only md_recipients].
    apply (remove_age_some tp ag W) in R; auto. destruct R as (rest & U & AW & Ka & Kk).
    pose proof (unit_remove_some bytes_eqb bytes_eqb_eq _ _ _ _ U) as (Q & x & y & Q1 & Q2 & _).
    pose proof (unit_remove_distinct bytes_eqb bytes_eqb_eq _ _ _ _ D U) as (_ & _ & I).
    do 6 (split; auto). split. { rewrite Q1. apply in_app_iff. cbn. auto. }
    split; auto. intro k. rewrite Ka. rewrite !in_map_iff. split.
    - intros (v & Kv & Iv). apply I in Iv. destruct Iv as [Iv Nv]. split; eauto. congruence.
    - intros [(v & Kv & Iv) Nk]. exists v. split; auto. apply I. split; auto. congruence.
  Qed.
  Lemma removed_kms : forall E r df n df' u n', W E -> distinct_recipients (md_recipients (fl_meta df)) -> file_remove_kms tp ag E r df n = (df', Ok (Some u, n')) ->
    let rc := md_recipients (fl_meta df) in let rc' := md_recipients (fl_meta df') in
    fl_map df' = fl_map df /\ md_mac (fl_meta df') = md_mac (fl_meta df) /\ md_modified (fl_meta df') = md_modified (fl_meta df)
    /\ md_partial (fl_meta df') = md_partial (fl_meta df) /\ md_only (fl_meta df') = md_only (fl_meta df)
    /\ u_key u = r /\ In u (rc_kms rc)
    /\ (forall k, In k (map u_key (rc_kms rc')) <-> In k (map u_key (rc_kms rc)) /\ k <> r)
    /\ map u_key (rc_age rc') = map u_key (rc_age rc) /\ all_wrap ag W (draw_key tp n) rc'.
  Proof.
    intros E r df n df' u n' WE [_ D] H. cbn zeta. unfold file_remove_kms in H. destruct (remove_kms tp ag E r (md_recipients (fl_meta df)) n) as [rc' o] eqn:R.
    injection H as <- ->. cbn [with_recipients fl_map fl_meta md_mac md_modified md_partial md_only md_recipients].
    apply (remove_kms_some tp ag W) in R; auto. destruct R as (rest & U & AW & Ka & Kk).
    pose proof (unit_remove_some aws_key_eqb aws_key_eqb_eq _ _ _ _ U) as (Q & x & y & Q1 & Q2 & _).
    pose proof (unit_remove_distinct aws_key_eqb aws_key_eqb_eq _ _ _ _ D U) as (_ & _ & I).
    do 6 (split; auto). split. { rewrite Q1. apply in_app_iff. cbn. auto. }
    split; auto. intro k. rewrite Kk. rewrite !in_map_iff. split.
    - intros (v & Kv & Iv). apply I in Iv. destruct Iv as [Iv Nv]. split; eauto. congruence.
    - intros [(v & Kv & Iv) Nk]. exists v. split; auto. apply I. split; auto. congruence.
  Qed.

  (** ** C27 *)
  Lemma absent_age : forall E r df n, ~ In r (map u_key (rc_age (md_recipients (fl_meta df)))) -> file_remove_age tp ag E r df n = (df, Ok (None, n)).
  Proof. intros E r df n N. unfold file_remove_age. rewrite remove_age_none by auto. now rewrite with_recipients_same. Qed.
  Lemma absent_kms : forall E r df n, ~ In r (map u_key (rc_kms (md_recipients (fl_meta df)))) -> file_remove_kms tp ag E r df n = (df, Ok (None, n)).
  Proof. intros E r df n N. unfold file_remove_kms. rewrite remove_kms_none by auto. now rewrite with_recipients_same. Qed.

  (** ** C28: what a removal changes, whether or not it succeeds *)
  Lemma remove_age_any : forall E r df n df' o, file_remove_age tp ag E r df n = (df', o) ->
    let rc := md_recipients (fl_meta df) in let rc' := md_recipients (fl_meta df') in
    fl_map df' = fl_map df /\ md_mac (fl_meta df') = md_mac (fl_meta df) /\ md_modified (fl_meta df') = md_modified (fl_meta df)
    /\ md_partial (fl_meta df') = md_partial (fl_meta df) /\ md_only (fl_meta df') = md_only (fl_meta df)
    /\ (forall k, In k (map u_key (rc_age rc')) -> In k (map u_key (rc_age rc))) /\ (forall k, k <> r -> In k (map u_key (rc_age rc)) -> In k (map u_key (rc_age rc')))
    /\ map u_key (rc_kms rc') = map u_key (rc_kms rc)
    /\ (rc_kms rc = [] -> exists x, o = Ok x).
  Proof.
    intros E r df n df' o H. cbn zeta. unfold file_remove_age in H. destruct (remove_age tp ag E r (md_recipients (fl_meta df)) n) as [rc' o'] eqn:R. injection H as <- <-.
    cbn [with_recipients fl_map fl_meta md_mac md_modified md_partial md_only md_recipients]. do 5 (split; auto).
    unfold remove_age in R. destruct (unit_remove bytes_eqb r (rc_age (md_recipients (fl_meta df)))) as [[u rest]|] eqn:U.
    - destruct (rotate tp ag E {| rc_kms := rc_kms (md_recipients (fl_meta df)); rc_age := rest |} n) as [rc1 o1] eqn:Ro. injection R as <- <-.
      apply rotate_keys in Ro. cbn [rc_age rc_kms] in Ro. destruct Ro as (-> & -> & T).
      apply (unit_remove_some bytes_eqb bytes_eqb_eq) in U. destruct U as (Q & x & y & Q1 & Q2 & _). rewrite Q1, Q2, !map_app. cbn [map].
      split. { intros k I. apply in_app_iff in I. apply in_app_iff. cbn. tauto. }
      split. { intros k Nk I. apply in_app_iff in I. apply in_app_iff. destruct I as [I|[I|I]]; auto. congruence. }
      split; auto. intro Nk. destruct (T Nk) as (n' & ->). cbn. eauto.
    - injection R as <- <-. split; auto. split; auto. split; auto. eauto.
  Qed.
  Lemma remove_kms_any : forall E r df n df' o, file_remove_kms tp ag E r df n = (df', o) ->
    let rc := md_recipients (fl_meta df) in let rc' := md_recipients (fl_meta df') in
    fl_map df' = fl_map df /\ md_mac (fl_meta df') = md_mac (fl_meta df) /\ md_modified (fl_meta df') = md_modified (fl_meta df)
    /\ md_partial (fl_meta df') = md_partial (fl_meta df) /\ md_only (fl_meta df') = md_only (fl_meta df)
    /\ (forall k, In k (map u_key (rc_kms rc')) -> In k (map u_key (rc_kms rc))) /\ (forall k, k <> r -> In k (map u_key (rc_kms rc)) -> In k (map u_key (rc_kms rc')))
    /\ map u_key (rc_age rc') = map u_key (rc_age rc)
    /\ ((forall k, In k (map u_key (rc_kms rc)) -> k = r) -> distinct_units (rc_kms rc) -> exists x, o = Ok x).
  Proof.
    intros E r df n df' o H. cbn zeta. unfold file_remove_kms in H. destruct (remove_kms tp ag E r (md_recipients (fl_meta df)) n) as [rc' o'] eqn:R. injection H as <- <-.
    cbn [with_recipients fl_map fl_meta md_mac md_modified md_partial md_only md_recipients]. do 5 (split; auto).
    unfold remove_kms in R. destruct (unit_remove aws_key_eqb r (rc_kms (md_recipients (fl_meta df)))) as [[u rest]|] eqn:U.
    - destruct (rotate tp ag E {| rc_kms := rest; rc_age := rc_age (md_recipients (fl_meta df)) |} n) as [rc1 o1] eqn:Ro. injection R as <- <-.
      apply rotate_keys in Ro. cbn [rc_age rc_kms] in Ro. destruct Ro as (-> & -> & T). pose proof U as U0.
      apply (unit_remove_some aws_key_eqb aws_key_eqb_eq) in U. destruct U as (Q & x & y & Q1 & Q2 & _).
      split. { rewrite Q1, Q2, !map_app. cbn [map]. intros k I. apply in_app_iff in I. apply in_app_iff. cbn. tauto. }
      split. { rewrite Q1, Q2, !map_app. cbn [map]. intros k Nk I. apply in_app_iff in I. apply in_app_iff. destruct I as [I|[I|I]]; auto. congruence. }
      split; auto. intros Nk Dk. destruct (unit_remove_distinct aws_key_eqb aws_key_eqb_eq _ _ _ _ Dk U0) as (_ & Nr & Ir).
      destruct T as (n' & ->). { destruct rest as [|v rest']; auto. exfalso. destruct (proj1 (Ir v)) as [Iv Nv]; [now left|]. apply Nv, Nk. now apply in_map. }
      cbn. eauto.
    - injection R as <- <-. split; auto. split; auto. split; auto. eauto.
  Qed.

  (** ** C29 *)
  Lemma stale_parameters : forall E f fo sv df n ef n' key dfo, file_encrypt_saved re tp f fo sv df n = Ok (ef, n') ->
    retrieve_data_key ag E (md_recipients (fl_meta df)) = Ok key -> file_decrypt re ag E fo fo ef = Ok dfo ->
    let mac := md_mac (fl_meta ef) in let lm := timestamp_text (md_modified (fl_meta df)) in
    gcm_tag (sv_key sv) (ev_nonce mac) lm (ev_data mac) = gcm_tag key (ev_nonce mac) lm (ev_data mac).
  Proof.
    intros E f fo sv df n ef n' key dfo H K D. cbn zeta. unfold file_encrypt_saved in H. apply bind_ok in H. destruct H as (dm & _ & H).
    apply encrypt_parts_ok in H. destruct H as (em & n1 & e & _ & B & _ & Em). apply encrypt_mac_ok in B. destruct B as (_ & B & _). apply gcm_encrypt_some in B.
    apply decrypt_inv in D. destruct D as (key' & mac & nonce & em' & dm' & K' & M & _). rewrite Em in *. cbn [with_mac md_recipients md_mac md_modified] in *.
    rewrite K in K'. injection K' as <-. apply decrypt_mac_some in M. destruct M as [M _]. apply gcm_decrypt_some in M. destruct M as (M & _). destruct B as (_ & B & _). congruence.
  Qed.
End Keys.
