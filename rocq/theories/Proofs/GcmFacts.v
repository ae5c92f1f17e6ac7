(** Laws of the executable AES-GCM and SHA-512. *)
From Verif.Model Require Import Bytes Gcm Sha512 Value.
From Verif.Proofs Require Import BytesFacts.

Lemma gcm_ctr_length : forall k n p, length (gcm_ctr k n p) = length p.
Proof. intros. unfold gcm_ctr. apply xor_bytes_length. Qed.

Lemma gcm_ctr_involutive : forall k n p, gcm_ctr k n (gcm_ctr k n p) = p.
Proof. intros. unfold gcm_ctr at 1. rewrite gcm_ctr_length. unfold gcm_ctr. apply xor_bytes_involutive. Qed.

Lemma gcm_tag_length : forall k n a c, length (gcm_tag k n a c) = 16%nat.
Proof. intros. apply N_to_be_length. Qed.

Global Opaque gcm_ctr gcm_tag.

Lemma gcm_encrypt_some : forall k n a p c t, gcm_encrypt k n a p = Some (c, t) ->
  c = gcm_ctr k n p /\ t = gcm_tag k n a c /\ (blen p <= gcm_max)%N /\ (blen a <= gcm_max)%N.
Proof.
  intros k n a p c t. unfold gcm_encrypt. destruct (N.ltb_spec gcm_max (blen p)); try discriminate.
  destruct (N.ltb_spec gcm_max (blen a)); try discriminate. intro K. injection K as <- <-. auto.
Qed.

Lemma gcm_encrypt_total : forall k n a p, (blen p <= gcm_max)%N -> (blen a <= gcm_max)%N ->
  gcm_encrypt k n a p = Some (gcm_ctr k n p, gcm_tag k n a (gcm_ctr k n p)).
Proof.
  intros k n a p H1 H2. unfold gcm_encrypt.
  destruct (N.ltb_spec gcm_max (blen p)); try lia. destruct (N.ltb_spec gcm_max (blen a)); try lia. reflexivity.
Qed.

Lemma gcm_encrypt_none : forall k n a p, gcm_encrypt k n a p = None <-> (gcm_max < blen p \/ gcm_max < blen a)%N.
Proof.
  intros k n a p. unfold gcm_encrypt.
  destruct (N.ltb_spec gcm_max (blen p)), (N.ltb_spec gcm_max (blen a)); simpl; split; intros; try discriminate; auto; lia.
Qed.

Lemma gcm_decrypt_some : forall k n a c t p, gcm_decrypt k n a c t = Some p ->
  t = gcm_tag k n a c /\ p = gcm_ctr k n c /\ (blen c <= gcm_cmax)%N /\ (blen a <= gcm_max)%N.
Proof.
  intros k n a c t p. unfold gcm_decrypt. destruct (N.ltb_spec gcm_cmax (blen c)); try discriminate.
  destruct (N.ltb_spec gcm_max (blen a)); try discriminate. cbn [orb].
  destruct (bytes_eqb t (gcm_tag k n a c)) eqn:E; try discriminate. apply bytes_eqb_eq in E.
  intro K. injection K as <-. auto.
Qed.

Lemma gcm_decrypt_encrypt : forall k n a p c t, gcm_encrypt k n a p = Some (c, t) -> gcm_decrypt k n a c t = Some p.
Proof.
  intros k n a p c t H. apply gcm_encrypt_some in H. destruct H as (-> & -> & Hp & Ha).
  unfold gcm_decrypt. assert (blen (gcm_ctr k n p) = blen p) by (unfold blen; now rewrite gcm_ctr_length).
  unfold gcm_max, gcm_cmax in *.
  destruct (N.ltb_spec 68719476752 (blen (gcm_ctr k n p))); try lia.
  destruct (N.ltb_spec 68719476736 (blen a)); try lia. cbn [orb]. now rewrite bytes_eqb_refl, gcm_ctr_involutive.
Qed.

(** What decrypts is what encryption would have produced (when the plaintext is within the limit). *)
Lemma gcm_encrypt_decrypt : forall k n a c t p, gcm_decrypt k n a c t = Some p -> (blen p <= gcm_max)%N ->
  gcm_encrypt k n a p = Some (c, t).
Proof.
  intros k n a c t p H B. apply gcm_decrypt_some in H. destruct H as (-> & -> & _ & Ha).
  rewrite gcm_encrypt_total; auto. now rewrite gcm_ctr_involutive.
Qed.

Lemma cipher_encrypt_ok : forall nonce key buf aad c t, cipher_encrypt nonce key buf aad = Ok (c, t) <-> gcm_encrypt key nonce aad buf = Some (c, t).
Proof.
  intros. unfold cipher_encrypt, ok_or. destruct (gcm_encrypt key nonce aad buf); split; intro H; inversion H; subst; auto.
Qed.
Lemma cipher_decrypt_ok : forall nonce key buf aad t p, cipher_decrypt nonce key buf aad t = Ok p <-> gcm_decrypt key nonce aad buf t = Some p.
Proof.
  intros. unfold cipher_decrypt, ok_or. destruct (gcm_decrypt key nonce aad buf t); split; intro H; inversion H; subst; auto.
Qed.

(** ** SHA-512 output length *)

Lemma zip_add_length : forall a b, length (zip_add a b) = Nat.min (length a) (length b).
Proof. induction a as [|x a IH]; intros [|y b]; simpl; auto. Qed.

Lemma sha_round_length : forall st kw, length (sha_round st kw) = length st.
Proof. intros st kw. unfold sha_round. do 9 (destruct st as [|? st]; [reflexivity|]). reflexivity. Qed.

Lemma sha_rounds_length : forall ks st, length (fold_left sha_round ks st) = length st.
Proof. induction ks as [|k ks IH]; intro st; simpl; auto. now rewrite IH, sha_round_length. Qed.

Lemma compress_length : forall st ws, length (compress st ws) = length st.
Proof. intros st ws. unfold compress. cbv zeta. rewrite zip_add_length, sha_rounds_length. lia. Qed.

Lemma compress_all_length : forall bs st, length (fold_left compress bs st) = length st.
Proof. induction bs as [|b bs IH]; intro st; cbn [fold_left]; auto. now rewrite IH, compress_length. Qed.

Lemma flat_map_be_length : forall k l, length (flat_map (N_to_be k) l) = (k * length l)%nat.
Proof. induction l as [|x l IH]; simpl; auto. rewrite app_length, IH, N_to_be_length. lia. Qed.

Lemma sha512_length : forall s, length (sha512 s) = 64%nat.
Proof. intro s. unfold sha512. cbv zeta. rewrite flat_map_be_length, compress_all_length. reflexivity. Qed.
