(** What an encrypted file reveals. *)
From Verif.Model Require Import File Document Json.
From Verif.Spec Require Import SpecReveal.
From Verif.Proofs Require Import BytesFacts Base64Facts GcmFacts ValueFacts TreeFacts MapFacts MacFacts FormatFacts FileFacts JsonFacts.
Open Scope byte_scope.
Local Open Scope nat_scope.

Definition leaf_view (l l' : eleaf) : Prop := l' = l \/ exists e e', l = Encrypted e /\ l' = Encrypted e' /\ only_ciphertext e e'.

Lemma values_count : forall {L L'} (t : tree L) (t' : tree L') ks ks', skeleton t' = skeleton t -> length (values_under ks t) = length (values_under ks' t').
Proof.
  intros L L'. induction t as [l IH|m IH| |v] using tree_ind'; intros [l'|m'| |v'] ks ks' S; cbn [skeleton] in S; try discriminate S; cbn [values_under length]; auto.
  - injection S as S. revert l' S. induction IH as [|t l H F J]; intros [|t' l'] S; cbn [map flat_map] in *; try discriminate S; auto. injection S as S1 S. rewrite !app_length. f_equal; auto.
  - injection S as S. revert m' S. induction IH as [|t l H F J]; intros [|t' l'] S; cbn [map flat_map] in *; try discriminate S; auto. injection S as S0 S1 S. rewrite !app_length. f_equal; auto.
Qed.
Lemma values_keys : forall {L L'} (t : tree L) (t' : tree L') ks, skeleton t' = skeleton t -> map fst (values_under ks t') = map fst (values_under ks t).
Proof.
  intros L L'. induction t as [l IH|m IH| |v] using tree_ind'; intros [l'|m'| |v'] ks S; cbn [skeleton] in S; try discriminate S; cbn [values_under]; auto.
  - injection S as S. revert l' S. induction IH as [|t l H F J]; intros [|t' l'] S; cbn [map flat_map] in *; try discriminate S; auto. injection S as S1 S. rewrite !map_app. f_equal; auto.
  - injection S as S. revert m' S. induction IH as [|t l H F J]; intros [|t' l'] S; cbn [map flat_map] in *; try discriminate S; auto. injection S as S0 S1 S. rewrite !map_app, S0. f_equal; auto.
Qed.

Lemma encrypt_value_view : forall v v' nonce key path e, encrypt_value v nonce key path = Ok e -> type_of v' = type_of v -> length (value_bytes v') = length (value_bytes v) ->
  exists e', encrypt_value v' nonce key path = Ok e' /\ only_ciphertext e e'.
Proof.
  intros v v' nonce key path e H T L. apply encrypt_value_ok in H. destruct H as (A & B & ->). eexists. split.
  - apply encrypt_value_ok. split; [|split; [exact B|reflexivity]]. unfold gcm_fits in *. now rewrite L.
  - unfold only_ciphertext. cbn [ev_nonce ev_type ev_data ev_tag]. rewrite !gcm_ctr_length, !gcm_tag_length. auto.
Qed.

Section View.
  Context (re : regex_engine) (tp : tape).

  Lemma run_view : forall key pc l n ls n', run (enc_step re tp None key pc) l n ls n' -> forall l', length l' = length l ->
    (forall i ks v, nth_error l i = Some (ks, v) -> exists v', nth_error l' i = Some (ks, v')
       /\ (v' = v \/ (exists e, nth_error ls i = Some (Encrypted e)) /\ type_of v' = type_of v /\ length (value_bytes v') = length (value_bytes v))) ->
    exists ls', run (enc_step re tp None key pc) l' n ls' n' /\ Forall2 leaf_view ls ls'.
  Proof.
    intros key pc l n ls n' R. induction R as [s|[ks v] y l l0 s s1 s2 E R IH]; intros l' Ln H.
    - destruct l'; [|discriminate Ln]. exists []. split; constructor.
    - destruct l' as [|[ks' v'] l']; [discriminate Ln|]. destruct (H 0 ks v eq_refl) as (w & X & C). cbn [nth_error] in X. injection X as -> ->.
      destruct (IH l') as (ls' & R' & F). { now injection Ln. } { intros i ks0 v0 N. exact (H (S i) ks0 v0 N). }
      assert (exists y', enc_step re tp None key pc (ks, w) s = Ok (y', s1) /\ leaf_view y y') as (y' & E' & V).
      { destruct C as [->|((e & C) & T & Lb)]. { exists y. split; auto. now left. }
        cbn [nth_error] in C. injection C as ->. unfold enc_step, encrypt_leaf in *. cbn [fst snd] in *. destruct (escapes _); [discriminate E|].
        apply bind_ok in E. destruct E as (e0 & E & X). injection X as <- <-. destruct (encrypt_value_view _ _ _ _ _ _ E T Lb) as (e' & -> & O). cbn [bind].
        exists (Encrypted e'). split; auto. right. eauto. }
      exists (y' :: ls'). split; [econstructor; eauto|constructor; auto].
  Qed.

  Lemma encrypt_view : forall key pc m n em n' m', encrypt_map re tp None key pc m n = Ok (em, n') -> secret_edit em m m' ->
    exists em', encrypt_map re tp None key pc m' n = Ok (em', n') /\ map_skeleton em' = map_skeleton em /\ Forall2 leaf_view (map snd (map_values em)) (map snd (map_values em')).
  Proof.
    intros key pc m n em n' m' E (Sk & H). apply encrypt_map_ok in E. destruct E as (Se & Ks & R).
    destruct (run_view _ _ _ _ _ _ R (map_values m')) as (ls' & R' & F).
    { symmetry. apply (values_count (Map m) (Map m')). exact Sk. }
    { intros i ks v N. destruct (H i ks v N) as (v' & V & C). exists v'. split; auto. destruct C as [C|((e & C) & T)]; auto. right. split; auto. exists e. unfold value_at in C. now rewrite nth_error_map, C. }
    pose proof (run_length _ _ _ _ _ R') as Ln. destruct (refill_map m' ls' Ln) as (em' & E & Sk' & V).
    assert (Lk : length (map fst (map_values m')) = length ls') by (now rewrite map_length).
    assert (Q : map snd (map_values em') = ls'). { rewrite V. clear -Lk. revert ls' Lk. induction (map fst (map_values m')) as [|k ks IH]; intros [|x ls] H; cbn in *; try discriminate; auto. f_equal. apply IH. lia. }
    exists em'. split; [|split; [congruence|now rewrite Q]].
    rewrite encrypt_map_run. apply smapM_run in R'. rewrite R'. cbn [bind fst snd]. now rewrite E.
  Qed.

  Lemma view_same : forall em em', map_skeleton em' = map_skeleton em -> Forall2 leaf_view (map snd (map_values em)) (map snd (map_values em')) -> same_view em em'.
  Proof.
    intros em em' S F. split; auto. intros i ks l A. unfold value_at in *. pose proof (values_keys (Map em) (Map em') [] S) as K.
    change (values_under [] (Map em')) with (map_values em') in K. change (values_under [] (Map em)) with (map_values em) in K.
    revert i A K. revert F. generalize (map_values em) (map_values em'). clear. intros x y F. remember (map snd x) as a. remember (map snd y) as b. revert x y Heqa Heqb.
    induction F as [|a b la lb R F IH]; intros [|[k x] lx] [|[k' y] ly] Ha Hb i A K; try discriminate.
    - destruct i; discriminate.
    - cbn [map snd fst] in *. injection Ha as -> Ha. injection Hb as -> Hb. injection K as -> K. destruct i as [|i]; cbn [nth_error] in *; [|eapply IH; eauto].
      injection A as -> ->. exists y. split; auto.
  Qed.

  (** Into a format. *)
  Lemma collect_view : forall l l', Forall2 (fun x y : bytes * fvalue => fst y = fst x /\ blurred (snd x) (snd y)) l l' ->
    Forall2 (fun x y => fst y = fst x /\ blurred (snd x) (snd y)) (collect l) (collect l').
  Proof.
    intros l l' F. unfold collect. assert (G : Forall2 (fun x y : bytes * fvalue => fst y = fst x /\ blurred (snd x) (snd y)) [] []) by constructor. revert G. generalize (@nil (bytes * fvalue)) at 1 3. generalize (@nil (bytes * fvalue)).
    induction F as [|[k v] [k' v'] l l' [K B] F IH]; intros a' a G; cbn [fold_left]; auto. apply IH. cbn [fst snd] in *. subst k'. clear -G B.
    induction G as [|[k0 v0] [k1 v1] a a' [K B'] G IH]; cbn [insert]; [constructor; auto|]. cbn [fst snd] in *. subst k1. destruct (bytes_eqb _ _); constructor; auto.
  Qed.
  Lemma to_fmap_view : forall l l', Forall2 (fun x y : bytes * fvalue => fst y = fst x /\ blurred (snd x) (snd y)) l l' ->
    Forall2 (fun x y => fst y = fst x /\ blurred (snd x) (snd y)) (to_fmap l) (to_fmap l').
  Proof.
    intros l l' F. apply collect_view in F. unfold to_fmap. induction F as [|[k v] [k' v'] a a' [K B] F IH]; cbn [map]; constructor; auto. cbn [fst snd] in *. now subst.
  Qed.
  Lemma split_view : forall {A B} (R : A -> B -> Prop) a b a' b', length a = length a' -> Forall2 R (a ++ b) (a' ++ b') -> Forall2 R a a' /\ Forall2 R b b'.
  Proof. intros A B R. induction a as [|x a IH]; intros b [|x' a'] b' L F; cbn in *; try discriminate; [split; auto|]. inversion F; subst. destruct (IH b a' b') as [P Q]; auto. Qed.

  Definition enc_list_view (f : fmt) (t : etree) := forall ks ks' t' v, skeleton t' = skeleton t -> Forall2 leaf_view (map snd (values_under ks t)) (map snd (values_under ks' t')) ->
    enc_from_internal f t = Ok v -> exists v', enc_from_internal f t' = Ok v' /\ blurred v v'.
  Lemma entries_view : forall f (m : emap), Forall (fun kt => enc_list_view f (snd kt)) m -> forall ks ks' m' l, map_skeleton m' = map_skeleton m ->
    Forall2 leaf_view (map snd (values_under ks (Map m))) (map snd (values_under ks' (Map m'))) ->
    mapM (fun kt => let* v := enc_from_internal f (snd kt) in Ok (fst kt, v)) m = Ok l ->
    exists l', mapM (fun kt => let* v := enc_from_internal f (snd kt) in Ok (fst kt, v)) m' = Ok l' /\ Forall2 (fun x y => fst y = fst x /\ blurred (snd x) (snd y)) l l'.
  Proof.
    intros f m IH. unfold map_skeleton. cbn [skeleton values_under]. induction IH as [|[k t] m H F J]; intros ks ks' m' l S V E.
    - destruct m'; [|discriminate S]. cbn [mapM] in *. injection E as <-. exists []. split; [reflexivity|constructor].
    - destruct m' as [|[k' t'] m']; [discriminate S|]. cbn [map fst snd flat_map] in *. injection S as -> S1 S2.
      rewrite !map_app in V. apply split_view in V. 2:{ rewrite !map_length. now apply values_count. } destruct V as [V1 V2].
      cbn [mapM fst snd] in E. apply bind_ok in E. destruct E as ([k1 v1] & E1 & E). apply bind_ok in E1. destruct E1 as (v & E1 & X). injection X as <- <-.
      apply bind_ok in E. destruct E as (vs & E2 & X). injection X as <-. destruct (H _ _ _ _ S1 V1 E1) as (v' & P & B). destruct (J ks ks' m' vs) as (l' & Q & G); auto. { now f_equal. }
      exists ((k, v') :: l'). cbn [mapM fst snd]. rewrite P. cbn [bind]. rewrite Q. cbn [bind]. split; auto.
  Qed.
  Lemma from_view : forall f t, enc_list_view f t.
  Proof.
    intros f. induction t as [l IH|m IH| |w] using tree_ind'; intros ks ks' [l'|m'| |w'] v S V E; cbn [skeleton] in S; try discriminate S; cbn [enc_from_internal] in *.
    - apply bind_ok in E. destruct E as (vs & E & X). injection X as <-. injection S as S. cbn [values_under] in V.
      assert (exists vs', mapM (enc_from_internal f) l' = Ok vs' /\ Forall2 blurred vs vs') as (vs' & P & B).
      { revert l' vs S V E. induction IH as [|t l H F J]; intros [|t' l'] vs S V E; cbn [map flat_map mapM] in *; try discriminate S.
        - injection E as <-. exists []. split; [reflexivity|constructor].
        - injection S as S1 S2. rewrite !map_app in V. apply split_view in V. 2:{ rewrite !map_length. now apply values_count. } destruct V as [V1 V2].
          apply bind_ok in E. destruct E as (v & E1 & E). apply bind_ok in E. destruct E as (vs0 & E2 & X). injection X as <-.
          destruct (H _ _ _ _ S1 V1 E1) as (v' & P & B). destruct (J l' vs0) as (vs' & Q & G); auto. exists (v' :: vs'). rewrite P. cbn [bind]. rewrite Q. cbn [bind]. split; auto. }
      exists (FSeq vs'). rewrite P. cbn [bind]. split; auto. now constructor.
    - apply bind_ok in E. destruct E as (l & E & X). injection X as <-. destruct (entries_view f m IH ks ks' m' l) as (l' & P & B); auto.
      exists (FMap (to_fmap l')). rewrite P. cbn [bind]. split; auto. constructor. now apply to_fmap_view.
    - exists v. split; auto. constructor.
    - cbn [values_under map snd] in V. inversion V as [|? ? ? ? [->|(e & e' & -> & -> & O)] _]; subst.
      + exists v. split; auto. constructor.
      + injection E as <-. eexists. split; [reflexivity|]. now constructor.
  Qed.
  Lemma from_map_view : forall f em em' fm, map_skeleton em' = map_skeleton em -> Forall2 leaf_view (map snd (map_values em)) (map snd (map_values em')) ->
    enc_map_from_internal f em = Ok fm -> exists fm', enc_map_from_internal f em' = Ok fm' /\ Forall2 (fun x y => fst y = fst x /\ blurred (snd x) (snd y)) fm fm'.
  Proof.
    intros f em em' fm S V E. unfold enc_map_from_internal in *. apply bind_ok in E. destruct E as (l & E & X). injection X as <-.
    destruct (entries_view f em) with (ks := @nil bytes) (ks' := @nil bytes) (m' := em') (l := l) as (l' & P & B); auto. { apply Forall_forall. intros x _. apply from_view. }
    rewrite P. cbn [bind]. eexists. split; [reflexivity|]. now apply to_fmap_view.
  Qed.

  (** Whole files. *)
  Lemma build_view : forall ag E f b n ef n' dm em k m' dm',
    builder_encrypt re tp ag E f b n = Ok (ef, n') -> dec_map_to_internal f (bd_map b) = Ok dm -> encrypt_map re tp None (draw_key tp n) (bd_partial b) dm (S n) = Ok (em, k) ->
    dec_map_to_internal f m' = Ok dm' -> secret_edit em dm dm' ->
    exists ef', builder_encrypt re tp ag E f {| bd_map := m'; bd_partial := bd_partial b; bd_only := bd_only b; bd_age := bd_age b; bd_kms := bd_kms b |} n = Ok (ef', n')
      /\ Forall2 (fun x y => fst y = fst x /\ blurred (snd x) (snd y)) (fl_map ef) (fl_map ef')
      /\ fl_meta ef' = with_mac (fl_meta ef) (md_mac (fl_meta ef')) /\ only_ciphertext (md_mac (fl_meta ef)) (md_mac (fl_meta ef')).
  Proof.
    intros ag E f b n ef n' dm em k m' dm' H D M D' SE. apply build_ok in H. destruct H as (dm0 & em0 & n1 & rc & n2 & e & D0 & M0 & B & Mc & C & Md).
    assert (dm0 = dm) as -> by congruence. rewrite M in M0. injection M0 as <- <-. destruct (encrypt_view _ _ _ _ _ _ _ M SE) as (em' & M' & S & V).
    destruct (from_map_view f _ _ _ S V C) as (fm' & C' & W).
    assert (exists e', encrypt_mac tp None (compute_mac re (bd_only b) (bd_partial b) dm') (draw_key tp n) (timestamp_text (now E n2)) (Datatypes.S n2) = Ok (e', n') /\ only_ciphertext e e') as (e' & Mc' & O).
    { unfold encrypt_mac in *. apply bind_ok in Mc. destruct Mc as ([c t] & X & Mc). injection Mc as <- <-. cbn [fst snd].
      apply cipher_encrypt_ok, gcm_encrypt_some in X. destruct X as (-> & -> & L1 & L2).
      assert (Lm : length (compute_mac re (bd_only b) (bd_partial b) dm') = length (compute_mac re (bd_only b) (bd_partial b) dm)) by (now rewrite !(proj1 (compute_mac_shape _ _ _ _))).
      assert (L1' : (blen (compute_mac re (bd_only b) (bd_partial b) dm') <= gcm_max)%N) by (unfold blen in *; now rewrite Lm).
      rewrite (proj2 (cipher_encrypt_ok _ _ _ _ _ _) (gcm_encrypt_total _ _ _ _ L1' L2)). cbn [bind fst snd]. eexists. split; [reflexivity|].
      unfold only_ciphertext. cbn [ev_nonce ev_type ev_data ev_tag]. rewrite !gcm_ctr_length, !gcm_tag_length. auto. }
    eexists. split.
    - unfold builder_encrypt. cbn [bd_map bd_partial bd_only bd_age bd_kms]. rewrite D'. cbn [bind]. rewrite M'. rewrite B. cbn [bind fst snd].
      unfold encrypt_meta. cbn [md_mac md_modified]. rewrite Mc'. cbn [bind fst snd]. rewrite C'. cbn [bind]. reflexivity.
    - cbn [fl_map fl_meta]. rewrite Md. cbn [md_mac]. unfold with_mac. cbn [md_recipients md_modified md_mac md_partial md_only]. auto.
  Qed.
End View.

(** JSON text: the length. *)
Definition plain_char (b : byte) : bool := match json_escape b with [_] => true | _ => false end.
Lemma plain_length : forall s, forallb plain_char s = true -> length (flat_map json_escape s) = length s.
Proof.
  induction s as [|b s IH]; intro H; auto. cbn [forallb] in H. apply andb_true_iff in H. destruct H as [H T]. cbn [flat_map length]. rewrite app_length, (IH T).
  unfold plain_char in H. destruct (json_escape b) as [|x [|y l]]; try discriminate H. reflexivity.
Qed.
Lemma alphabet_plain : forall c, plain_char (b64_char c) = true.
Proof. intros (a & b & c & d & e & f). destruct a, b, c, d, e, f; reflexivity. Qed.
Lemma base64_plain : forall s, forallb plain_char (encode_base64 s) = true.
Proof.
  intro s. unfold encode_base64. rewrite forallb_app. apply andb_true_iff. split.
  - assert (X : forall k s, length s <= k -> forallb plain_char (b64_encode_nopad s) = true); [|eapply X; eauto].
    induction k as [|k IH]; intros [|x [|y [|z l]]] L; cbn [length] in L; try lia; cbn [b64_encode_nopad forallb]; rewrite ?alphabet_plain; auto. apply IH. lia.
  - unfold b64_pad. destruct (Nat.modulo _ _) as [|[|[|]]]; reflexivity.
Qed.
Lemma base64_length : forall s s', length s' = length s -> length (encode_base64 s') = length (encode_base64 s).
Proof.
  intros s s' L. unfold encode_base64. rewrite !app_length, L. f_equal.
  assert (X : forall k s s', length s <= k -> length s' = length s -> length (b64_encode_nopad s') = length (b64_encode_nopad s)); [|eapply X; eauto].
  clear. induction k as [|k IH]; intros [|x [|y [|z l]]] [|x' [|y' [|z' l']]] L E; cbn [length] in *; try lia; auto. cbn [b64_encode_nopad length]. rewrite (IH l l'); lia.
Qed.
Lemma view_length : forall e e', only_ciphertext e e' -> length (json_string (evalue_text e')) = length (json_string (evalue_text e)).
Proof.
  intros e e' (N & T & D & G). assert (P : forall x, forallb plain_char (evalue_text x) = true). { intro x. unfold evalue_text. rewrite !forallb_app, !base64_plain. destruct (ev_type x); reflexivity. }
  unfold json_string. cbn [length]. rewrite !app_length, !plain_length by auto. do 2 f_equal. unfold evalue_text. rewrite !app_length, N, T, (base64_length _ _ D), (base64_length _ _ G). reflexivity.
Qed.
Lemma comma_length : forall l l', Forall2 (fun x y : bytes => length y = length x) l l' -> length (comma_separated l') = length (comma_separated l).
Proof.
  induction 1 as [|x y l l' E F IH]; auto. cbn [comma_separated]. destruct F as [|x1 y1 l l' E1 F]; auto. rewrite !app_length. cbn [length]. rewrite E. do 2 f_equal. exact IH.
Qed.
Lemma block_length : forall a b n l l', Forall2 (fun x y : bytes => length y = length x) l l' -> length (json_block a b n l') = length (json_block a b n l).
Proof.
  intros a b n l l' F. unfold json_block. destruct F as [|x y l l' E F]; auto. cbn [length]. rewrite !app_length. do 2 f_equal. apply comma_length.
  cbn [map]. constructor. { rewrite !app_length, E. reflexivity. } clear E. induction F as [|x0 y0 l l' E F IH]; cbn [map]; constructor; auto. rewrite !app_length, E. reflexivity.
Qed.
Fixpoint json_view (v v' : fvalue) (B : blurred v v') {struct B} : forall n t t', json_value n v = Ok t -> json_value n v' = Ok t' -> length t' = length t.
Proof.
  destruct B as [v|e e' O|l l' F|m m' F]; intros n t t' H H'; cbn [json_value] in *.
  - congruence.
  - injection H as <-. injection H' as <-. now apply view_length.
  - apply bind_ok in H. destruct H as (a & A & X). injection X as <-. apply bind_ok in H'. destruct H' as (a' & A' & X). injection X as <-. apply block_length. revert a a' A A'.
    induction F as [|x y l l' B F IH]; intros a a' A A'; cbn [mapM] in *. { injection A as <-. injection A' as <-. constructor. }
    apply bind_ok in A. destruct A as (u & U & A). apply bind_ok in A. destruct A as (us & Us & A). injection A as <-. apply bind_ok in A'. destruct A' as (w & W & A'). apply bind_ok in A'. destruct A' as (ws & Ws & A'). injection A' as <-.
    constructor; auto. exact (json_view _ _ B _ _ _ U W).
  - apply bind_ok in H. destruct H as (a & A & X). injection X as <-. apply bind_ok in H'. destruct H' as (a' & A' & X). injection X as <-. apply block_length. revert a a' A A'.
    induction F as [|[k x] [k' y] l l' [K B] F IH]; intros a a' A A'; cbn [mapM fst snd] in *. { injection A as <-. injection A' as <-. constructor. }
    subst k'. apply bind_ok in A. destruct A as (u & U & A). apply bind_ok in A. destruct A as (us & Us & A). injection A as <-. apply bind_ok in A'. destruct A' as (w & W & A'). apply bind_ok in A'. destruct A' as (ws & Ws & A'). injection A' as <-.
    constructor; auto. apply bind_ok in U. destruct U as (kt & Kt & U). apply bind_ok in U. destruct U as (xt & Xt & U). injection U as <-. rewrite Kt in W. cbn [bind] in W. apply bind_ok in W. destruct W as (yt & Yt & W). injection W as <-.
    pose proof (json_view _ _ B _ _ _ Xt Yt) as L. cbn beta. unfold bytes in *. rewrite !app_length. cbn [length]. lia.
Qed.
Lemma entries_blurred : forall ef ef', Forall2 (fun x y => fst y = fst x /\ blurred (snd x) (snd y)) (fl_map ef) (fl_map ef') ->
  fl_meta ef' = with_mac (fl_meta ef) (md_mac (fl_meta ef')) -> only_ciphertext (md_mac (fl_meta ef)) (md_mac (fl_meta ef')) -> blurred (FMap (efile_entries ef)) (FMap (efile_entries ef')).
Proof.
  intros ef ef' F M O. constructor. unfold efile_entries. apply Forall2_app; auto. constructor; [|constructor]. cbn [fst snd field]. split; auto. constructor. rewrite M. generalize dependent (md_mac (fl_meta ef')). intros e' _ O.
  unfold meta_entries, with_mac. cbn [md_recipients md_modified md_mac md_partial md_only].
  assert (R : forall l : fmap, Forall2 (fun x y => fst y = fst x /\ blurred (snd x) (snd y)) l l) by (induction l; constructor; auto; split; auto; constructor).
  apply Forall2_app; auto. apply Forall2_app; auto. apply Forall2_app; [|apply R]. constructor; [split; auto; constructor|]. constructor; [|constructor]. cbn [fst snd field]. split; auto. now constructor.
Qed.
