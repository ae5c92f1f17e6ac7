(** Who can open the files that commands write. *)
From Verif.Model Require Import Cli.
From Verif.Spec Require Import SpecAccess.
From Verif.Proofs Require Import BytesFacts Base64Facts ValueFacts IntegrationFacts FileFacts FileKeys FileSafety DocumentFacts CliRun CliAbort.
Open Scope byte_scope.
Local Open Scope nat_scope.

Lemma first_key_some : forall {K} (opn : K -> bytes -> outcome (option bytes)) us k, first_key opn us = Ok (Some k) -> exists u, In u us /\ opn (u_key u) (u_enc u) = Ok (Some k).
Proof.
  intros K opn us k. induction us as [|u us IH]; cbn [first_key]; [discriminate|]. intro H. destruct (opn (u_key u) (u_enc u)) as [[x|]|e|] eqn:O; try discriminate.
  - exists u. split; [now left|congruence].
  - destruct (IH H) as (v & I & V). exists v. split; [now right|exact V].
Qed.

Lemma retrieve_holds : forall ag E rc key, retrieve_data_key ag E rc = Ok key -> holds_key ag E rc.
Proof.
  intros ag E rc key H. unfold retrieve_data_key in H. apply bind_ok in H. destruct H as (o & D & H). destruct o as [k|]; [|discriminate].
  unfold decrypt_data_key in D. apply bind_ok in D. destruct D as (a & A & D). destruct a as [x|].
  - left. apply first_key_some in A. destruct A as (u & I & A). unfold age_decrypt_key in A. apply bind_ok in A. destruct A as (ids & P & A).
    destruct (find _ ids) as [i|] eqn:F; [|discriminate]. apply find_some in F. destruct F as [J F]. apply bytes_eqb_eq in F. exists ids, i. split; [exact P|]. split; auto. rewrite F. now apply in_map.
  - right. clear A. apply first_key_some in D. destruct D as (u & I & A). unfold kms_decrypt_key in A. apply bind_ok in A. destruct A as (blob & _ & A).
    apply bind_ok in A. destruct A as (c & C & A). unfold find_client in C. apply bind_ok in C. destruct C as (ks & P & C). destruct (find _ ks) as [s|] eqn:F; [|injection C as <-; discriminate].
    apply find_some in F. destruct F as [J F]. apply bytes_eqb_eq in F. exists ks, s, u. auto.
Qed.
Lemma decrypt_opens : forall re ag E f fo ef df, file_decrypt re ag E f fo ef = Ok df -> exists key, retrieve_data_key ag E (md_recipients (fl_meta ef)) = Ok key.
Proof. intros re ag E f fo ef df H. unfold file_decrypt in H. apply bind_ok in H. destruct H as (key & K & _). eauto. Qed.
Lemma decrypt_save_opens : forall re ag E f fo ef d, file_decrypt_save re ag E f fo ef = Ok d -> exists key, retrieve_data_key ag E (md_recipients (fl_meta ef)) = Ok key.
Proof. intros re ag E f fo ef d H. unfold file_decrypt_save in H. apply bind_ok in H. destruct H as (key & K & _). eauto. Qed.
Lemma holds_somebody : forall ag E rc, holds_key ag E rc -> somebody rc.
Proof.
  intros ag E rc [(ids & i & _ & _ & I)|(ks & c & u & _ & _ & I & _)]; [left|right]; intro X; rewrite X in I; destruct I.
Qed.

(** Entries read from a file are distinct. *)
Lemma read_units_distinct : forall {K} cd k (eqb : K -> K -> bool) config es us, (forall a b, eqb a b = true <-> a = b) -> read_units cd k eqb config es = Ok us -> distinct_units us.
Proof.
  intros K cd k eqb config es us Q H. unfold read_units in H. apply bind_ok in H. destruct H as (o & _ & H). destruct o as [v|]; [|injection H as <-; constructor].
  destruct v; try discriminate. apply bind_ok in H. destruct H as (l' & _ & H). injection H as <-.
  assert (X : forall acc, distinct_units acc -> distinct_units (fold_left (fun acc u => unit_insert eqb u acc) l' acc)).
  { induction l' as [|u l' IH]; intros acc D; cbn [fold_left]; auto. apply IH. now apply (unit_insert_distinct eqb Q). }
  apply X. constructor.
Qed.
Lemma read_meta_distinct : forall rv ag cd M (mac : bytes -> outcome M) v md, read_meta rv ag cd mac v = Ok md -> distinct_recipients (md_recipients md).
Proof.
  intros rv ag cd M mac v md H. unfold read_meta in H. do 9 (apply bind_ok in H; destruct H as (? & _ & H)). apply bind_ok in H. destruct H as (? & _ & H).
  apply bind_ok in H. destruct H as (kms & K & H). apply bind_ok in H. destruct H as (age & A & H). injection H as <-. cbn [md_recipients]. split; cbn [rc_age rc_kms].
  - eapply read_units_distinct; [|exact A]. apply bytes_eqb_eq.
  - eapply read_units_distinct; [|exact K]. apply aws_key_eqb_eq.
Qed.
Lemma read_efile_distinct : forall rv ag cd f s ef, read_efile rv ag cd f s = Ok ef -> distinct_recipients (md_recipients (fl_meta ef)).
Proof.
  intros rv ag cd f s ef H. unfold read_efile in H. apply bind_ok in H. destruct H as (es & _ & H). unfold efile_of_entries in H. destruct (forallb _ es); [|discriminate].
  do 2 (apply bind_ok in H; destruct H as (? & _ & H)). apply bind_ok in H. destruct H as (md & R & H). apply bind_ok in H. destruct H as (m & _ & H). injection H as <-. cbn [fl_meta]. eapply read_meta_distinct; eauto.
Qed.

Section Access.
  Context (re : regex_engine) (tp : tape) (ag : age_crate) (cd : codec) (E : env).

  Lemma removal : forall {K} (eqb : K -> K -> bool) (us us' : list (wrapped K)) r u rest, (forall a b, eqb a b = true <-> a = b) -> distinct_units us -> unit_remove eqb r us = Some (u, rest) ->
    map u_key us' = map u_key rest -> distinct_units us' /\ forall k, In k (map u_key us') <-> In k (map u_key us) /\ k <> r.
  Proof.
    intros K eqb us us' r u rest Q D U M. destruct (unit_remove_distinct eqb Q _ _ _ _ D U) as (D' & N & I). split; [unfold distinct_units in *; now rewrite M|].
    intro k. rewrite M. rewrite !in_map_iff. split.
    - intros (v & <- & J). apply I in J. destruct J as [J X]. split; eauto.
    - intros ((v & <- & J) & X). exists v. split; auto. apply I. auto.
  Qed.
  Lemma remove_age_keys : forall r df n df' u n', distinct_recipients (md_recipients (fl_meta df)) -> file_remove_age tp ag E r df n = (df', Ok (u, n')) ->
    let rc := md_recipients (fl_meta df) in let rc' := md_recipients (fl_meta df') in
    distinct_recipients rc' /\ (forall k, In k (map u_key (rc_age rc')) <-> In k (map u_key (rc_age rc)) /\ k <> r) /\ map u_key (rc_kms rc') = map u_key (rc_kms rc).
  Proof.
    intros r df n df' u n' [DA DK] H rc rc'. subst rc rc'. unfold file_remove_age in H. destruct (remove_age tp ag E r (md_recipients (fl_meta df)) n) as [rc1 o] eqn:R. injection H as <- ->. cbn [with_recipients fl_meta md_recipients].
    unfold remove_age in R. destruct (unit_remove bytes_eqb r (rc_age (md_recipients (fl_meta df)))) as [[v rest]|] eqn:U.
    - destruct (rotate tp ag E _ n) as [rc2 o2] eqn:Ro. injection R as <- _. destruct (rotate_keys _ _ _ _ _ _ _ Ro) as (Ka & Kk & _). cbn [rc_age rc_kms] in Ka, Kk.
      destruct (removal bytes_eqb _ _ _ _ _ bytes_eqb_eq DA U Ka) as [D I]. split; [|auto]. split; auto. unfold distinct_units in *. now rewrite Kk.
    - injection R as <- _ _. apply (unit_remove_none bytes_eqb bytes_eqb_eq) in U. split; [now split|]. split; auto. intro k. split; [|tauto]. intro I. split; auto. now intros ->.
  Qed.
  Lemma remove_kms_keys : forall r df n df' u n', distinct_recipients (md_recipients (fl_meta df)) -> file_remove_kms tp ag E r df n = (df', Ok (u, n')) ->
    let rc := md_recipients (fl_meta df) in let rc' := md_recipients (fl_meta df') in
    distinct_recipients rc' /\ (forall k, In k (map u_key (rc_kms rc')) <-> In k (map u_key (rc_kms rc)) /\ k <> r) /\ map u_key (rc_age rc') = map u_key (rc_age rc).
  Proof.
    intros r df n df' u n' [DA DK] H rc rc'. subst rc rc'. unfold file_remove_kms in H. destruct (remove_kms tp ag E r (md_recipients (fl_meta df)) n) as [rc1 o] eqn:R. injection H as <- ->. cbn [with_recipients fl_meta md_recipients].
    unfold remove_kms in R. destruct (unit_remove aws_key_eqb r (rc_kms (md_recipients (fl_meta df)))) as [[v rest]|] eqn:U.
    - destruct (rotate tp ag E _ n) as [rc2 o2] eqn:Ro. injection R as <- _. destruct (rotate_keys _ _ _ _ _ _ _ Ro) as (Ka & Kk & _). cbn [rc_age rc_kms] in Ka, Kk.
      destruct (removal aws_key_eqb _ _ _ _ _ aws_key_eqb_eq DK U Kk) as [D I]. split; [|auto]. split; auto. unfold distinct_units in *. now rewrite Ka.
    - injection R as <- _ _. apply (unit_remove_none aws_key_eqb aws_key_eqb_eq) in U. split; [now split|]. split; auto. intro k. split; [|tauto]. intro I. split; auto. now intros ->.
  Qed.
  Lemma remove_ages_keys : forall ids df n df' n', distinct_recipients (md_recipients (fl_meta df)) -> remove_all (file_remove_age tp ag E) ids df n = Ok (df', n') ->
    let rc := md_recipients (fl_meta df) in let rc' := md_recipients (fl_meta df') in
    distinct_recipients rc' /\ (forall k, In k (map u_key (rc_age rc')) <-> In k (map u_key (rc_age rc)) /\ ~ In k ids) /\ map u_key (rc_kms rc') = map u_key (rc_kms rc).
  Proof.
    induction ids as [|r ids IH]; intros df n df' n' D H rc rc'; subst rc rc'; cbn [remove_all] in H.
    - injection H as <- _. split; auto. split; auto. cbn [In]. tauto.
    - destruct (file_remove_age tp ag E r df n) as [df1 o] eqn:R. apply bind_ok in H. destruct H as ([u n1] & -> & H). cbn [snd] in H. destruct (remove_age_keys _ _ _ _ _ _ D R) as (D1 & A & K).
      destruct (IH _ _ _ _ D1 H) as (D2 & A2 & K2). split; auto. split; [|congruence]. intro k. rewrite A2, A. cbn [In]. intuition congruence.
  Qed.
  Lemma remove_kmss_keys : forall ids df n df' n', distinct_recipients (md_recipients (fl_meta df)) -> remove_all (file_remove_kms tp ag E) ids df n = Ok (df', n') ->
    let rc := md_recipients (fl_meta df) in let rc' := md_recipients (fl_meta df') in
    distinct_recipients rc' /\ (forall k, In k (map u_key (rc_kms rc')) <-> In k (map u_key (rc_kms rc)) /\ ~ In k ids) /\ map u_key (rc_age rc') = map u_key (rc_age rc).
  Proof.
    induction ids as [|r ids IH]; intros df n df' n' D H rc rc'; subst rc rc'; cbn [remove_all] in H.
    - injection H as <- _. split; auto. split; auto. cbn [In]. tauto.
    - destruct (file_remove_kms tp ag E r df n) as [df1 o] eqn:R. apply bind_ok in H. destruct H as ([u n1] & -> & H). cbn [snd] in H. destruct (remove_kms_keys _ _ _ _ _ _ D R) as (D1 & A & K).
      destruct (IH _ _ _ _ D1 H) as (D2 & A2 & K2). split; auto. split; [|congruence]. intro k. rewrite A2, A. cbn [In]. intuition congruence.
  Qed.

  Lemma remove_access : forall f ks s n t n', remove_text re tp ag cd E f ks s n = Ok (t, n') ->
    exists ef ef' key, read_efile (re_valid re) ag cd f s = Ok ef /\ file_text cd f ef' = Ok t /\ remaining ks (md_recipients (fl_meta ef)) (md_recipients (fl_meta ef'))
    /\ retrieve_data_key ag E (md_recipients (fl_meta ef')) = Ok key.
  Proof.
    intros f ks s n t n' H. unfold remove_text in H. apply bind_ok in H. destruct H as (ef & R & H). apply bind_ok in H. destruct H as (df & D & H).
    assert (DR : distinct_recipients (md_recipients (fl_meta df)) /\ md_recipients (fl_meta df) = md_recipients (fl_meta ef)).
    { unfold file_decrypt in D. cbv zeta in D. do 5 (apply bind_ok in D; destruct D as (? & _ & D)). apply bind_ok in D. destruct D as (m & _ & D). injection D as <-. cbn [fl_meta with_mac md_recipients]. split; auto. eapply read_efile_distinct; eauto. }
    destruct DR as [DR Q]. apply bind_ok in H. destruct H as ([df1 n1] & A & H). apply bind_ok in H. destruct H as ([df2 n2] & K & H). cbn [fst snd] in *. apply bind_ok in H. destruct H as ([ef' n3] & F & H).
    apply bind_ok in H. destruct H as (t' & T & H). injection H as <- _. cbn [fst] in T.
    destruct (remove_ages_keys _ _ _ _ _ DR A) as (D1 & A1 & K1). destruct (remove_kmss_keys _ _ _ _ _ D1 K) as (D2 & K2 & A2).
    unfold file_encrypt in F. apply bind_ok in F. destruct F as (key & RK & F). apply bind_ok in F. destruct F as (dm & _ & F). apply encrypt_parts_ok in F. destruct F as (em & m1 & e & _ & _ & _ & M).
    exists ef, ef', key. split; auto. split; auto. rewrite M. cbn [with_mac md_recipients]. split; auto. split.
    - intro k. rewrite A2, A1, Q. tauto.
    - intro k. rewrite K2, K1, Q. tauto.
  Qed.
  Lemma add_access : forall f ks s n t n', add_text re ag cd E f ks s n = Ok (t, n') ->
    exists ef', file_text cd f ef' = Ok t /\ somebody (md_recipients (fl_meta ef')).
  Proof.
    intros f ks s n t n' H. unfold add_text in H. apply bind_ok in H. destruct H as (ef & R & H). destruct (file_add_age ag E (ks_age ks) ef n) as [ef1 o1] eqn:A. apply bind_ok in H. destruct H as (n1 & -> & H).
    destruct (file_add_kms ag E (ks_kms ks) ef1 n1) as [ef2 o2] eqn:B. apply bind_ok in H. destruct H as (n2 & -> & H). apply bind_ok in H. destruct H as (t' & T & H). injection H as <- _. exists ef2. split; auto.
    unfold file_add_kms in B. destruct (retrieve_data_key ag E (md_recipients (fl_meta ef1))) as [key|e|] eqn:RK; try discriminate. apply retrieve_holds, holds_somebody in RK.
    unfold add_kms in B. destruct (add_units aws_key_eqb (new_kms_unit E key) (ks_kms ks) (rc_kms (md_recipients (fl_meta ef1))) n1) as [us o] eqn:AU. injection B as <- _. cbn [with_recipients fl_meta md_recipients].
    destruct RK as [X|X]; [now left|right]. cbn [rc_kms]. intro Z. subst us.
    assert (KM : forall k n u n', new_kms_unit E key k n = Ok (u, n') -> u_key u = k).
    { intros k m u m' N. unfold new_kms_unit in N. apply bind_ok in N. destruct N as (e & _ & N). injection N as <- _. reflexivity. }
    destruct (add_units_spec aws_key_eqb aws_key_eqb_eq _ _ _ _ _ _ KM AU) as (_ & _ & C & _). destruct (rc_kms (md_recipients (fl_meta ef1))) as [|u l]; [congruence|]. destruct (C (u_key u)). now left.
  Qed.
  (** Adding KMS entries that open keeps what the file opens with. *)
  Lemma insert_opens : forall k n key u n' us, kms_again E -> length key = 32 -> new_kms_unit E key k n = Ok (u, n') -> first_key (kms_decrypt_key E) us = Ok (Some key) ->
    first_key (kms_decrypt_key E) (unit_insert aws_key_eqb u us) = Ok (Some key).
  Proof.
    intros k n key u n' us KA L N. unfold new_kms_unit, kms_encrypt_key in N. apply bind_ok in N. destruct N as (e & N & X). injection X as <- _. apply bind_ok in N. destruct N as (c & C & N). destruct c as [req|]; [|discriminate].
    destruct (e_kms_encrypt E (S n) req key) as [| |b] eqn:KE; try discriminate. injection N as <-. cbn [fst].
    assert (O : kms_decrypt_key E k (encode_base64 b) = Ok (Some key)).
    { unfold kms_decrypt_key. rewrite decode_encode_vec. cbn [map_err bind]. rewrite C. cbn [bind]. rewrite (KA _ _ _ _ KE), L. reflexivity. }
    induction us as [|x us IH]; cbn [first_key unit_insert u_key u_enc]; [discriminate|]. intro F. destruct (aws_key_eqb (u_key x) k) eqn:Q; cbn [first_key u_key u_enc].
    - now rewrite O.
    - destruct (kms_decrypt_key E (u_key x) (u_enc x)) as [[y|]| |]; auto.
  Qed.
  Lemma inserts_open : forall ks key n us us' n', kms_again E -> length key = 32 -> add_units aws_key_eqb (new_kms_unit E key) ks us n = (us', Ok n') -> first_key (kms_decrypt_key E) us = Ok (Some key) ->
    first_key (kms_decrypt_key E) us' = Ok (Some key).
  Proof.
    induction ks as [|k ks IH]; intros key n us us' n' KA L A F; cbn [add_units] in A; [injection A as <- _; auto|]. destruct (new_kms_unit E key k n) as [[u n1]| |] eqn:N; try discriminate.
    eapply IH; eauto. eapply insert_opens; eauto.
  Qed.
  Lemma add_opens : forall f ks s n t n', ks_kms ks = [] \/ kms_again E -> add_text re ag cd E f ks s n = Ok (t, n') ->
    exists ef' key, file_text cd f ef' = Ok t /\ retrieve_data_key ag E (md_recipients (fl_meta ef')) = Ok key.
  Proof.
    intros f ks s n t n' KA H. unfold add_text in H. apply bind_ok in H. destruct H as (ef & R & H). destruct (file_add_age ag E (ks_age ks) ef n) as [ef1 o1] eqn:A. apply bind_ok in H. destruct H as (n1 & -> & H).
    destruct (file_add_kms ag E (ks_kms ks) ef1 n1) as [ef2 o2] eqn:B. apply bind_ok in H. destruct H as (n2 & -> & H). apply bind_ok in H. destruct H as (t' & T & H). injection H as <- _.
    unfold file_add_kms in B. destruct (retrieve_data_key ag E (md_recipients (fl_meta ef1))) as [key|e|] eqn:RK; try discriminate. exists ef2, key. split; auto. pose proof (retrieve_len _ _ _ _ RK) as L.
    unfold add_kms in B. destruct (add_units aws_key_eqb (new_kms_unit E key) (ks_kms ks) (rc_kms (md_recipients (fl_meta ef1))) n1) as [us o] eqn:AU. injection B as <- ->. cbn [with_recipients fl_meta md_recipients].
    unfold retrieve_data_key, decrypt_data_key in *. cbn [rc_age rc_kms]. destruct (first_key (age_decrypt_key ag E) (rc_age (md_recipients (fl_meta ef1)))) as [[x|]| |]; cbn [bind] in *; auto.
    apply bind_ok in RK. destruct RK as (o & F & RK). destruct o as [x|]; [|discriminate]. injection RK as ->. destruct KA as [K|KA]; [|now rewrite (inserts_open _ _ _ _ _ _ KA L AU F)].
    rewrite K in AU. injection AU as <- _. now rewrite F.
  Qed.
  Lemma edit_access : forall f s n ef df sv m t n', read_efile (re_valid re) ag cd f s = Ok ef -> file_decrypt_save re ag E f f ef = Ok (df, sv) -> edited_text re tp cd E f df sv m n = Ok (t, n') ->
    exists ef' key, file_text cd f ef' = Ok t /\ md_recipients (fl_meta ef') = md_recipients (fl_meta ef) /\ retrieve_data_key ag E (md_recipients (fl_meta ef')) = Ok key.
  Proof.
    intros f s n ef df sv m t n' R D H.
    assert (Q : md_recipients (fl_meta df) = md_recipients (fl_meta ef) /\ exists key, retrieve_data_key ag E (md_recipients (fl_meta ef)) = Ok key).
    { unfold file_decrypt_save in D. cbv zeta in D. apply bind_ok in D. destruct D as (key & K & D). do 4 (apply bind_ok in D; destruct D as (? & _ & D)). apply bind_ok in D. destruct D as (m' & _ & D). injection D as <- _. cbn [fl_meta with_mac md_recipients]. split; eauto. }
    destruct Q as [Q (key & K)]. unfold edited_text in H. apply bind_ok in H. destruct H as (df' & S & H). apply bind_ok in H. destruct H as ([ef' n1] & F & H). apply bind_ok in H. destruct H as (t' & T & H). injection H as <- _. cbn [fst] in T.
    apply set_map_ok in S. destruct S as (_ & _ & _ & _ & _ & _ & Qr & _). unfold file_encrypt_saved in F. apply bind_ok in F. destruct F as (dm & _ & F). apply encrypt_parts_ok in F. destruct F as (em & m1 & e & _ & _ & _ & M).
    exists ef', key. split; auto. rewrite M. cbn [with_mac md_recipients]. rewrite Qr, Q. auto.
  Qed.
  Lemma build_access : forall f b n ef n', builder_encrypt re tp ag E f b n = Ok (ef, n') -> somebody (md_recipients (fl_meta ef)).
  Proof.
    intros f b n ef n' H. apply build_ok in H. destruct H as (dm & em & n1 & rc & n2 & e & _ & _ & C & _ & _ & ->). cbn [md_recipients].
    apply (build_recipients_ok ag (fun _ => True)) in C; auto. destruct C as (N & _ & _ & KA & KK).
    destruct N as [N|N]; [left; destruct (bd_age b) as [|r l]|right; destruct (bd_kms b) as [|r l]]; try congruence; intro X; rewrite X in *; [apply (proj2 (KA r))|apply (proj2 (KK r))]; now left.
  Qed.
  Lemma build_named : forall W f b n ef n', age_law ag -> kms_law W -> W E -> builder_encrypt re tp ag E f b n = Ok (ef, n') ->
    (forall r, In r (map u_key (rc_age (md_recipients (fl_meta ef)))) <-> In r (bd_age b)) /\ (forall k, In k (map u_key (rc_kms (md_recipients (fl_meta ef)))) <-> In k (bd_kms b))
    /\ exists key, forall E', W E' -> can_open ag E' (md_recipients (fl_meta ef)) -> retrieve_data_key ag E' (md_recipients (fl_meta ef)) = Ok key.
  Proof.
    intros W f b n ef n' AL KL WE H. apply build_ok in H. destruct H as (dm & em & n1 & rc & n2 & e & _ & _ & C & _ & _ & ->). cbn [fl_meta md_recipients].
    apply (build_recipients_ok ag W) in C; auto. destruct C as (_ & AW & _ & KA & KK). split; auto. split; auto. exists (draw_key tp n). intros E' WE' O. eapply retrieve_open; eauto using draw_key_len.
  Qed.
  Lemma refresh_access : forall f rules path s n t n', refresh_text re tp ag cd E f rules path s n = Ok (t, n') ->
    t = s \/ exists ef', file_text cd f ef' = Ok t /\ somebody (md_recipients (fl_meta ef')).
  Proof.
    intros f rules path s n t n' H. unfold refresh_text in H. apply bind_ok in H. destruct H as (ef & R & H). destruct (matching_rule re (path_to_match path) rules) as [r|]; [|injection H as <- _; auto].
    destruct (implies_metadata r (fl_meta ef)); [injection H as <- _; auto|]. apply bind_ok in H. destruct H as (df & _ & H). apply bind_ok in H. destruct H as ([ef' n1] & B & H). apply bind_ok in H. destruct H as (t' & T & H). injection H as <- _.
    right. exists ef'. split; auto. eapply build_access; eauto.
  Qed.
End Access.
