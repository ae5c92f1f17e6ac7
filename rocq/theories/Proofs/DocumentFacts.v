(** Facts about writing files as text and reading them. *)
From Coq Require Import Permutation.
From Verif.Model Require Import Document.
From Verif.Spec Require Import SpecDocument.
From Verif.Proofs Require Import BytesFacts IntFacts FloatFacts Utf8Facts Base64Facts ValueFacts TreeFacts MapFacts NonceFacts FormatFacts FormatEnc AwsFacts IntegrationFacts TimestampFacts.
Open Scope byte_scope.

(** ** Texts are UTF-8 *)
Definition all_ascii (s : bytes) : bool := forallb ascii s.
Lemma ascii_text : forall s, all_ascii s = true -> utf8_text s.
Proof. intros s H. apply utf8_valid_iff, utf8_ascii. unfold all_ascii in H. rewrite forallb_forall in H. exact H. Qed.
Lemma all_ascii_app : forall a b, all_ascii (a ++ b) = all_ascii a && all_ascii b.
Proof. intros. unfold all_ascii. apply forallb_app. Qed.
Lemma all_ascii_cons : forall c s, all_ascii (c :: s) = ascii c && all_ascii s.
Proof. reflexivity. Qed.

Lemma digit_is_ascii : forall n, (n < 10)%N -> ascii (digit n) = true.
Proof.
  intros n H. assert (E : forallb (fun k => ascii (digit (N.of_nat k))) (seq 0 10) = true) by (vm_compute; reflexivity).
  rewrite forallb_forall in E. specialize (E (N.to_nat n)). rewrite N2Nat.id in E. apply E, in_seq. lia.
Qed.
Lemma pad2_ascii : forall n, (n < 100)%N -> all_ascii (pad2 n) = true.
Proof.
  intros n H. unfold pad2. cbn [all_ascii forallb]. rewrite !digit_is_ascii; auto. { apply N.mod_lt. lia. } apply N.div_lt_upper_bound; lia.
Qed.
Lemma pad3_ascii : forall n, (n < 1000)%N -> all_ascii (pad3 n) = true.
Proof.
  intros n H. unfold pad3. rewrite all_ascii_cons, digit_is_ascii, pad2_ascii; auto. { apply N.mod_lt. lia. } apply N.div_lt_upper_bound; lia.
Qed.
Lemma fraction_ascii : forall n, (n < 1000000000)%N -> all_ascii (fraction_text n) = true.
Proof.
  intros n H. assert (A : (n / 1000000 < 1000)%N) by (apply N.div_lt_upper_bound; lia).
  assert (B : (n / 1000 mod 1000 < 1000)%N) by (apply N.mod_lt; lia). assert (C : (n mod 1000 < 1000)%N) by (apply N.mod_lt; lia).
  unfold fraction_text. destruct (n =? 0)%N; auto. destruct (n mod 1000000 =? 0)%N; [|destruct (n mod 1000 =? 0)%N];
    rewrite all_ascii_cons, ?all_ascii_app, ?pad3_ascii by assumption; reflexivity.
Qed.
Lemma N_text_ascii : forall n, all_ascii (N_text n) = true.
Proof.
  intros n. unfold all_ascii. apply forallb_forall. intros c I. apply digit_ascii. eapply N_text_digits; eauto.
Qed.
Lemma year_ascii : forall y, all_ascii (year_text y) = true.
Proof.
  intros y. unfold year_text. destruct ((0 <=? y) && (y <=? 9999))%Z eqn:E.
  - apply andb_true_iff in E. destruct E as [E1 E2]. apply Z.leb_le in E1, E2. rewrite all_ascii_app, !pad2_ascii; auto. { apply N.mod_lt. lia. } apply N.div_lt_upper_bound; lia.
  - rewrite all_ascii_cons. assert (X : ascii (if (y <? 0)%Z then "-" else "+") = true) by (destruct (y <? 0)%Z; reflexivity). rewrite X. cbn [andb]. cbv zeta.
    destruct (Z.to_N (Z.abs y) <=? 9999)%N eqn:F; [|apply N_text_ascii]. apply N.leb_le in F. rewrite all_ascii_app, !pad2_ascii; auto. { apply N.mod_lt. lia. } apply N.div_lt_upper_bound; lia.
Qed.
Lemma time_utf8 : forall t, valid_timestamp t = true -> utf8_text (time_text t).
Proof.
  intros t H. apply ascii_text. unfold valid_timestamp in H. rewrite !andb_true_iff in H.
  destruct H as [[[[[[[_ H1] H2] H3] H4] H5] H6] _]. destruct H1 as [_ H1]. destruct H2 as [_ H2].
  apply N.leb_le in H1, H2. apply N.ltb_lt in H3, H4, H5, H6. unfold time_text.
  assert (S : (shown_sec t < 100)%N) by (unfold shown_sec; destruct (1000000000 <=? t_nano t)%N; lia).
  repeat rewrite ?all_ascii_app, ?all_ascii_cons. rewrite year_ascii, !pad2_ascii, fraction_ascii by (try apply N.mod_lt; lia). reflexivity.
Qed.

Lemma base64_ascii : forall s, all_ascii (encode_base64 s) = true.
Proof.
  intros s. unfold all_ascii. apply forallb_forall. intros c I. destruct (ascii c) eqn:E; auto. exfalso. revert I. apply encode_base64_foreign.
  - destruct c; try discriminate E; reflexivity.
  - intro F. subst c. discriminate.
Qed.

Lemma evalue_utf8 : forall e, utf8_text (evalue_text e).
Proof.
  intros e. apply ascii_text. unfold evalue_text. rewrite !all_ascii_app, !base64_ascii. destruct (ev_type e); reflexivity.
Qed.
Lemma range_ascii : forall lo b, in_range lo "~" b = true -> ascii b = true.
Proof. intros lo b H. apply in_range_spec in H. destruct b; try reflexivity; exfalso; destruct H as [_ H]; vm_compute in H; apply H; reflexivity. Qed.
Lemma identifier_ascii : forall s, valid_identifier s = true -> all_ascii s = true.
Proof.
  intros s H. unfold valid_identifier in H. apply andb_true_iff in H. destruct H as [_ H]. unfold all_ascii. rewrite forallb_forall in *. intros c I.
  specialize (H c I). unfold id_char in H. rewrite !andb_true_iff in H. eapply range_ascii. apply H.
Qed.
Lemma resource_ascii : forall s, valid_resource s = true -> all_ascii s = true.
Proof.
  intros s H. unfold valid_resource in H. apply andb_true_iff in H. destruct H as [_ H]. unfold all_ascii. rewrite forallb_forall in *. intros c I.
  eapply range_ascii. apply (H c I).
Qed.
Lemma account_ascii : forall s, valid_account s = true -> all_ascii s = true.
Proof.
  intros s H. unfold valid_account in H. apply orb_true_iff in H. destruct H as [H|H].
  - apply andb_true_iff in H. destruct H as [_ H]. unfold all_ascii. rewrite forallb_forall in *. intros c I. now apply digit_ascii, H.
  - apply bytes_eqb_eq in H. now subst s.
Qed.
Lemma component_ascii : forall s, arn_component s -> all_ascii s = true.
Proof. intros s H. apply identifier_ascii, valid_identifier_iff, H. Qed.
Lemma arn_ascii : forall a, wf_arn a -> all_ascii (arn_text a) = true.
Proof.
  intros a (P & S & R & A & Pa & K). unfold arn_text, push_opt_id, push_id. rewrite !all_ascii_app.
  rewrite (component_ascii _ S), (component_ascii _ R), (component_ascii _ K). cbn [andb].
  assert (X : all_ascii match arn_partition a with Some s => s ++ [":"] | None => [] end = true).
  { destruct (arn_partition a) as [s|]; auto. rewrite all_ascii_app, (component_ascii _ P). reflexivity. }
  assert (Y : all_ascii match arn_account a with Some s => s ++ [":"] | None => [] end = true).
  { destruct (arn_account a) as [s|]; auto. rewrite all_ascii_app, (account_ascii _ A). reflexivity. }
  rewrite X, Y. destruct (arn_parent a) as [s|]; [|reflexivity]. rewrite all_ascii_app, (resource_ascii _ Pa). reflexivity.
Qed.

(** ** Documents without repeated keys and tags are kept by the readers *)

(** String keys that differ, no tags. *)
Fixpoint tidy (v : fvalue) : Prop :=
  match v with
  | FMap m => NoDup (map fst m) /\ each (fun kv => (exists s, fst kv = FStr s) /\ tidy (snd kv)) m
  | FSeq l => each tidy l
  | FTagged _ _ => False
  | _ => True
  end.
Lemma storable_tidy : forall f v, storable f v -> tidy v.
Proof.
  intros f. induction v as [m IH|l IH|s|b|n| |tg v IH|s] using fvalue_ind'; cbn [storable tidy]; auto.
  - intros [N H]. split; auto. rewrite each_Forall, Forall_forall in *. intros kv I. destruct (H kv I) as [(s & E & _) S]. split; eauto.
  - rewrite !each_Forall, !Forall_forall in *. auto.
Qed.
Lemma tidy_buffered : forall v, tidy v -> buffered v = true.
Proof.
  induction v as [m IH|l IH|s|b|n| |tg v IH|s] using fvalue_ind'; cbn [tidy buffered]; auto; try tauto.
  - intros [_ H]. apply forallb_forall. rewrite each_Forall, Forall_forall in *. intros kv I. destruct (H kv I) as [(s & E) T]. rewrite E, (IH kv I T). reflexivity.
  - rewrite each_Forall, Forall_forall in *. intro H. apply forallb_forall. auto.
Qed.

Lemma fkey_eqb : forall f s s', fvalue_eqb f (FStr s) (FStr s') = bytes_eqb s s'.
Proof. reflexivity. Qed.
Lemma insert_entry_new : forall s v m, (forall kv, In kv m -> exists s', fst kv = FStr s') -> ~ In (FStr s) (map fst m) -> insert_entry (FStr s) v m = m ++ [(FStr s, v)].
Proof.
  intros s v. induction m as [|[k' v'] m IH]; intros S N; cbn [insert_entry]; auto. destruct (S (k', v')) as (s' & E); [now left|]. cbn [fst] in E. subst k'.
  rewrite fkey_eqb. destruct (bytes_eqb s' s) eqn:B. { apply bytes_eqb_eq in B. subst s'. exfalso. apply N. now left. }
  rewrite IH; auto. { intros kv I. apply S. now right. } intro I. apply N. now right.
Qed.
Lemma existsb_key : forall f s m, (forall kv : fvalue * fvalue, In kv m -> exists s', fst kv = FStr s') -> ~ In (FStr s) (map fst m) ->
  existsb (fun kv' => fvalue_eqb f (fst kv') (FStr s)) m = false.
Proof.
  intros f s m S N. destruct (existsb (fun kv' => fvalue_eqb f (fst kv') (FStr s)) m) eqn:E; auto. apply existsb_exists in E. destruct E as (kv & I & E).
  destruct (S kv I) as (s' & Q). rewrite Q, fkey_eqb in E. apply bytes_eqb_eq in E. subst s'. exfalso. apply N. rewrite <- Q. now apply in_map.
Qed.
Lemma settle_entries_keep : forall f m, NoDup (map fst m) -> (forall kv : fvalue * fvalue, In kv m -> exists s, fst kv = FStr s) -> settle_entries f m = Ok m.
Proof.
  intros f m N S. unfold settle_entries.
  assert (G : forall l acc, NoDup (map fst (acc ++ l)) -> (forall kv : fvalue * fvalue, In kv (acc ++ l) -> exists s, fst kv = FStr s) ->
    fold_left (fun acc kv => let* m := acc in match f with Json => Ok (insert_entry (fst kv) (snd kv) m)
      | _ => if existsb (fun kv' => fvalue_eqb f (fst kv') (fst kv)) m then Err EDuplicateField else Ok (m ++ [kv]) end) l (Ok acc) = Ok (acc ++ l)).
  { clear. induction l as [|[k v] l IH]; intros acc N S; cbn [fold_left bind]. { now rewrite app_nil_r. }
    destruct (S (k, v)) as (s & E). { apply in_or_app. right. now left. } cbn [fst snd] in *. subst k.
    assert (A : forall kv : fvalue * fvalue, In kv acc -> exists s, fst kv = FStr s) by (intros; apply S, in_or_app; auto).
    assert (B : ~ In (FStr s) (map fst acc)).
    { rewrite map_app in N. cbn [map fst] in N. apply NoDup_remove_2 in N. intro I. apply N, in_or_app. auto. }
    assert (C : (match f with Json => Ok (insert_entry (FStr s) v acc)
      | _ => if existsb (fun kv' => fvalue_eqb f (fst kv') (FStr s)) acc then Err EDuplicateField else Ok (acc ++ [(FStr s, v)]) end) = Ok (acc ++ [(FStr s, v)])).
    { destruct f; rewrite ?existsb_key by auto; auto. now rewrite insert_entry_new. }
    cbv beta in C |- *. rewrite C. rewrite IH. { now rewrite <- app_assoc. } { now rewrite <- app_assoc. } { now rewrite <- app_assoc. } }
  apply (G m []); auto.
Qed.
Lemma settle_keep : forall f v, tidy v -> settle f v = Ok v.
Proof.
  intros f. induction v as [m IH|l IH|s|b|n| |tg v IH|s] using fvalue_ind'; cbn [tidy settle]; auto; try tauto.
  - intros [N H]. rewrite each_Forall, Forall_forall in H. rewrite Forall_forall in IH.
    match goal with |- context [mapM ?g m] => assert (E : mapM g m = Ok m) end.
    { apply mapM_ok. assert (X : forall kv, In kv m -> In kv m) by auto. revert X. generalize m at 1 3 4. induction m0 as [|[k v] m' IHm]; intro X; constructor.
      - destruct (H (k, v)) as [(s & E) T]; [apply X; now left|]. cbn [fst snd] in *. subst k. cbn [settle bind]. assert (Y : settle f v = Ok v) by (apply (IH (FStr s, v)); auto; apply X; now left). now rewrite Y.
      - apply IHm. intros kv I. apply X. now right. }
    rewrite E. cbn [bind]. rewrite settle_entries_keep; auto. intros kv I. apply (H kv I).
  - intro H. rewrite each_Forall in H. assert (E : mapM (settle f) l = Ok l).
    { apply mapM_ok. induction IH as [|x l X _ IHl]; constructor; inversion H; subst; auto. }
    now rewrite E.
Qed.
Lemma settle_map_keep : forall f m, tidy (FMap m) -> settle_map f m = Ok m.
Proof. intros f m T. unfold settle_map. now rewrite (settle_keep f _ T). Qed.

(** ** Fields *)
Lemma key_is_field : forall k k' v, key_is k (field k' v) = bytes_eqb k' k.
Proof. reflexivity. Qed.

(** Splitting a list of entries in two by a test, as TOML does, changes no field that occurs at most once. *)
Lemma filter_filter : forall {A} (p q : A -> bool) l, filter p (filter q l) = filter q (filter p l).
Proof.
  intros A p q. induction l as [|x l IH]; cbn [filter]; auto. destruct (q x) eqn:Q, (p x) eqn:P; cbn [filter]; rewrite ?P, ?Q, IH; auto.
Qed.
Definition part {A} (q : A -> bool) (l : list A) : list A := filter (fun x => negb (q x)) l ++ filter q l.
Lemma filter_part : forall {A} (p q : A -> bool) l, length (filter p l) <= 1 -> filter p (part q l) = filter p l.
Proof.
  intros A p q l H. unfold part. rewrite filter_app, !(filter_filter p).
  destruct (filter p l) as [|x [|y r]]; cbn [length] in H; [reflexivity| |lia]. cbn [filter]. destruct (q x); reflexivity.
Qed.
Lemma get_field_part : forall k q es, length (filter (key_is k) es) <= 1 -> get_field k (part q es) = get_field k es.
Proof. intros k q es H. unfold get_field. now rewrite filter_part. Qed.
Lemma find_filter : forall {A} (p : A -> bool) l, find p l = match filter p l with [] => None | x :: _ => Some x end.
Proof. intros A p. induction l as [|x l IH]; cbn [find filter]; auto. destruct (p x); auto. Qed.
Lemma find_part : forall {A} (p q : A -> bool) l, length (filter p l) <= 1 -> find p (part q l) = find p l.
Proof. intros A p q l H. rewrite !find_filter. now rewrite filter_part. Qed.
Lemma get_field_len : forall k es o, get_field k es = Ok o -> length (filter (key_is k) es) <= 1.
Proof. intros k es o H. unfold get_field in H. destruct (filter (key_is k) es) as [|x [|y r]]; cbn [length]; try lia. discriminate. Qed.

(** ** Metadata *)
Definition seq_field {K} (config : K -> fmap) (us : list (wrapped K)) : option fvalue :=
  match us with [] => None | _ => Some (FSeq (map (unit_value config) us)) end.
Lemma meta_fields : forall {M} (mac : M -> bytes) (md : meta M), let es := meta_entries mac md in
  get_field k_modified es = Ok (Some (FStr (time_text (md_modified md))))
  /\ get_field k_mac es = Ok (Some (FStr (mac (md_mac md))))
  /\ get_field k_only es = Ok (option_map FBool (md_only md))
  /\ get_field k_kms es = Ok (seq_field kms_config (rc_kms (md_recipients md)))
  /\ get_field k_age es = Ok (seq_field age_config (rc_age (md_recipients md)))
  /\ filter is_rule_entry es = match md_partial md with Some p => [rule_field p] | None => [] end.
Proof.
  intros M mac [[kms age] lm m p o]. cbv zeta. unfold meta_entries. cbn [md_recipients md_modified md_mac md_partial md_only rc_kms rc_age].
  destruct kms as [|k ks], age as [|a al], p as [[| | |]|], o as [b|]; repeat split; reflexivity.
Qed.

Section Read.
  Context (re_valid : bytes -> bool) (ag : age_crate) (cd : codec) (TL : time_law cd).

  Lemma read_rule_back : forall {M} (mac : M -> bytes) (md : meta M) q, plain_rule re_valid (md_partial md) -> read_rule re_valid (part q (meta_entries mac md)) = md_partial md.
  Proof.
    intros M mac md q P. destruct (meta_fields mac md) as (_ & _ & _ & _ & _ & R). unfold read_rule.
    rewrite find_part, find_filter by (rewrite R; destruct (md_partial md); cbn [length]; lia). rewrite R.
    destruct (md_partial md) as [[s|s|s|s]|]; cbn [plain_rule] in P; unfold read_rule_entry, rule_field; cbn [snd field]; try reflexivity;
      destruct P as [_ P]; rewrite P; reflexivity.
  Qed.

  Lemma read_age_back : forall u, plain_unit (plain_recipient ag) u -> read_unit cd (read_age_config ag) (unit_value age_config u) = Ok u.
  Proof.
    intros [k c e] ((R & _) & C & _). cbn [u_key u_created u_enc] in *. unfold read_unit, unit_value. cbn [as_map bind u_key u_created u_enc].
    unfold read_age_config.
    assert (A : forall c', get_field k_recipient (age_config k ++ opt_field k_created c' (fun t => FStr (time_text t)) ++ [field k_enc (FStr e)]) = Ok (Some (FStr k))) by (intros [t|]; reflexivity).
    assert (B : forall c', get_field k_created (age_config k ++ opt_field k_created c' (fun t => FStr (time_text t)) ++ [field k_enc (FStr e)]) = Ok (option_map (fun t => FStr (time_text t)) c')) by (intros [t|]; reflexivity).
    assert (D : forall c', get_field k_enc (age_config k ++ opt_field k_created c' (fun t => FStr (time_text t)) ++ [field k_enc (FStr e)]) = Ok (Some (FStr e))) by (intros [t|]; reflexivity).
    rewrite A, B, D. cbn [bind need ok_or as_string]. rewrite R. cbn [ok_or bind].
    destruct c as [t|]; cbn [option_map bind need ok_or as_string]; auto. unfold as_time. cbn [as_string bind]. rewrite TL by auto. reflexivity.
  Qed.

  Lemma plain_key_wf : forall k, plain_key k -> utf8_text (ak_profile k) /\ wf_arn (ak_arn k) /\ parse_arn (arn_text (ak_arn k)) = Ok (ak_arn k).
  Proof.
    intros k ((s & H) & U & P & A). unfold parse_aws_key in H. destruct (split_once "." s) as [[pr ar]|] eqn:S; [|discriminate].
    apply bind_ok in H. destruct H as (a & H & E). injection E as <-. cbn [ak_profile ak_arn] in *. pose proof (parse_arn_wf _ _ H) as W. split; [|split]; auto.
    destruct (arn_partition a) as [p|] eqn:EP; [|congruence]. destruct (arn_account a) as [c|] eqn:EC; [|congruence]. eapply arn_round_trip; eauto.
  Qed.

  Lemma read_kms_back : forall u, plain_unit plain_key u -> read_unit cd read_kms_config (unit_value kms_config u) = Ok u.
  Proof.
    intros [k c e] (R & C & _). cbn [u_key u_created u_enc] in *. apply plain_key_wf in R. destruct R as (_ & _ & R).
    unfold read_unit, unit_value. cbn [as_map bind u_key u_created u_enc]. unfold read_kms_config.
    assert (A : forall c', get_field k_profile (kms_config k ++ opt_field k_created c' (fun t => FStr (time_text t)) ++ [field k_enc (FStr e)]) = Ok (Some (FStr (ak_profile k)))) by (intros [t|]; reflexivity).
    assert (A' : forall c', get_field k_arn (kms_config k ++ opt_field k_created c' (fun t => FStr (time_text t)) ++ [field k_enc (FStr e)]) = Ok (Some (FStr (arn_text (ak_arn k))))) by (intros [t|]; reflexivity).
    assert (B : forall c', get_field k_created (kms_config k ++ opt_field k_created c' (fun t => FStr (time_text t)) ++ [field k_enc (FStr e)]) = Ok (option_map (fun t => FStr (time_text t)) c')) by (intros [t|]; reflexivity).
    assert (D : forall c', get_field k_enc (kms_config k ++ opt_field k_created c' (fun t => FStr (time_text t)) ++ [field k_enc (FStr e)]) = Ok (Some (FStr e))) by (intros [t|]; reflexivity).
    rewrite A, A', B, D. cbn [bind need ok_or as_string]. rewrite R. cbn [map_err ok_or bind].
    replace {| ak_profile := ak_profile k; ak_arn := ak_arn k |} with k by now destruct k.
    destruct c as [t|]; cbn [option_map bind need ok_or as_string]; auto. unfold as_time. cbn [as_string bind]. rewrite TL by auto. reflexivity.
  Qed.

  Lemma fold_units : forall {K} (eqb : K -> K -> bool), (forall a b, eqb a b = true <-> a = b) -> forall us acc, NoDup (map u_key (acc ++ us)) ->
    fold_left (fun acc u => unit_insert eqb u acc) us acc = acc ++ us.
  Proof.
    intros K eqb EQ. induction us as [|u us IH]; intros acc N; cbn [fold_left]. { now rewrite app_nil_r. }
    rewrite (unit_insert_new eqb EQ). 2:{ rewrite map_app in N. cbn [map] in N. apply NoDup_remove_2 in N. intro I. apply N, in_or_app. auto. }
    rewrite IH; rewrite <- app_assoc; auto.
  Qed.

  Lemma read_units_back : forall {K} k eqb (config : K -> fmap) rd us es, (forall a b, eqb a b = true <-> a = b) -> distinct_units us ->
    (forall u, In u us -> read_unit cd rd (unit_value config u) = Ok u) -> get_field k es = Ok (seq_field config us) -> read_units cd k eqb rd es = Ok us.
  Proof.
    intros K k eqb config rd us es EQ D R G. unfold read_units. rewrite G. cbn [bind]. unfold seq_field. destruct us as [|u us']; auto. remember (u :: us') as us.
    assert (X : mapM (read_unit cd rd) (map (unit_value config) us) = Ok us).
    { apply mapM_ok. clear - R. induction us as [|x us IH]; cbn [map]; constructor; [apply R; now left|]. apply IH. intros y I. apply R. now right. }
    rewrite X. cbn [bind]. now rewrite (fold_units eqb EQ us []).
  Qed.

  (** The metadata is read back, also after TOML has put the tables last. *)
  Lemma read_meta_back : forall md q, plain_meta re_valid ag md -> read_meta re_valid ag cd parse_evalue (FMap (part q (meta_entries evalue_text md))) = Ok md.
  Proof.
    intros md q (PA & PK & (DA & DK) & RT & RM & RR). destruct (meta_fields evalue_text md) as (F1 & F2 & F3 & F4 & F5 & _). unfold read_meta. cbn [as_map bind].
    rewrite !get_field_part by (eapply get_field_len; eauto). rewrite F1, F2, F3. cbn [bind need ok_or as_string]. unfold as_time. cbn [as_string bind].
    rewrite TL by exact RT. cbn [ok_or bind]. rewrite evalue_text_round by exact RM. cbn [map_err bind].
    rewrite (read_units_back k_kms aws_key_eqb kms_config read_kms_config (rc_kms (md_recipients md))); auto using aws_key_eqb_eq, read_kms_back.
    2:{ rewrite get_field_part by (eapply get_field_len; eauto). exact F4. }
    rewrite (read_units_back k_age bytes_eqb age_config (read_age_config ag) (rc_age (md_recipients md))); auto using bytes_eqb_eq, read_age_back.
    2:{ rewrite get_field_part by (eapply get_field_len; eauto). exact F5. }
    rewrite read_rule_back by exact RR. destruct md as [[kms age] lm mac p [b|]]; reflexivity.
  Qed.
End Read.

(** ** The layout of files *)
Definition tabular (kv : fvalue * fvalue) : bool := table_like (snd kv).
Definition ordered (kv : fvalue * fvalue) : fvalue * fvalue := (fst kv, toml_order (snd kv)).
Lemma toml_order_map : forall m, toml_order (FMap m) = FMap (part tabular (map ordered m)).
Proof. reflexivity. Qed.
Lemma table_like_order : forall v, table_like (toml_order v) = table_like v.
Proof.
  destruct v as [m|l|s|b|n| |t v|s]; auto. cbn [toml_order]. destruct (table_like (FSeq l)) eqn:E; auto.
  destruct l as [|x l]; [discriminate E|]. cbn [table_like map forallb] in *. apply andb_true_iff in E. destruct E as [E1 E2].
  destruct x; try discriminate E1. cbn [toml_order andb]. rewrite forallb_forall in *. intros y I. apply in_map_iff in I. destruct I as (z & <- & I). specialize (E2 z I). destruct z; try discriminate E2. reflexivity.
Qed.
Lemma part_perm : forall {A} (q : A -> bool) l, Permutation (part q l) l.
Proof.
  intros A q. induction l as [|x l IH]; cbn [part filter app]; auto. unfold part in *. cbn [filter]. destruct (q x); cbn [negb].
  - eapply perm_trans; [|apply perm_skip, IH]. symmetry. apply Permutation_middle.
  - cbn [app]. now apply perm_skip.
Qed.
Lemma part_in : forall {A} (q : A -> bool) l x, In x (part q l) <-> In x l.
Proof. intros A q l x. split; apply Permutation_in; [|symmetry]; apply part_perm. Qed.
Lemma part_none : forall {A} (q : A -> bool) l, (forall x, In x l -> q x = false) -> part q l = l.
Proof.
  intros A q l H. unfold part. replace (filter q l) with (@nil A).
  - rewrite app_nil_r. induction l as [|x l IH]; cbn [filter]; auto. rewrite (H x) by now left. cbn [negb]. f_equal. apply IH. intros y I. apply H. now right.
  - induction l as [|x l IH]; cbn [filter]; auto. rewrite (H x) by now left. apply IH. intros y I. apply H. now right.
Qed.
Lemma map_ordered_keys : forall m, map fst (map ordered m) = map fst m.
Proof. intro m. rewrite map_map. reflexivity. Qed.

Lemma tidy_order : forall v, tidy v -> tidy (toml_order v).
Proof.
  induction v as [m IH|l IH|s|b|n| |tg v IH|s] using fvalue_ind'; auto.
  - rewrite toml_order_map. cbn [tidy]. intros [N H]. rewrite each_Forall, Forall_forall in *. split.
    + eapply Permutation_NoDup; [apply Permutation_map, Permutation_sym, part_perm|]. now rewrite map_ordered_keys.
    + intros kv I. apply part_in, in_map_iff in I. destruct I as (kv0 & <- & I). destruct (H kv0 I) as [S T]. cbn [ordered fst snd]. split; auto.
  - cbn [tidy toml_order]. intro H. destruct (table_like (FSeq l)); [|exact H]. cbn [tidy]. rewrite each_Forall, Forall_forall in *. intros x I. apply in_map_iff in I. destruct I as (y & <- & I). auto.
Qed.
Lemma tidy_floats : forall g v, tidy v -> tidy (map_floats g v).
Proof.
  intros g. induction v as [m IH|l IH|s|b|n| |tg v IH|s] using fvalue_ind'; cbn [tidy map_floats]; auto.
  - intros [N H]. rewrite each_Forall, Forall_forall in *. split. { now rewrite map_map. }
    intros kv I. apply in_map_iff in I. destruct I as (kv0 & <- & I). destruct (H kv0 I) as [S T]. cbn [fst snd]. auto.
  - intro H. rewrite each_Forall, Forall_forall in *. intros x I. apply in_map_iff in I. destruct I as (y & <- & I). auto.
  - destruct n; auto.
Qed.

Lemma put_new : forall s v m, (forall kv, In kv m -> exists s', fst kv = FStr s') -> ~ In (FStr s) (map fst m) -> put (FStr s) v m = m ++ [(FStr s, v)].
Proof. exact insert_entry_new. Qed.
Lemma once_app : forall l acc, NoDup (map fst (acc ++ l)) -> (forall kv : fvalue * fvalue, In kv (acc ++ l) -> exists s, fst kv = FStr s) ->
  fold_left (fun m kv => put (fst kv) (snd kv) m) l acc = acc ++ l.
Proof.
  induction l as [|[k v] l IH]; intros acc N S; cbn [fold_left]. { now rewrite app_nil_r. }
  destruct (S (k, v)) as (s & E). { apply in_or_app. right. now left. } cbn [fst snd] in *. subst k.
  rewrite put_new. { rewrite IH; rewrite <- app_assoc; auto. } { intros; apply S, in_or_app; auto. }
  rewrite map_app in N. cbn [map fst] in N. apply NoDup_remove_2 in N. intro I. apply N, in_or_app. auto.
Qed.
Lemma once_same : forall m, tidy (FMap m) -> once m = m.
Proof.
  intros m [N H]. unfold once. apply (once_app m []); auto. intros kv I. rewrite each_Forall, Forall_forall in H. apply (H kv I).
Qed.
Lemma tidy_layout : forall g f m, tidy (FMap m) -> tidy (FMap (layout g f m)).
Proof.
  intros g f m T. destruct f; cbn [layout]; auto.
  - exact (tidy_floats g _ T).
  - rewrite once_same by exact T. exact (tidy_order _ T).
Qed.

(** One value as it is read back. *)
Definition value_layout (g : f64 -> f64) (f : fmt) (v : fvalue) : fvalue := match f with Yaml => v | Json => map_floats g v | Toml => toml_order v end.
Lemma part_last : forall {A} (q : A -> bool) l x, q x = true -> part q (l ++ [x]) = part q l ++ [x].
Proof. intros A q l x Q. unfold part. rewrite !filter_app. cbn [filter]. rewrite Q. cbn [negb]. now rewrite app_nil_r, app_assoc. Qed.
Lemma tidy_last : forall m s v, tidy (FMap m) -> ~ In (FStr s) (map fst m) -> tidy v -> tidy (FMap (m ++ [field s v])).
Proof.
  intros m s v [N H] S T. cbn [tidy]. rewrite each_Forall in *. split.
  - rewrite map_app. cbn [map field fst]. eapply Permutation_NoDup; [apply Permutation_cons_append|]. constructor; auto.
  - apply Forall_app. split; auto. constructor; auto. cbn [field fst snd]. split; eauto.
Qed.
Lemma layout_last : forall g f m s X, tidy (FMap m) -> ~ In (FStr s) (map fst m) -> tidy (FMap X) ->
  layout g f (m ++ [field s (FMap X)]) = layout g f m ++ [field s (value_layout g f (FMap X))].
Proof.
  intros g f m s X T S TX. destruct f; cbn [layout value_layout]; auto.
  - cbn [map_floats doc_of]. rewrite map_app. reflexivity.
  - rewrite !once_same; auto using tidy_last. rewrite !toml_order_map. cbn [doc_of]. rewrite map_app. cbn [map]. rewrite part_last by (cbn; reflexivity). reflexivity.
Qed.

(** Values without tables and floats are read back as they are. *)
Definition flat_value (v : fvalue) : bool := match v with FStr _ | FBool _ | FNull | FNum (NInt _) => true | _ => false end.
Definition flat_entry (kv : fvalue * fvalue) : bool := flat_value (snd kv).
Lemma flat_not_tabular : forall v, flat_value v = true -> table_like v = false /\ toml_order v = v /\ forall g, map_floats g v = v.
Proof. intros v H. destruct v as [m|l|s|b|[z|x]| |t v|s]; try discriminate H; repeat split; reflexivity. Qed.
Lemma flat_map_layout : forall g f m, forallb flat_entry m = true -> value_layout g f (FMap m) = FMap m.
Proof.
  intros g f m H. rewrite forallb_forall in H. assert (A : map ordered m = m).
  { rewrite <- (map_id m) at 2. apply map_ext_in. intros [k v] I. unfold ordered. cbn [fst snd]. f_equal. apply flat_not_tabular, (H (k, v) I). }
  destruct f; cbn [value_layout]; auto.
  - cbn [map_floats]. f_equal. rewrite <- (map_id m) at 2. apply map_ext_in. intros [k v] I. cbn [fst snd]. f_equal. apply flat_not_tabular, (H (k, v) I).
  - rewrite toml_order_map, A. f_equal. apply part_none. intros kv I. apply flat_not_tabular, (H kv I).
Qed.
Lemma unit_flat : forall {K} (config : K -> fmap) u, forallb flat_entry (config (u_key u)) = true ->
  exists m, unit_value config u = FMap m /\ forallb flat_entry m = true.
Proof.
  intros K config u H. unfold unit_value. eexists. split; [reflexivity|]. rewrite !forallb_app, H. cbn [andb]. destruct (u_created u); reflexivity.
Qed.
Lemma units_layout : forall {K} (config : K -> fmap) g f us, (forall k, forallb flat_entry (config k) = true) ->
  value_layout g f (FSeq (map (unit_value config) us)) = FSeq (map (unit_value config) us).
Proof.
  intros K config g f us H. destruct f; cbn [value_layout]; auto.
  - cbn [map_floats]. rewrite map_map. f_equal. apply map_ext. intro u. destruct (unit_flat config u (H _)) as (m & E & F). rewrite E. exact (flat_map_layout g Json m F).
  - cbn [toml_order]. destruct (table_like (FSeq (map (unit_value config) us))); auto. rewrite map_map. f_equal. apply map_ext. intro u.
    destruct (unit_flat config u (H _)) as (m & E & F). rewrite E. exact (flat_map_layout g Toml m F).
Qed.
Lemma meta_values : forall {M} (mac : M -> bytes) md kv, In kv (meta_entries mac md) ->
  (exists us, snd kv = FSeq (map (unit_value kms_config) us)) \/ (exists us, snd kv = FSeq (map (unit_value age_config) us)) \/ flat_entry kv = true.
Proof.
  intros M mac md kv I. unfold meta_entries in I. rewrite !in_app_iff in I. destruct I as [I|[I|[I|[I|I]]]].
  - unfold units_field in I. destruct (rc_kms (md_recipients md)) as [|u us]; [destruct I|]. destruct I as [<-|[]]. left. exists (u :: us). reflexivity.
  - unfold units_field in I. destruct (rc_age (md_recipients md)) as [|u us]; [destruct I|]. destruct I as [<-|[]]. right. left. exists (u :: us). reflexivity.
  - right. right. destruct I as [<-|[<-|[]]]; reflexivity.
  - right. right. destruct (md_partial md) as [[| | |]|]; [..|destruct I]; destruct I as [<-|[]]; reflexivity.
  - right. right. destruct (md_only md); [|destruct I]; destruct I as [<-|[]]; reflexivity.
Qed.
Lemma kms_config_flat : forall k, forallb flat_entry (kms_config k) = true.
Proof. reflexivity. Qed.
Lemma age_config_flat : forall k, forallb flat_entry (age_config k) = true.
Proof. reflexivity. Qed.
Lemma meta_value_layout : forall {M} (mac : M -> bytes) md g f kv, In kv (meta_entries mac md) -> value_layout g f (snd kv) = snd kv.
Proof.
  intros M mac md g f kv I. apply meta_values in I. destruct I as [(us & ->)|[(us & ->)|I]].
  - apply units_layout, kms_config_flat.
  - apply units_layout, age_config_flat.
  - destruct f; auto; cbn [value_layout]; now apply flat_not_tabular.
Qed.
Lemma meta_layout : forall {M} (mac : M -> bytes) md g f, exists q, value_layout g f (FMap (meta_entries mac md)) = FMap (part q (meta_entries mac md)).
Proof.
  intros M mac md g f. destruct f.
  - exists (fun _ => false). cbn [value_layout]. now rewrite part_none.
  - exists (fun _ => false). rewrite part_none by auto. cbn [value_layout map_floats]. f_equal. rewrite <- (map_id (meta_entries mac md)) at 2. apply map_ext_in. intros [k v] I.
    cbn [fst snd]. f_equal. exact (meta_value_layout mac md g Json (k, v) I).
  - exists tabular. cbn [value_layout]. rewrite toml_order_map. f_equal. f_equal. rewrite <- (map_id (meta_entries mac md)) at 2. apply map_ext_in. intros [k v] I.
    unfold ordered. cbn [fst snd]. f_equal. exact (meta_value_layout mac md g Toml (k, v) I).
Qed.

Fixpoint distinct_strings (l : list bytes) : bool := match l with [] => true | x :: l' => negb (existsb (bytes_eqb x) l') && distinct_strings l' end.
Lemma NoDup_strings : forall l : list bytes, distinct_strings l = true -> NoDup (map FStr l).
Proof.
  induction l as [|x l IH]; cbn [map]; intro H; [constructor|]. cbn [distinct_strings] in H. apply andb_true_iff in H. destruct H as [H1 H2]. constructor; auto.
  intro I. apply in_map_iff in I. destruct I as (y & E & I). injection E as ->. apply negb_true_iff in H1.
  assert (X : existsb (bytes_eqb x) l = true) by (apply existsb_exists; exists x; split; auto; apply bytes_eqb_refl). congruence.
Qed.
Lemma meta_nodup : forall {M} (mac : M -> bytes) (md : meta M), NoDup (map fst (meta_entries mac md)).
Proof.
  intros M mac [[kms age] lm m p o]. unfold meta_entries. cbn [md_recipients md_modified md_mac md_partial md_only rc_kms rc_age].
  destruct kms as [|k ks], age as [|a al], p as [[| | |]|], o as [b|]; cbn [units_field opt_field rule_field field app map fst];
  match goal with |- NoDup ?l => let rec go l := match l with @nil _ => constr:(@nil bytes) | FStr ?x :: ?r => let r' := go r in constr:(x :: r') end in
    let l' := go l in change (NoDup (map FStr l')) end; apply NoDup_strings; vm_compute; reflexivity.
Qed.

Section FileText.
  Context (re_valid : bytes -> bool) (ag : age_crate) (cd : codec) (g : f64 -> f64) (TL : time_law cd).

  Lemma flat_depth : forall v, flat_value v = true -> depth v = 0.
  Proof. intros v H. destruct v as [m|l|s|b|[z|x]| |t v|s]; try discriminate H; reflexivity. Qed.
  Lemma depth_bound_map : forall m n, (forall kv, In kv m -> depth (snd kv) <= n) -> depth (FMap m) <= S n.
  Proof. intros m n H. cbn [depth]. apply le_n_S. induction m as [|kv m IH]; cbn [fold_right]; [lia|]. apply Nat.max_lub; [apply H; now left|]. apply IH. intros x I. apply H. now right. Qed.
  Lemma depth_bound_seq : forall l n, (forall x, In x l -> depth x <= n) -> depth (FSeq l) <= S n.
  Proof. intros m n H. cbn [depth]. apply le_n_S. induction m as [|kv m IH]; cbn [fold_right]; [lia|]. apply Nat.max_lub; [apply H; now left|]. apply IH. intros x I. apply H. now right. Qed.
  Lemma depth_map_in : forall m kv, In kv m -> S (depth (snd kv)) <= depth (FMap m).
  Proof. intros m kv I. cbn [depth]. apply le_n_S. induction m as [|x m IH]; cbn [fold_right]; [destruct I|]. destruct I as [->|I]; [apply Nat.le_max_l|]. eapply Nat.le_trans; [apply IH, I|apply Nat.le_max_r]. Qed.
  Lemma units_depth : forall {K} (config : K -> fmap) us, (forall k, forallb flat_entry (config k) = true) -> depth (FSeq (map (unit_value config) us)) <= 2.
  Proof.
    intros K config us H. apply depth_bound_seq. intros x I. apply in_map_iff in I. destruct I as (u & <- & I). destruct (unit_flat config u (H _)) as (m & E & F). rewrite E.
    apply depth_bound_map. intros kv J. rewrite forallb_forall in F. rewrite flat_depth; auto. apply (F kv J).
  Qed.
  Lemma meta_depth : forall {M} (mac : M -> bytes) md, depth (FMap (meta_entries mac md)) <= 3.
  Proof.
    intros M mac md. apply depth_bound_map. intros kv I. apply meta_values in I. destruct I as [(us & ->)|[(us & ->)|I]].
    - apply units_depth, kms_config_flat.
    - apply units_depth, age_config_flat.
    - rewrite flat_depth; auto.
  Qed.

  Lemma lit_text : forall s, all_ascii s = true -> exists s', FStr s = FStr s' /\ utf8_text s'.
  Proof. intros s H. exists s. split; auto. now apply ascii_text. Qed.
  Lemma age_unit_storable : forall f u, plain_unit (plain_recipient ag) u -> storable f (unit_value age_config u).
  Proof.
    intros f [k c e] ((_ & U) & C & UE). cbn [u_key u_created u_enc] in *. unfold unit_value. cbn [u_key u_created u_enc storable].
    split.
    - unfold age_config. destruct c as [t|]; cbn [opt_field app map field fst]; [apply (NoDup_strings [k_recipient; k_created; k_enc])|apply (NoDup_strings [k_recipient; k_enc])]; vm_compute; reflexivity.
    - rewrite each_Forall. apply Forall_app. split; [|apply Forall_app; split].
      + constructor; auto. cbn [field fst snd storable]. split; auto. now apply lit_text.
      + destruct c as [t|]; cbn [opt_field]; constructor; auto. cbn [field fst snd storable]. split. { now apply lit_text. } apply time_utf8, C. reflexivity.
      + constructor; auto. cbn [field fst snd storable]. split; auto. now apply lit_text.
  Qed.
  Lemma kms_unit_storable : forall f u, plain_unit plain_key u -> storable f (unit_value kms_config u).
  Proof.
    intros f [k c e] (P & C & UE). cbn [u_key u_created u_enc] in *. apply plain_key_wf in P. destruct P as (U & W & _). unfold unit_value. cbn [u_key u_created u_enc storable].
    split.
    - unfold kms_config. destruct c as [t|]; cbn [opt_field app map field fst]; [apply (NoDup_strings [k_profile; k_arn; k_created; k_enc])|apply (NoDup_strings [k_profile; k_arn; k_enc])]; vm_compute; reflexivity.
    - rewrite each_Forall. apply Forall_app. split; [|apply Forall_app; split].
      + constructor; [|constructor; auto]; cbn [field fst snd storable]; (split; [now apply lit_text|]); auto. apply ascii_text. now apply arn_ascii.
      + destruct c as [t|]; cbn [opt_field]; constructor; auto. cbn [field fst snd storable]. split. { now apply lit_text. } apply time_utf8, C. reflexivity.
      + constructor; auto. cbn [field fst snd storable]. split; auto. now apply lit_text.
  Qed.
  Lemma meta_storable : forall f md, plain_meta re_valid ag md -> storable f (FMap (meta_entries evalue_text md)).
  Proof.
    intros f md (PA & PK & _ & RT & RM & RR). cbn [storable]. split; [apply meta_nodup|]. rewrite each_Forall. unfold meta_entries.
    apply Forall_app; split; [|apply Forall_app; split; [|apply Forall_app; split; [|apply Forall_app; split]]].
    - unfold units_field. destruct (rc_kms (md_recipients md)) as [|u us] eqn:E; constructor; auto. split; [now apply lit_text|]. cbn [field snd storable].
      rewrite each_Forall, Forall_map, Forall_forall. intros x I. apply kms_unit_storable. apply PK. exact I.
    - unfold units_field. destruct (rc_age (md_recipients md)) as [|u us] eqn:E; constructor; auto. split; [now apply lit_text|]. cbn [field snd storable].
      rewrite each_Forall, Forall_map, Forall_forall. intros x I. apply age_unit_storable. apply PA. exact I.
    - constructor; [|constructor; auto]; (split; [now apply lit_text|]). { apply time_utf8, RT. } apply evalue_utf8.
    - destruct (md_partial md) as [[s|s|s|s]|]; constructor; auto; cbn [plain_rule rule_field field fst snd storable] in *; (split; [now apply lit_text|]); tauto.
    - destruct (md_only md); constructor; auto. cbn [field fst snd storable]. split; auto. now apply lit_text.
  Qed.

  Lemma key_is_sops : forall m, (forall kv : fvalue * fvalue, In kv m -> exists s, fst kv = FStr s) -> no_sops m -> forall kv, In kv m -> key_is k_sops kv = false.
  Proof.
    intros m S N kv I. destruct (S kv I) as (s & E). unfold key_is. rewrite E. apply bytes_eqb_neq. intro X. apply N. unfold k_sops in X. rewrite <- X, <- E. now apply in_map.
  Qed.
  Lemma layout_keys : forall f m, tidy (FMap m) -> forall k, In k (map fst (layout g f m)) <-> In k (map fst m).
  Proof.
    intros f m T k. destruct f; cbn [layout]; try tauto.
    - cbn [map_floats doc_of]. rewrite map_map. cbn [fst]. tauto.
    - rewrite once_same by exact T. rewrite toml_order_map. cbn [doc_of]. rewrite <- (map_ordered_keys m). split; apply Permutation_in; [|symmetry]; apply Permutation_map, part_perm.
  Qed.

  (** A file written as text is read back: the metadata unchanged, the document as the format lays it out. *)
  Lemma file_text_back : forall f ef, codec_law cd g f -> storable f (FMap (fl_map ef)) -> depth (FMap (fl_map ef)) <= max_depth -> no_sops (fl_map ef) -> plain_meta re_valid ag (fl_meta ef) ->
    exists s, file_text cd f ef = Ok s /\ read_efile re_valid ag cd f s = Ok {| fl_map := layout g f (fl_map ef); fl_meta := fl_meta ef |}.
  Proof.
    intros f [m md] CL ST DP NS PM. cbn [fl_map fl_meta] in *. pose proof (storable_tidy _ _ ST) as T. pose proof (meta_storable f md PM) as SM.
    assert (P : printable f (efile_entries {| fl_map := m; fl_meta := md |})).
    { split.
      - intros k v I. unfold efile_entries in I. cbn [fl_map fl_meta] in I. apply in_app_or in I. destruct I as [I|[E|[]]].
        + destruct ST as [_ ST]. rewrite each_Forall, Forall_forall in ST. apply (ST (k, v) I).
        + injection E as <- <-. split; auto. now apply lit_text.
      - apply (depth_bound_map _ 99). intros kv I. unfold efile_entries in I. cbn [fl_map fl_meta] in I. apply in_app_or in I. destruct I as [I|[<-|[]]].
        + apply depth_map_in in I. unfold max_depth in DP. lia.
        + cbn [field snd]. pose proof (meta_depth evalue_text md). lia. }
    destruct (CL _ P) as (s & W & R). exists s. unfold file_text, written. rewrite W. split; auto. unfold read_efile. rewrite R. cbn [bind].
    unfold efile_entries. cbn [fl_map fl_meta]. rewrite layout_last; auto; [|eapply storable_tidy; eauto]. destruct (meta_layout evalue_text md g f) as (q & E). rewrite E.
    set (m' := layout g f m). assert (T' : tidy (FMap m')) by now apply tidy_layout.
    assert (S' : forall kv, In kv m' -> (exists s, fst kv = FStr s) /\ tidy (snd kv)). { destruct T' as [_ T']. rewrite each_Forall, Forall_forall in T'. exact T'. }
    assert (N' : forall kv, In kv m' -> key_is k_sops kv = false).
    { apply key_is_sops. { intros kv I. apply (S' kv I). } intro I. apply NS. now apply (layout_keys f m T). }
    unfold efile_of_entries.
    assert (C : forallb (fun kv => scalar_key (fst kv) && (key_is k_sops kv || buffered (snd kv))) (m' ++ [field k_sops (FMap (part q (meta_entries evalue_text md)))]) = true).
    { rewrite forallb_app. cbn [forallb field fst snd scalar_key]. rewrite !andb_true_iff. split; auto. apply forallb_forall. intros kv I. destruct (S' kv I) as [(x & X) Y]. rewrite X, (tidy_buffered _ Y). cbn [scalar_key andb]. apply orb_true_r. }
    rewrite C. assert (F0 : filter (key_is k_sops) m' = []).
    { clear - N'. induction m' as [|x l IH]; cbn [filter]; auto. rewrite (N' x) by now left. apply IH. intros y I. apply N'. now right. }
    assert (F1 : filter (fun kv => negb (key_is k_sops kv)) m' = m').
    { clear - N'. induction m' as [|x l IH]; cbn [filter]; auto. rewrite (N' x) by now left. cbn [negb]. f_equal. apply IH. intros y I. apply N'. now right. }
    unfold get_field. rewrite !filter_app, F0, F1. cbn [filter app]. replace (key_is k_sops (field k_sops (FMap (part q (meta_entries evalue_text md))))) with true by reflexivity.
    cbn [negb field snd bind need ok_or app]. rewrite read_meta_back by auto. cbn [bind]. rewrite app_nil_r, settle_map_keep by exact T'. reflexivity.
  Qed.
End FileText.
