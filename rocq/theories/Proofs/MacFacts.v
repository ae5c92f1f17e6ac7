(** The byte string that the MAC hashes, in terms of the list of values. *)
From Verif.Model Require Import Mac.
From Verif.Proofs Require Import BytesFacts Base64Facts IntFacts FloatFacts Utf8Facts GcmFacts ValueFacts TreeFacts MapFacts NonceFacts.
From Verif.Spec Require Import SpecMap.

Section MacFacts.
  Context (re : regex_engine).

  Definition mac_piece (only : bool) (pc : option partial) (x : list bytes * value) : bytes :=
    if escapes (scope_at re (fun k => k) pc (fst x)) && only then [] else value_bytes (snd x).

  Lemma mac_tree_leaves : forall only t r,
    mac_tree re only r t = flat_map (fun x => if escapes (fst x) && only then [] else value_bytes (snd x)) (leaves (step re) r t).
  Proof.
    intros only. induction t as [l IH|m IH| |v] using tree_ind'; intro r; cbn [mac_tree leaves].
    - induction IH as [|t l Ht _ IH]; simpl; auto. now rewrite flat_map_app, Ht, IH.
    - induction IH as [|[k t] m Ht _ IH]; simpl; auto. cbn [snd] in Ht. now rewrite flat_map_app, Ht, IH.
    - reflexivity.
    - simpl. now rewrite app_nil_r.
  Qed.

  Lemma mac_input_pieces : forall only pc m,
    mac_input re only pc m = (if only then mac_init_bytes else []) ++ flat_map (mac_piece only pc) (map_values m).
  Proof.
    intros only pc m. unfold mac_input. f_equal.
    change (flat_map (fun kt => mac_tree re only (step re (initial pc) (fst kt)) (snd kt)) m) with (mac_tree re only (initial pc) (Map m)).
    rewrite mac_tree_leaves, leaves_fold0. rewrite flat_map_concat_map, map_map, <- flat_map_concat_map. reflexivity.
  Qed.

  Lemma value_utf8 : forall v, rust_value v -> utf8_valid (value_bytes v) = true.
  Proof.
    intros v R. destruct R as [s H|b|z H|x H]; cbn [value_bytes].
    - now apply utf8_valid_iff.
    - destruct b; reflexivity.
    - apply int_text_utf8.
    - apply f64_text_utf8.
  Qed.

  Lemma covered_iff : forall only pc ks, escapes (scope_at re (fun k => k) pc ks) && only = false <-> covered re only pc ks.
  Proof.
    intros only pc ks. unfold covered. rewrite andb_false_iff, in_scope_iff, map_id. tauto.
  Qed.

  Lemma not_covered_iff : forall only pc ks, escapes (scope_at re (fun k => k) pc ks) && only = true <-> ~ covered re only pc ks.
  Proof. intros. rewrite <- covered_iff. destruct (_ && _); split; intro; try congruence; try discriminate. Qed.

  Definition kept_list (only : bool) (pc : option partial) (l : list (list bytes * value)) : list value :=
    map snd (filter (fun x => negb (escapes (scope_at re (fun k => k) pc (fst x)) && only)) l).

  Lemma kept_kept : forall only pc l vs, kept (covered re only pc) l vs <-> vs = kept_list only pc l.
  Proof.
    intros only pc. induction l as [|[ks v] l IH]; intro vs; unfold kept_list; cbn [filter map fst snd].
    - split; intro H; [inversion H; auto|subst; constructor].
    - destruct (escapes (scope_at re (fun k => k) pc ks) && only) eqn:E; cbn [negb].
      + apply not_covered_iff in E. split.
        * intro H. inversion H; subst. contradiction. now apply IH.
        * intros ->. apply kept_out; auto. now apply IH.
      + apply covered_iff in E. split.
        * intro H. inversion H; subst. cbn [map snd]. f_equal. now apply IH. contradiction.
        * intros ->. apply kept_in; auto. now apply IH.
  Qed.

  Lemma mac_kept : forall only pc m vs, kept (covered re only pc) (map_values m) vs ->
    mac_input re only pc m = (if only then mac_init_bytes else []) ++ flat_map value_bytes vs.
  Proof.
    intros only pc m vs H. apply kept_kept in H. subst. rewrite mac_input_pieces. f_equal. unfold kept_list.
    induction (map_values m) as [|[ks v] l IH]; auto. cbn [filter flat_map fst snd map]. unfold mac_piece at 1. cbn [fst snd].
    destruct (escapes _ && only); cbn [negb]; auto. cbn [map flat_map snd]. now rewrite IH.
  Qed.

  Lemma kept_exists : forall only pc m, exists vs, kept (covered re only pc) (map_values m) vs.
  Proof. intros. eexists. apply kept_kept. reflexivity. Qed.

  Lemma kept_sub : forall P l vs v, kept P l vs -> In v vs -> exists ks, In (ks, v) l /\ P ks.
  Proof.
    intros P l vs v H. induction H as [|ks w l vs Hp _ IH|ks w l vs Hp _ IH]; intro I.
    - destruct I.
    - destruct I as [<-|I]; [exists ks; split; [left; reflexivity|auto]|]. destruct (IH I) as (k & A & B). exists k. split; [right|]; auto.
    - destruct (IH I) as (k & A & B). exists k. split; [right|]; auto.
  Qed.

  (** With the option the hashed string starts with bytes that are not UTF-8, so it never equals one without. *)
  Lemma flat_valid_values : forall vs, Forall rust_value vs -> utf8_valid (flat_map value_bytes vs) = true.
  Proof.
    intros vs H. apply utf8_valid_iff.
    assert (exists cs, Forall scalar cs /\ flat_map value_bytes vs = flat_map utf8_encode cs) as X; [|exact X].
    induction H as [|v vs R _ (cs & A & B)]; [exists []; auto|].
    apply value_utf8, utf8_valid_iff in R. destruct R as (cs' & A' & B'). exists (cs' ++ cs). split; [apply Forall_app; auto|].
    cbn [flat_map]. now rewrite flat_map_app, B', B.
  Qed.

  Lemma mac_flag_differs : forall pc pc' m m', rust_map m' -> mac_input re true pc m <> mac_input re false pc' m'.
  Proof.
    intros pc pc' m m' R E. destruct (kept_exists true pc m) as (vs & K). destruct (kept_exists false pc' m') as (vs' & K').
    rewrite (mac_kept _ _ _ _ K), (mac_kept _ _ _ _ K') in E. cbn [app] in E.
    assert (V : utf8_valid (flat_map value_bytes vs') = true).
    { apply flat_valid_values. apply Forall_forall. intros v I. destruct (kept_sub _ _ _ _ K' I) as (ks & I' & _). eapply R; eauto. }
    rewrite <- E in V. discriminate V.
  Qed.

  Lemma compute_mac_collision : forall o o' pc pc' m m', compute_mac re o pc m = compute_mac re o' pc' m' ->
    mac_input re (mac_only_flag o) pc m = mac_input re (mac_only_flag o') pc' m'
    \/ (mac_input re (mac_only_flag o) pc m <> mac_input re (mac_only_flag o') pc' m'
        /\ sha512 (mac_input re (mac_only_flag o) pc m) = sha512 (mac_input re (mac_only_flag o') pc' m')).
  Proof.
    intros o o' pc pc' m m' H. apply hex_encode_injective in H.
    destruct (bytes_eq_dec (mac_input re (mac_only_flag o) pc m) (mac_input re (mac_only_flag o') pc' m')); auto.
  Qed.

  Lemma compute_mac_shape : forall o pc m, length (compute_mac re o pc m) = 128 /\ Forall (fun c => In c hex_digits) (compute_mac re o pc m)
    /\ mac_text (compute_mac re o pc m) = Ok (compute_mac re o pc m) /\ parse_mac (compute_mac re o pc m) = Ok (compute_mac re o pc m).
  Proof.
    intros o pc m. unfold compute_mac. set (h := mac_input re (mac_only_flag o) pc m). clearbody h.
    split. { rewrite hex_encode_length, sha512_length. reflexivity. }
    split. { apply Forall_forall. apply hex_encode_digits. }
    split.
    - unfold mac_text. rewrite utf8_ascii; auto. intros c I. apply hex_encode_digits in I. revert I. revert c. apply Forall_forall. repeat constructor.
    - unfold parse_mac. now rewrite hex_decode_encode.
  Qed.
End MacFacts.

(** Reading a MAC. *)
Lemma parse_mac_spec : forall s,
  (Nat.Even (length s) /\ Forall (fun c => In c (lit "0123456789ABCDEFabcdef")) s -> parse_mac s = Ok s)
  /\ (~ (Nat.Even (length s) /\ Forall (fun c => In c (lit "0123456789ABCDEFabcdef")) s) -> parse_mac s = Err EHex).
Proof.
  intro s. unfold parse_mac. split; intro H.
  - apply hex_decode_some in H. destruct H as [r ->]. reflexivity.
  - destruct (hex_decode s) eqn:E; [|reflexivity]. exfalso. apply H. apply hex_decode_some. eauto.
Qed.
