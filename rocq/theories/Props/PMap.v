(** Properties of encrypting and decrypting maps and of the MAC: C07, C09, C10, C15, C17, C18, C20, C21, C51, C56. *)
From Verif.Model Require Import Mac.
From Verif.Spec Require Import SpecMap SpecHistory.
From Verif.Proofs Require Import BytesFacts Utf8Facts GcmFacts ValueFacts MapFacts NonceFacts MacFacts.

Local Open Scope nat_scope.

(** A regex engine for examples: a pattern matches the equal key only. *)
Definition ex_re : regex_engine := {| re_valid := fun _ => true; re_match := bytes_eqb |}.
(** A generator whose first 256 draws differ. *)
Definition ex_tape : tape := fun n i => byte_of_N (N.of_nat (n + 3 * i) mod 256).
Definition ex_key : bytes := repeat x01 32.

Definition ex_map : dmap :=
  [ (lit "user", Leaf (VStr (lit "bob")));
    (lit "db", Map [(lit "password", Leaf (VStr (lit "hunter2"))); (lit "none", Null); (lit "ports", Seq [Leaf (VInt 5432); Leaf (VInt (-1))])]);
    (lit "list_public", Seq [Leaf (VBool true); Map [(lit "k", Leaf (VFloat (lit "0.5")))]]) ].
Definition ex_rule : option partial := Some (UnencryptedSuffix (lit "_public")).
Definition ex_emap : emap := match encrypt_map ex_re ex_tape None ex_key ex_rule ex_map 0 with Ok (em, _) => em | _ => [] end.

Lemma rust_lit : forall s, utf8_valid s = true -> rust_value (VStr s).
Proof. intros. constructor. now apply utf8_valid_iff. Qed.

Example ex_map_rust : rust_map ex_map.
Proof.
  intros ks v I. cbn in I. repeat (destruct I as [I|I]; [injection I as _ <-|]); try destruct I;
    try (apply rust_lit; reflexivity); try (constructor; lia); try constructor.
  exact (rv_float (FFin false 4503599627370496 (-53)) eq_refl).
Qed.
Example ex_encrypts : encrypt_map ex_re ex_tape None ex_key ex_rule ex_map 0 = Ok (ex_emap, 4).
Proof. vm_compute. reflexivity. Qed.

(** C07: which values are encrypted.  The full statement is the one of [C07_rule_partial] without its colon hypothesis:
      [(exists e, l = Encrypted e) <-> in_scope re rule ks].
    It is false of the code for keys that contain a colon, because the rule is tested on the text after the last colon of the
    joined key path (key_path.rs:10-12): here a value whose key carries the encrypted suffix stays in plaintext. *)
Theorem C07_rule_refuted : exists re tp key rule m n em n' i ks v,
  encrypt_map re tp None key rule m n = Ok (em, n') /\ in_scope re rule ks /\ value_at m i ks v /\ value_at em i ks (Escaped v).
Proof.
  exists ex_re, ex_tape, ex_key, (Some (EncryptedSuffix (lit ":secret"))), [(lit "db:secret", Leaf (VStr (lit "hunter2")))], 0.
  exists [(lit "db:secret", Leaf (Escaped (VStr (lit "hunter2"))))], 0, 0, [lit "db:secret"], (VStr (lit "hunter2")).
  split; [vm_compute; reflexivity|]. split; [|split; reflexivity]. exists (lit "db:secret"). split; [now left|]. exists (lit "db"). reflexivity.
Qed.
Print Assumptions C07_rule_refuted.

(** The rule as documented holds when no enclosing key contains a colon, and for suffix rules (and no rule) when the suffix
    contains none. *)
Theorem C07_rule_partial : forall re tp saved key rule m n em n' i ks l,
  encrypt_map re tp saved key rule m n = Ok (em, n') -> value_at em i ks l ->
  (Forall no_colon ks
   \/ match rule with None => True | Some (EncryptedSuffix s) | Some (UnencryptedSuffix s) => no_colon s | _ => False end) ->
  ((exists e, l = Encrypted e) <-> in_scope re rule ks).
Proof.
  intros re tp saved key rule m n em n' i ks l E A C. rewrite <- (in_scope_last re rule ks C), <- in_scope_iff.
  destruct (encrypt_map_at re tp _ _ _ _ _ _ _ _ _ _ E A) as (v & _ & [(X & ->)|(X & e & -> & _)]); rewrite X; split; intro H; eauto; try discriminate.
  destruct H as (e & H). discriminate.
Qed.
Print Assumptions C07_rule_partial.

(** Exactly, for every document: the rule is applied to the last colon-separated segment of every enclosing key. *)
Theorem C07_rule_exact : forall re tp saved key rule m n em n' i ks ss l,
  encrypt_map re tp saved key rule m n = Ok (em, n') -> value_at em i ks l -> Forall2 last_segment ks ss ->
  ((exists e, l = Encrypted e) <-> in_scope re rule ss).
Proof.
  intros re tp saved key rule m n em n' i ks ss l E A S. apply last_segments in S. subst ss. rewrite <- in_scope_iff.
  destruct (encrypt_map_at re tp _ _ _ _ _ _ _ _ _ _ E A) as (v & _ & [(X & ->)|(X & e & -> & _)]); rewrite X; split; intro H; eauto; try discriminate.
  destruct H as (e & H). discriminate.
Qed.
Print Assumptions C07_rule_exact.

Example C07_witness : Forall no_colon [lit "list_public"; lit "k"] /\ ~ in_scope ex_re ex_rule [lit "list_public"; lit "k"]
  /\ in_scope ex_re ex_rule [lit "db"; lit "password"]
  /\ value_at ex_emap 5 [lit "list_public"; lit "k"] (Escaped (VFloat (lit "0.5")))
  /\ exists e, value_at ex_emap 1 [lit "db"; lit "password"] (Encrypted e).
Proof.
  assert (C : forall k, forallb (fun x => negb (beqb x ":")) k = true -> no_colon k) by (intros k H; now apply notin_lit).
  split; [|split; [|split; [|split]]].
  - repeat constructor; apply C; reflexivity.
  - intro H. apply H. exists (lit "list_public"). split; [now left|]. exists (lit "list"). reflexivity.
  - intros (k & [<-|[<-|[]]] & H); apply ends_with_iff in H; discriminate.
  - vm_compute. reflexivity.
  - eexists. vm_compute. reflexivity.
Qed.

(** C09: encryption keeps structure; a value is carried over or replaced by an encrypted value of the same type and length. *)
Theorem C09_structure : forall re tp saved key rule m n em n', encrypt_map re tp saved key rule m n = Ok (em, n') ->
  map_skeleton em = map_skeleton m /\ length (map_values em) = length (map_values m)
  /\ forall i ks v, value_at m i ks v ->
     exists l, value_at em i ks l /\
       (l = Escaped v \/ exists e, l = Encrypted e /\ length (ev_data e) = length (value_bytes v) /\ ev_type e = type_of v).
Proof.
  intros re tp saved key rule m n em n' E. pose proof (encrypt_map_rel re tp _ _ _ _ _ _ _ E) as [Sk F].
  split; auto. split. { symmetry. eapply Forall2_len. exact F. }
  intros i ks v A. destruct (encrypt_map_values_at re tp _ _ _ _ _ _ _ _ _ _ E A) as (l & B). exists l. split; auto.
  destruct (encrypt_map_at re tp _ _ _ _ _ _ _ _ _ _ E B) as (v' & A' & [(_ & ->)|(_ & e & -> & Enc & _)]).
  - left. unfold value_at in *. congruence.
  - right. exists e. split; auto. apply encrypt_value_ok in Enc. destruct Enc as (_ & _ & Enc). unfold value_at in *.
    assert (v' = v) as -> by congruence. rewrite Enc. cbn [ev_data ev_type]. split; auto. apply gcm_ctr_length.
Qed.
Print Assumptions C09_structure.

Example C09_witness : map_skeleton ex_emap = map_skeleton ex_map /\ map_skeleton ex_map =
  Map [ (lit "user", Leaf tt); (lit "db", Map [(lit "password", Leaf tt); (lit "none", Null); (lit "ports", Seq [Leaf tt; Leaf tt])]);
        (lit "list_public", Seq [Leaf tt; Map [(lit "k", Leaf tt)]]) ].
Proof. split; vm_compute; reflexivity. Qed.

(** C10: decrypting an encrypted map returns the original map; encryption never aborts and fails only on values or paths
    beyond the GCM length limit; decryption never aborts. *)
Theorem C10_round_trip : forall re tp saved key rule m n, rust_map m ->
  (forall em n', encrypt_map re tp saved key rule m n = Ok (em, n') -> decrypt_map key em = Ok m /\ exists s, decrypt_map_save key em = Ok (m, s))
  /\ ((forall ks v, In (ks, v) (map_values m) -> gcm_fits (value_bytes v) /\ gcm_fits (path_text ks)) ->
      exists em n', encrypt_map re tp saved key rule m n = Ok (em, n'))
  /\ encrypt_map re tp saved key rule m n <> Panic.
Proof.
  intros re tp saved key rule m n R. split; [|split].
  - intros em n' E. pose proof (decrypt_encrypt_map re tp _ _ _ _ _ _ _ R E) as D. split; auto.
    unfold decrypt_map in D. destruct (decrypt_map_save key em) as [[m' s]| |]; try discriminate. cbn in D. injection D as ->. eauto.
  - apply encrypt_map_total.
  - apply encrypt_map_no_panic.
Qed.
Print Assumptions C10_round_trip.

Theorem C10_decrypt_total : forall key em, decrypt_map key em <> Panic /\ decrypt_map_save key em <> Panic.
Proof. intros key em. destruct (decrypt_map_no_panic key em). auto. Qed.
Print Assumptions C10_decrypt_total.

Example C10_witness : decrypt_map ex_key ex_emap = Ok ex_map /\ decrypt_map (repeat x02 32) ex_emap = Err ECipher.
Proof. vm_compute. split; reflexivity. Qed.

(** C15: what the MAC hashes: with the option a fixed prefix and the bytes of the in-scope values, without it the bytes of all
    values, in document order. *)
Theorem C15_covered_values : forall re only rule m vs, kept (covered re only rule) (map_values m) vs ->
  mac_input re only rule m = (if only then mac_init_bytes else []) ++ flat_map value_bytes vs.
Proof. exact mac_kept. Qed.
Print Assumptions C15_covered_values.

(** C15: documents that agree on the covered values have the same MAC, whatever the other values are. *)
Theorem C15_uncovered_irrelevant : forall re o rule m m' vs,
  kept (covered re (mac_only_flag o) rule) (map_values m) vs -> kept (covered re (mac_only_flag o) rule) (map_values m') vs ->
  compute_mac re o rule m = compute_mac re o rule m'.
Proof. intros re o rule m m' vs K K'. unfold compute_mac. now rewrite (mac_kept _ _ _ _ _ K), (mac_kept _ _ _ _ _ K'). Qed.
Print Assumptions C15_uncovered_irrelevant.

(** C15: with and without the option the hashed strings differ, for any two documents and rules; equal MACs are a collision. *)
Theorem C15_option_is_evident : forall re o o' rule rule' m m', mac_only_flag o = true -> mac_only_flag o' = false -> rust_map m' ->
  mac_input re true rule m <> mac_input re false rule' m'
  /\ (compute_mac re o rule m = compute_mac re o' rule' m' -> sha512 (mac_input re true rule m) = sha512 (mac_input re false rule' m')).
Proof.
  intros re o o' rule rule' m m' F F' R. split; [now apply mac_flag_differs|]. intro H. apply compute_mac_collision in H.
  rewrite F, F' in H. destruct H as [H|[_ H]]; auto. now rewrite H.
Qed.
Print Assumptions C15_option_is_evident.

Definition ex_map2 : dmap := firstn 2 ex_map ++ [(lit "list_public", Seq [Leaf (VStr (lit "changed"))])].
Example C15_witness :
  kept (covered ex_re true ex_rule) (map_values ex_map) [VStr (lit "bob"); VStr (lit "hunter2"); VInt 5432; VInt (-1)]
  /\ kept (covered ex_re true ex_rule) (map_values ex_map2) [VStr (lit "bob"); VStr (lit "hunter2"); VInt 5432; VInt (-1)]
  /\ compute_mac ex_re (Some true) ex_rule ex_map = compute_mac ex_re (Some true) ex_rule ex_map2
  /\ compute_mac ex_re None ex_rule ex_map <> compute_mac ex_re None ex_rule ex_map2.
Proof.
  split; [apply kept_kept; vm_compute; reflexivity|]. split; [apply kept_kept; vm_compute; reflexivity|].
  split; [vm_compute; reflexivity|]. vm_compute. discriminate.
Qed.

(** C17 (map part; the data key and the MAC nonce are in [C17_file]): one separate draw per encrypted value. *)
Theorem C17_fresh_draws : forall re tp key rule m n em n', encrypt_map re tp None key rule m n = Ok (em, n') ->
  n' = n + length (nonces_of em) /\ nonces_of em = map (draw_nonce tp) (seq n (length (nonces_of em))).
Proof. exact fresh_nonces. Qed.
Print Assumptions C17_fresh_draws.

Example C17_witness : length (nonces_of ex_emap) = 4 /\ nth 2 (nonces_of ex_emap) [] = draw_nonce ex_tape 2.
Proof. vm_compute. split; reflexivity. Qed.

(** C18: after decrypting with saved nonces, a value of the re-encrypted document has a fresh nonce or the nonce of a value
    with the same path text and equal to it. *)
Theorem C18_saved_nonce_use : forall re tp key em m s rule m2 n em2 n' i ks e v,
  decrypt_map_save key em = Ok (m, s) -> encrypt_map re tp (Some s) key rule m2 n = Ok (em2, n') -> pair_at em2 m2 i ks e v ->
  (exists j, n <= j < n' /\ ev_nonce e = draw_nonce tp j)
  \/ exists i0 ks0 e0, pair_at em m i0 ks0 e0 v /\ path_text ks0 = path_text ks /\ ev_nonce e = ev_nonce e0.
Proof.
  intros re tp key em m s rule m2 n em2 n' i ks e v D E [A B].
  destruct (encrypt_map_at re tp _ _ _ _ _ _ _ _ _ _ E A) as (v' & B' & [(_ & X)|(_ & e' & X & _ & Y)]); [discriminate|].
  injection X as <-. assert (v' = v) as -> by (unfold value_at in *; congruence).
  destruct Y as [(s' & X & Y)|(Y & _)]; auto. injection X as <-. apply saved_get_in in Y.
  apply (decrypt_save_table _ _ _ _ _ _ _ D) in Y. destruct Y as (i0 & ks0 & e0 & P & E1 & E2). right. exists i0, ks0, e0. auto.
Qed.
Print Assumptions C18_saved_nonce_use.

(** C18: over any history of edits of a map rops encrypted, no nonce serves two different (path, value) messages, if the
    generator does not repeat a nonce within the history. *)
Theorem C18_no_reuse_in_histories : forall re tp key used em n, history re tp key used em n ->
  (forall i j, i < n -> j < n -> draw_nonce tp i = draw_nonce tp j -> i = j) ->
  forall nonce p v p' v', used (nonce, p, v) -> used (nonce, p', v') -> p = p' /\ v = v'.
Proof. intros re tp key used em n H Inj. exact (proj1 (proj2 (history_invariant re tp key used em n Inj H))). Qed.
Print Assumptions C18_no_reuse_in_histories.

(** A history with an edit of one value; the first 8 draws of the example generator differ. *)
Definition ex_edited : dmap :=
  [(lit "user", Leaf (VStr (lit "alice"))); (lit "db", Map [(lit "password", Leaf (VStr (lit "hunter2")))])].
Example C18_witness :
  match decrypt_map_save ex_key ex_emap with
  | Ok (m, s) => match encrypt_map ex_re ex_tape (Some s) ex_key None ex_edited 4 with
                 | Ok (em2, n) => n = 5 /\ nonces_of em2 = [draw_nonce ex_tape 4; draw_nonce ex_tape 1]
                 | _ => False
                 end
  | _ => False
  end.
Proof. vm_compute. split; reflexivity. Qed.
Example C18_witness_tape : forall i j, i < 8 -> j < 8 -> draw_nonce ex_tape i = draw_nonce ex_tape j -> i = j.
Proof.
  intros i j Hi Hj E. do 8 (destruct i as [|i]; [do 8 (destruct j as [|j]; [try reflexivity; vm_compute in E; discriminate|]); lia|]). lia.
Qed.

(** C56: for a file rops did not write the stored plaintext may be another spelling of the value.  The full statement,
    "the nonce of a decrypted value is never used again for a different plaintext", is false: an integer stored as "+07" is
    written back as "7" under the same key, nonce and path. *)
Theorem C56_foreign_plaintext_refuted : exists re tp key rule em m s em2 n' i ks e e2 v,
  decrypt_map_save key em = Ok (m, s) /\ encrypt_map re tp (Some s) key rule m 0 = Ok (em2, n')
  /\ pair_at em m i ks e v /\ pair_at em2 m i ks e2 v /\ ev_nonce e = ev_nonce e2
  /\ gcm_ctr key (ev_nonce e) (ev_data e) <> gcm_ctr key (ev_nonce e2) (ev_data e2).
Proof.
  pose (d := gcm_ctr ex_key (repeat x05 32) (lit "+07")).
  pose (e := EValue d (repeat x05 32) (gcm_tag ex_key (repeat x05 32) (lit "a:") d) TyInt).
  pose (d2 := gcm_ctr ex_key (repeat x05 32) (lit "7")).
  pose (e2 := EValue d2 (repeat x05 32) (gcm_tag ex_key (repeat x05 32) (lit "a:") d2) TyInt).
  exists ex_re, ex_tape, ex_key, None, [(lit "a", Leaf (Encrypted e))], [(lit "a", Leaf (VInt 7))], [((lit "a:", VInt 7), repeat x05 32)].
  exists [(lit "a", Leaf (Encrypted e2))], 0, 0, [lit "a"], e, e2, (VInt 7).
  split; [vm_compute; reflexivity|]. split; [vm_compute; reflexivity|]. split; [split; reflexivity|]. split; [split; reflexivity|].
  split; [reflexivity|]. vm_compute. discriminate.
Qed.
Print Assumptions C56_foreign_plaintext_refuted.

(** What remains true of foreign files: strings and booleans have one spelling, so their messages are identical. *)
Theorem C56_foreign_plaintext_partial : forall re tp key em m s rule m2 n em2 n' i ks e v i0 ks0 e0,
  decrypt_map_save key em = Ok (m, s) -> encrypt_map re tp (Some s) key rule m2 n = Ok (em2, n') -> pair_at em2 m2 i ks e v ->
  pair_at em m i0 ks0 e0 v -> path_text ks0 = path_text ks -> ev_nonce e = ev_nonce e0 ->
  type_of v = TyStr \/ type_of v = TyBool -> e = e0.
Proof.
  intros re tp key em m s rule m2 n em2 n' i ks e v i0 ks0 e0 D E [A B] P0 Ep En T.
  destruct (encrypt_map_at re tp _ _ _ _ _ _ _ _ _ _ E A) as (v' & B' & [(_ & X)|(_ & e' & X & Enc & _)]); [discriminate|].
  injection X as <-. assert (v' = v) as -> by (unfold value_at in *; congruence). clear B'.
  apply decrypt_save_map in D. pose proof (decrypt_pair _ _ _ _ _ _ _ D P0) as D0. apply decrypt_value_ok in D0.
  destruct D0 as (Tag & From & R & Ty). pose proof (value_from_bytes_typed _ _ _ From) as (_ & _ & Can).
  rewrite <- Ty in Can. specialize (Can T). apply encrypt_value_ok in Enc. destruct Enc as (_ & _ & ->). cbn [ev_nonce] in En.
  destruct e0 as [d0 n0 t0 ty0]. cbn [ev_nonce ev_data ev_tag ev_type] in *. subst n0 ty0. rewrite Can, gcm_ctr_involutive.
  rewrite Tag, Ep. reflexivity.
Qed.
Print Assumptions C56_foreign_plaintext_partial.

Example C56_witness : match decrypt_map_save ex_key ex_emap with
  | Ok (m, s) => exists e, pair_at ex_emap m 1 [lit "db"; lit "password"] e (VStr (lit "hunter2"))
  | _ => False
  end.
Proof. vm_compute. eexists. split; reflexivity. Qed.

(** C20 (map part): re-encrypting without changes.  The full statement, without the hypothesis of
    [C20_unedited_map_partial] on equal values, is false: equal values in one sequence share the path, so only one of their
    nonces is saved. *)
Theorem C20_unedited_refuted : exists re tp key rule m n em n1 s em2 n3, rust_map m /\
  encrypt_map re tp None key rule m n = Ok (em, n1) /\ decrypt_map_save key em = Ok (m, s)
  /\ encrypt_map re tp (Some s) key rule m n1 = Ok (em2, n3) /\ em2 <> em.
Proof.
  pose (m := [(lit "a", Seq [Leaf (VInt 1); Leaf (VInt 1)])]).
  pose (r := match encrypt_map ex_re ex_tape None ex_key None m 0 with Ok x => x | _ => ([], 0) end).
  pose (d := match decrypt_map_save ex_key (fst r) with Ok x => x | _ => ([], []) end).
  pose (r2 := match encrypt_map ex_re ex_tape (Some (snd d)) ex_key None m (snd r) with Ok x => x | _ => ([], 0) end).
  exists ex_re, ex_tape, ex_key, None, m, 0, (fst r), (snd r), (snd d), (fst r2), (snd r2).
  split. { intros ks v I. cbn in I. destruct I as [I|[I|[]]]; injection I as _ <-; constructor; lia. }
  split; [vm_compute; reflexivity|]. split; [vm_compute; reflexivity|]. split; [vm_compute; reflexivity|]. vm_compute. discriminate.
Qed.
Print Assumptions C20_unedited_refuted.

Theorem C20_unedited_map_partial : forall re tp saved0 key rule m n em n1 s n2, rust_map m ->
  encrypt_map re tp saved0 key rule m n = Ok (em, n1) -> decrypt_map_save key em = Ok (m, s) ->
  (forall i j ks ks' e e' v, pair_at em m i ks e v -> pair_at em m j ks' e' v -> path_text ks = path_text ks' -> ev_nonce e = ev_nonce e') ->
  encrypt_map re tp (Some s) key rule m n2 = Ok (em, n2).
Proof. exact reencrypt_identical. Qed.
Print Assumptions C20_unedited_map_partial.

Example C20_witness : match decrypt_map_save ex_key ex_emap with
  | Ok (m, s) => encrypt_map ex_re ex_tape (Some s) ex_key ex_rule m 4 = Ok (ex_emap, 4)
  | _ => False
  end.
Proof. vm_compute. reflexivity. Qed.

(** C21 (map part): a value of the new document that the old document held under the same keys keeps its ciphertext, nonce and
    tag, if no other value equal to it sits at the same path text. *)
Theorem C21_unchanged_values : forall re tp saved0 key rule m n em n1 s m2 rule2 n2 em2 n3 i ks e v j, rust_map m ->
  encrypt_map re tp saved0 key rule m n = Ok (em, n1) -> decrypt_map_save key em = Ok (m, s) ->
  encrypt_map re tp (Some s) key rule2 m2 n2 = Ok (em2, n3) ->
  pair_at em m i ks e v -> (forall i' ks' e', pair_at em m i' ks' e' v -> path_text ks' = path_text ks -> i' = i) ->
  value_at m2 j ks v -> (exists e2, value_at em2 j ks (Encrypted e2)) -> value_at em2 j ks (Encrypted e).
Proof.
  intros re tp saved0 key rule m n em n1 s m2 rule2 n2 em2 n3 i ks e v j R E D E2 P U V (e2 & V2).
  eapply (unchanged_value re tp saved0 key rule m n em n1 s m2 rule2 n2 em2 n3 i ks e v j); eauto.
  - intros i' ks' e' P' Ep. assert (i' = i) as -> by eauto. destruct (pair_at_inj _ _ _ _ _ _ _ _ _ P P') as (_ & -> & _). reflexivity.
  - destruct (encrypt_map_at re tp _ _ _ _ _ _ _ _ _ _ E2 V2) as (v' & _ & [(_ & X)|(X & _)]); [discriminate|auto].
Qed.
Print Assumptions C21_unchanged_values.

Example C21_witness :
  match decrypt_map_save ex_key ex_emap with
  | Ok (m, s) => match encrypt_map ex_re ex_tape (Some s) ex_key None ex_edited 4 with
                 | Ok (em2, _) => nth_error (map_values em2) 1 = nth_error (map_values ex_emap) 1
                                  /\ nth_error (map_values em2) 0 <> nth_error (map_values ex_emap) 0
                 | _ => False
                 end
  | _ => False
  end.
Proof. vm_compute. split; [reflexivity|discriminate]. Qed.

(** C51: a computed MAC is 128 upper-case hex digits, is valid text and parses to itself. *)
Theorem C51_mac_text : forall re o rule m,
  length (compute_mac re o rule m) = 128 /\ Forall (fun c => In c (lit "0123456789ABCDEF")) (compute_mac re o rule m)
  /\ mac_text (compute_mac re o rule m) = Ok (compute_mac re o rule m) /\ parse_mac (compute_mac re o rule m) = Ok (compute_mac re o rule m).
Proof. exact compute_mac_shape. Qed.
Print Assumptions C51_mac_text.

(** C51: a text is a MAC exactly when it consists of an even number of hex digits, and it is kept as it is written; any other text
    is reported as an error. *)
Theorem C51_mac_parse : forall s,
  (Nat.Even (length s) /\ Forall (fun c => In c (lit "0123456789ABCDEFabcdef")) s -> parse_mac s = Ok s)
  /\ (~ (Nat.Even (length s) /\ Forall (fun c => In c (lit "0123456789ABCDEFabcdef")) s) -> parse_mac s = Err EHex).
Proof. exact parse_mac_spec. Qed.
Print Assumptions C51_mac_parse.

Example C51_parse_witness : parse_mac (lit "0aFf") = Ok (lit "0aFf") /\ parse_mac (lit "0aF") = Err EHex /\ parse_mac (lit "0g") = Err EHex.
Proof. repeat split. Qed.

Example C51_witness : firstn 8 (compute_mac ex_re None ex_rule ex_map) <> firstn 8 (compute_mac ex_re None ex_rule ex_map2).
Proof. vm_compute. discriminate. Qed.
