(** Facts about documents with a top-level key sops: the metadata is written under the same key. *)
From Coq Require Import Permutation.
From Verif.Model Require Import Document.
From Verif.Spec Require Import SpecDocument SpecFileHistory.
From Verif.Proofs Require Import BytesFacts Utf8Facts FormatFacts FormatEnc IntegrationFacts FileFacts FileKeys DocumentFacts DocumentFile.

Local Open Scope nat_scope.

Definition other (kv : fvalue * fvalue) : bool := negb (key_is k_sops kv).
Definition sops_key : fvalue := FStr k_sops.

Lemma key_is_str : forall kv, key_is k_sops kv = true <-> fst kv = sops_key.
Proof.
  intros [k v]. unfold key_is, sops_key. cbn [fst]. destruct k; split; intro H; try discriminate. { apply bytes_eqb_eq in H. now subst. } injection H as ->. apply bytes_eqb_refl.
Qed.
Lemma sops_once : forall m, NoDup (map fst m) -> In sops_key (map fst m) -> exists v, filter (key_is k_sops) m = [(sops_key, v)].
Proof.
  induction m as [|[k v] m IH]; intros N I; [destruct I|]. inversion N as [|? ? N1 N2]; subst. cbn [map fst filter] in *. destruct (key_is k_sops (k, v)) eqn:E.
  - apply key_is_str in E. cbn [fst] in E. subst k. exists v. f_equal. clear - N1. induction m as [|[k' v'] m IH]; cbn [filter map fst] in *; auto.
    destruct (key_is k_sops (k', v')) eqn:E. { apply key_is_str in E. cbn [fst] in E. exfalso. apply N1. now left. } apply IH. intro I. apply N1. now right.
  - destruct I as [I|I]; [|now apply IH]. assert (X : key_is k_sops (k, v) = true) by (now apply key_is_str). congruence.
Qed.

Section Sops.
  Context (re_valid : bytes -> bool) (ag : age_crate) (cd : codec) (g : f64 -> f64) (TL : time_law cd).

  Lemma entries_printable : forall f ef, storable f (FMap (fl_map ef)) -> depth (FMap (fl_map ef)) <= max_depth -> plain_meta re_valid ag (fl_meta ef) -> printable f (efile_entries ef).
  Proof.
    intros f [m md] ST DP PM. cbn [fl_map fl_meta] in *. pose proof (meta_storable re_valid ag f md PM) as SM. split.
    - intros k v I. unfold efile_entries in I. cbn [fl_map fl_meta] in I. apply in_app_or in I. destruct I as [I|[E|[]]].
      + destruct ST as [_ ST]. rewrite each_Forall, Forall_forall in ST. apply (ST (k, v) I).
      + injection E as <- <-. split; auto. now apply lit_text.
    - apply (depth_bound_map _ 99). intros kv I. unfold efile_entries in I. cbn [fl_map fl_meta] in I. apply in_app_or in I. destruct I as [I|[<-|[]]].
      + apply depth_map_in in I. unfold max_depth in DP. lia.
      + cbn [field snd]. pose proof (meta_depth evalue_text md). lia.
  Qed.
  Lemma tidy_scalar : forall l, (forall kv, In kv l -> (exists s, fst kv = FStr s) /\ tidy (snd kv)) ->
    forallb (fun kv => scalar_key (fst kv) && (key_is k_sops kv || buffered (snd kv))) l = true.
  Proof.
    intros l H. apply forallb_forall. intros kv I. destruct (H kv I) as [(s & E) T]. rewrite E, (tidy_buffered _ T). cbn [scalar_key andb]. apply orb_true_r.
  Qed.

  (** YAML and JSON: the key occurs twice, and the file cannot be read. *)
  Lemma sops_twice : forall f ef, codec_law cd g f -> f <> Toml -> storable f (FMap (fl_map ef)) -> depth (FMap (fl_map ef)) <= max_depth -> In sops_key (map fst (fl_map ef)) -> plain_meta re_valid ag (fl_meta ef) ->
    exists s, file_text cd f ef = Ok s /\ read_efile re_valid ag cd f s = Err EDuplicateField.
  Proof.
    intros f ef CL NT ST DP I PM. pose proof (entries_printable f ef ST DP PM) as P. destruct (CL _ P) as (s & W & R). exists s. unfold file_text, written. rewrite W. split; auto.
    unfold read_efile. rewrite R. cbn [bind]. pose proof (storable_tidy _ _ ST) as T. pose proof (storable_tidy _ _ (meta_storable re_valid ag f _ PM)) as TM. destruct ef as [m md]. cbn [fl_map fl_meta] in *. unfold efile_entries. cbn [fl_map fl_meta].
    assert (L : layout g f (m ++ [field k_sops (FMap (meta_entries evalue_text md))]) = layout g f m ++ [field k_sops (value_layout g f (FMap (meta_entries evalue_text md)))]).
    { destruct f; cbn [layout value_layout]; auto; [|congruence]. cbn [map_floats doc_of]. rewrite map_app. reflexivity. }
    rewrite L. pose proof (tidy_layout g f m T) as [N T']. rewrite each_Forall, Forall_forall in T'.
    assert (TV : tidy (value_layout g f (FMap (meta_entries evalue_text md)))). { destruct f; cbn [value_layout]; auto using tidy_floats. congruence. }
    unfold efile_of_entries. rewrite tidy_scalar.
    2:{ intros kv J. apply in_app_or in J. destruct J as [J|[<-|[]]]; [exact (T' kv J)|]. cbn [field fst snd]. split; [eexists; reflexivity|exact TV]. }
    assert (I' : In sops_key (map fst (layout g f m))) by (apply layout_keys; auto). destruct (sops_once _ N I') as (v & F).
    unfold get_field. rewrite filter_app, F. reflexivity.
  Qed.

  (** TOML: the metadata takes the place of the user's value, which is lost. *)
  Lemma put_there : forall X m, NoDup (map fst m) -> (forall kv : fvalue * fvalue, In kv m -> exists s, fst kv = FStr s) -> In sops_key (map fst m) ->
    put sops_key X m = map (fun kv => if key_is k_sops kv then (fst kv, X) else kv) m.
  Proof.
    intros X. induction m as [|[k v] m IH]; intros N S I; [destruct I|]. inversion N as [|? ? N1 N2]; subst. cbn [put map fst snd] in *.
    destruct (S (k, v) (or_introl eq_refl)) as (s & E). cbn [fst] in E. subst k. unfold sops_key at 1. rewrite fkey_eqb. cbn [key_is fst]. destruct (bytes_eqb s k_sops) eqn:Q.
    - f_equal. apply bytes_eqb_eq in Q. subst s. clear - N1. induction m as [|[k' v'] m IH]; cbn [map] in *; auto.
      destruct (key_is k_sops (k', v')) eqn:E. { apply key_is_str in E. cbn [fst] in E. exfalso. apply N1. now left. } f_equal. apply IH. intro I. apply N1. now right.
    - f_equal. apply IH; auto. { intros kv J. apply S. now right. } destruct I as [I|I]; auto. exfalso. injection I as ->. rewrite bytes_eqb_refl in Q. discriminate.
  Qed.
  Lemma filter_part_comm : forall {A} (p q : A -> bool) l, filter p (part q l) = part q (filter p l).
  Proof. intros. unfold part. rewrite filter_app. f_equal; apply filter_filter. Qed.
  Lemma key_ordered : forall kv, key_is k_sops (ordered kv) = key_is k_sops kv.
  Proof. reflexivity. Qed.
  Lemma filter_map_ordered : forall p m, (forall kv, p (ordered kv) = p kv) -> filter p (map ordered m) = map ordered (filter p m).
  Proof. intros p m H. induction m as [|kv m IH]; cbn [map filter]; auto. rewrite H, IH. destruct (p kv); reflexivity. Qed.
  Lemma tidy_filter : forall p m, tidy (FMap m) -> tidy (FMap (filter p m)).
  Proof.
    intros p m [N H]. cbn [tidy]. rewrite each_Forall, Forall_forall in *. split.
    - clear H. induction m as [|kv m IH]; cbn [filter map]; auto. inversion N as [|? ? N1 N2]; subst. destruct (p kv); auto. cbn [map]. constructor; auto.
      intro I. apply N1. apply in_map_iff in I. destruct I as (x & E & I). apply filter_In in I. rewrite <- E. apply in_map. apply I.
    - intros kv I. apply filter_In in I. apply H, I.
  Qed.
  Lemma sops_over : forall m X, tidy (FMap m) -> In sops_key (map fst m) -> tidy (FMap X) ->
    let L := layout g Toml (m ++ [field k_sops (FMap X)]) in
    filter other L = layout g Toml (filter other m) /\ filter (key_is k_sops) L = [field k_sops (toml_order (FMap X))]
    /\ forall kv, In kv L -> (exists s, fst kv = FStr s) /\ tidy (snd kv).
  Proof.
    intros m X T I TX L. pose proof T as [N H]. rewrite each_Forall, Forall_forall in H.
    set (rep := fun kv : fvalue * fvalue => if key_is k_sops kv then (fst kv, FMap X) else kv).
    assert (O : once (m ++ [field k_sops (FMap X)]) = map rep m).
    { unfold once. rewrite fold_left_app. cbn [fold_left field fst snd]. change (fold_left _ m []) with (once m). rewrite once_same by exact T. apply put_there; auto. intros kv J. apply (H kv J). }
    assert (KR : forall kv, key_is k_sops (rep kv) = key_is k_sops kv). { intro kv. unfold rep. destruct (key_is k_sops kv) eqn:E; auto. }
    unfold L, layout. rewrite O, toml_order_map. cbn [doc_of]. split; [|split].
    - rewrite filter_part_comm, filter_map_ordered by reflexivity. rewrite once_same by now apply tidy_filter. rewrite toml_order_map. cbn [doc_of]. do 2 f_equal.
      clear - KR. induction m as [|kv m IH]; cbn [map filter]; auto. assert (KO : other (rep kv) = other kv) by (unfold other; now rewrite KR). rewrite KO, IH. destruct (other kv) eqn:E; auto. f_equal. unfold rep. unfold other in E. apply negb_true_iff in E. now rewrite E.
    - rewrite filter_part_comm, filter_map_ordered by reflexivity. destruct (sops_once m N I) as (v & F).
      assert (G : filter (key_is k_sops) (map rep m) = map rep (filter (key_is k_sops) m)). { clear - KR. induction m as [|kv m IH]; cbn [map filter]; auto. rewrite KR, IH. destruct (key_is k_sops kv); reflexivity. }
      rewrite G, F. unfold part. cbn [map]. assert (E : rep (sops_key, v) = field k_sops (FMap X)) by reflexivity. rewrite E. reflexivity.
    - intros kv J. apply part_in, in_map_iff in J. destruct J as (kv1 & <- & J). apply in_map_iff in J. destruct J as (kv2 & <- & J). destruct (H kv2 J) as [S V].
      unfold ordered, rep. destruct (key_is k_sops kv2); cbn [fst snd]; split; auto using tidy_order.
  Qed.
  Lemma sops_overwritten : forall ef, codec_law cd g Toml -> storable Toml (FMap (fl_map ef)) -> depth (FMap (fl_map ef)) <= max_depth -> In sops_key (map fst (fl_map ef)) -> plain_meta re_valid ag (fl_meta ef) ->
    exists s, file_text cd Toml ef = Ok s /\ read_efile re_valid ag cd Toml s = Ok {| fl_map := layout g Toml (filter other (fl_map ef)); fl_meta := fl_meta ef |}.
  Proof.
    intros ef CL ST DP I PM. pose proof (entries_printable Toml ef ST DP PM) as P. destruct (CL _ P) as (s & W & R). exists s. unfold file_text, written. rewrite W. split; auto.
    unfold read_efile. rewrite R. cbn [bind]. pose proof (storable_tidy _ _ ST) as T. pose proof (storable_tidy _ _ (meta_storable re_valid ag Toml _ PM)) as TM. destruct ef as [m md]. cbn [fl_map fl_meta] in *. unfold efile_entries. cbn [fl_map fl_meta].
    destruct (sops_over m _ T I TM) as (A & B & C). unfold efile_of_entries. rewrite tidy_scalar by exact C. unfold get_field. rewrite B.
    cbn [bind need ok_or field snd]. destruct (meta_layout evalue_text md g Toml) as (q & E). cbn [value_layout] in E. rewrite E, read_meta_back by auto. cbn [bind].
    change (fun kv => negb (key_is k_sops kv)) with other. rewrite A. rewrite settle_map_keep; [reflexivity|]. apply tidy_layout, tidy_filter, T.
  Qed.

  (** An encrypted file read as a plaintext document. *)
  Lemma cipher_as_plain : forall f ef, codec_law cd g f -> storable f (FMap (fl_map ef)) -> depth (FMap (fl_map ef)) <= max_depth -> no_sops (fl_map ef) -> layout g f (fl_map ef) = fl_map ef -> plain_meta re_valid ag (fl_meta ef) ->
    exists s m, file_text cd f ef = Ok s /\ read_map cd f s = Ok m /\ storable f (FMap m) /\ depth (FMap m) <= max_depth /\ In sops_key (map fst m) /\ exists X, m = fl_map ef ++ [field k_sops X].
  Proof.
    intros f ef CL ST DP NS LY PM. pose proof (entries_printable f ef ST DP PM) as P. destruct (CL _ P) as (s & W & R). pose proof (storable_tidy _ _ ST) as T.
    pose proof (meta_storable re_valid ag f _ PM) as SM. pose proof (storable_tidy _ _ SM) as TM. destruct ef as [m md]. cbn [fl_map fl_meta] in *.
    destruct (meta_layout evalue_text md g f) as (q & E). unfold efile_entries in *. cbn [fl_map fl_meta] in *. rewrite layout_last in R by auto. rewrite LY, E in R.
    set (X := FMap (part q (meta_entries evalue_text md))) in *. exists s, (m ++ [field k_sops X]).
    assert (SX : storable f X).
    { unfold X. cbn [storable] in *. destruct SM as [N S]. rewrite each_Forall, Forall_forall in *. split. { eapply Permutation_NoDup; [apply Permutation_map, Permutation_sym, part_perm|exact N]. } intros kv I. apply part_in in I. auto. }
    assert (SM' : storable f (FMap (m ++ [field k_sops X]))).
    { pose proof (tidy_last m k_sops X T NS (storable_tidy _ _ SX)) as [N _]. cbn [storable] in *. destruct ST as [_ ST]. split; auto. rewrite each_Forall in *. apply Forall_app. split; auto. constructor; auto. cbn [field fst snd]. split; auto. now apply lit_text. }
    unfold file_text, written, efile_entries. cbn [fl_map fl_meta]. rewrite W. split; [reflexivity|]. split. { unfold read_map. rewrite R. cbn [bind]. apply settle_map_keep. eapply storable_tidy; eauto. }
    split; auto. split.
    { apply (depth_bound_map _ 99). intros kv I. apply in_app_or in I. destruct I as [I|[<-|[]]].
      - apply depth_map_in in I. unfold max_depth in DP. lia.
      - cbn [field snd]. unfold X. pose proof (meta_depth evalue_text md) as D. enough (depth (FMap (part q (meta_entries evalue_text md))) <= 3) by lia.
        apply (depth_bound_map _ 2). intros kv I. apply part_in in I. apply depth_map_in in I. lia. }
    split; [rewrite map_app; apply in_or_app; right; now left|eauto].
  Qed.
End Sops.

(** ** Documents with that key, encrypted *)
Lemma storable_fmt : forall f v, storable f v -> fmt_value f v.
Proof.
  intros f v. induction v as [m IH|l IH|s|b|n| |tg v IH|s] using fvalue_ind'; cbn [storable fmt_value]; auto; try contradiction.
  - intros [N H]. split; auto. rewrite each_Forall, Forall_forall in *. intros kv I. destruct (H kv I) as [(s & E & U) S]. rewrite E. auto.
  - rewrite !each_Forall, !Forall_forall in *. auto.
  - destruct n; auto. destruct f; lia.
Qed.

Section Built.
  Context (re : regex_engine) (re_valid : bytes -> bool) (tp : tape) (ag : age_crate) (W : env -> Prop) (PW : plain_world ag W).

  Lemma built_shape : forall E f b n ef n' dm, W E -> fmt_doc f (bd_map b) -> dec_map_to_internal f (bd_map b) = Ok dm -> colon_safe_map (bd_partial b) dm -> depth (FMap (bd_map b)) <= max_depth ->
    builder_encrypt re tp ag E f b n = Ok (ef, n') ->
    storable f (FMap (fl_map ef)) /\ depth (FMap (fl_map ef)) <= max_depth /\ map fst (fl_map ef) = map fst (bd_map b) /\ shape (FMap (fl_map ef)) = shape (FMap (bd_map b))
    /\ forall x, In x (floats_of (FMap (fl_map ef))) -> f64_canonical x = true /\ exists ks, ~ in_scope re (bd_partial b) ks /\ In (ks, VFloat (f64_text x)) (map_values dm).
  Proof.
    intros E f b n ef n' dm WE FD A CS DP H. apply build_ok in H. destruct H as (dm' & em & n1 & rc & n2 & e & A' & B & _ & _ & C & _). assert (Q : dm' = dm) by congruence. subst dm'.
    assert (SO : saved_ok None) by (intros s p v nonce X; discriminate X). destruct (dec_map_to_from f _ _ FD A) as (_ & DK & R & U). destruct (enc_shape re tp f _ _ _ _ _ _ _ _ SO (conj R DK) CS U B C) as (ST & SH & FL).
    assert (H' : dec_to_internal f (FMap (bd_map b)) = Ok (Map dm)) by (apply dec_map_tree; eauto). pose proof (user_shape f _ _ FD H') as Sh.
    split; auto. assert (SS : shape (FMap (fl_map ef)) = shape (FMap (bd_map b))) by congruence. split. { now rewrite <- depth_shape, SS, depth_shape. } split; [|split; auto].
    cbn [shape] in SS. injection SS as SS. apply (f_equal (map fst)) in SS. rewrite !map_map in SS. exact SS.
  Qed.
End Built.
