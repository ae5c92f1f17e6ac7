(** Facts about the text of encrypted and of decrypted files. *)
From Verif.Model Require Import Document.
From Verif.Spec Require Import SpecDocument SpecFileHistory.
From Verif.Proofs Require Import BytesFacts Utf8Facts FloatFacts GcmFacts ValueFacts TreeFacts MapFacts MacFacts FormatFacts FormatEnc TimestampFacts IntegrationFacts FileFacts FileKeys DocumentFacts.

Local Open Scope nat_scope.

(** ** Documents that text keeps *)
Fixpoint shape (v : fvalue) : fvalue :=
  match v with
  | FMap m => FMap (map (fun kv => (fst kv, shape (snd kv))) m)
  | FSeq l => FSeq (map shape l)
  | FTagged _ x => shape x
  | _ => FNull
  end.
Fixpoint untagged (v : fvalue) : Prop :=
  match v with
  | FMap m => each (fun kv => untagged (snd kv)) m
  | FSeq l => each untagged l
  | FTagged _ _ => False
  | _ => True
  end.
Lemma tidy_untagged : forall v, tidy v -> untagged v.
Proof.
  induction v as [m IH|l IH|s|b|n| |tg v IH|s] using fvalue_ind'; cbn [tidy untagged]; auto.
  - intros [_ H]. rewrite each_Forall, Forall_forall in *. intros kv I. apply IH; auto. apply H; auto.
  - rewrite !each_Forall, !Forall_forall in *. auto.
Qed.

Lemma depth_shape : forall v, depth (shape v) = depth v.
Proof.
  induction v as [m IH|l IH|s|b|n| |tg v IH|s] using fvalue_ind'; cbn [shape depth]; auto.
  - f_equal. induction IH as [|kv m H _ IHm]; cbn [map fold_right snd]; congruence.
  - f_equal. induction IH as [|x l H _ IHl]; cbn [map fold_right]; congruence.
Qed.
Lemma table_like_shape : forall v, untagged v -> table_like (shape v) = table_like v.
Proof.
  intros v U. destruct v as [m|l|s|b|n| |tg v|s]; cbn [shape]; auto; try contradiction. destruct l as [|x l]; auto. cbn [map table_like]. cbn [untagged] in U.
  assert (G : forall l, each untagged l -> forallb (fun y => match y with FMap _ => true | _ => false end) (map shape l) = forallb (fun y => match y with FMap _ => true | _ => false end) l).
  { clear. induction l as [|x l IH]; cbn [each map forallb]; auto. intros [U1 U2]. rewrite IH by auto. now destruct x. }
  exact (G (x :: l) U).
Qed.
Lemma values_first_shape : forall v, untagged v -> (values_first (shape v) <-> values_first v).
Proof.
  induction v as [m IH|l IH|s|b|n| |tg v IH|s] using fvalue_ind'; intro U; try contradiction; try (cbn [shape values_first]; tauto).
  - cbn [untagged] in U. rewrite each_Forall, Forall_forall in U. rewrite Forall_forall in IH. cbn [shape values_first]. rewrite !each_Forall, Forall_map, !Forall_forall.
    cbn [snd]. split; intros [A B]; (split; [|intros kv I; apply (IH kv I (U kv I)); auto]).
    + intros a x b y E I T. specialize (A (map (fun kv => (fst kv, shape (snd kv))) a) (fst x, shape (snd x)) (map (fun kv => (fst kv, shape (snd kv))) b) (fst y, shape (snd y))).
      cbn [snd] in A. assert (Ix : In x m) by (rewrite E; apply in_elt). assert (Iy : In y m) by (rewrite E; apply in_or_app; right; now right).
      rewrite !table_like_shape in A by auto. apply A; auto. { rewrite E, map_app. reflexivity. } apply in_map_iff. eauto.
    + intros a x b y E I T. apply map_eq_app in E. destruct E as (a0 & b0 & E & <- & E'). apply map_eq_cons in E'. destruct E' as (x0 & b1 & -> & <- & <-).
      apply in_map_iff in I. destruct I as (y0 & <- & I). cbn [snd] in *. assert (Ix : In x0 m) by (rewrite E; apply in_elt). assert (Iy : In y0 m) by (rewrite E; apply in_or_app; right; now right).
      rewrite table_like_shape in * by auto. eapply A; eauto.
  - pose proof (table_like_shape (FSeq l) U) as T. cbn [untagged] in U. rewrite each_Forall, Forall_forall in U. rewrite Forall_forall in IH.
    cbn [shape] in *. cbn [values_first]. rewrite T, !each_Forall, Forall_map, !Forall_forall. split; intros A B x I; apply (IH x I (U x I)); auto.
Qed.

Lemma part_same : forall {A} (q : A -> bool) l, (forall a x b y, l = a ++ x :: b -> In y b -> q x = true -> q y = true) -> part q l = l.
Proof.
  intros A q. induction l as [|x l IH]; intro H; auto.
  assert (IH' : part q l = l). { apply IH. intros a z b y E. apply (H (x :: a) z b y). cbn [app]. now rewrite E. }
  unfold part in *. cbn [filter]. destruct (q x) eqn:Q; cbn [negb].
  - assert (Al : forall y, In y l -> q y = true). { intros y I. apply (H [] x l y); auto. }
    assert (F0 : filter (fun x => negb (q x)) l = []). { clear - Al. induction l as [|y l IH]; cbn [filter]; auto. rewrite (Al y) by now left. cbn [negb]. apply IH. intros z I. apply Al. now right. }
    rewrite F0 in *. cbn [app] in *. now rewrite IH'.
  - cbn [app]. now rewrite IH'.
Qed.
Lemma toml_order_same : forall v, values_first v -> toml_order v = v.
Proof.
  induction v as [m IH|l IH|s|b|n| |tg v IH|s] using fvalue_ind'; intro H; try reflexivity.
  - destruct H as [A B]. rewrite toml_order_map. f_equal. rewrite each_Forall, Forall_forall in B. rewrite Forall_forall in IH.
    assert (E : map ordered m = m). { rewrite <- (map_id m) at 2. apply map_ext_in. intros [k v] I. unfold ordered. cbn [fst snd]. f_equal. apply (IH (k, v) I (B (k, v) I)). }
    rewrite E. apply part_same. intros a x b y X I T. exact (A a x b y X I T).
  - cbn [values_first] in H. cbn [toml_order]. destruct (table_like (FSeq l)) eqn:T; auto. f_equal. specialize (H eq_refl). rewrite each_Forall, Forall_forall in H. rewrite Forall_forall in IH.
    rewrite <- (map_id l) at 2. apply map_ext_in. auto.
Qed.
Lemma map_floats_same : forall g v, (forall x, In x (floats_of v) -> g x = x) -> map_floats g v = v.
Proof.
  intros g. induction v as [m IH|l IH|s|b|n| |tg v IH|s] using fvalue_ind'; intro H; cbn [map_floats floats_of] in *; auto.
  - f_equal. rewrite <- (map_id m) at 2. apply map_ext_in. intros [k v] I. cbn [fst snd]. f_equal. rewrite Forall_forall in IH. apply (IH (k, v) I). intros x J. apply H. apply in_flat_map. eauto.
  - f_equal. rewrite <- (map_id l) at 2. apply map_ext_in. intros v I. rewrite Forall_forall in IH. apply (IH v I). intros x J. apply H. apply in_flat_map. eauto.
  - destruct n; auto. rewrite H; auto. now left.
  - now rewrite IH.
Qed.
Lemma layout_same : forall g f m, tidy (FMap m) -> kept_by_text g f m -> layout g f m = m.
Proof.
  intros g f m T K. destruct f; cbn [layout kept_by_text] in *; auto.
  - now rewrite map_floats_same.
  - rewrite once_same by exact T. now rewrite toml_order_same.
Qed.

(** ** Written documents *)
Section FromTree.
  Context {L : Type} (leaf : fmt -> L -> outcome fvalue).
  Fixpoint from_tree (f : fmt) (t : tree L) : outcome fvalue :=
    match t with
    | Seq l => let* l' := mapM (from_tree f) l in Ok (FSeq l')
    | Map m => let* l := mapM (fun kt => let* v := from_tree f (snd kt) in Ok (fst kt, v)) m in Ok (FMap (to_fmap l))
    | Null => match f with Toml => Ok (FStr (lit "null")) | _ => Ok FNull end
    | Leaf v => leaf f v
    end.

  (** [src ks x]: the float [x] stands at [ks]. *)
  Lemma from_tree_storable : forall f (src : f64 -> Prop) t ks v, distinct_keys t -> all_keys utf8_text t ->
    (forall ks' l w, In (ks', l) (values_under ks t) -> leaf f l = Ok w -> storable f w /\ shape w = FNull /\ forall x, In x (floats_of w) -> src x) ->
    from_tree f t = Ok v -> storable f v /\ shape v = outline t /\ forall x, In x (floats_of v) -> src x.
  Proof.
    intros f src. induction t as [l IH|m IH| |w] using tree_ind'; intros ks v D K P H; cbn [from_tree] in H.
    - apply bind_ok in H. destruct H as (vs & E & H). injection H as <-. apply mapM_ok in E. cbn [distinct_keys all_keys values_under] in *. rewrite each_Forall in *.
      cbn [storable shape outline floats_of]. rewrite each_Forall.
      assert (G : Forall (storable f) vs /\ map shape vs = map outline l /\ forall x, In x (flat_map floats_of vs) -> src x).
      { clear - E IH D K P. induction E as [|t v l vs E _ IHl]; [split; [constructor|split; [reflexivity|intros x []]]|]. inversion IH as [|? ? I1 I2]; inversion D as [|? ? D1 D2]; inversion K as [|? ? K1 K2]; subst.
        destruct (I1 ks v D1 K1) as (A1 & A2 & A3); auto. { intros ks' l0 w I. apply (P ks'). cbn [flat_map]. apply in_or_app. now left. }
        destruct IHl as (B1 & B2 & B3); auto. { intros ks' l0 w I. apply (P ks'). cbn [flat_map]. apply in_or_app. now right. }
        split; [constructor; auto|]. split. { cbn [map]. now rewrite A2, B2. } intros x I. cbn [flat_map] in I. apply in_app_or in I. destruct I; auto. }
      destruct G as (G1 & G2 & G3). rewrite G2. auto.
    - apply bind_ok in H. destruct H as (l & E & H). injection H as <-. apply mapM_ok in E. destruct D as [N D]. cbn [all_keys values_under] in *. rewrite each_Forall in *.
      assert (E' : Forall2 (fun kt kv => fst kv = fst kt /\ from_tree f (snd kt) = Ok (snd kv)) m l).
      { eapply Forall2_impl; [|exact E]. intros kt [k v] H. now apply entry_from in H. }
      assert (Ks : map fst l = map fst m). { clear - E'. induction E' as [|? ? ? ? [H0 _] _ IH0]; cbn [map]; auto; now rewrite H0, IH0. }
      unfold to_fmap. rewrite collect_nodup by (rewrite Ks; exact N). cbn [storable shape outline floats_of]. rewrite each_Forall.
      assert (G : Forall (fun kv : fvalue * fvalue => (exists s, fst kv = FStr s /\ utf8_text s) /\ storable f (snd kv)) (map (fun kt => (FStr (fst kt), snd kt)) l)
        /\ map (fun kv => (fst kv, shape (snd kv))) (map (fun kt => (FStr (fst kt), snd kt)) l) = map (fun kt => (FStr (fst kt), outline (snd kt))) m
        /\ forall x, In x (flat_map (fun kv => floats_of (snd kv)) (map (fun kt => (FStr (fst kt), snd kt)) l)) -> src x).
      { clear - E' IH D K P. induction E' as [|[k t] [k0 v] m l [Q E] _ IHl]; [split; [constructor|split; [reflexivity|intros x []]]|]. inversion IH as [|? ? I1 I2]; inversion D as [|? ? D1 D2]; inversion K as [|? ? K1 K2]; subst.
        cbn [fst snd] in *. subst k0. destruct K1 as [U K1]. destruct (I1 (ks ++ [k]) v D1 K1) as (A1 & A2 & A3); auto. { intros ks' l0 w I. apply (P ks'). cbn [flat_map fst snd]. apply in_or_app. now left. }
        destruct IHl as (B1 & B2 & B3); auto. { intros ks' l0 w I. apply (P ks'). cbn [flat_map]. apply in_or_app. now right. }
        cbn [map fst snd]. split; [constructor; auto; cbn [fst snd]; eauto|]. split. { now rewrite A2, B2. } intros x I. cbn [flat_map snd] in I. apply in_app_or in I. destruct I; auto. }
      destruct G as (G1 & G2 & G3). rewrite G2. split; [split; auto|auto]. rewrite map_map. cbn [fst]. rewrite <- (map_map fst FStr). apply NoDup_fstr. now rewrite Ks.
    - cbn [outline]. destruct f; injection H as <-; cbn [storable shape floats_of]; (split; [try discriminate; auto|split; [reflexivity|contradiction]]). apply ascii_text. reflexivity.
    - cbn [outline]. destruct (P ks w v) as (A & B & C); auto. now left.
  Qed.
End FromTree.

Definition enc_leaf (f : fmt) (l : eleaf) : outcome fvalue := match l with Encrypted e => Ok (FStr (evalue_text e)) | Escaped v => from_internal_value f v end.
Lemma enc_from_tree : forall f t, enc_from_internal f t = from_tree enc_leaf f t.
Proof. reflexivity. Qed.
Lemma dec_from_tree : forall f t, dec_from_internal f t = from_tree from_internal_value f t.
Proof. reflexivity. Qed.

Lemma from_value_storable : forall f v w, rust_value v -> from_internal_value f v = Ok w ->
  storable f w /\ shape w = FNull /\ forall x, In x (floats_of w) -> f64_canonical x = true /\ v = VFloat (f64_text x).
Proof.
  intros f v w R H. destruct R as [s Hs|b|z Hz|x Hx]; cbn [from_internal_value] in H; try (injection H as <-; cbn [storable shape floats_of]; split; [auto|split; [reflexivity|contradiction]]).
  unfold float_of_text in H. rewrite parse_f64_text in H by exact Hx. cbn [bind] in H.
  assert (w = FNum (NFlt x) /\ (f = Json -> f64_finite x = true)) as [-> J].
  { destruct f; try (injection H as <-; split; [reflexivity|discriminate]). destruct (f64_finite x); try discriminate. injection H as <-. auto. }
  cbn [storable shape floats_of]. split; auto. split; auto. intros y [<-|[]]. auto.
Qed.

Lemma outline_skeleton : forall {L} (t : tree L), outline (skeleton t) = outline t.
Proof.
  intros L. induction t as [l IH|m IH| |v] using tree_ind'; cbn [skeleton outline]; auto.
  - f_equal. rewrite map_map. apply map_ext_in. rewrite Forall_forall in IH. auto.
  - f_equal. rewrite map_map. apply map_ext_in. rewrite Forall_forall in IH. intros kt I. cbn [fst snd]. f_equal. auto.
Qed.
Lemma outline_same : forall {L L'} (m : rmap L) (m' : rmap L'), map_skeleton m = map_skeleton m' -> outline (Map m) = outline (Map m').
Proof. intros L L' m m' E. rewrite <- (outline_skeleton (Map m)), <- (outline_skeleton (Map m')). unfold map_skeleton in E. now rewrite E. Qed.

(** Everything about a document written from an internal map with the outline of [dm]. *)
Lemma written_shape : forall g f dm fm, text_safe g f dm -> storable f (FMap fm) -> shape (FMap fm) = outline (Map dm) ->
  (forall x, In x (floats_of (FMap fm)) -> f64_canonical x = true /\ exists ks, In (ks, VFloat (f64_text x)) (map_values dm)) ->
  depth (FMap fm) <= max_depth /\ no_sops fm /\ layout g f fm = fm.
Proof.
  intros g f dm fm (K & D & S & T & J) ST E Fl. pose proof (storable_tidy _ _ ST) as Ti. split; [|split].
  - now rewrite <- depth_shape, E.
  - unfold no_sops. intro I. apply S. cbn [shape outline] in E. injection E as E. apply (f_equal (map fst)) in E. rewrite !map_map in E. cbn [fst] in E. change (map fst fm = map (fun kt => FStr (fst kt)) dm) in E. rewrite E in I.
    apply in_map_iff in I. destruct I as (kt & Q & I). injection Q as Q. rewrite <- Q. now apply in_map.
  - apply layout_same; auto. destruct f; cbn [kept_by_text]; auto.
    + intros x I. destruct (Fl x I) as (C & ks & I'). eapply J; eauto.
    + apply values_first_shape; [now apply tidy_untagged|]. rewrite E. auto.
Qed.

Section Written.
  Context (re : regex_engine) (tp : tape).

  Lemma enc_shape : forall f saved key pc dm n em n' fm, saved_ok saved -> good_doc dm -> colon_safe_map pc dm -> all_keys utf8_text (Map dm) ->
    encrypt_map re tp saved key pc dm n = Ok (em, n') -> enc_map_from_internal f em = Ok fm ->
    storable f (FMap fm) /\ shape (FMap fm) = outline (Map dm)
    /\ forall x, In x (floats_of (FMap fm)) -> f64_canonical x = true /\ exists ks, ~ in_scope re pc ks /\ In (ks, VFloat (f64_text x)) (map_values dm).
  Proof.
    intros f saved key pc dm n em n' fm SO [R D] CS U A C. pose proof (encrypt_map_rel re tp _ _ _ _ _ _ _ A) as [Sk _].
    pose proof (encrypt_map_leaves re tp _ _ _ _ _ _ _ SO R CS A) as Lv.
    assert (C' : enc_from_internal f (Map em) = Ok (FMap fm)) by (apply enc_map_tree_from; eauto). rewrite enc_from_tree in C'.
    assert (Sk' : skeleton (Map em) = skeleton (Map dm)) by exact Sk.
    destruct (from_tree_storable enc_leaf f (fun x => f64_canonical x = true /\ exists ks, ~ in_scope re pc ks /\ In (ks, VFloat (f64_text x)) (map_values dm)) (Map em) [] (FMap fm)) as (X & Y & Z); auto.
    - eapply distinct_same; [symmetry; exact Sk'|exact D].
    - eapply all_keys_same; [symmetry; exact Sk'|exact U].
    - intros ks l w I H. specialize (Lv _ _ I). destruct l as [e|v]; cbn [enc_leaf] in H.
      + injection H as <-. cbn [storable shape floats_of]. split; [apply evalue_utf8|split; [reflexivity|intros x []]].
      + destruct Lv as [NS Lv]. destruct (from_value_storable f v w (R _ _ Lv) H) as (P & Q & F). split; auto. split; auto. intros x J. destruct (F x J) as [Cx ->]. eauto.
    - rewrite (outline_same em dm Sk) in Y. auto.
  Qed.

  Lemma enc_written : forall g f saved key pc dm n em n' fm, saved_ok saved -> good_doc dm -> fits f pc dm -> text_safe g f dm ->
    encrypt_map re tp saved key pc dm n = Ok (em, n') -> enc_map_from_internal f em = Ok fm ->
    storable f (FMap fm) /\ depth (FMap fm) <= max_depth /\ no_sops fm /\ layout g f fm = fm.
  Proof.
    intros g f saved key pc dm n em n' fm SO G (CS & _) TS A C. destruct (enc_shape f saved key pc dm n em n' fm SO G CS (proj1 TS) A C) as (X & Y & Z).
    split; auto. eapply written_shape; eauto. intros x I. destruct (Z x I) as (Cx & ks & _ & J). eauto.
  Qed.

  Lemma dec_written : forall g f dm fm, good_doc dm -> text_safe g f dm -> dec_map_from_internal f dm = Ok fm ->
    storable f (FMap fm) /\ depth (FMap fm) <= max_depth /\ no_sops fm /\ layout g f fm = fm.
  Proof.
    intros g f dm fm [R D] TS C.
    assert (C' : dec_from_internal f (Map dm) = Ok (FMap fm)) by (apply dec_map_tree_from; eauto). rewrite dec_from_tree in C'.
    destruct (from_tree_storable from_internal_value f (fun x => f64_canonical x = true /\ exists ks, In (ks, VFloat (f64_text x)) (map_values dm)) (Map dm) [] (FMap fm)) as (X & Y & Z); auto.
    - apply TS.
    - intros ks v w I H. destruct (from_value_storable f v w (R _ _ I) H) as (P & Q & F). split; auto. split; auto. intros x J. destruct (F x J) as [Cx ->]. eauto.
    - split; auto. eapply written_shape; eauto.
  Qed.
End Written.

(** ** The user's document *)
Lemma user_shape : forall f v t, fmt_value f v -> dec_to_internal f v = Ok t -> shape v = outline t.
Proof.
  intros f v. induction v as [m IH|l IH|s|b|n| |tg v IH|s] using fvalue_ind'; intros t W H; cbn [dec_to_internal] in H; cbn [shape].
  - apply bind_ok in H. destruct H as (l & E & H). injection H as <-. apply mapM_ok in E.
    assert (E' : Forall2 (fun kv kt => fst kv = FStr (fst kt) /\ dec_to_internal f (snd kv) = Ok (snd kt)) m l).
    { eapply Forall2_impl; [|exact E]. intros kv [k t] H. now apply entry_to in H. }
    destruct W as [D W]. rewrite each_Forall in W.
    assert (DK : NoDup (map fst l)). { rewrite (Forall2_keys (fun v t => dec_to_internal f v = Ok t) _ _ E') in D. now apply NoDup_fstr in D. }
    rewrite collect_nodup by exact DK. cbn [outline]. f_equal. clear - E' IH W. induction E' as [|[k v] [k' t] m l [K E] _ IHl]; cbn [map fst snd] in *; auto.
    inversion IH as [|? ? I1 I2]; inversion W as [|? ? W1 W2]; subst. cbn [fst snd] in *. rewrite (I1 t) by (auto; apply W1). f_equal. now apply IHl.
  - apply bind_ok in H. destruct H as (l' & E & H). injection H as <-. apply mapM_ok in E. cbn [outline]. f_equal. cbn [fmt_value] in W. rewrite each_Forall in W.
    clear - E IH W. induction E as [|v t l l' E _ IHl]; cbn [map]; auto. inversion IH as [|? ? I1 I2]; inversion W as [|? ? W1 W2]; subst. rewrite (I1 t) by auto. f_equal. now apply IHl.
  - destruct (is_toml_null f s); injection H as <-; reflexivity.
  - injection H as <-. reflexivity.
  - apply bind_ok in H. destruct H as (w & _ & H). injection H as <-. reflexivity.
  - injection H as <-. reflexivity.
  - apply IH; auto. apply W.
  - injection H as <-. reflexivity.
Qed.

Lemma user_floats : forall f v t, fmt_value f v -> dec_to_internal f v = Ok t -> forall ks ks' x, f64_canonical x = true ->
  In (ks', VFloat (f64_text x)) (values_under ks t) -> In x (floats_of v).
Proof.
  intros f v. induction v as [m IH|l IH|s|b|n| |tg v IH|s] using fvalue_ind'; intros t W H ks ks' x C I; cbn [dec_to_internal] in H; cbn [floats_of].
  - apply bind_ok in H. destruct H as (l & E & H). injection H as <-. apply mapM_ok in E. cbn [values_under] in I. apply in_flat_map in I.
    destruct I as ([k t] & I & I'). apply collect_in in I. destruct (Forall2_in_r _ _ _ _ E I) as (kv & J & E'). apply entry_to in E'. destruct E' as [_ E'].
    destruct W as [_ W]. rewrite each_Forall, Forall_forall in W. rewrite Forall_forall in IH. apply in_flat_map. exists kv. split; auto. eapply IH; eauto. apply W; auto.
  - apply bind_ok in H. destruct H as (l' & E & H). injection H as <-. apply mapM_ok in E. cbn [values_under] in I. apply in_flat_map in I.
    destruct I as (t & I & I'). destruct (Forall2_in_r _ _ _ _ E I) as (v & J & E'). cbn [fmt_value] in W. rewrite each_Forall, Forall_forall in W. rewrite Forall_forall in IH.
    apply in_flat_map. exists v. split; auto. eapply IH; eauto.
  - destruct (is_toml_null f s); injection H as <-; cbn [values_under] in I; [contradiction|]. destruct I as [I|[]]; discriminate.
  - injection H as <-. destruct I as [I|[]]; discriminate.
  - apply bind_ok in H. destruct H as (w & E & H). injection H as <-. destruct I as [I|[]]. injection I as _ ->. destruct n as [z|y]; cbn [to_internal_number] in E.
    + destruct (in_i64 z); discriminate.
    + unfold float_value in E. injection E as E. cbn [fmt_value] in W. destruct W as [W _]. left. assert (P : parse_f64 (f64_text y) = parse_f64 (f64_text x)) by now rewrite E. rewrite !parse_f64_text in P by auto. now injection P.
  - injection H as <-. destruct I.
  - eapply IH; eauto. apply W.
  - injection H as <-. destruct I as [I|[]]; discriminate.
Qed.

Lemma fmt_untagged : forall f v, f <> Yaml -> fmt_value f v -> untagged v.
Proof.
  intros f v N. induction v as [m IH|l IH|s|b|n| |tg v IH|s] using fvalue_ind'; cbn [fmt_value untagged]; auto.
  - intros [_ H]. rewrite each_Forall, Forall_forall in *. intros kv I. apply IH; auto. apply H; auto.
  - rewrite !each_Forall, !Forall_forall in *. auto.
  - intros [H _]. now apply N.
Qed.

Lemma user_text : forall g f m dm, fmt_doc f m -> dec_map_to_internal f m = Ok dm -> depth (FMap m) <= max_depth -> no_sops m -> kept_by_text g f m -> text_safe g f dm.
Proof.
  intros g f m dm W H D N K. assert (H' : dec_to_internal f (FMap m) = Ok (Map dm)) by (apply dec_map_tree; eauto). pose proof (user_shape f _ _ W H') as Sh.
  destruct (dec_map_to_from f m dm W H) as (_ & _ & _ & U). split; auto. split. { now rewrite <- Sh, depth_shape. } split; [|split].
  - intro I. apply N. cbn [shape outline] in Sh. injection Sh as Sh. apply (f_equal (map fst)) in Sh. rewrite !map_map in Sh. cbn [fst] in Sh. change (map fst m = map (fun kt => FStr (fst kt)) dm) in Sh. rewrite Sh.
    apply in_map_iff in I. destruct I as (kt & <- & I). apply in_map_iff. eauto.
  - intros ->. rewrite <- Sh. apply values_first_shape; auto. apply (fmt_untagged Toml); auto. discriminate.
  - intros -> ks x C I. apply K. eapply user_floats; eauto.
Qed.

(** ** Metadata *)
Section PlainMeta.
  Context (re : regex_engine) (re_valid : bytes -> bool) (tp : tape) (ag : age_crate) (W : env -> Prop) (PW : plain_world ag W).

  Lemma now_real : forall E n, W E -> real_time (now E n).
  Proof.
    intros E n WE. destruct PW as [C _]. specialize (C E n WE). unfold now. destruct C as [V D]. split; [|exact D].
    unfold valid_timestamp in *. cbn [whole_second t_year t_month t_day t_hour t_min t_sec t_nano]. repeat rewrite andb_true_iff in *. tauto.
  Qed.

  Lemma added_units_plain : forall {K} (eqb : K -> K -> bool) (plain : K -> Prop) mk ids us n us' o, (forall a b, eqb a b = true <-> a = b) ->
    (forall k n u n', mk k n = Ok (u, n') -> u_key u = k) -> (forall k n u n', plain k -> mk k n = Ok (u, n') -> plain_unit plain u) ->
    Forall plain ids -> (forall u, In u us -> plain_unit plain u) -> distinct_units us -> add_units eqb mk ids us n = (us', o) ->
    (forall u, In u us' -> plain_unit plain u) /\ distinct_units us'.
  Proof.
    intros K eqb plain mk ids us n us' o Q MK MP F P D H. destruct (add_units_spec eqb Q mk ids us n us' o MK H) as (A & B & _). split; auto.
    intros u I. destruct (A u I) as [J|(k & m & m' & J & M)]; auto. eapply MP; eauto. rewrite Forall_forall in F. auto.
  Qed.
  Lemma new_age_plain : forall key k n u n', plain_recipient ag k -> new_age_unit ag key k n = Ok (u, n') -> plain_unit (plain_recipient ag) u.
  Proof.
    intros key k n u n' P H. unfold new_age_unit, age_encrypt_key in H. cbn in H. injection H as <- <-. split; auto. split; [discriminate|]. apply PW, P.
  Qed.
  Lemma kms_text : forall E k key n enc n', kms_encrypt_key E k key n = Ok (enc, n') -> utf8_text enc.
  Proof.
    intros E k key n enc n' H. unfold kms_encrypt_key in H. apply bind_ok in H. destruct H as (c & C & H). destruct c as [req|]; try discriminate.
    destruct (e_kms_encrypt E n req key) as [| |b] eqn:En; try discriminate. injection H as <- <-. apply ascii_text, base64_ascii.
  Qed.
  Lemma new_kms_plain : forall E key k n u n', W E -> plain_key k -> new_kms_unit E key k n = Ok (u, n') -> plain_unit plain_key u.
  Proof.
    intros E key k n u n' WE P H. unfold new_kms_unit in H. apply bind_ok in H. destruct H as ([enc m] & H & H'). injection H' as <- <-. split; auto. cbn [u_created u_enc fst].
    split. { intros t X. injection X as <-. now apply now_real. } eapply kms_text; eauto.
  Qed.

  Lemma add_age_plain : forall ids key rc n rc' o, Forall (plain_recipient ag) ids -> plain_recipients ag rc -> add_age ag ids key rc n = (rc', o) -> plain_recipients ag rc'.
  Proof.
    intros ids key rc n rc' o F (A & K & D1 & D2) H. unfold add_age in H. destruct (add_units bytes_eqb (new_age_unit ag key) ids (rc_age rc) n) as [us o'] eqn:U. injection H as <- _.
    destruct (added_units_plain bytes_eqb (plain_recipient ag) _ _ _ _ _ _ bytes_eqb_eq (fun k n u n' H => proj1 (new_age_unit_ok ag key k n u n' H)) (new_age_plain key) F A D1 U) as [X Y].
    split; auto. split; auto. split; auto.
  Qed.
  Lemma add_kms_plain : forall E ids key rc n rc' o, W E -> Forall plain_key ids -> plain_recipients ag rc -> add_kms E ids key rc n = (rc', o) -> plain_recipients ag rc'.
  Proof.
    intros E ids key rc n rc' o WE F (A & K & D1 & D2) H. unfold add_kms in H. destruct (add_units aws_key_eqb (new_kms_unit E key) ids (rc_kms rc) n) as [us o'] eqn:U. injection H as <- _.
    destruct (added_units_plain aws_key_eqb plain_key _ _ _ _ _ _ aws_key_eqb_eq (fun k n u n' H => proj1 (new_kms_unit_ok W E key k n u n' WE H)) (fun k n u n' => new_kms_plain E key k n u n' WE) F K D2 U) as [X Y].
    split; auto. split; auto. split; auto.
  Qed.
  Lemma build_plain : forall E a k key n rc n', W E -> Forall (plain_recipient ag) a -> Forall plain_key k -> build_recipients ag E a k key n = Ok (rc, n') -> plain_recipients ag rc.
  Proof.
    intros E a k key n rc n' WE Fa Fk H.
    assert (G : (let '(rc1, o1) := add_age ag a key no_recipients n in let* n1 := o1 in let '(rc2, o2) := add_kms E k key rc1 n1 in let* n2 := o2 in Ok (rc2, n2)) = Ok (rc, n')).
    { unfold build_recipients in H. destruct a, k; try exact H. discriminate. }
    destruct (add_age ag a key no_recipients n) as [rc1 o1] eqn:A. apply bind_ok in G. destruct G as (n1 & -> & G). destruct (add_kms E k key rc1 n1) as [rc2 o2] eqn:K.
    apply bind_ok in G. destruct G as (n2 & -> & G). injection G as <- <-. eapply add_kms_plain; eauto. eapply add_age_plain; eauto.
    split; [intros u []|]. split; [intros u []|]. split; constructor.
  Qed.

  Lemma rewrap_plain : forall {K} (plain : K -> Prop) wrap us n us' o, (forall k n enc n', plain k -> wrap k n = Ok (enc, n') -> utf8_text enc) ->
    (forall u, In u us -> plain_unit plain u) -> rewrap_units wrap us n = (us', o) -> (forall u, In u us' -> plain_unit plain u).
  Proof.
    intros K plain wrap us. induction us as [|u us IH]; intros n us' o T P H; cbn [rewrap_units] in H.
    - injection H as <- _. intros u [].
    - destruct (wrap (u_key u) n) as [[enc n1]|e|] eqn:E; [|injection H as <- _; exact P|injection H as <- _; exact P].
      destruct (rewrap_units wrap us n1) as [r o1] eqn:R. injection H as <- _. intros v [<-|I].
      + destruct (P u (or_introl eq_refl)) as (A & B & _). split; auto. split; auto. cbn [u_enc]. eapply T; eauto.
      + eapply IH; eauto. intros w J. apply P. now right.
  Qed.
  Lemma rotate_plain : forall E rc n rc' o, plain_recipients ag rc -> rotate tp ag E rc n = (rc', o) -> plain_recipients ag rc'.
  Proof.
    intros E rc n rc' o (A & K & D1 & D2) H. destruct (rotate_keys tp ag E rc n rc' o H) as (Ka & Kk & _).
    assert (D : distinct_recipients rc') by (split; unfold distinct_units; [rewrite Ka|rewrite Kk]; auto).
    unfold rotate in H. destruct (rewrap_units (fun r => age_encrypt_key ag r (draw_key tp n)) (rc_age rc) (S n)) as [a oa] eqn:Ra.
    assert (Pa : forall u, In u a -> plain_unit (plain_recipient ag) u).
    { eapply rewrap_plain; [|exact A|exact Ra]. intros k m enc m' P X. unfold age_encrypt_key in X. injection X as <- _. apply PW, P. }
    destruct oa as [n1|e|]; [|injection H as <- _; exact (conj Pa (conj K D))|injection H as <- _; exact (conj Pa (conj K D))].
    destruct (rewrap_units (fun k => kms_encrypt_key E k (draw_key tp n)) (rc_kms rc) n1) as [k ok] eqn:Rk. injection H as <- _. split; [exact Pa|]. split; [|exact D]. cbn [rc_kms].
    eapply rewrap_plain; [|exact K|exact Rk]. intros k0 m enc m' _ X. eapply kms_text; exact X.
  Qed.
  Lemma remove_age_plain : forall E r rc n rc' o, plain_recipients ag rc -> remove_age tp ag E r rc n = (rc', o) -> plain_recipients ag rc'.
  Proof.
    intros E r rc n rc' o P H. unfold remove_age in H. destruct (unit_remove bytes_eqb r (rc_age rc)) as [[u rest]|] eqn:U; [|now injection H as <- _].
    destruct (rotate tp ag E {| rc_kms := rc_kms rc; rc_age := rest |} n) as [rc1 o1] eqn:R. injection H as <- _. eapply rotate_plain; [|exact R].
    destruct P as (A & K & D1 & D2). destruct (unit_remove_distinct bytes_eqb bytes_eqb_eq _ _ _ _ D1 U) as (D & _ & I). split; [|split; [auto|split; auto]].
    cbn [rc_age]. intros v J. apply A. now apply I.
  Qed.
  Lemma remove_kms_plain : forall E k rc n rc' o, plain_recipients ag rc -> remove_kms tp ag E k rc n = (rc', o) -> plain_recipients ag rc'.
  Proof.
    intros E k rc n rc' o P H. unfold remove_kms in H. destruct (unit_remove aws_key_eqb k (rc_kms rc)) as [[u rest]|] eqn:U; [|now injection H as <- _].
    destruct (rotate tp ag E {| rc_kms := rest; rc_age := rc_age rc |} n) as [rc1 o1] eqn:R. injection H as <- _. eapply rotate_plain; [|exact R].
    destruct P as (A & K & D1 & D2). destruct (unit_remove_distinct aws_key_eqb aws_key_eqb_eq _ _ _ _ D2 U) as (D & _ & I). split; [auto|split; [|split; auto]].
    cbn [rc_kms]. intros v J. apply K. now apply I.
  Qed.

  Lemma plain_meta_parts : forall md, plain_meta re_valid ag md <-> plain_recipients ag (md_recipients md) /\ real_time (md_modified md) /\ rust_evalue (md_mac md) /\ plain_rule re_valid (md_partial md).
  Proof. intro md. unfold plain_meta, plain_recipients. tauto. Qed.

  Lemma mac_rust : forall sv mac key lm n e n', (forall m0 nonce0, sv = Some (m0, nonce0) -> length nonce0 = 32) -> encrypt_mac tp sv mac key lm n = Ok (e, n') -> rust_evalue e.
  Proof.
    intros sv mac key lm n e n' L H. destruct (encrypt_mac_ok tp _ _ _ _ _ _ _ H) as (_ & G & N). split.
    - destruct N as [(m0 & E & _)|(-> & _)]; [eapply L; eauto|apply draw_nonce_len].
    - unfold encrypt_mac in H. match type of H with (let '(_, _) := ?x in _) = _ => destruct x as [nonce n1] end.
      apply bind_ok in H. destruct H as ([c t] & X & H). apply cipher_encrypt_ok in X. injection H as <- _. cbn [ev_tag fst snd]. unfold gcm_encrypt in X. destruct (_ || _) in X; [discriminate|]. injection X as _ <-. apply gcm_tag_length.
  Qed.

  Lemma built_plain : forall E f b n ef n', W E -> Forall (plain_recipient ag) (bd_age b) -> Forall plain_key (bd_kms b) -> plain_rule re_valid (bd_partial b) ->
    builder_encrypt re tp ag E f b n = Ok (ef, n') -> plain_meta re_valid ag (fl_meta ef).
  Proof.
    intros E f b n ef n' WE Fa Fk Pr H. apply build_ok in H. destruct H as (dm & em & n1 & rc & n2 & e & _ & _ & B & M & _ & ->). apply plain_meta_parts.
    cbn [md_recipients md_modified md_mac md_partial]. split. { eapply build_plain; eauto. } split. { now apply now_real. } split; auto. eapply mac_rust; [|exact M]. discriminate.
  Qed.
End PlainMeta.

(** ** A stored file *)
Section Stored.
  Context (re : regex_engine) (re_valid : bytes -> bool) (tp : tape) (ag : age_crate) (W : env -> Prop) (cd : codec) (g : f64 -> f64) (TL : time_law cd).

  (** A file that holds a document is written, and read back as it was. *)
  Lemma stored_back : forall f ef key dm, codec_law cd g f -> holds re tp ag W f ef key dm -> text_safe g f dm -> plain_meta re_valid ag (fl_meta ef) ->
    exists s, file_text cd f ef = Ok s /\ read_efile re_valid ag cd f s = Ok ef.
  Proof.
    intros f ef key dm CL (L & AW & G & F & _ & em & sv0 & n0 & n1 & nonce & SO & A & C & M) TS PM.
    destruct (enc_written re tp g f _ _ _ _ _ _ _ _ SO G F TS A C) as (S & D & N & La).
    destruct (file_text_back re_valid ag cd g TL f ef CL S D N PM) as (s & X & Y). exists s. split; auto. rewrite La in Y. now destruct ef.
  Qed.

  (** A plaintext document is written, and read back as it was. *)
  Lemma document_back : forall f dm fm, codec_law cd g f -> good_doc dm -> text_safe g f dm -> dec_map_from_internal f dm = Ok fm ->
    exists s, map_text cd f fm = Ok s /\ read_map cd f s = Ok fm.
  Proof.
    intros f dm fm CL G TS C. destruct (dec_written g f dm fm G TS C) as (S & D & N & La). pose proof (storable_tidy _ _ S) as T.
    assert (P : printable f fm). { split; auto. intros k v I. destruct S as [_ S]. rewrite each_Forall, Forall_forall in S. apply (S (k, v) I). }
    destruct (CL fm P) as (s & X & Y). exists s. unfold map_text, written. rewrite X. split; auto. unfold read_map. rewrite Y. cbn [bind]. rewrite La. now apply settle_map_keep.
  Qed.
End Stored.
