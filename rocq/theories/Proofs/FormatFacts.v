(** Facts about the conversion between parsed documents and the internal tree. *)
From Coq Require FinFun.
From Verif.Model Require Import Tree MapCrypt Format.
From Verif.Proofs Require Import BytesFacts FloatFacts Utf8Facts ValueFacts TreeFacts MapFacts NonceFacts.
From Verif.Spec Require Import SpecFormat.

(** ** Lists *)
Lemma each_Forall : forall {A} (P : A -> Prop) l, each P l <-> Forall P l.
Proof.
  intros A P. induction l as [|x l IH]; simpl; split; intro H; auto.
  - constructor; [apply H|apply IH, H].
  - inversion H; subst. split; auto. now apply IH.
Qed.

Lemma Forall2_impl : forall {A B} (R S : A -> B -> Prop) l l', (forall a b, R a b -> S a b) -> Forall2 R l l' -> Forall2 S l l'.
Proof. induction 2; constructor; auto. Qed.

Lemma Forall2_in_r : forall {A B} (R : A -> B -> Prop) l l' y, Forall2 R l l' -> In y l' -> exists x, In x l /\ R x y.
Proof. induction 1 as [|a b l l' H _ IH]; intro I; [destruct I|destruct I as [<-|I]]. exists a. split; auto. now left. destruct (IH I) as (x & ? & ?). exists x. split; auto. now right. Qed.
Lemma Forall2_in_l : forall {A B} (R : A -> B -> Prop) l l' x, Forall2 R l l' -> In x l -> exists y, In y l' /\ R x y.
Proof. induction 1 as [|a b l l' H _ IH]; intro I; [destruct I|destruct I as [<-|I]]. exists b. split; auto. now left. destruct (IH I) as (y & ? & ?). exists y. split; auto. now right. Qed.

Lemma mapM_ok : forall {A B} (f : A -> outcome B) l l', mapM f l = Ok l' <-> Forall2 (fun x y => f x = Ok y) l l'.
Proof.
  intros A B f. induction l as [|x l IH]; intro l'; cbn [mapM].
  - split; intro H; [injection H as <-; constructor|inversion H; reflexivity].
  - split; intro H.
    + apply bind_ok in H. destruct H as (y & E & H). apply bind_ok in H. destruct H as (ys & E' & H). injection H as <-.
      constructor; auto. now apply IH.
    + inversion H as [|? y ? ys E F]; subst. rewrite E. cbn [bind]. apply IH in F. now rewrite F.
Qed.

Lemma mapM_panic : forall {A B} (f : A -> outcome B) l, mapM f l = Panic -> exists x, In x l /\ f x = Panic.
Proof.
  intros A B f. induction l as [|x l IH]; cbn [mapM]; intro H; try discriminate.
  destruct (f x) as [y|e|] eqn:E; cbn [bind] in H; try discriminate; [|exists x; split; auto; now left].
  destruct (mapM f l) as [ys|e|]; cbn [bind] in H; try discriminate. destruct (IH eq_refl) as (z & I & Z). exists z. split; auto. now right.
Qed.

Lemma mapM_err : forall {A B} (f : A -> outcome B) l e, mapM f l = Err e -> exists x, In x l /\ f x = Err e.
Proof.
  intros A B f. induction l as [|x l IH]; intros e H; cbn [mapM] in H; try discriminate.
  destruct (f x) as [y|e'|] eqn:E; cbn [bind] in H; try discriminate; [|injection H as ->; exists x; split; auto; now left].
  destruct (mapM f l) as [ys|e'|] eqn:E'; cbn [bind] in H; try discriminate. injection H as ->.
  destruct (IH _ eq_refl) as (z & I & Z). exists z. split; auto. now right.
Qed.

Lemma insert_new : forall {A} k (a : A) m, ~ In k (map fst m) -> insert k a m = m ++ [(k, a)].
Proof.
  intros A k a. induction m as [|[k' a'] m IH]; intro H; cbn [insert app]; auto.
  destruct (bytes_eqb k k') eqn:E.
  - apply bytes_eqb_eq in E. subst. exfalso. apply H. now left.
  - rewrite IH; auto. intro I. apply H. now right.
Qed.

Lemma collect_nodup : forall {A} (l : list (bytes * A)), NoDup (map fst l) -> collect l = l.
Proof.
  intros A l H. unfold collect.
  assert (G : forall (l acc : list (bytes * A)), NoDup (map fst (acc ++ l)) ->
              fold_left (fun acc kt => insert (fst kt) (snd kt) acc) l acc = acc ++ l).
  { clear. induction l as [|[k a] l IH]; intros acc H; cbn [fold_left fst snd]; [now rewrite app_nil_r|].
    rewrite insert_new.
    - rewrite IH; rewrite <- app_assoc; auto.
    - rewrite map_app in H. cbn [map fst] in H. apply NoDup_remove_2 in H. intro I. apply H. apply in_or_app. now left. }
  apply (G l []). exact H.
Qed.

Lemma insert_keys : forall {A} k (a : A) m, NoDup (map fst m) -> NoDup (map fst (insert k a m)) /\ (forall k', In k' (map fst (insert k a m)) <-> k' = k \/ In k' (map fst m)).
Proof.
  intros A k a. induction m as [|[k0 a0] m IH]; intro H; cbn [insert map fst].
  - split. constructor; [intros []|constructor]. intro k'. simpl. intuition congruence.
  - inversion H as [|? ? N D]; subst. destruct (bytes_eqb k k0) eqn:E; cbn [map fst].
    + apply bytes_eqb_eq in E. subst. split; auto. intro k'. simpl. intuition congruence.
    + destruct (IH D) as [D' K]. split.
      * constructor; auto. rewrite K. intros [->|I]; auto. rewrite (proj2 (bytes_eqb_eq k k) eq_refl) in E. discriminate.
      * intro k'. simpl. rewrite K. tauto.
Qed.

Lemma collect_distinct : forall {A} (l : list (bytes * A)), NoDup (map fst (collect l)).
Proof.
  intros A l. unfold collect. assert (G : forall (l acc : list (bytes * A)), NoDup (map fst acc) ->
    NoDup (map fst (fold_left (fun acc kt => insert (fst kt) (snd kt) acc) l acc))).
  { clear. induction l as [|[k a] l IH]; intros acc H; cbn [fold_left]; auto. apply IH. now apply insert_keys. }
  apply G. constructor.
Qed.

Lemma map_fst_fstr : forall {A} (l : list (bytes * A)), map fst (map (fun kt => (FStr (fst kt), snd kt)) l) = map FStr (map fst l).
Proof. intros. rewrite !map_map. reflexivity. Qed.

Lemma NoDup_fstr : forall l, NoDup (map FStr l) <-> NoDup l.
Proof.
  split. apply NoDup_map_inv. intro H. apply FinFun.Injective_map_NoDup; auto. intros a b E. congruence.
Qed.

(** ** Induction on document values *)
Section FInd.
  Context (P : fvalue -> Prop)
    (HM : forall m, Forall (fun kv => P (snd kv)) m -> P (FMap m))
    (HS : forall l, Forall P l -> P (FSeq l))
    (Hs : forall s, P (FStr s)) (Hb : forall b, P (FBool b)) (Hn : forall n, P (FNum n)) (H0 : P FNull)
    (Ht : forall t v, P v -> P (FTagged t v)) (Hd : forall s, P (FDate s)).
  Fixpoint fvalue_ind' (v : fvalue) : P v :=
    match v with
    | FMap m => HM m ((fix go m : Forall (fun kv => P (snd kv)) m :=
                         match m with [] => Forall_nil _ | kv :: m' => Forall_cons _ (fvalue_ind' (snd kv)) (go m') end) m)
    | FSeq l => HS l ((fix go l : Forall P l := match l with [] => Forall_nil _ | x :: l' => Forall_cons _ (fvalue_ind' x) (go l') end) l)
    | FStr s => Hs s
    | FBool b => Hb b
    | FNum n => Hn n
    | FNull => H0
    | FTagged t v => Ht t v (fvalue_ind' v)
    | FDate s => Hd s
    end.
End FInd.

(** ** One map entry *)
Lemma entry_to : forall (g : fvalue -> outcome dtree) kv k t,
  (let* k := validate_key (fst kv) in let* t := g (snd kv) in Ok (k, t)) = Ok (k, t) <-> fst kv = FStr k /\ g (snd kv) = Ok t.
Proof.
  intros g [fk fv] k t. cbn [fst snd]. split.
  - intro H. apply bind_ok in H. destruct H as (k' & E & H). apply bind_ok in H. destruct H as (t' & E' & H). injection H as <- <-.
    destruct fk; try discriminate E. injection E as ->. auto.
  - intros [-> E]. cbn [validate_key bind]. now rewrite E.
Qed.

Lemma entry_from : forall {L} (g : tree L -> outcome fvalue) (kt : bytes * tree L) k v,
  (let* v := g (snd kt) in Ok (fst kt, v)) = Ok (k, v) <-> k = fst kt /\ g (snd kt) = Ok v.
Proof.
  intros L g [k0 t] k v. cbn [fst snd]. split.
  - intro H. apply bind_ok in H. destruct H as (v' & E & H). injection H as -> ->. auto.
  - intros [-> E]. now rewrite E.
Qed.

Lemma Forall2_keys : forall {A B} (R : A -> B -> Prop) (m : list (fvalue * A)) (l : list (bytes * B)),
  Forall2 (fun kv kt => fst kv = FStr (fst kt) /\ R (snd kv) (snd kt)) m l -> map fst m = map FStr (map fst l).
Proof. induction 1 as [|kv kt m l [E _] _ IH]; simpl; congruence. Qed.

Lemma is_toml_null_iff : forall f s, is_toml_null f s = true <-> f = Toml /\ s = lit "null".
Proof.
  intros [| |] s; cbn [is_toml_null]; split; intro H; try discriminate; try (destruct H; discriminate).
  - apply bytes_eqb_eq in H. auto.
  - apply bytes_eqb_eq. apply H.
Qed.

Lemma float_back : forall f x, f64_canonical x = true -> (f = Json -> f64_finite x = true) -> from_internal_value f (float_value x) = Ok (FNum (NFlt x)).
Proof.
  intros f x C J. unfold float_value. cbn [from_internal_value]. unfold float_of_text. rewrite parse_f64_text by exact C. cbn [bind].
  destruct f; auto. now rewrite J.
Qed.

(** ** Reading a plaintext document and writing it again *)
Lemma dec_to_from : forall f v t, fmt_value f v -> dec_to_internal f v = Ok t ->
  dec_from_internal f t = Ok (normal v) /\ distinct_keys t
  /\ (forall ks ks' w, In (ks', w) (values_under ks t) -> rust_value w) /\ all_keys utf8_text t.
Proof.
  intros f v. induction v as [m IH|l IH|s|b|n| |tg v IH|s] using fvalue_ind'; intros t W H; cbn [dec_to_internal] in H.
  - apply bind_ok in H. destruct H as (l & E & H). injection H as <-. apply mapM_ok in E.
    assert (E' : Forall2 (fun kv kt => fst kv = FStr (fst kt) /\ dec_to_internal f (snd kv) = Ok (snd kt)) m l).
    { eapply Forall2_impl; [|exact E]. intros kv [k t] H. now apply entry_to in H. }
    destruct W as [D W]. apply each_Forall in W.
    assert (DK : NoDup (map fst l)). { rewrite (Forall2_keys (fun v t => dec_to_internal f v = Ok t) _ _ E') in D. now apply NoDup_fstr in D. }
    rewrite collect_nodup by exact DK.
    assert (A : Forall2 (fun kv kt => fst kv = FStr (fst kt) /\ utf8_text (fst kt) /\ dec_from_internal f (snd kt) = Ok (normal (snd kv)) /\ distinct_keys (snd kt)
       /\ (forall ks ks' w, In (ks', w) (values_under ks (snd kt)) -> rust_value w) /\ all_keys utf8_text (snd kt)) m l).
    { clear - IH W E'. induction E' as [|kv kt m l [K E] _ IHl]; constructor.
      - inversion IH as [|? ? I1 _]; inversion W as [|? ? W1 _]; subst. destruct W1 as [W0 W1]. rewrite K in W0. destruct (I1 _ W1 E) as (X1 & X2 & X3 & X4). auto 10.
      - apply IHl; [inversion IH|inversion W]; auto. }
    repeat split; auto.
    + cbn [dec_from_internal normal].
      assert (G : mapM (fun kt => let* v := dec_from_internal f (snd kt) in Ok (fst kt, v)) l = Ok (combine (map fst l) (map (fun kv => normal (snd kv)) m))).
      { apply mapM_ok. clear - A. induction A as [|kv kt m l (_ & _ & E & _) _ IHl]; cbn [map combine]; constructor; auto. now rewrite E. }
      rewrite G. cbn [bind]. unfold to_fmap.
      assert (MF : map fst (combine (map fst l) (map (fun kv => normal (snd kv)) m)) = map fst l).
      { clear - A. induction A; cbn [map combine fst]; congruence. }
      rewrite collect_nodup by (rewrite MF; exact DK). repeat f_equal.
      clear - A. induction A as [|kv kt m l (K & _) _ IHl]; cbn [map combine fst snd]; auto. rewrite <- K. now rewrite IHl.
    + apply each_Forall. clear - A. induction A as [|? ? ? ? (_ & _ & _ & H & _) _ ?]; constructor; auto.
    + intros ks ks' w I. cbn [values_under] in I. apply in_flat_map in I. destruct I as (kt & I & I').
      destruct (Forall2_in_r _ _ _ _ A I) as (kv & _ & (_ & _ & _ & _ & H & _)). eauto.
    + apply each_Forall. clear - A. induction A as [|? ? ? ? (_ & H1 & _ & _ & _ & H2) _ ?]; constructor; auto.
  - apply bind_ok in H. destruct H as (ts & E & H). injection H as <-. apply mapM_ok in E. cbn [fmt_value] in W. apply each_Forall in W.
    assert (A : Forall2 (fun v t => dec_from_internal f t = Ok (normal v) /\ distinct_keys t
       /\ (forall ks ks' w, In (ks', w) (values_under ks t) -> rust_value w) /\ all_keys utf8_text t) l ts).
    { clear - IH W E. induction E as [|v t l ts E _ IHl]; constructor.
      - inversion IH as [|? ? I1 _]; inversion W as [|? ? W1 _]; subst. destruct (I1 _ W1 E) as (X1 & X2 & X3 & X4). auto.
      - apply IHl; [inversion IH|inversion W]; auto. }
    repeat split; auto.
    + cbn [dec_from_internal normal]. rewrite (proj2 (mapM_ok _ ts (map normal l))); auto. clear - A. induction A as [|? ? ? ? [H _] _ ?]; cbn [map]; constructor; auto.
    + cbn [distinct_keys]. apply each_Forall. clear - A. induction A as [|? ? ? ? (_ & H & _) _ ?]; constructor; auto.
    + intros ks ks' w I. cbn [values_under] in I. apply in_flat_map in I. destruct I as (kt & I & I').
      destruct (Forall2_in_r _ _ _ _ A I) as (kv & _ & (_ & _ & H & _)). eauto.
    + cbn [all_keys]. apply each_Forall. clear - A. induction A as [|? ? ? ? (_ & _ & _ & H) _ ?]; constructor; auto.
  - destruct (is_toml_null f s) eqn:N; injection H as <-; cbn [dec_from_internal distinct_keys normal all_keys from_internal_value values_under].
    + apply is_toml_null_iff in N. destruct N as [-> ->]. repeat split; auto. intros ? ? ? [].
    + repeat split; auto. intros ks ks' w [E|[]]. injection E as <- <-. constructor. exact W.
  - injection H as <-. cbn. repeat split; auto. intros ks ks' w [E|[]]. injection E as <- <-. constructor.
  - apply bind_ok in H. destruct H as (w & E & H). injection H as <-. destruct n as [z|x]; cbn [to_internal_number] in E.
    + destruct (in_i64 z) eqn:R; try discriminate. injection E as <-. cbn. repeat split; auto. intros ks ks' w [E|[]]. injection E as <- <-. constructor. now apply in_i64_iff.
    + injection E as <-. destruct W as [C J]. cbn [dec_from_internal distinct_keys normal all_keys values_under]. rewrite float_back by auto. repeat split; auto.
      intros ks ks' w [E|[]]. injection E as <- <-. now constructor.
  - injection H as <-. cbn. cbn in W. destruct f; try congruence; repeat split; auto; intros ? ? ? [].
  - destruct W as [_ W]. cbn [normal]. auto.
  - injection H as <-. cbn [dec_from_internal from_internal_value normal distinct_keys all_keys values_under]. repeat split; auto.
    intros ks ks' w [E|[]]. injection E as <- <-. constructor. apply W.
Qed.

Lemma dec_map_tree : forall f m t, dec_to_internal f (FMap m) = Ok t <-> exists im, t = Map im /\ dec_map_to_internal f m = Ok im.
Proof.
  intros f m t. cbn [dec_to_internal]. unfold dec_map_to_internal. destruct (mapM _ m) as [l|e|]; cbn [bind]; split; intro H;
    try discriminate; try (destruct H as (? & _ & H); discriminate).
  - injection H as <-. eauto.
  - destruct H as (im & -> & H). injection H as <-. reflexivity.
Qed.

Lemma dec_map_tree_from : forall f m v, dec_from_internal f (Map m) = Ok v <-> exists fm, v = FMap fm /\ dec_map_from_internal f m = Ok fm.
Proof.
  intros f m t. cbn [dec_from_internal]. unfold dec_map_from_internal. match goal with |- context [mapM ?g m] => destruct (mapM g m) as [l|e|] end; cbn [bind]; split; intro H;
    try discriminate; try (destruct H as (? & _ & H); discriminate).
  - injection H as <-. eauto.
  - destruct H as (im & -> & H). injection H as <-. reflexivity.
Qed.

Lemma dec_map_to_from : forall f m im, fmt_doc f m -> dec_map_to_internal f m = Ok im ->
  dec_map_from_internal f im = Ok (normal_doc m) /\ distinct_keys (Map im) /\ rust_map im /\ all_keys utf8_text (Map im).
Proof.
  intros f m im W H. assert (H' : dec_to_internal f (FMap m) = Ok (Map im)) by (apply dec_map_tree; eauto).
  destruct (dec_to_from f (FMap m) _ W H') as (A & B & C & D). repeat split; auto.
  - apply dec_map_tree_from in A. destruct A as (fm & E & A). cbn [normal] in E. injection E as <-. exact A.
  - apply B.
  - apply B.
  - intros ks w I. eapply C. exact I.
Qed.

(** ** Which documents are accepted *)
Lemma dec_accepts : forall f v,
  (exists t, dec_to_internal f v = Ok t) <-> (forall k, In k (fkeys_of v) -> exists s, k = FStr s) /\ (forall z, In z (ints_of v) -> (- 2 ^ 63 <= z < 2 ^ 63)%Z).
Proof.
  intros f v. induction v as [m IH|l IH|s|b|n| |tg v IH|s] using fvalue_ind'; cbn [dec_to_internal fkeys_of ints_of].
  - split.
    + intros (t & H). apply bind_ok in H. destruct H as (l & E & _). apply mapM_ok in E.
      clear t. assert (A : Forall (fun kv => exists k t, fst kv = FStr k /\ dec_to_internal f (snd kv) = Ok t) m).
      { clear - E. induction E as [|kv [k t] m l E _ IHl]; constructor; auto. apply entry_to in E. eauto. }
      clear E l. split.
      * intros k I. apply in_flat_map in I. destruct I as (kv & I & I'). rewrite Forall_forall in A, IH. destruct (A _ I) as (s & t & K & T).
        destruct I' as [<-|I']; eauto. apply (IH _ I); eauto.
      * intros z I. apply in_flat_map in I. destruct I as (kv & I & I'). rewrite Forall_forall in A, IH. destruct (A _ I) as (s & t & K & T).
        apply (proj1 (IH _ I)); eauto.
    + intros [K Z]. assert (exists l, mapM (fun kv => let* k := validate_key (fst kv) in let* t := dec_to_internal f (snd kv) in Ok (k, t)) m = Ok l) as (l & E).
      { induction IH as [|kv m H _ IHm]; cbn [mapM]; eauto.
        destruct (K (fst kv)) as (s & E). { cbn [flat_map]. apply in_or_app. left. now left. }
        destruct (proj2 H) as (t & Et). { split; intros x I; [apply K|apply Z]; cbn [flat_map]; apply in_or_app; left; auto. now right. }
        destruct IHm as (l & El); [intros k I; apply K|intros z I; apply Z|]; [cbn [flat_map]; apply in_or_app; now right ..|].
        rewrite E. cbn [validate_key bind]. rewrite Et. cbn [bind]. rewrite El. cbn [bind]. eauto. }
      rewrite E. cbn [bind]. eauto.
  - split.
    + intros (t & H). apply bind_ok in H. destruct H as (ts & E & _). apply mapM_ok in E.
      assert (A : Forall (fun v => exists t, dec_to_internal f v = Ok t) l).
      { clear - E. induction E; constructor; eauto. }
      rewrite Forall_forall in A, IH. split; intros x I; apply in_flat_map in I; destruct I as (v & I & I'); eapply (proj1 (IH _ I)); eauto.
    + intros [K Z]. assert (exists l', mapM (dec_to_internal f) l = Ok l') as (l' & E).
      { induction IH as [|v l H _ IHm]; cbn [mapM]; eauto.
        destruct (proj2 H) as (t & Et). { split; intros x I; [apply K|apply Z]; cbn [flat_map]; apply in_or_app; left; auto. }
        destruct IHm as (l' & El); [intros k I; apply K|intros z I; apply Z|]; [cbn [flat_map]; apply in_or_app; now right ..|].
        rewrite Et. cbn [bind]. rewrite El. cbn [bind]. eauto. }
      rewrite E. cbn [bind]. eauto.
  - split; [intros _; split; intros ? []|]. intros _. destruct (is_toml_null f s); eauto.
  - split; [intros _; split; intros ? []|]. eauto.
  - destruct n as [z|x]; cbn [to_internal_number].
    + split.
      * intros (t & H). split; [intros ? []|]. intros z' [<-|[]]. destruct (in_i64 z) eqn:E; try discriminate. now apply in_i64_iff.
      * intros [_ H]. rewrite (proj2 (in_i64_iff z)) by (apply H; now left). cbn [bind]. eauto.
    + split; [intros _; split; intros ? []|]. cbn [bind]. eauto.
  - split; [intros _; split; intros ? []|]. eauto.
  - exact IH.
  - split; [intros _; split; intros ? []|]. eauto.
Qed.

Lemma dec_no_panic : forall f v, dec_to_internal f v <> Panic.
Proof.
  intros f v. induction v as [m IH|l IH|s|b|n| |tg v IH|s] using fvalue_ind'; cbn [dec_to_internal]; try discriminate; auto.
  - intro H. destruct (mapM _ m) as [l|e|] eqn:E; cbn [bind] in H; try discriminate. apply mapM_panic in E.
    destruct E as ([k v] & I & E). cbn [fst snd] in E. rewrite Forall_forall in IH. specialize (IH _ I). cbn [snd] in IH.
    destruct k; cbn [validate_key bind] in E; try discriminate. destruct (dec_to_internal f v); cbn [bind] in E; congruence.
  - intro H. destruct (mapM _ l) as [l'|e|] eqn:E; cbn [bind] in H; try discriminate. apply mapM_panic in E.
    destruct E as (v & I & E). rewrite Forall_forall in IH. now apply (IH _ I).
  - destruct (is_toml_null f s); discriminate.
  - destruct n as [z|x]; cbn [to_internal_number]. destruct (in_i64 z); discriminate. discriminate.
Qed.

Lemma dec_errors : forall f v e, dec_to_internal f v = Err e -> e = ENonStringKey \/ e = EIntegerOutOfRange.
Proof.
  intros f v. induction v as [m IH|l IH|s|b|n| |tg v IH|s] using fvalue_ind'; intros e H; cbn [dec_to_internal] in H; try discriminate; eauto.
  - destruct (mapM _ m) as [l|e'|] eqn:E; cbn [bind] in H; try discriminate. injection H as ->. apply mapM_err in E.
    destruct E as ([k v] & I & E). cbn [fst snd] in E. rewrite Forall_forall in IH. specialize (IH _ I). cbn [snd] in IH.
    destruct k; cbn [validate_key bind] in E; try (injection E as <-; now left). destruct (dec_to_internal f v); cbn [bind] in E; try discriminate; injection E as ->; auto.
  - destruct (mapM _ l) as [l'|e'|] eqn:E; cbn [bind] in H; try discriminate. injection H as ->. apply mapM_err in E.
    destruct E as (v & I & E). rewrite Forall_forall in IH. eapply IH; eauto.
  - destruct (is_toml_null f s); discriminate.
  - destruct n as [z|x]; cbn [to_internal_number] in H. destruct (in_i64 z); try discriminate. injection H as <-. auto. discriminate.
Qed.

Lemma dec_errors_keys : forall f v e, (forall k, In k (fkeys_of v) -> exists s, k = FStr s) -> dec_to_internal f v = Err e -> e = EIntegerOutOfRange.
Proof.
  intros f v. induction v as [m IH|l IH|s|b|n| |tg v IH|s] using fvalue_ind'; intros e K H; cbn [dec_to_internal fkeys_of] in *; try discriminate; eauto.
  - destruct (mapM _ m) as [l|e'|] eqn:E; cbn [bind] in H; try discriminate. injection H as ->. apply mapM_err in E.
    destruct E as ([k v] & I & E). cbn [fst snd] in E. rewrite Forall_forall in IH. specialize (IH _ I). cbn [snd] in IH.
    destruct (K k) as (s & ->). { apply in_flat_map. exists (k, v). split; auto. now left. }
    cbn [validate_key bind] in E. destruct (dec_to_internal f v) eqn:Q; cbn [bind] in E; try discriminate. injection E as ->. apply IH; auto.
    intros k J. apply K. apply in_flat_map. exists (FStr s, v). split; auto. now right.
  - destruct (mapM _ l) as [l'|e'|] eqn:E; cbn [bind] in H; try discriminate. injection H as ->. apply mapM_err in E.
    destruct E as (v & I & E). rewrite Forall_forall in IH. eapply IH; eauto. intros k J. apply K. apply in_flat_map. eauto.
  - destruct (is_toml_null f s); discriminate.
  - destruct n as [z|x]; cbn [to_internal_number] in H. destruct (in_i64 z); try discriminate. injection H as <-. auto. discriminate.
Qed.

(** ** Writing an internal tree in a format and reading it again *)
Definition writable (f : fmt) (v : value) : Prop := rust_value v /\ (f = Json -> ~ non_finite v).

Lemma f64_text_finite : forall x, f64_canonical x = true -> (f64_finite x = false <-> non_finite (VFloat (f64_text x))).
Proof.
  intros x C. unfold non_finite. split.
  - destruct x as [|[|]|s m e]; cbn; intro H; try discriminate; auto.
  - intro H. pose proof (parse_f64_text x C) as P.
    destruct H as [H|[H|H]]; injection H as H; rewrite H in P; vm_compute in P; injection P as <-; reflexivity.
Qed.

Lemma from_value_ok : forall f v, writable f v -> exists w, from_internal_value f v = Ok w.
Proof.
  intros f v [R J]. destruct R as [s Hs|b|z Hz|x Hx]; cbn [from_internal_value]; eauto.
  change (VFloat (f64_text x)) with (float_value x). unfold float_value in J. 
  pose proof (float_back f x Hx) as B. exists (FNum (NFlt x)). unfold float_value in B. cbn [from_internal_value] in B. apply B.
  intros ->. destruct (f64_finite x) eqn:E; auto. exfalso. apply (J eq_refl). now apply f64_text_finite.
Qed.

Lemma from_value_panic : forall f v, rust_value v -> (from_internal_value f v = Panic <-> f = Json /\ non_finite v).
Proof.
  intros f v R. destruct R as [s Hs|b|z Hz|x Hx]; cbn [from_internal_value]; try (split; [discriminate|intros [_ [H|[H|H]]]; discriminate]).
  unfold float_of_text. rewrite parse_f64_text by exact Hx. cbn [bind]. rewrite <- f64_text_finite by exact Hx.
  destruct f; [split; [discriminate|intros [? _]; discriminate] | |split; [discriminate|intros [? _]; discriminate]].
  destruct (f64_finite x); split; auto; try discriminate. intros [_ ?]; discriminate.
Qed.

Lemma from_value_no_err : forall f v e, from_internal_value f v <> Err e.
Proof.
  intros f v e. destruct v; cbn [from_internal_value]; try discriminate. unfold float_of_text. destruct (parse_f64 t); cbn [bind]; try discriminate.
  destruct f; try discriminate. destruct (f64_finite f0); discriminate.
Qed.

(** One leaf written and read back. *)
Lemma value_back : forall f v w, rust_value v -> from_internal_value f v = Ok w ->
  dec_to_internal f w = Ok (read_as f (Leaf v)).
Proof.
  intros f v w R H. destruct R as [s Hs|b|z Hz|x Hx]; cbn [from_internal_value] in H.
  - injection H as <-. cbn [dec_to_internal]. destruct f; cbn [is_toml_null read_as nulled]; auto. destruct (bytes_eqb s (lit "null")); auto.
  - injection H as <-. now destruct f.
  - injection H as <-. cbn [dec_to_internal to_internal_number]. rewrite (proj2 (in_i64_iff z) Hz). now destruct f.
  - unfold float_of_text in H. rewrite parse_f64_text in H by exact Hx. cbn [bind] in H.
    assert (w = FNum (NFlt x)) as ->. { destruct f; try (now injection H as <-). destruct (f64_finite x); try discriminate. now injection H as <-. }
    cbn [dec_to_internal to_internal_number bind]. now destruct f.
Qed.

Lemma dec_from_to : forall f t v, distinct_keys t -> (forall ks w, In (ks, w) (values_under [] t) -> rust_value w) ->
  dec_from_internal f t = Ok v -> dec_to_internal f v = Ok (read_as f t).
Proof.
  intros f t v D R H. cut (forall ks, (forall ks' w, In (ks', w) (values_under ks t) -> rust_value w) -> dec_to_internal f v = Ok (read_as f t)).
  { intro G. apply (G []). exact R. }
  clear R. revert v D H. induction t as [l IH|m IH| |w] using tree_ind'; intros v D H ks R; cbn [dec_from_internal] in H.
  - apply bind_ok in H. destruct H as (vs & E & H). injection H as <-. apply mapM_ok in E. cbn [distinct_keys] in D. apply each_Forall in D.
    cbn [dec_to_internal].
    assert (G : mapM (dec_to_internal f) vs = Ok (map (read_as f) l)).
    { apply mapM_ok. clear - E IH D R. cbn [values_under] in R. induction E as [|t v l vs E _ IHl]; cbn [map]; constructor.
      - inversion IH as [|? ? I1 _]; inversion D as [|? ? D1 _]; subst. apply (I1 _ D1 E ks). intros ks' w I. apply (R ks'). cbn [flat_map]. apply in_or_app. now left.
      - apply IHl; [inversion IH; auto|inversion D; auto|]. intros ks' w I. apply (R ks'). cbn [flat_map]. apply in_or_app. now right. }
    rewrite G. cbn [bind]. destruct f; cbn [read_as nulled]; rewrite ?map_id; auto.
  - apply bind_ok in H. destruct H as (l & E & H). injection H as <-. apply mapM_ok in E. destruct D as [N D]. apply each_Forall in D.
    assert (E' : Forall2 (fun kt kv => fst kv = fst kt /\ dec_from_internal f (snd kt) = Ok (snd kv)) m l).
    { eapply Forall2_impl; [|exact E]. intros kt [k v] H. now apply entry_from in H. }
    assert (K : map fst l = map fst m). { clear - E'. induction E' as [|? ? ? ? [H0 _] _ IH0]; cbn [map]; auto; now rewrite H0, IH0. }
    unfold to_fmap. rewrite collect_nodup by (rewrite K; exact N). cbn [dec_to_internal].
    assert (G : mapM (fun kv => let* k := validate_key (fst kv) in let* t := dec_to_internal f (snd kv) in Ok (k, t)) (map (fun kt => (FStr (fst kt), snd kt)) l)
      = Ok (map (fun kt => (fst kt, read_as f (snd kt))) m)).
    { apply mapM_ok. clear - E' IH D R. cbn [values_under] in R. induction E' as [|kt kv m l [K E] _ IHl]; cbn [map]; constructor.
      - inversion IH as [|? ? I1 _]; inversion D as [|? ? D1 _]; subst. cbn [fst snd validate_key bind]. rewrite (I1 _ D1 E (ks ++ [fst kt])).
        + cbn [bind]. now rewrite K.
        + intros ks' w I. apply (R ks'). cbn [flat_map]. apply in_or_app. now left.
      - apply IHl; [inversion IH; auto|inversion D; auto|]. intros ks' w I. apply (R ks'). cbn [flat_map]. apply in_or_app. now right. }
    rewrite G. cbn [bind]. rewrite collect_nodup.
    + destruct f; cbn [read_as nulled]; auto; do 2 f_equal; rewrite <- (map_id m) at 2; apply map_ext; now intros [].
    + rewrite map_map. cbn [fst]. exact N.
  - destruct f; injection H as <-; reflexivity.
  - apply value_back; auto. apply (R ks). cbn. now left.
Qed.

Ltac in_mapM H E := match type of H with context [mapM ?g ?m] => destruct (mapM g m) as [vs|e'|] eqn:E end.
Ltac goal_mapM E := match goal with |- context [mapM ?g ?m] => destruct (mapM g m) as [vs|e|] eqn:E end.

Lemma dec_from_outcome : forall f t ks, (forall ks' w, In (ks', w) (values_under ks t) -> rust_value w) ->
  (forall e, dec_from_internal f t <> Err e) /\ (dec_from_internal f t = Panic <-> f = Json /\ exists ks' w, In (ks', w) (values_under ks t) /\ non_finite w).
Proof.
  intros f. induction t as [l IH|m IH| |w] using tree_ind'; intros ks R; cbn [dec_from_internal values_under] in *.
  - assert (A : forall t, In t l -> (forall e, dec_from_internal f t <> Err e) /\ (dec_from_internal f t = Panic <-> f = Json /\ exists ks' w, In (ks', w) (values_under ks t) /\ non_finite w)).
    { intros t I. rewrite Forall_forall in IH. apply (IH _ I ks). intros ks' w I'. apply (R ks'). apply in_flat_map. eauto. }
    clear IH R. split.
    + intros e H. in_mapM H E; cbn [bind] in H; try discriminate. apply mapM_err in E. destruct E as (t & I & E). now apply (A _ I) in E.
    + split.
      * intro H. in_mapM H E; cbn [bind] in H; try discriminate. apply mapM_panic in E. destruct E as (t & I & E).
        apply (A _ I) in E. destruct E as (-> & ks' & w & I' & N). split; auto. exists ks', w. split; auto. apply in_flat_map. eauto.
      * intros (-> & ks' & w & I & N). apply in_flat_map in I. destruct I as (t & I & I').
        goal_mapM E; cbn [bind]; auto; exfalso.
        -- apply mapM_ok in E. assert (dec_from_internal Json t = Panic) by (apply (A _ I); eauto).
           destruct (Forall2_in_l _ _ _ _ E I) as (? & _ & ?). congruence.
        -- apply mapM_err in E. destruct E as (t' & J & E). now apply (A _ J) in E.
  - assert (A : forall kt, In kt m -> (forall e, dec_from_internal f (snd kt) <> Err e) /\ (dec_from_internal f (snd kt) = Panic <-> f = Json /\ exists ks' w, In (ks', w) (values_under (ks ++ [fst kt]) (snd kt)) /\ non_finite w)).
    { intros kt I. rewrite Forall_forall in IH. apply (IH _ I). intros ks' w I'. apply (R ks'). apply in_flat_map. eauto. }
    clear IH R. split.
    + intros e H. in_mapM H E; cbn [bind] in H; try discriminate. apply mapM_err in E. destruct E as (t & I & E).
      destruct (A _ I) as [A1 _]. destruct (dec_from_internal f (snd t)) eqn:E0; cbn [bind] in E; try discriminate. exact (A1 _ E0).
    + split.
      * intro H. in_mapM H E; cbn [bind] in H; try discriminate. apply mapM_panic in E. destruct E as (t & I & E).
        destruct (A _ I) as [_ A1]. destruct (dec_from_internal f (snd t)) eqn:E0; cbn [bind] in E; try discriminate.
        destruct (proj1 A1 E0) as (-> & ks' & w & I' & N). split; auto. exists ks', w. split; auto. apply in_flat_map. eauto.
      * intros (-> & ks' & w & I & N). apply in_flat_map in I. destruct I as (t & I & I').
        goal_mapM E; cbn [bind]; auto; exfalso.
        -- apply mapM_ok in E. assert (H : dec_from_internal Json (snd t) = Panic) by (apply (A _ I); eauto).
           destruct (Forall2_in_l _ _ _ _ E I) as (? & _ & E'). cbn beta in E'. apply bind_ok in E'. destruct E' as (? & E' & _). discriminate (eq_trans (eq_sym H) E').
        -- apply mapM_err in E. destruct E as (t' & J & E). destruct (A _ J) as [A1 _]. destruct (dec_from_internal Json (snd t')) eqn:E0; cbn [bind] in E; try discriminate. exact (A1 _ E0).
  - split. destruct f; discriminate. split. destruct f; discriminate. intros (_ & ? & ? & [] & _).
  - assert (RV : rust_value w) by (apply (R ks); now left). split. intro e. apply from_value_no_err.
    rewrite from_value_panic by exact RV. split; intros [-> H]; split; auto. exists ks, w. split; auto. now left.
    destruct H as (? & ? & [E|[]] & H). injection E as <- <-. exact H.
Qed.
