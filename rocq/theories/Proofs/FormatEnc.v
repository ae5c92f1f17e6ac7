(** Facts about reading and writing encrypted documents. *)
From Verif.Model Require Import Tree MapCrypt Format.
From Verif.Proofs Require Import BytesFacts FloatFacts Utf8Facts ValueFacts TreeFacts MapFacts NonceFacts FormatFacts.
From Verif.Spec Require Import SpecFormat.

Lemma collect_in : forall {A} (l : list (bytes * A)) x, In x (collect l) -> In x l.
Proof.
  intros A l x. unfold collect.
  assert (I : forall k (a : A) m x, In x (insert k a m) -> x = (k, a) \/ In x m).
  { intros k a. induction m as [|[k' a'] m IH]; intros y H; cbn [insert] in H.
    - destruct H as [<-|[]]. now left.
    - destruct (bytes_eqb k k') eqn:E; destruct H as [<-|H].
      + apply bytes_eqb_eq in E. subst. now left.
      + right. now right.
      + right. now left.
      + apply IH in H. destruct H; auto. right. now right. }
  assert (G : forall (l acc : list (bytes * A)) x, In x (fold_left (fun acc kt => insert (fst kt) (snd kt) acc) l acc) -> In x acc \/ In x l).
  { clear l x. induction l as [|[k a] l IH]; intros acc x H; cbn [fold_left] in H; auto.
    apply IH in H. destruct H as [H|H]; [|right; now right]. apply I in H. destruct H as [->|H]; auto. right. now left. }
  intro H. apply G in H. destruct H as [[]|H]; auto.
Qed.

(** ** Distinct keys depend on the structure only *)
Lemma distinct_skeleton : forall {L} (t : tree L), distinct_keys (skeleton t) <-> distinct_keys t.
Proof.
  intros L t. induction t as [l IH|m IH| |v] using tree_ind'; cbn [skeleton distinct_keys]; try tauto.
  - rewrite !each_Forall, Forall_map. rewrite !Forall_forall. rewrite Forall_forall in IH. split; intros H x I; apply (IH _ I); auto.
  - rewrite map_map. cbn [fst]. rewrite !each_Forall, Forall_map, !Forall_forall. rewrite Forall_forall in IH.
    split; intros [N H]; split; auto; intros x I; cbn [snd] in *; apply (IH _ I); auto.
Qed.
Lemma distinct_same : forall {L L'} (t : tree L) (t' : tree L'), skeleton t = skeleton t' -> distinct_keys t -> distinct_keys t'.
Proof. intros L L' t t' E H. apply distinct_skeleton. rewrite <- E. now apply distinct_skeleton. Qed.

Lemma all_keys_skeleton : forall {L} P (t : tree L), all_keys P (skeleton t) <-> all_keys P t.
Proof.
  intros L P t. induction t as [l IH|m IH| |v] using tree_ind'; cbn [skeleton all_keys]; try tauto.
  - rewrite !each_Forall, Forall_map. rewrite !Forall_forall. rewrite Forall_forall in IH. split; intros H x I; apply (IH _ I); auto.
  - rewrite !each_Forall, Forall_map, !Forall_forall. rewrite Forall_forall in IH.
    split; intros H x I; cbn [fst snd] in *; (split; [apply (H _ I)|]); apply (IH _ I), (H _ I).
Qed.
Lemma all_keys_same : forall {L L'} P (t : tree L) (t' : tree L'), skeleton t = skeleton t' -> all_keys P t -> all_keys P t'.
Proof. intros L L' P t t' E H. apply all_keys_skeleton. rewrite <- E. now apply all_keys_skeleton. Qed.

(** Keys enclosing a value are keys of the tree. *)
Lemma all_keys_values : forall {L} P (t : tree L) ks ks' v, all_keys P t -> Forall P ks -> In (ks', v) (values_under ks t) -> Forall P ks'.
Proof.
  intros L P. induction t as [l IH|m IH| |w] using tree_ind'; intros ks ks' v K F I; cbn [values_under all_keys] in *.
  - apply in_flat_map in I. destruct I as (t & I & I'). rewrite each_Forall, Forall_forall in K. rewrite Forall_forall in IH. eapply IH; eauto.
  - apply in_flat_map in I. destruct I as (t & I & I'). rewrite each_Forall, Forall_forall in K. rewrite Forall_forall in IH. destruct (K _ I) as [K1 K2].
    eapply (IH _ I); [exact K2| |exact I']. apply Forall_app. auto.
  - destruct I.
  - destruct I as [E|[]]. injection E as <- <-. exact F.
Qed.

Section Enc.
  Context (re : regex_engine).

  Lemma eentry_to : forall f r (kv : fvalue * fvalue) k t,
    (let* k := validate_key (fst kv) in let* t := enc_to_internal re f (step re r k) (snd kv) in Ok (k, t)) = Ok (k, t)
    <-> fst kv = FStr k /\ enc_to_internal re f (step re r k) (snd kv) = Ok t.
  Proof.
    intros f r [fk fv] k t. cbn [fst snd]. split.
    - intro H. apply bind_ok in H. destruct H as (k' & E & H). apply bind_ok in H. destruct H as (t' & E' & H). injection H as <- <-.
      destruct fk; try discriminate E. injection E as ->. auto.
    - intros [-> E]. cbn [validate_key bind]. now rewrite E.
  Qed.

  Lemma enc_at : forall f v ks x, at_path v ks x -> forall r t, enc_to_internal re f r v = Ok t ->
    exists t', enc_to_internal re f (fold_left (step re) ks r) x = Ok t'.
  Proof.
    intros f v ks x P. induction P as [x|m k v ks x I P IH|l v ks x I P IH|tg v ks x P IH]; intros r t H; cbn [fold_left].
    - eauto.
    - cbn [enc_to_internal] in H. apply bind_ok in H. destruct H as (l & E & _). apply mapM_ok in E.
      destruct (Forall2_in_l _ _ _ _ E I) as ([k' t'] & _ & E'). apply eentry_to in E'. destruct E' as [K E']. cbn [fst snd] in *. injection K as <-. eauto.
    - cbn [enc_to_internal] in H. apply bind_ok in H. destruct H as (l' & E & _). apply mapM_ok in E.
      destruct (Forall2_in_l _ _ _ _ E I) as (t' & _ & E'). eauto.
    - cbn [enc_to_internal] in H. eauto.
  Qed.

  Lemma enc_scalar : forall f r x t, scalar_value f x -> enc_to_internal re f r x = Ok t -> escapes r = false ->
    exists s e, x = FStr s /\ parse_evalue s = Ok e /\ t = Leaf (Encrypted e).
  Proof.
    intros f r x t S H E. destruct x as [m|l|s|b|n| |tg v|s]; cbn [scalar_value] in S; try contradiction; cbn [enc_to_internal] in H; unfold plain_leaf in H; rewrite E in H; try discriminate.
    destruct (is_toml_null f s) eqn:N.
    - apply is_toml_null_iff in N. destruct N as [-> ->]. now destruct (S eq_refl).
    - apply bind_ok in H. destruct H as (e & P & H). injection H as <-. exists s, e. repeat split; auto.
      destruct (parse_evalue s); cbn [map_err] in P; congruence.
  Qed.

  Lemma enc_map_tree : forall f pc m t, enc_to_internal re f (initial pc) (FMap m) = Ok t <-> exists em, t = Map em /\ enc_map_to_internal re f pc m = Ok em.
  Proof.
    intros f pc m t. cbn [enc_to_internal]. unfold enc_map_to_internal. match goal with |- context [mapM ?g m] => destruct (mapM g m) as [l|e|] end; cbn [bind]; split; intro H;
      try discriminate; try (destruct H as (? & _ & H); discriminate).
    - injection H as <-. eauto.
    - destruct H as (im & -> & H). injection H as <-. reflexivity.
  Qed.

  Lemma enc_map_tree_from : forall f m v, enc_from_internal f (Map m) = Ok v <-> exists fm, v = FMap fm /\ enc_map_from_internal f m = Ok fm.
  Proof.
    intros f m t. cbn [enc_from_internal]. unfold enc_map_from_internal. match goal with |- context [mapM ?g m] => destruct (mapM g m) as [l|e|] end; cbn [bind]; split; intro H;
      try discriminate; try (destruct H as (? & _ & H); discriminate).
    - injection H as <-. eauto.
    - destruct H as (im & -> & H). injection H as <-. reflexivity.
  Qed.

  Lemma scope_id : forall pc ks, fold_left (step re) ks (initial pc) = scope_at re (fun k => k) pc ks.
  Proof. reflexivity. Qed.

  Lemma in_scope_id : forall pc ks, escapes (fold_left (step re) ks (initial pc)) = false <-> in_scope re pc ks.
  Proof. intros pc ks. rewrite scope_id, in_scope_iff, map_id. tauto. Qed.
  Lemma out_scope_id : forall pc ks, escapes (fold_left (step re) ks (initial pc)) = true <-> ~ in_scope re pc ks.
  Proof. intros pc ks. rewrite scope_id, out_scope_iff, map_id. tauto. Qed.

  (** What is read is classified by the rule. *)
  Definition read_leaf (c : resolved) (l : eleaf) : Prop :=
    match l with
    | Encrypted e => escapes c = false /\ exists s, parse_evalue s = Ok e
    | Escaped _ => escapes c = true
    end.

  Lemma enc_read : forall f v r t, enc_to_internal re f r v = Ok t -> Forall (fun x => read_leaf (fst x) (snd x)) (leaves (step re) r t) /\ distinct_keys t.
  Proof.
    intros f v. induction v as [m IH|l IH|s|b|n| |tg v IH|s] using fvalue_ind'; intros r t H; cbn [enc_to_internal] in H; unfold plain_leaf in H.
    - apply bind_ok in H. destruct H as (l & E & H). injection H as <-. apply mapM_ok in E. cbn [leaves distinct_keys].
      assert (A : forall kt, In kt (collect l) -> Forall (fun x => read_leaf (fst x) (snd x)) (leaves (step re) (step re r (fst kt)) (snd kt)) /\ distinct_keys (snd kt)).
      { intros [k t] I. apply collect_in in I. destruct (Forall2_in_r _ _ _ _ E I) as (kv & J & E'). apply eentry_to in E'. destruct E' as [_ E'].
        rewrite Forall_forall in IH. cbn [fst snd]. eapply IH; eauto. }
      repeat split.
      + rewrite Forall_forall in *. intros x I. apply in_flat_map in I. destruct I as (kt & I & I'). destruct (A _ I) as [A1 _]. rewrite Forall_forall in A1. auto.
      + apply collect_distinct.
      + apply each_Forall, Forall_forall. intros kt I. now apply A.
    - apply bind_ok in H. destruct H as (ts & E & H). injection H as <-. apply mapM_ok in E. cbn [leaves distinct_keys].
      assert (A : forall t, In t ts -> Forall (fun x => read_leaf (fst x) (snd x)) (leaves (step re) r t) /\ distinct_keys t).
      { intros t I. destruct (Forall2_in_r _ _ _ _ E I) as (v & J & E'). rewrite Forall_forall in IH. eapply IH; eauto. }
      split.
      + rewrite Forall_forall in *. intros x I. apply in_flat_map in I. destruct I as (kt & I & I'). destruct (A _ I) as [A1 _]. rewrite Forall_forall in A1. auto.
      + apply each_Forall, Forall_forall. intros kt I. now apply A.
    - destruct (is_toml_null f s); [injection H as <-; cbn; auto|]. destruct (escapes r) eqn:E.
      + injection H as <-. cbn. auto.
      + apply bind_ok in H. destruct H as (e & P & H). injection H as <-. cbn. split; auto. constructor; auto. cbn. split; auto. exists s.
        destruct (parse_evalue s); cbn [map_err] in P; congruence.
    - destruct (escapes r) eqn:E; try discriminate. injection H as <-. cbn. auto.
    - destruct (escapes r) eqn:E; try discriminate. apply bind_ok in H. destruct H as (w & _ & H). injection H as <-. cbn. auto.
    - injection H as <-. cbn. auto.
    - eauto.
    - destruct (escapes r) eqn:E; try discriminate. injection H as <-. cbn. auto.
  Qed.

  Lemma enc_map_read : forall f pc m em, enc_map_to_internal re f pc m = Ok em ->
    distinct_keys (Map em) /\ forall ks l, In (ks, l) (map_values em) -> match l with Encrypted e => in_scope re pc ks /\ rust_evalue e | Escaped _ => ~ in_scope re pc ks end.
  Proof.
    intros f pc m em H. assert (H' : enc_to_internal re f (initial pc) (FMap m) = Ok (Map em)) by (apply enc_map_tree; eauto).
    apply enc_read in H'. destruct H' as [F D]. split; [exact D|]. intros ks l I. rewrite leaves_fold0, Forall_map in F. rewrite Forall_forall in F.
    specialize (F _ I). cbn [fst snd] in F. destruct l as [e|v]; cbn [read_leaf] in F.
    - rewrite in_scope_id in F. destruct F as [F (s & P)]. split; auto. eapply parse_evalue_sizes; eauto.
    - now rewrite out_scope_id in F.
  Qed.

  (** ** Writing an encrypted tree and reading it back *)
  Definition leaf_ok (f : fmt) (c : resolved) (l : eleaf) : Prop :=
    match l with
    | Encrypted e => escapes c = false /\ rust_evalue e
    | Escaped v => escapes c = true /\ rust_value v /\ (f = Toml -> v <> VStr (lit "null"))
    end.

  Lemma evalue_text_not_null : forall e, evalue_text e <> lit "null".
  Proof. intros e H. unfold evalue_text in H. apply (f_equal (fun l => match l with [] => x00 | b :: _ => b end)) in H. discriminate. Qed.

  Lemma eleaf_back : forall f r l v, leaf_ok f r l -> enc_from_internal f (Leaf l) = Ok v -> enc_to_internal re f r v = Ok (Leaf l).
  Proof.
    intros f r l v W H. destruct l as [e|w]; cbn [enc_from_internal leaf_ok] in *.
    - injection H as <-. destruct W as [E R]. cbn [enc_to_internal]. destruct (is_toml_null f (evalue_text e)) eqn:N.
      + apply is_toml_null_iff in N. destruct N as [_ N]. now apply evalue_text_not_null in N.
      + rewrite E, evalue_text_round by exact R. reflexivity.
    - destruct W as (E & R & N). destruct R as [s Hs|b|z Hz|x Hx]; cbn [from_internal_value] in H.
      + injection H as <-. cbn [enc_to_internal]. destruct (is_toml_null f s) eqn:Q.
        * apply is_toml_null_iff in Q. destruct Q as [-> ->]. now destruct (N eq_refl).
        * now rewrite E.
      + injection H as <-. cbn [enc_to_internal]. unfold plain_leaf. now rewrite E.
      + injection H as <-. cbn [enc_to_internal to_internal_number]. unfold plain_leaf. now rewrite E, (proj2 (in_i64_iff z) Hz).
      + unfold float_of_text in H. rewrite parse_f64_text in H by exact Hx. cbn [bind] in H.
        assert (v = FNum (NFlt x)) as ->. { destruct f; try (now injection H as <-). destruct (f64_finite x); try discriminate. now injection H as <-. }
        cbn [enc_to_internal to_internal_number]. unfold plain_leaf. now rewrite E.
  Qed.

  Lemma enc_from_to : forall f t r v, distinct_keys t -> Forall (fun x => leaf_ok f (fst x) (snd x)) (leaves (step re) r t) ->
    enc_from_internal f t = Ok v -> enc_to_internal re f r v = Ok t.
  Proof.
    intros f. induction t as [l IH|m IH| |w] using tree_ind'; intros r v D W H; cbn [enc_from_internal] in H.
    - apply bind_ok in H. destruct H as (vs & E & H). injection H as <-. apply mapM_ok in E. cbn [distinct_keys] in D. apply each_Forall in D.
      cbn [enc_to_internal leaves] in *.
      assert (G : mapM (enc_to_internal re f r) vs = Ok l).
      { apply mapM_ok. clear - E IH D W. induction E as [|t v l vs E _ IHl]; constructor; cbn [flat_map] in W; apply Forall_app in W; destruct W as [W1 W2].
        - inversion IH as [|? ? I1 _]; inversion D as [|? ? D1 _]; subst. auto.
        - apply IHl; [inversion IH|inversion D|]; auto. }
      rewrite G. reflexivity.
    - apply bind_ok in H. destruct H as (l & E & H). injection H as <-. apply mapM_ok in E. destruct D as [N D]. apply each_Forall in D.
      assert (E' : Forall2 (fun kt kv => fst kv = fst kt /\ enc_from_internal f (snd kt) = Ok (snd kv)) m l).
      { eapply Forall2_impl; [|exact E]. intros kt [k v] H. now apply entry_from in H. }
      assert (K : map fst l = map fst m). { clear - E'. induction E' as [|? ? ? ? [H0 _] _ IH0]; cbn [map]; auto; now rewrite H0, IH0. }
      unfold to_fmap. rewrite collect_nodup by (rewrite K; exact N). cbn [enc_to_internal leaves] in *.
      match goal with |- context [mapM ?g ?x] => assert (G : mapM g x = Ok m) end.
      { apply mapM_ok. clear - E' IH D W. induction E' as [|kt kv m l [K E] _ IHl]; cbn [map]; constructor; cbn [flat_map] in W; apply Forall_app in W; destruct W as [W1 W2].
        - inversion IH as [|? ? I1 _]; inversion D as [|? ? D1 _]; subst. destruct kt as [k t], kv as [k0 v]. cbn [fst snd validate_key bind] in *. subst k0. rewrite (I1 _ _ D1 W1 E). reflexivity.
        - apply IHl; [inversion IH|inversion D|]; auto. }
      rewrite G. cbn [bind]. now rewrite collect_nodup.
    - destruct f; injection H as <-; reflexivity.
    - apply eleaf_back; auto. inversion W; auto.
  Qed.

  Lemma enc_map_from_to : forall f pc em fm, distinct_keys (Map em) ->
    (forall ks l, In (ks, l) (map_values em) -> match l with
       | Encrypted e => in_scope re pc ks /\ rust_evalue e
       | Escaped v => ~ in_scope re pc ks /\ rust_value v /\ (f = Toml -> v <> VStr (lit "null")) end) ->
    enc_map_from_internal f em = Ok fm -> enc_map_to_internal re f pc fm = Ok em.
  Proof.
    intros f pc em fm D W H. assert (H' : enc_from_internal f (Map em) = Ok (FMap fm)) by (apply enc_map_tree_from; eauto).
    assert (G : enc_to_internal re f (initial pc) (FMap fm) = Ok (Map em)).
    { apply enc_from_to; auto. rewrite leaves_fold0, Forall_map, Forall_forall. intros [ks l] I. specialize (W _ _ I). cbn [fst snd].
      destruct l as [e|v]; cbn [leaf_ok]. now rewrite in_scope_id. now rewrite out_scope_id. }
    apply enc_map_tree in G. destruct G as (em' & E & G). injection E as <-. exact G.
  Qed.

  (** Writing always succeeds, except that JSON has no NaN and infinities. *)
  Lemma enc_from_ok : forall f t ks, (forall ks' v, In (ks', Escaped v) (values_under ks t) -> writable f v) -> exists v, enc_from_internal f t = Ok v.
  Proof.
    intros f. induction t as [l IH|m IH| |w] using tree_ind'; intros ks W; cbn [enc_from_internal values_under] in *.
    - assert (exists vs, mapM (enc_from_internal f) l = Ok vs) as (vs & E).
      { induction IH as [|t l H _ IHl]; cbn [mapM]; eauto.
        destruct (H ks) as (v & E). { intros ks' v I. apply (W ks'). cbn [flat_map]. apply in_or_app. now left. }
        destruct IHl as (vs & E'). { intros ks' v' I. apply (W ks'). cbn [flat_map]. apply in_or_app. now right. }
        rewrite E. cbn [bind]. rewrite E'. cbn [bind]. eauto. }
      rewrite E. cbn [bind]. eauto.
    - match goal with |- context [mapM ?g ?x] => assert (exists vs, mapM g x = Ok vs) as (vs & E) end.
      { induction IH as [|[k t] l H _ IHl]; cbn [mapM]; eauto.
        destruct (H (ks ++ [k])) as (v & E). { intros ks' v I. apply (W ks'). cbn [flat_map]. apply in_or_app. now left. }
        destruct IHl as (vs & E'). { intros ks' v' I. apply (W ks'). cbn [flat_map]. apply in_or_app. now right. }
        cbn [fst snd] in *. rewrite E. cbn [bind]. rewrite E'. cbn [bind]. eauto. }
      rewrite E. cbn [bind]. eauto.
    - destruct f; eauto.
    - destruct w as [e|v]; eauto. apply from_value_ok. apply (W ks). now left.
  Qed.

  Lemma enc_map_from_ok : forall f em, (forall ks v, In (ks, Escaped v) (map_values em) -> writable f v) -> exists fm, enc_map_from_internal f em = Ok fm.
  Proof.
    intros f em W. destruct (enc_from_ok f (Map em) [] W) as (v & E). apply enc_map_tree_from in E. destruct E as (fm & _ & E). eauto.
  Qed.
End Enc.

(** ** Values of the document are values of the tree *)
Lemma dec_at : forall f v ks x, at_path v ks x -> forall t, fmt_value f v -> dec_to_internal f v = Ok t ->
  exists t', dec_to_internal f x = Ok t' /\ forall ks0 y, In y (values_under (ks0 ++ ks) t') -> In y (values_under ks0 t).
Proof.
  intros f v ks x P. induction P as [x|m k v ks x I P IH|l v ks x I P IH|tg v ks x P IH]; intros t W H.
  - exists t. split; auto. intros ks0 y. now rewrite app_nil_r.
  - destruct W as [N W]. rewrite each_Forall, Forall_forall in W. destruct (W _ I) as [_ W1]. cbn [snd] in W1.
    cbn [dec_to_internal] in H. apply bind_ok in H. destruct H as (l & E & H). injection H as <-. apply mapM_ok in E.
    assert (E' : Forall2 (fun kv kt => fst kv = FStr (fst kt) /\ dec_to_internal f (snd kv) = Ok (snd kt)) m l).
    { eapply Forall2_impl; [|exact E]. intros kv [k0 t] H. now apply entry_to in H. }
    destruct (Forall2_in_l _ _ _ _ E' I) as ([k' t'] & J & [K D]). cbn [fst snd] in *. injection K as <-.
    destruct (IH _ W1 D) as (t2 & T & S). exists t2. split; auto. intros ks0 y Y. cbn [values_under].
    rewrite collect_nodup. 2:{ rewrite (Forall2_keys (fun v t => dec_to_internal f v = Ok t) _ _ E') in N. now apply NoDup_fstr in N. }
    apply in_flat_map. exists (k, t'). split; auto. cbn [fst snd]. apply S. now rewrite <- app_assoc.
  - cbn [fmt_value] in W. rewrite each_Forall, Forall_forall in W. 
    cbn [dec_to_internal] in H. apply bind_ok in H. destruct H as (ts & E & H). injection H as <-. apply mapM_ok in E.
    destruct (Forall2_in_l _ _ _ _ E I) as (t' & J & D). destruct (IH _ (W _ I) D) as (t2 & T & S). exists t2. split; auto.
    intros ks0 y Y. cbn [values_under]. apply in_flat_map. exists t'. auto.
  - destruct W as [_ W]. cbn [dec_to_internal] in H. apply IH; auto.
Qed.

(** A native TOML document has no string "null" left inside. *)
Lemma toml_no_null : forall v t, fmt_value Toml v -> dec_to_internal Toml v = Ok t -> forall ks ks' w, In (ks', w) (values_under ks t) -> w <> VStr (lit "null").
Proof.
  intros v. induction v as [m IH|l IH|s|b|n| |tg v IH|s] using fvalue_ind'; intros t W H ks ks' w I; cbn [dec_to_internal] in H.
  - apply bind_ok in H. destruct H as (l & E & H). injection H as <-. apply mapM_ok in E. cbn [values_under] in I. apply in_flat_map in I.
    destruct I as ([k t] & I & I'). apply collect_in in I. destruct (Forall2_in_r _ _ _ _ E I) as (kv & J & E'). apply entry_to in E'. destruct E' as [_ E'].
    destruct W as [_ W]. rewrite each_Forall, Forall_forall in W. rewrite Forall_forall in IH. eapply (IH _ J); eauto. apply (W _ J).
  - apply bind_ok in H. destruct H as (ts & E & H). injection H as <-. apply mapM_ok in E. cbn [values_under] in I. apply in_flat_map in I.
    destruct I as (t & I & I'). destruct (Forall2_in_r _ _ _ _ E I) as (v & J & E').
    cbn [fmt_value] in W. rewrite each_Forall, Forall_forall in W. rewrite Forall_forall in IH. eapply (IH _ J); eauto.
  - destruct (is_toml_null Toml s) eqn:N; injection H as <-; [destruct I|]. destruct I as [I|[]]. injection I as <- <-. intro E. injection E as ->. discriminate.
  - injection H as <-. destruct I as [I|[]]. injection I as <- <-. discriminate.
  - apply bind_ok in H. destruct H as (x & E & H). injection H as <-. destruct I as [I|[]]. injection I as <- <-.
    destruct n; cbn [to_internal_number] in E. destruct (in_i64 z); try discriminate. injection E as <-. discriminate. injection E as <-. discriminate.
  - injection H as <-. destruct I.
  - destruct W as [W _]. discriminate.
  - injection H as <-. destruct I as [I|[]]. injection I as <- <-. destruct W as (_ & _ & N). congruence.
Qed.

(** ** What encryption writes *)
Section Written.
  Context (re : regex_engine) (tp : tape).

  Lemma draw_nonce_len : forall n, length (draw_nonce tp n) = 32.
  Proof. intro n. unfold draw_nonce, draw. now rewrite map_length, seq_length. Qed.

  Lemma encrypt_map_leaves : forall saved key pc m n em n', saved_ok saved -> rust_map m ->
    (forall ks v, In (ks, v) (map_values m) -> colon_safe pc ks) -> encrypt_map re tp saved key pc m n = Ok (em, n') ->
    forall ks l, In (ks, l) (map_values em) -> match l with
      | Encrypted e => in_scope re pc ks /\ rust_evalue e
      | Escaped v => ~ in_scope re pc ks /\ In (ks, v) (map_values m)
      end.
  Proof.
    intros saved key pc m n em n' SO RV CS E ks l I. apply In_nth_error in I. destruct I as (i & A).
    destruct (encrypt_map_at re tp _ _ _ _ _ _ _ _ _ _ E A) as (v & B & X). pose proof (nth_error_In _ _ B) as J.
    pose proof (in_scope_last re pc ks (CS _ _ J)) as C.
    destruct X as [(X & ->)|(X & e & -> & Enc & Non)].
    - apply out_scope_iff in X. split; auto. now rewrite <- C.
    - apply in_scope_iff in X. split; [now apply C|]. eapply encrypt_value_wf; [|exact Enc].
      destruct Non as [(s & -> & G)|((j & _ & ->) & _)]; [|apply draw_nonce_len]. apply saved_get_in in G. eapply SO; eauto.
  Qed.

  Lemma written_readable : forall f saved key pc m n em n' fm, saved_ok saved -> rust_map m -> distinct_keys (Map m) ->
    (forall ks v, In (ks, v) (map_values m) -> colon_safe pc ks) ->
    (f = Toml -> forall ks, In (ks, VStr (lit "null")) (map_values m) -> in_scope re pc ks) ->
    encrypt_map re tp saved key pc m n = Ok (em, n') -> enc_map_from_internal f em = Ok fm -> enc_map_to_internal re f pc fm = Ok em.
  Proof.
    intros f saved key pc m n em n' fm SO RV DK CS TN E F. eapply enc_map_from_to; [| |exact F].
    - apply encrypt_map_rel in E. destruct E as [Sk _]. eapply distinct_same; [|exact DK]. now symmetry.
    - intros ks l I. pose proof (encrypt_map_leaves _ _ _ _ _ _ _ SO RV CS E _ _ I) as X. destruct l as [e|v]; auto.
      destruct X as [X J]. repeat split; auto. eapply RV; eauto. intros -> ->. apply X. apply TN; auto.
  Qed.

  Lemma written_exists : forall f saved key pc m n em n', rust_map m ->
    (f = Json -> forall ks v, In (ks, v) (map_values m) -> ~ non_finite v) ->
    encrypt_map re tp saved key pc m n = Ok (em, n') -> exists fm, enc_map_from_internal f em = Ok fm.
  Proof.
    intros f saved key pc m n em n' RV NF E. apply enc_map_from_ok. intros ks v I. apply In_nth_error in I. destruct I as (i & A).
    destruct (encrypt_map_at re tp _ _ _ _ _ _ _ _ _ _ E A) as (v' & B & X). pose proof (nth_error_In _ _ B) as J.
    destruct X as [(_ & X)|(_ & e & X & _)]; [|discriminate]. injection X as ->. split. eapply RV; eauto. intros ->. eapply NF; eauto.
  Qed.
End Written.

(** ** Statements used by the property files *)
Lemma dec_map_integers : forall f m, (forall k, In k (fkeys_of (FMap m)) -> exists s, k = FStr s) ->
  ((forall z, In z (ints_of (FMap m)) -> (- 2 ^ 63 <= z < 2 ^ 63)%Z) -> exists im, dec_map_to_internal f m = Ok im)
  /\ ((exists z, In z (ints_of (FMap m)) /\ ~ (- 2 ^ 63 <= z < 2 ^ 63)%Z) -> dec_map_to_internal f m = Err EIntegerOutOfRange).
Proof.
  intros f m K. pose proof (dec_accepts f (FMap m)) as A. split.
  - intro Z. destruct (proj2 A (conj K Z)) as (t & E). apply dec_map_tree in E. destruct E as (im & _ & E). eauto.
  - intros (z & I & N). destruct (dec_to_internal f (FMap m)) as [t|e|] eqn:E.
    + exfalso. apply N. apply (proj1 A); eauto.
    + assert (e = EIntegerOutOfRange) as -> by (eapply dec_errors_keys; eauto).
      cbn [dec_to_internal] in E. unfold dec_map_to_internal. match goal with |- context [mapM ?g m] => destruct (mapM g m) end; cbn [bind] in *; [discriminate|now injection E as ->|discriminate].
    + now apply dec_no_panic in E.
Qed.

Lemma dec_map_int_at : forall f m im ks z, fmt_doc f m -> dec_map_to_internal f m = Ok im ->
  at_path (FMap m) ks (FNum (NInt z)) -> In (ks, VInt z) (map_values im).
Proof.
  intros f m im ks z W H P. assert (H' : dec_to_internal f (FMap m) = Ok (Map im)) by (apply dec_map_tree; eauto).
  destruct (dec_at f _ _ _ P _ W H') as (t' & D & S). apply (S []). cbn [dec_to_internal to_internal_number] in D.
  destruct (in_i64 z); try discriminate. injection D as <-. now left.
Qed.

Lemma toml_native : forall m im, fmt_doc Toml m -> dec_map_to_internal Toml m = Ok im ->
  dec_map_from_internal Toml im = Ok (normal_doc m) /\ forall ks, ~ In (ks, VStr (lit "null")) (map_values im).
Proof.
  intros m im W H. split; [now apply (dec_map_to_from Toml m im W H)|]. intros ks I.
  assert (H' : dec_to_internal Toml (FMap m) = Ok (Map im)) by (apply dec_map_tree; eauto).
  eapply toml_no_null; eauto.
Qed.

Lemma nulled_id : forall t ks, (forall ks', ~ In (ks', VStr (lit "null")) (values_under ks t)) -> nulled t = t.
Proof.
  induction t as [l IH|m IH| |v] using tree_ind'; intros ks H; cbn [nulled values_under] in *; auto.
  - f_equal. rewrite <- (map_id l) at 2. apply map_ext_in. intros t I. rewrite Forall_forall in IH. apply (IH _ I ks). intros ks' J. apply (H ks'). apply in_flat_map. eauto.
  - f_equal. rewrite <- (map_id m) at 2. apply map_ext_in. intros [k t] I. cbn [fst snd]. f_equal. rewrite Forall_forall in IH. apply (IH _ I (ks ++ [k])).
    intros ks' J. apply (H ks'). apply in_flat_map. exists (k, t). auto.
  - destruct v; auto. destruct (bytes_eqb s (lit "null")) eqn:E; auto. apply bytes_eqb_eq in E. subst. exfalso. apply (H ks). now left.
Qed.

Lemma conversion_back : forall f im fm, distinct_keys (Map im) -> rust_map im -> dec_map_from_internal f im = Ok fm ->
  exists im', dec_map_to_internal f fm = Ok im' /\ Map im' = read_as f (Map im)
  /\ ((f = Toml -> forall ks, ~ In (ks, VStr (lit "null")) (map_values im)) -> im' = im).
Proof.
  intros f im fm D R H. assert (H' : dec_from_internal f (Map im) = Ok (FMap fm)) by (apply dec_map_tree_from; eauto).
  assert (B : dec_to_internal f (FMap fm) = Ok (read_as f (Map im))) by (apply dec_from_to; auto).
  apply dec_map_tree in B. destruct B as (im' & E & B). exists im'. split; auto. split; auto. intro N.
  destruct f; cbn [read_as] in E; try (now injection E as <-). rewrite (nulled_id (Map im) []) in E. now injection E as <-. exact (N eq_refl).
Qed.

Lemma conversion_outcome : forall f im, rust_map im ->
  (dec_map_from_internal f im = Panic <-> f = Json /\ exists ks v, In (ks, v) (map_values im) /\ non_finite v)
  /\ (forall e, dec_map_from_internal f im <> Err e).
Proof.
  intros f im R. destruct (dec_from_outcome f (Map im) [] R) as [A B]. unfold map_values. rewrite <- B.
  assert (Q : dec_from_internal f (Map im) = let* fm := dec_map_from_internal f im in Ok (FMap fm)).
  { cbn [dec_from_internal]. unfold dec_map_from_internal. match goal with |- context [mapM ?g im] => destruct (mapM g im) end; reflexivity. }
  rewrite Q in *. destruct (dec_map_from_internal f im); cbn [bind] in *.
  - split. split; discriminate. discriminate.
  - split. split; discriminate. intros e0 E. injection E as ->. exact (A e0 eq_refl).
  - split. tauto. discriminate.
Qed.

Lemma plaintext_rejected : forall re f rule m em ks x, enc_map_to_internal re f rule m = Ok em ->
  at_path (FMap m) ks x -> scalar_value f x -> in_scope re rule ks -> exists s e, x = FStr s /\ parse_evalue s = Ok e.
Proof.
  intros re f rule m em ks x H P S I. assert (H' : enc_to_internal re f (initial rule) (FMap m) = Ok (Map em)) by (apply enc_map_tree; eauto).
  destruct (enc_at re f _ _ _ P _ _ H') as (t & E). apply in_scope_id in I. destruct (enc_scalar re f _ _ _ S E I) as (s & e & -> & Q & _). eauto.
Qed.

Lemma read_classification : forall re f rule m em ks l, enc_map_to_internal re f rule m = Ok em -> In (ks, l) (map_values em) ->
  ((exists e, l = Encrypted e) <-> in_scope re rule ks).
Proof.
  intros re f rule m em ks l H I. apply enc_map_read in H. destruct H as [_ H]. specialize (H _ _ I). destruct l as [e|v].
  - split; intros _; [apply H|eauto].
  - split; [intros (e & E); discriminate|contradiction].
Qed.

Lemma agreement : forall re tp saved key rule f m n em n',
  rust_map m -> distinct_keys (Map m) -> saved_ok saved -> colon_safe_map rule m ->
  (f = Toml -> forall ks, In (ks, VStr (lit "null")) (map_values m) -> in_scope re rule ks) ->
  encrypt_map re tp saved key rule m n = Ok (em, n') ->
  (forall fm, enc_map_from_internal f em = Ok fm -> enc_map_to_internal re f rule fm = Ok em)
  /\ (forall ks l, In (ks, l) (map_values em) -> ((exists e, l = Encrypted e) <-> covered re true rule ks)).
Proof.
  intros re tp saved key rule f m n em n' R D SO CS TN E. split.
  - intros fm F. eapply written_readable; eauto.
  - intros ks l I. pose proof (encrypt_map_leaves re tp _ _ _ _ _ _ _ SO R CS E _ _ I) as X. unfold covered. destruct l as [e|v].
    + split; eauto. intros _. right. apply X.
    + split; [intros (e & Q); discriminate|]. intros [Q|Q]; [discriminate|]. now apply X in Q.
Qed.
