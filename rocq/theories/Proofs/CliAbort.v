(** When a command aborts. *)
From Verif.Model Require Import Cli.
From Verif.Spec Require Import SpecAbort.
From Verif.Proofs Require Import BytesFacts Utf8Facts FloatFacts ValueFacts TreeFacts MapFacts NonceFacts FormatFacts FormatEnc AwsFacts IntegrationFacts FileFacts FileSafety DocumentFacts CliPath EditorFacts CliRun.
Open Scope byte_scope.
Local Open Scope nat_scope.

(** ** Documents *)

(** What the values of a tree are read from is held by the parser. *)
Lemma dec_held : forall f v t, held f v -> dec_to_internal f v = Ok t ->
  forall ks ks' w, In (ks', w) (values_under ks t) -> rust_value w /\ (f = Json -> ~ non_finite w).
Proof.
  intros f. induction v as [m IH|l IH|s|b|x| |tg v IH|s] using fvalue_ind'; intros t WF H ks ks' w I; cbn [dec_to_internal] in H.
  - apply bind_ok in H. destruct H as (l & E & H). injection H as <-. apply mapM_ok in E. cbn [values_under] in I. apply in_flat_map in I.
    destruct I as ([k t] & I & I'). apply collect_in in I. destruct (Forall2_in_r _ _ _ _ E I) as (kv & J & E'). apply entry_to in E'. destruct E' as [_ E'].
    cbn [held] in WF. apply each_Forall in WF. rewrite Forall_forall in WF, IH. eapply IH; eauto; now apply WF.
  - apply bind_ok in H. destruct H as (l' & E & H). injection H as <-. apply mapM_ok in E. cbn [values_under] in I. apply in_flat_map in I.
    destruct I as (t & I & I'). destruct (Forall2_in_r _ _ _ _ E I) as (u & J & E'). cbn [held] in WF. apply each_Forall in WF. rewrite Forall_forall in WF, IH. eapply IH; eauto; now apply WF.
  - destruct (is_toml_null f s); injection H as <-; [destruct I|]. destruct I as [I|[]]. injection I as _ <-. split; [now constructor|]. intros _ [X|[X|X]]; discriminate X.
  - injection H as <-. destruct I as [I|[]]. injection I as _ <-. split; [constructor|]. intros _ [X|[X|X]]; discriminate X.
  - apply bind_ok in H. destruct H as (y & E & H). injection H as <-. destruct I as [I|[]]. injection I as _ <-. destruct x as [z|x]; cbn [to_internal_number] in E.
    + destruct (in_i64 z) eqn:R; try discriminate. injection E as <-. split; [constructor; now apply in_i64_iff|]. intros _ [X|[X|X]]; discriminate X.
    + injection E as <-. destruct WF as [C F]. split; [now constructor|]. intros J N. specialize (F J). apply f64_text_finite in N; auto. congruence.
  - injection H as <-. destruct I.
  - destruct WF. eapply IH; eauto.
  - destruct WF. injection H as <-. destruct I as [I|[]]. injection I as _ <-. split; [now constructor|]. intros _ [X|[X|X]]; discriminate X.
Qed.
Lemma dec_map_held : forall f m dm, held f (FMap m) -> dec_map_to_internal f m = Ok dm -> rust_map dm /\ (f = Json -> forall ks w, In (ks, w) (map_values dm) -> ~ non_finite w).
Proof.
  intros f m dm WF H. assert (T : dec_to_internal f (FMap m) = Ok (Map dm)) by (apply dec_map_tree; eauto).
  split; [|intros J]; intros ks w I; edestruct (dec_held _ _ _ WF T); eauto.
Qed.

Lemma from_value_held : forall f v w, rust_value v -> from_internal_value f v = Ok w -> held f w /\ expressible f w.
Proof.
  intros f v w R H. destruct R as [s Hs|b|z Hz|x Hx]; cbn [from_internal_value] in H; try (injection H as <-; now split).
  { injection H as <-. assert (whole_number f z) by (unfold whole_number; destruct f; lia). now split. }
  unfold float_of_text in H. rewrite parse_f64_text in H by exact Hx. cbn [bind] in H. destruct f; [| |]; try (destruct (f64_finite x) eqn:F; try discriminate); injection H as <-; cbn [held expressible]; repeat split; auto; discriminate.
Qed.
Lemma to_fmap_in : forall l k v, In (k, v) (to_fmap l) -> exists s, k = FStr s /\ In (s, v) l.
Proof. intros l k v H. unfold to_fmap in H. apply in_map_iff in H. destruct H as ((s & x) & E & H). injection E as <- <-. apply collect_in in H. eauto. Qed.
Lemma each_intro : forall {A} (P : A -> Prop) l, (forall x, In x l -> P x) -> each P l.
Proof. intros A P l H. apply each_Forall, Forall_forall. exact H. Qed.

Lemma from_held : forall f t ks v, (forall ks' w, In (ks', w) (values_under ks t) -> rust_value w) -> dec_from_internal f t = Ok v -> held f v /\ expressible f v.
Proof.
  intros f. induction t as [l IH|m IH| |w] using tree_ind'; intros ks v R H; cbn [dec_from_internal] in H.
  - apply bind_ok in H. destruct H as (l' & E & H). injection H as <-. apply mapM_ok in E. rewrite Forall_forall in IH. cbn [held expressible].
    assert (G : forall x, In x l' -> held f x /\ expressible f x).
    { intros x I. destruct (Forall2_in_r _ _ _ _ E I) as (t & J & E'). apply (IH _ J ks); auto. intros ks' w K. apply (R ks'). cbn [values_under]. apply in_flat_map. eauto. }
    split; apply each_intro; intros x I; now apply G.
  - apply bind_ok in H. destruct H as (l' & E & H). injection H as <-. apply mapM_ok in E. rewrite Forall_forall in IH. cbn [held expressible].
    assert (G : forall k x, In (k, x) (to_fmap l') -> (exists s, k = FStr s) /\ held f x /\ expressible f x).
    { intros k x I. apply to_fmap_in in I. destruct I as (s & -> & I). split; [eauto|]. destruct (Forall2_in_r _ _ _ _ E I) as ((k0 & t) & J & E'). apply (entry_from (dec_from_internal f)) in E'. destruct E' as [-> E'].
      cbn [fst snd] in *. apply (IH _ J (ks ++ [k0])); auto. intros ks' w K. apply (R ks'). cbn [values_under]. apply in_flat_map. exists (k0, t). auto. }
    split; apply each_intro; intros (k & x) I; cbn [fst snd]; destruct (G _ _ I) as (? & ? & ?); auto.
  - destruct f; injection H as <-; cbn [held expressible]; repeat split; try discriminate. apply utf8_valid_iff. reflexivity.
  - apply from_value_held in H; auto. apply (R ks). now left.
Qed.
Lemma dec_map_from_held : forall f dm m, rust_map dm -> dec_map_from_internal f dm = Ok m -> held f (FMap m) /\ expressible f (FMap m).
Proof.
  intros f dm m R H. assert (T : dec_from_internal f (Map dm) = Ok (FMap m)) by (apply dec_map_tree_from; eauto). eapply from_held; eauto.
Qed.
Lemma enc_from_expressible : forall f t ks v, (forall ks' w, In (ks', Escaped w) (values_under ks t) -> rust_value w) -> enc_from_internal f t = Ok v -> expressible f v.
Proof.
  intros f. induction t as [l IH|m IH| |w] using tree_ind'; intros ks v R H; cbn [enc_from_internal] in H.
  - apply bind_ok in H. destruct H as (l' & E & H). injection H as <-. apply mapM_ok in E. rewrite Forall_forall in IH. cbn [expressible].
    apply each_intro. intros x I. destruct (Forall2_in_r _ _ _ _ E I) as (t & J & E'). apply (IH _ J ks); auto. intros ks' w K. apply (R ks'). cbn [values_under]. apply in_flat_map. eauto.
  - apply bind_ok in H. destruct H as (l' & E & H). injection H as <-. apply mapM_ok in E. rewrite Forall_forall in IH. cbn [expressible].
    apply each_intro. intros (k & x) I. apply to_fmap_in in I. destruct I as (s & -> & I). cbn [fst snd]. split; [left; eauto|]. destruct (Forall2_in_r _ _ _ _ E I) as ((k0 & t) & J & E'). apply (entry_from (enc_from_internal f)) in E'. destruct E' as [-> E'].
    cbn [fst snd] in *. apply (IH _ J (ks ++ [k0])); auto. intros ks' w K. apply (R ks'). cbn [values_under]. apply in_flat_map. exists (k0, t). auto.
  - destruct f; injection H as <-; cbn [expressible]; try discriminate. exact I.
  - destruct w as [e|w]. { injection H as <-. exact I. } apply from_value_held in H; [tauto|]. apply (R ks). now left.
Qed.
Lemma enc_map_from_expressible : forall f em m, (forall ks w, In (ks, Escaped w) (map_values em) -> rust_value w) -> enc_map_from_internal f em = Ok m -> expressible f (FMap m).
Proof.
  intros f em m R H. assert (T : enc_from_internal f (Map em) = Ok (FMap m)) by (apply enc_map_tree_from; eauto). eapply enc_from_expressible; eauto.
Qed.

(** Plain values of an encrypted file. *)
Lemma enc_plain_held : forall re f v r t, held f v -> enc_to_internal re f r v = Ok t ->
  forall ks ks' w, In (ks', Escaped w) (values_under ks t) -> rust_value w.
Proof.
  intros re f. induction v as [m IH|l IH|s|b|x| |tg v IH|s] using fvalue_ind'; intros r t WF H ks ks' w I; cbn [enc_to_internal] in H; unfold plain_leaf in H.
  - apply bind_ok in H. destruct H as (l & E & H). injection H as <-. apply mapM_ok in E. cbn [values_under] in I. apply in_flat_map in I.
    destruct I as ([k t] & I & I'). apply collect_in in I. destruct (Forall2_in_r _ _ _ _ E I) as (kv & J & E'). apply eentry_to in E'. destruct E' as [_ E'].
    cbn [held] in WF. apply each_Forall in WF. rewrite Forall_forall in WF, IH. eapply IH; eauto; now apply WF.
  - apply bind_ok in H. destruct H as (l' & E & H). injection H as <-. apply mapM_ok in E. cbn [values_under] in I. apply in_flat_map in I.
    destruct I as (t & I & I'). destruct (Forall2_in_r _ _ _ _ E I) as (u & J & E'). cbn [held] in WF. apply each_Forall in WF. rewrite Forall_forall in WF, IH. eapply IH; eauto; now apply WF.
  - destruct (is_toml_null f s); [injection H as <-; destruct I|]. destruct (escapes r).
    + injection H as <-. destruct I as [I|[]]. injection I as _ <-. now constructor.
    + apply bind_ok in H. destruct H as (e & _ & H). injection H as <-. destruct I as [I|[]]. discriminate I.
  - destruct (escapes r); try discriminate. injection H as <-. destruct I as [I|[]]. injection I as _ <-. constructor.
  - destruct (escapes r); try discriminate. apply bind_ok in H. destruct H as (y & E & H). injection H as <-. destruct I as [I|[]]. injection I as _ <-.
    destruct x as [z|x]; cbn [to_internal_number] in E.
    + destruct (in_i64 z) eqn:R; try discriminate. injection E as <-. constructor. now apply in_i64_iff.
    + injection E as <-. destruct WF. now constructor.
  - injection H as <-. destruct I.
  - destruct WF. eauto.
  - destruct (escapes r); try discriminate. injection H as <-. destruct I as [I|[]]. injection I as _ <-. constructor. apply WF.
Qed.
Lemma decrypt_held : forall re f pc m key em dm, held f (FMap m) -> enc_map_to_internal re f pc m = Ok em -> decrypt_map key em = Ok dm -> rust_map dm.
Proof.
  intros re f pc m key em dm FD A D ks v I. destruct (decrypt_map_values _ _ _ _ _ D I) as (l & J & X). destruct l as [e|w]; cbn [decrypts] in X.
  - apply decrypt_value_ok in X. tauto.
  - subst w. assert (T : enc_to_internal re f (initial pc) (FMap m) = Ok (Map em)) by (apply enc_map_tree; eauto). eapply enc_plain_held; eauto.
Qed.

(** ** Reading texts *)
Lemma insert_entry_in : forall k0 v m k x, In (k, x) (insert_entry k0 v m) -> In (k, x) m \/ (x = v /\ (k = k0 \/ (exists y, In (k, y) m) /\ forall s, k = FStr s -> k0 = FStr s)).
Proof.
  intros k0 v m k x. induction m as [|(k' & v') m IH]; cbn [insert_entry]; intro H.
  - destruct H as [H|[]]. injection H as <- <-. right. auto.
  - destruct (fvalue_eqb Json k' k0) eqn:E.
    + destruct H as [H|H]; [|left; now right]. injection H as <- <-. right. split; auto. right. split; [exists v'; now left|]. intros s ->. destruct k0; try discriminate E. rewrite fkey_eqb in E. apply bytes_eqb_eq in E. now subst.
    + destruct H as [H|H]; [left; now left|]. destruct (IH H) as [I|(-> & [->|[(y & I) K]])]; auto. { left. now right. } right. split; auto. right. split; auto. exists y. now right.
Qed.
Lemma settle_entries_facts : forall f l, settle_entries f l <> Panic
  /\ forall m, settle_entries f l = Ok m -> forall k x, In (k, x) m -> (exists y, In (k, y) l) /\ exists k', In (k', x) l /\ forall s, k = FStr s -> k' = FStr s.
Proof.
  intros f l. unfold settle_entries.
  assert (G : forall l acc, (acc <> Panic /\ forall m, acc = Ok m -> forall k x, In (k, x) m -> (exists y, In (k, y) l) /\ exists k', In (k', x) l /\ forall s, k = FStr s -> k' = FStr s) -> forall l', (forall x, In x l' -> In x l) ->
    let r := fold_left (fun acc kv => let* m := acc in
      match f with
      | Json => Ok (insert_entry (fst kv) (snd kv) m)
      | _ => if existsb (fun kv' => fvalue_eqb f (fst kv') (fst kv)) m then Err EDuplicateField else Ok (m ++ [kv])
      end) l' acc in r <> Panic /\ forall m, r = Ok m -> forall k x, In (k, x) m -> (exists y, In (k, y) l) /\ exists k', In (k', x) l /\ forall s, k = FStr s -> k' = FStr s).
  { clear l. intros l acc H l'. revert acc H. induction l' as [|(k0 & v0) l' IH]; intros acc H S; cbn [fold_left]; [exact H|]. apply IH; [|intros; apply S; now right].
    destruct H as [NP H]. destruct acc as [m|e|]; cbn [bind]; [|split; discriminate|now destruct NP]. cbn [fst snd]. specialize (H m eq_refl). assert (S0 : In (k0, v0) l) by (apply S; now left).
    assert (HJ : forall k x, In (k, x) (insert_entry k0 v0 m) -> (exists y, In (k, y) l) /\ exists k', In (k', x) l /\ forall s, k = FStr s -> k' = FStr s).
    { intros k x I. apply insert_entry_in in I. destruct I as [I|(-> & [->|[(y & I) K]])]; [now apply H|split; eauto|]. split; [now apply (H _ _ I)|]. eauto. }
    assert (HO : forall k x, In (k, x) (m ++ [(k0, v0)]) -> (exists y, In (k, y) l) /\ exists k', In (k', x) l /\ forall s, k = FStr s -> k' = FStr s).
    { intros k x I. apply in_app_or in I. destruct I as [I|[I|[]]]; [now apply H|]. injection I as <- <-. split; eauto. }
    destruct f; [destruct (existsb _ m); [split; discriminate|]| |destruct (existsb _ m); [split; discriminate|]]; split; try discriminate; intros m' E; injection E as <-; assumption. }
  apply (G l (Ok [])); auto. split; [discriminate|]. intros m E. injection E as <-. intros k x [].
Qed.
Section FIndAll.
  Context (P : fvalue -> Prop) (HM : forall m, Forall (fun kv => P (fst kv) /\ P (snd kv)) m -> P (FMap m)) (HS : forall l, Forall P l -> P (FSeq l))
    (Hs : forall s, P (FStr s)) (Hb : forall b, P (FBool b)) (Hn : forall n, P (FNum n)) (H0 : P FNull)
    (Ht : forall t v, P v -> P (FTagged t v)) (Hd : forall s, P (FDate s)).
  Fixpoint fvalue_ind_all (v : fvalue) : P v :=
    match v with
    | FMap m => HM m ((fix go m : Forall (fun kv => P (fst kv) /\ P (snd kv)) m :=
                         match m with [] => Forall_nil _ | kv :: m' => Forall_cons _ (conj (fvalue_ind_all (fst kv)) (fvalue_ind_all (snd kv))) (go m') end) m)
    | FSeq l => HS l ((fix go l : Forall P l := match l with [] => Forall_nil _ | x :: l' => Forall_cons _ (fvalue_ind_all x) (go l') end) l)
    | FStr s => Hs s
    | FBool b => Hb b
    | FNum n => Hn n
    | FNull => H0
    | FTagged t v => Ht t v (fvalue_ind_all v)
    | FDate s => Hd s
    end.
End FIndAll.
Lemma settle_str : forall f v s, settle f v = Ok (FStr s) -> v = FStr s.
Proof.
  intros f v s H. destruct v; cbn [settle] in H; try discriminate; try (injection H as ->; reflexivity); apply bind_ok in H; destruct H as (? & _ & H); try discriminate H.
  apply bind_ok in H. destruct H as (? & _ & H). discriminate H.
Qed.
Lemma settle_facts : forall f v, settle f v <> Panic
  /\ forall v', settle f v = Ok v' -> (held f v -> held f v') /\ (buffered v = true -> buffered v' = true) /\ (forall ks s, at_path v' ks (FStr s) -> at_path v ks (FStr s)).
Proof.
  intros f. induction v as [m IH|l IH|s|b|x| |tg v IH|s] using fvalue_ind_all; cbn [settle]; try (split; [discriminate|]; intros v' H; injection H as <-; split; auto).
  - rewrite Forall_forall in IH. split.
    + intro H. apply bind_panic in H. destruct H as [H|(l & _ & H)].
      * apply mapM_panic in H. destruct H as ((k & x) & I & H). destruct (IH _ I) as [[A _] [B _]]. apply bind_panic in H. destruct H as [H|(? & _ & H)]; [now apply A|]. apply bind_panic in H. destruct H as [H|(? & _ & H)]; [now apply B|]. discriminate H.
      * apply bind_panic in H. destruct H as [H|(m' & _ & H)]; [|discriminate H]. now apply settle_entries_facts in H.
    + intros v' H. apply bind_ok in H. destruct H as (l & E & H). apply bind_ok in H. destruct H as (m' & E' & H). injection H as <-. apply mapM_ok in E.
      destruct (settle_entries_facts f l) as [_ S]. specialize (S m' E').
      assert (L : forall k x, In (k, x) l -> exists k0 x0, In (k0, x0) m /\ settle f k0 = Ok k /\ settle f x0 = Ok x).
      { intros k x I. destruct (Forall2_in_r _ _ _ _ E I) as ((k0 & x0) & J & H). apply bind_ok in H. destruct H as (k1 & E1 & H). apply bind_ok in H. destruct H as (x1 & E2 & H). injection H as <- <-. exists k0, x0. auto. }
      assert (G : forall k x, In (k, x) m' -> exists k0 x0, In (k0, x0) m /\ settle f x0 = Ok x /\ forall s, k = FStr s -> k0 = FStr s).
      { intros k x I. destruct (S _ _ I) as (_ & k' & I' & K). destruct (L _ _ I') as (k0 & x0 & J & E1 & E2).
        exists k0, x0. repeat split; auto. intros s Hs. apply K in Hs. subst k'. now apply settle_str in E1. }
      assert (GK : forall k x, In (k, x) m' -> exists k0 x0, In (k0, x0) m /\ settle f k0 = Ok k).
      { intros k x I. destruct (S _ _ I) as ((y & I') & _). destruct (L _ _ I') as (k0 & x0 & J & E1 & E2). eauto. }
      split; [|split].
      * cbn [held]. intros W. apply each_Forall in W. rewrite Forall_forall in W. apply each_intro. intros (k & x) I. destruct (G _ _ I) as (k0 & x0 & J & X & _). destruct (IH _ J) as [_ [_ B]]. cbn [fst snd] in *. destruct (GK _ _ I) as (k1 & x1 & J1 & X1). destruct (IH _ J1) as [[_ C] _]. split.
        -- destruct (W _ J1) as [[(s & Es)|[Y Hk]] _]; cbn [fst] in *. { subst k1. cbn [settle] in X1. injection X1 as <-. eauto. } right. split; auto. now apply (C _ X1).
        -- apply (B _ X). apply (W _ J).
      * cbn [buffered]. rewrite !forallb_forall. intros W (k & x) I. destruct (G _ _ I) as (k0 & x0 & J & X & _). destruct (IH _ J) as [_ [_ B]]. cbn [fst snd] in *. destruct (GK _ _ I) as (k1 & x1 & J1 & X1). destruct (IH _ J1) as [[_ C] _].
        pose proof (W _ J) as W1. pose proof (W _ J1) as W2. apply andb_true_iff in W1, W2. cbn [fst snd] in *. destruct (B _ X) as (_ & B' & _). destruct (C _ X1) as (_ & C' & _). rewrite B', C' by tauto. reflexivity.
      * intros ks s A. inversion A; subst. match goal with I : In (FStr _, _) m' |- _ => destruct (G _ _ I) as (k0 & x0 & J & X & K) end. destruct (IH _ J) as [_ [_ B]]. pose proof (K _ eq_refl) as ->. eapply at_key; eauto. apply (B _ X). assumption.
  - rewrite Forall_forall in IH. split.
    + intro H. apply bind_panic in H. destruct H as [H|(? & _ & H)]; [|discriminate H]. apply mapM_panic in H. destruct H as (x & I & H). now apply IH in I.
    + intros v' H. apply bind_ok in H. destruct H as (l' & E & H). injection H as <-. apply mapM_ok in E. split; [|split].
      * cbn [held]. intros W. apply each_Forall in W. rewrite Forall_forall in W. apply each_intro. intros x I. destruct (Forall2_in_r _ _ _ _ E I) as (x0 & J & X). destruct (IH _ J) as [_ B]. apply (B _ X). auto.
      * cbn [buffered]. rewrite !forallb_forall. intros W x I. destruct (Forall2_in_r _ _ _ _ E I) as (x0 & J & X). destruct (IH _ J) as [_ B]. apply (B _ X). auto.
      * intros ks s A. inversion A; subst. match goal with I : In _ l' |- _ => destruct (Forall2_in_r _ _ _ _ E I) as (x0 & J & X) end. destruct (IH _ J) as [_ B]. eapply at_elem; eauto. now apply (B _ X).
  - destruct IH as [A B]. split.
    + intro H. apply bind_panic in H. destruct H as [H|(? & _ & H)]; [now apply A|discriminate H].
    + intros v' H. apply bind_ok in H. destruct H as (x & E & H). injection H as <-. split; [|split].
      * cbn [held]. intros [Y W]. split; auto. now apply (B _ E).
      * cbn [buffered]. discriminate.
      * intros ks s P. inversion P; subst. apply at_tag. now apply (B _ E).
Qed.
Lemma settle_map_facts : forall f m, settle_map f m <> Panic
  /\ forall m', settle_map f m = Ok m' -> (held f (FMap m) -> held f (FMap m')) /\ (buffered (FMap m) = true -> buffered (FMap m') = true) /\ (forall ks s, at_path (FMap m') ks (FStr s) -> at_path (FMap m) ks (FStr s)).
Proof.
  intros f m. unfold settle_map. destruct (settle_facts f (FMap m)) as [A B]. split.
  - intro H. apply bind_panic in H. destruct H as [H|(v & _ & H)]; [now apply A|]. destruct v; discriminate H.
  - intros m' H. apply bind_ok in H. destruct H as (v & E & H). destruct v; try discriminate H. injection H as <-. now apply B.
Qed.
Lemma read_map_facts : forall cd f t, parser_law cd -> utf8_text t -> read_map cd f t <> Panic /\ forall m, read_map cd f t = Ok m -> held f (FMap m).
Proof.
  intros cd f t L U. destruct (L f t U) as [A B]. unfold read_map. split.
  - intro H. apply bind_panic in H. destruct H as [H|(es & _ & H)]; [now apply A|]. now apply settle_map_facts in H.
  - intros m H. apply bind_ok in H. destruct H as (es & E & H). apply (proj2 (settle_map_facts f es) m H). auto.
Qed.

Lemma held_expressible : forall f v, held f v -> buffered v = true -> expressible f v.
Proof.
  intro f. induction v as [m IH|l IH|s|b|x| |tg v IH|s] using fvalue_ind_all; cbn [held buffered expressible]; auto.
  - intros W B. rewrite Forall_forall in IH. apply each_Forall in W. rewrite Forall_forall in W. rewrite forallb_forall in B. apply each_intro. intros kv I.
    destruct (IH _ I) as [I1 I2]. destruct (W _ I) as [W1 W2]. specialize (B _ I). apply andb_true_iff in B. destruct B as [B1 B2]. split; auto. destruct W1 as [W1|[Y W1]]; auto.
  - intros W B. rewrite Forall_forall in IH. apply each_Forall in W. rewrite Forall_forall in W. rewrite forallb_forall in B. apply each_intro. auto.
  - destruct x; tauto.
  - discriminate.
  - tauto.
Qed.

Lemma get_field_panic : forall k es, get_field k es <> Panic.
Proof. intros k es. unfold get_field. destruct (filter _ es) as [|? []]; discriminate. Qed.
Lemma get_field_in : forall k es v, get_field k es = Ok (Some v) -> In (FStr k, v) es.
Proof.
  intros k es v H. unfold get_field in H. destruct (filter (key_is k) es) as [|kv [|? ?]] eqn:E; try discriminate. injection H as <-.
  assert (I : In kv (filter (key_is k) es)) by (rewrite E; now left). apply filter_In in I. destruct I as [I K]. destruct kv as [a b]. unfold key_is in K. cbn [fst snd] in *.
  destruct a; try discriminate K. apply bytes_eqb_eq in K. now subst.
Qed.
Lemma need_panic : forall A (o : option A), need o <> Panic.
Proof. intros A [a|]; discriminate. Qed.
Lemma need_ok : forall A (o : option A) a, need o = Ok a -> o = Some a.
Proof. intros A [x|] a H; [|discriminate]. now injection H as <-. Qed.
Lemma as_string_panic : forall v, as_string v <> Panic.
Proof. intros []; discriminate. Qed.
Lemma as_string_ok : forall v s, as_string v = Ok s -> v = FStr s.
Proof. intros [] ? H; try discriminate. now injection H as ->. Qed.
Lemma as_map_panic : forall v, as_map v <> Panic.
Proof. intros []; discriminate. Qed.
Lemma as_map_ok : forall v m, as_map v = Ok m -> v = FMap m.
Proof. intros [] ? H; try discriminate. now injection H as ->. Qed.
Lemma as_time_panic : forall cd v, as_time cd v <> Panic.
Proof. intros cd v H. unfold as_time in H. apply bind_panic in H. destruct H as [H|(s & _ & H)]; [now apply as_string_panic in H|]. destruct (cd_time cd s); discriminate. Qed.
Lemma ok_or_not_panic : forall A e (o : option A), ok_or e o <> Panic.
Proof. intros A e [a|]; discriminate. Qed.
Lemma map_err_panic : forall A e (o : outcome A), map_err e o = Panic -> o = Panic.
Proof. intros A e [a|x|] H; auto; discriminate. Qed.

Ltac step H x E := apply bind_panic in H; destruct H as [H|(x & E & H)].
Ltac nope H := exfalso; revert H; first [apply get_field_panic|apply need_panic|apply as_string_panic|apply as_map_panic|apply as_time_panic|apply ok_or_not_panic|discriminate].

Lemma read_kms_panic : forall es, read_kms_config es = Panic -> exists s, In (FStr k_arn, FStr s) es /\ parse_arn s = Panic.
Proof.
  intros es H. unfold read_kms_config in H. step H p Ep; [nope H|]. step H p' Ep'; [nope H|]. step H pr Epr; [nope H|]. step H a Ea; [nope H|]. step H a' Ea'; [nope H|]. step H s Es; [nope H|].
  step H arn Earn; [|nope H]. apply map_err_panic in H. apply need_ok in Ea'. subst a. apply as_string_ok in Es. subst a'. apply get_field_in in Ea. eauto.
Qed.
Lemma read_unit_panic : forall K cd (config : fmap -> outcome K) v, read_unit cd config v = Panic -> exists es, v = FMap es /\ config es = Panic.
Proof.
  intros K cd config v H. unfold read_unit in H. step H es E; [nope H|]. apply as_map_ok in E. exists es. split; auto. step H k Ek; auto. exfalso.
  step H c Ec; [nope H|]. step H c' Ec'.
  { destruct c as [[]|]; try discriminate H; unfold omap in H; step H t Et; now (nope H). }
  step H e Ee; [nope H|]. step H e' Ee'; [nope H|]. step H enc Ex; now (nope H).
Qed.
Lemma read_units_panic : forall K cd k eqb (config : fmap -> outcome K) es, read_units cd k eqb config es = Panic -> exists l es', In (FStr k, FSeq l) es /\ In (FMap es') l /\ config es' = Panic.
Proof.
  intros K cd k eqb config es H. unfold read_units in H. step H o Eo; [nope H|]. destruct o as [[]|]; try discriminate. apply get_field_in in Eo. step H us Eu; [|nope H].
  apply mapM_panic in H. destruct H as (v & I & H). apply read_unit_panic in H. destruct H as (es' & -> & H). eauto 6.
Qed.
Lemma read_meta_panic : forall rv ag cd v, read_meta rv ag cd parse_evalue v = Panic -> exists ks s, at_path v ks (FStr s) /\ (parse_arn s = Panic \/ parse_evalue s = Panic).
Proof.
  intros rv ag cd v H. unfold read_meta in H. step H es E; [nope H|]. apply as_map_ok in E. subst v. step H t Et; [nope H|]. step H t' Et'; [nope H|]. step H lm El; [nope H|].
  step H m Em; [nope H|]. step H m' Em'; [nope H|]. step H ms Ems; [nope H|]. step H mc Emc.
  { apply map_err_panic in H. apply need_ok in Em'. subst m. apply as_string_ok in Ems. subst m'. apply get_field_in in Em. exists [k_mac], ms. split; auto. eapply at_key; eauto. constructor. }
  step H o Eo; [nope H|]. step H only Eon. { destruct o as [[]|]; discriminate. } step H kms Ek.
  { apply read_units_panic in H. destruct H as (l & es' & I & J & H). apply read_kms_panic in H. destruct H as (s & Is & H). exists [k_kms; k_arn], s. split; auto.
    eapply at_key; eauto. eapply at_elem; eauto. eapply at_key; eauto. constructor. }
  step H age Ea; [|nope H]. apply read_units_panic in H. destruct H as (l & es' & I & J & H). unfold read_age_config in H. exfalso.
  step H r Er; [nope H|]. step H r' Er'; [nope H|]. step H s Es; now (nope H).
Qed.
Lemma at_path_sub : forall m m' ks s, (forall kv, In kv m' -> In kv m) -> at_path (FMap m') ks (FStr s) -> at_path (FMap m) ks (FStr s).
Proof. intros m m' ks s S A. inversion A; subst. eapply at_key; eauto. Qed.
Lemma read_efile_panic : forall rv ag cd f t, parser_law cd -> utf8_text t -> read_efile rv ag cd f t = Panic ->
  exists es ks s, cd_read cd f t = Ok es /\ at_path (FMap es) ks (FStr s) /\ (parse_arn s = Panic \/ parse_evalue s = Panic).
Proof.
  intros rv ag cd f t L U H. unfold read_efile in H. destruct (L f t U) as [A _]. step H es E; [now apply A in H|]. exists es. unfold efile_of_entries in H. destruct (forallb _ es); [|discriminate].
  step H o Eo; [nope H|]. step H v Ev; [nope H|]. apply need_ok in Ev. subst o. apply get_field_in in Eo. step H md Emd.
  { apply read_meta_panic in H. destruct H as (ks & s & P & H). exists (k_sops :: ks), s. repeat split; auto. eapply at_key; eauto. }
  step H m Em; [|nope H]. now apply settle_map_facts in H.
Qed.
(** What a read file holds. *)
Lemma read_efile_held : forall rv ag cd f t ef, parser_law cd -> utf8_text t -> read_efile rv ag cd f t = Ok ef ->
  held f (FMap (fl_map ef)) /\ expressible f (FMap (fl_map ef))
  /\ exists es, cd_read cd f t = Ok es /\ forall ks s, at_path (FMap (fl_map ef)) ks (FStr s) -> at_path (FMap es) ks (FStr s).
Proof.
  intros rv ag cd f t ef L U H. unfold read_efile in H. apply bind_ok in H. destruct H as (es & E & H). destruct (L f t U) as [_ W]. specialize (W _ E). unfold efile_of_entries in H.
  destruct (forallb _ es) eqn:B; [|discriminate]. apply bind_ok in H. destruct H as (o & _ & H). apply bind_ok in H. destruct H as (v & _ & H). apply bind_ok in H. destruct H as (md & _ & H).
  apply bind_ok in H. destruct H as (m & S & H). assert (M : fl_map ef = m) by (injection H as <-; reflexivity). rewrite M. clear H M.
  destruct (settle_map_facts f (filter (fun kv => negb (key_is k_sops kv)) es)) as [_ F]. destruct (F _ S) as (F1 & F2 & F3).
  assert (I : forall kv, In kv (filter (fun kv => negb (key_is k_sops kv)) es) -> In kv es) by (intros kv I; now apply filter_In in I).
  assert (HM : held f (FMap m)). { apply F1. cbn [held] in *. apply each_Forall in W. rewrite Forall_forall in W. apply each_intro. auto. }
  split; [exact HM|]. split.
  - apply held_expressible; auto. apply F2. cbn [buffered]. apply forallb_forall. intros (k & x) J. rewrite forallb_forall in B. specialize (B _ (I _ J)). apply filter_In in J. destruct J as [_ J]. cbn [fst snd] in *.
    apply andb_true_iff in B. destruct B as [B1 B2]. destruct (key_is k_sops (k, x)); [discriminate|]. cbn [orb] in B2. rewrite B2, andb_true_r. destruct k; auto; discriminate.
  - exists es. split; auto. intros ks s P. apply (at_path_sub es (filter (fun kv => negb (key_is k_sops kv)) es)); auto.
Qed.
Lemma read_strings_panic : forall {K} (parse : bytes -> outcome K) o, read_strings parse o = Panic -> exists l z, o = Some (FSeq l) /\ In (FStr z) l /\ parse z = Panic.
Proof.
  intros K parse o H. unfold read_strings in H. destruct o as [[]|]; try discriminate. apply mapM_panic in H. destruct H as (y & J & H). step H z Ez; [nope H|]. apply as_string_ok in Ez. subst y. eauto.
Qed.
Lemma read_keys_panic : forall ag o, read_keys ag o = Panic -> exists v ks k, o = Some v /\ at_path v ks (FStr k) /\ parse_aws_key k = Panic.
Proof.
  intros ag o H. assert (NA : forall x, read_strings (fun s => ok_or EConfig (ag_recipient ag s)) x = Panic -> False). { intros x X. apply read_strings_panic in X. destruct X as (l & z & _ & _ & X). destruct (ag_recipient ag z); discriminate. }
  destruct o as [v|]; [|discriminate]. destruct v as [es|l| | | | | |]; try discriminate; cbn [read_keys as_map bind] in H.
  - step H a Ea; [nope H|]. step H age Eage; [now apply NA in H|]. step H k Ekk; [nope H|]. step H kms Ekms; [|nope H]. apply read_strings_panic in H. destruct H as (l & z & -> & J & H). apply get_field_in in Ekk.
    exists (FMap es), [lit "aws_kms"], z. repeat split; auto. eapply at_key; eauto. eapply at_elem; eauto. constructor.
  - step H age Eage; [now apply NA in H|]. step H kms Ekms; [|nope H]. apply read_strings_panic in H. destruct H as (l' & z & N & J & H). apply nth_error_In in N.
    exists (FSeq l), [], z. repeat split; auto. eapply at_elem; eauto. eapply at_elem; eauto. constructor.
Qed.
Lemma read_partial_panic : forall re o, read_partial re o = Panic -> False.
Proof. intros re o H. unfold read_partial in H. destruct o as [[[|kv []]| | | | | | |]|]; try discriminate. destruct (is_rule_entry kv); [|discriminate]. step H q Eqq; now (nope H). Qed.
Lemma read_rule_panic : forall re ag v, read_creation_rule re ag v = Panic -> exists ks k, at_path v ks (FStr k) /\ parse_aws_key k = Panic.
Proof.
  intros re ag v H. assert (T : read_rule_table re ag v = Panic -> exists ks k, at_path v ks (FStr k) /\ parse_aws_key k = Panic).
  { clear H. intro H. unfold read_rule_table in H. step H es' E'; [nope H|]. apply as_map_ok in E'. subst v.
    step H p Ep; [nope H|]. step H p' Ep'; [nope H|]. step H path Epath; [nope H|]. destruct (re_valid re path); [|discriminate]. step H m Em; [nope H|]. step H only Eo. { destruct m as [[]|]; discriminate. }
    step H pe Epe; [nope H|]. step H pt Ept; [now apply read_partial_panic in H|]. step H ik Ei; [nope H|]. step H ks Ek; [|nope H]. apply read_keys_panic in H. destruct H as (w & ks & k & -> & A & P). apply get_field_in in Ei.
    exists (lit "integration_keys" :: ks), k. split; auto. eapply at_key; eauto. }
  destruct v as [m|l|s|b|n| |tg v|s]; auto. clear T. cbn [read_creation_rule] in H. destruct l as [|p [|m [|pe rest]]]; try discriminate. cbn [read_rule_array] in H.
  step H path Epath; [nope H|]. destruct (re_valid re path); [|discriminate]. step H only Eo. { destruct m; discriminate. } step H pt Ept; [now apply read_partial_panic in H|]. step H ks Ek; [|nope H].
  apply read_keys_panic in H. destruct H as (w & ks & k & E & A & P). exists ks, k. split; auto. eapply at_elem; [|exact A]. destruct rest; [discriminate|]. cbn [hd_error] in E. injection E as ->. right. right. right. now left.
Qed.
Lemma read_config_panic : forall re ag cd s, parser_law cd -> utf8_text s -> read_config re ag cd s = Panic ->
  exists es ks k, cd_read cd Toml s = Ok es /\ at_path (FMap es) ks (FStr k) /\ parse_aws_key k = Panic.
Proof.
  intros re ag cd s L U H. unfold read_config in H. destruct (L Toml s U) as [A _]. step H es E; [now apply A in H|]. exists es. step H r Er; [nope H|]. step H v Ev; [nope H|]. apply need_ok in Ev. subst r. apply get_field_in in Er.
  destruct v as [| l | | | | | |]; try discriminate. apply mapM_panic in H. destruct H as (x & I & H). apply read_rule_panic in H. destruct H as (ks & k & P & H). exists (lit "creation_rules" :: ks), k. repeat split; auto.
  eapply at_key; eauto. eapply at_elem; eauto.
Qed.

(** ** Data keys *)
Section Causes.
  Context (re : regex_engine) (tp : tape) (ag : age_crate) (E : env).

  Definition passphrase (rc : recipients) : Prop := exists i u, In u (rc_age rc) /\ ag_public ag i = u_key u /\ ag_open ag i (u_enc u) = AgePassphrase.
  Definition no_reply : Prop := (exists req b, e_kms_decrypt E req b = KmsEmpty) \/ (exists n req b, e_kms_encrypt E n req b = KmsEmpty).

  Lemma retrieve_abort : forall rc, retrieve_data_key ag E rc = Panic -> passphrase rc \/ no_reply.
  Proof.
    intros rc H. unfold retrieve_data_key in H. step H o Eo; [|destruct o; discriminate]. unfold decrypt_data_key in H. step H a Ea.
    - apply first_key_panic in H. destruct H as (u & I & H). unfold age_decrypt_key in H. step H ids Ei; [now apply age_keys_panic in H|].
      destruct (find _ ids) as [i|] eqn:F; try discriminate. apply find_some in F. destruct F as [_ F]. apply bytes_eqb_eq in F. destruct (ag_open ag i (u_enc u)) eqn:O; try discriminate. { left. exists i, u. auto. }
      destruct (Nat.leb key_size (List.length b)); discriminate.
    - right. left. destruct a as [k|]; try discriminate. apply first_key_panic in H. destruct H as (u & I & H). unfold kms_decrypt_key in H. step H b Eb.
      { unfold decode_base64_vec, ok_or in H. destruct (b64_decode_nopad (trim_end_c "="%byte (u_enc u))); discriminate. }
      step H c Ec. { unfold find_client in H. step H ids Ei; [now apply kms_keys_panic in H|discriminate]. }
      destruct c as [req|]; try discriminate. destruct (e_kms_decrypt E req b) eqn:Q; try discriminate. { eauto. } destruct (Nat.eqb _ _); discriminate.
  Qed.
  Lemma retrieve_len : forall rc key, retrieve_data_key ag E rc = Ok key -> length key = 32.
  Proof.
    intros rc key H. unfold retrieve_data_key in H. apply bind_ok in H. destruct H as (o & D & H). destruct o as [k|]; [|discriminate]. injection H as ->.
    unfold decrypt_data_key in D. apply bind_ok in D. destruct D as (a & A & D). destruct a as [k|].
    - injection D as ->. apply first_key_ok in A. destruct A as (pre & u & post & _ & _ & A). unfold age_decrypt_key in A. apply bind_ok in A. destruct A as (ids & _ & A). destruct (find _ ids); [|discriminate].
      destruct (ag_open ag b (u_enc u)); try discriminate. destruct (Nat.leb key_size (List.length b0)) eqn:Lb; [|discriminate]. assert (X : key = firstn key_size b0) by congruence. rewrite X, firstn_length. apply Nat.leb_le in Lb. unfold key_size in *. lia.
    - apply first_key_ok in D. destruct D as (pre & u & post & _ & _ & D). unfold kms_decrypt_key in D. apply bind_ok in D. destruct D as (b & _ & D). apply bind_ok in D. destruct D as (c & _ & D). destruct c; [|discriminate].
      destruct (e_kms_decrypt E k b); try discriminate. destruct (Nat.eqb (List.length b0) key_size) eqn:Lb; [|discriminate]. injection D as <-. now apply Nat.eqb_eq in Lb.
  Qed.

  (** Entries made during the command. *)
  Definition renewed (rc0 rc : recipients) : Prop :=
    forall u, In u (rc_age rc) -> In u (rc_age rc0) \/ exists n key, length key = 32 /\ u_enc u = ag_wrap ag n (u_key u) key.
  Lemma renewed_abort : age_law ag -> forall rc0 rc, renewed rc0 rc -> retrieve_data_key ag E rc = Panic -> passphrase rc0 \/ no_reply.
  Proof.
    intros L rc0 rc R H. apply retrieve_abort in H. destruct H as [(i & u & I & P & H)|H]; auto. destruct (R _ I) as [J|(n & key & K & X)].
    - left. exists i, u. auto.
    - rewrite X, <- P, L in H by exact K. discriminate.
  Qed.
  Lemma renewed_refl : forall rc, renewed rc rc.
  Proof. intros rc u. auto. Qed.

  Lemma kms_encrypt_panic : forall k key n, kms_encrypt_key E k key n = Panic -> no_reply.
  Proof.
    intros k key n H. unfold kms_encrypt_key in H. step H c Ec. { unfold find_client in H. step H ids Ei; [now apply kms_keys_panic in H|discriminate]. }
    destruct c as [req|]; [|discriminate]. destruct (e_kms_encrypt E n req key) eqn:Q; try discriminate. right. eauto.
  Qed.
  Lemma add_units_panic : forall {K} eqb (mk : K -> nat -> outcome (wrapped K * nat)) ids us n us', add_units eqb mk ids us n = (us', Panic) -> exists k n', mk k n' = Panic.
  Proof.
    intros K eqb mk. induction ids as [|k ids IH]; intros us n us' H; cbn [add_units] in H; [discriminate|]. destruct (mk k n) as [[u n']|e|] eqn:M; [|discriminate|eauto]. eapply IH; eauto.
  Qed.
  Lemma add_units_in : forall {K} (eqb : K -> K -> bool) (mk : K -> nat -> outcome (wrapped K * nat)) ids us n us' o, add_units eqb mk ids us n = (us', o) ->
    forall u, In u us' -> In u us \/ exists k n1 n2, mk k n1 = Ok (u, n2).
  Proof.
    intros K eqb mk. induction ids as [|k ids IH]; intros us n us' o H u I; cbn [add_units] in H; [injection H as <- <-; auto|]. destruct (mk k n) as [[v n']|e|] eqn:M; [|injection H as <- <-; auto|injection H as <- <-; auto].
    destruct (IH _ _ _ _ H _ I) as [J|J]; auto.
    assert (C : forall l x, In x (unit_insert eqb v l) -> x = v \/ In x l).
    { clear. induction l as [|y l IH]; intros x J; cbn [unit_insert] in J; [destruct J as [<-|[]]; auto|]. destruct (eqb (u_key y) (u_key v)); destruct J as [J|J]; auto. { right. now right. } { subst. right. now left. } destruct (IH _ J); auto. right. now right. }
    apply C in J. destruct J as [->|J]; auto. right. eauto.
  Qed.
  Lemma new_age_fresh : forall key r n u n', new_age_unit ag key r n = Ok (u, n') -> exists m, u_enc u = ag_wrap ag m (u_key u) key.
  Proof. intros key r n u n' H. unfold new_age_unit, age_encrypt_key in H. cbn [bind fst snd] in H. injection H as <- <-. cbn [u_enc u_key]. eauto. Qed.
  Lemma add_age_abort : forall ids key rc n rc' o rc0, length key = 32 -> renewed rc0 rc -> add_age ag ids key rc n = (rc', o) -> o <> Panic /\ renewed rc0 rc'.
  Proof.
    intros ids key rc n rc' o rc0 L R H. unfold add_age in H. destruct (add_units _ _ _ _ _) as [us o'] eqn:A. injection H as <- <-. split.
    - intros ->. apply add_units_panic in A. destruct A as (k & n' & A). discriminate A.
    - intros u I. cbn [rc_age] in I. destruct (add_units_in _ _ _ _ _ _ _ A _ I) as [J|(k & n1 & n2 & M)]; auto. right. apply new_age_fresh in M. destruct M as (m & M). eauto.
  Qed.
  Lemma add_kms_abort : forall ids key rc n rc' o rc0, renewed rc0 rc -> add_kms E ids key rc n = (rc', o) -> (o = Panic -> no_reply) /\ renewed rc0 rc'.
  Proof.
    intros ids key rc n rc' o rc0 R H. unfold add_kms in H. destruct (add_units _ _ _ _ _) as [us o'] eqn:A. injection H as <- <-. split.
    - intros ->. apply add_units_panic in A. destruct A as (k & n' & A). unfold new_kms_unit in A. step A e Ee; [|discriminate]. now apply kms_encrypt_panic in A.
    - intros u I. apply R. exact I.
  Qed.
  Lemma build_panic : forall age_ids kms_ids key n, length key = 32 -> build_recipients ag E age_ids kms_ids key n = Panic -> no_reply.
  Proof.
    intros age_ids kms_ids key n L H. assert (G : (let '(rc1, o1) := add_age ag age_ids key no_recipients n in let* n1 := o1 in let '(rc2, o2) := add_kms E kms_ids key rc1 n1 in let* n2 := o2 in Ok (rc2, n2)) = Panic).
    { unfold build_recipients in H. destruct age_ids, kms_ids; try exact H. discriminate. }
    clear H. destruct (add_age ag age_ids key no_recipients n) as [rc1 o1] eqn:A. apply (add_age_abort _ _ _ _ _ _ no_recipients L) in A; [|apply renewed_refl]. destruct A as [A R]. step G n1 En; [now apply A in G|].
    destruct (add_kms E kms_ids key rc1 n1) as [rc2 o2] eqn:B. apply (add_kms_abort _ _ _ _ _ _ no_recipients) in B; auto. destruct B as [B _]. step G n2 En2; [auto|discriminate].
  Qed.
  Lemma rewrap_panic : forall {K} (wrap : K -> nat -> outcome (bytes * nat)) us n us', rewrap_units wrap us n = (us', Panic) -> exists k n', wrap k n' = Panic.
  Proof.
    intros K wrap. induction us as [|u us IH]; intros n us' H; cbn [rewrap_units] in H; [discriminate|]. destruct (wrap (u_key u) n) as [[e n']|x|] eqn:W; [|discriminate|eauto].
    destruct (rewrap_units wrap us n') as [r o] eqn:R. injection H as _ ->. eauto.
  Qed.
  Lemma rewrap_age : forall key us n us' o, rewrap_units (fun r => age_encrypt_key ag r key) us n = (us', o) -> forall u, In u us' -> exists m, u_enc u = ag_wrap ag m (u_key u) key.
  Proof.
    intros key. induction us as [|u us IH]; intros n us' o H v I; cbn [rewrap_units age_encrypt_key] in H; [injection H as <- <-; destruct I|].
    destruct (rewrap_units _ us (S n)) as [r o'] eqn:R. injection H as <- <-. destruct I as [<-|I]; [cbn [u_enc u_key]; eauto|eauto].
  Qed.
  Lemma rotate_abort : forall rc n rc' o rc0, rotate tp ag E rc n = (rc', o) -> (o = Panic -> no_reply) /\ renewed rc0 rc'.
  Proof.
    intros rc n rc' o rc0 H. unfold rotate in H. destruct (rewrap_units _ (rc_age rc) (S n)) as [a oa] eqn:A. pose proof (rewrap_age _ _ _ _ _ A) as F.
    assert (RN : forall k, renewed rc0 {| rc_kms := k; rc_age := a |}). { intros k u I. right. destruct (F _ I) as (m & M). exists m, (draw_key tp n). split; [apply draw_key_len|exact M]. }
    destruct oa as [n1|e|].
    - destruct (rewrap_units _ (rc_kms rc) n1) as [k ok] eqn:B. injection H as <- <-. split; auto. intros ->. apply rewrap_panic in B. destruct B as (? & ? & B). now apply kms_encrypt_panic in B.
    - injection H as <- <-. split; auto. discriminate.
    - exfalso. apply rewrap_panic in A. destruct A as (? & ? & A). discriminate A.
  Qed.
  Lemma remove_age_abort : forall r df n df' o rc0, renewed rc0 (md_recipients (fl_meta df)) -> file_remove_age tp ag E r df n = (df', o) ->
    (o = Panic -> no_reply) /\ renewed rc0 (md_recipients (fl_meta df')) /\ fl_map df' = fl_map df.
  Proof.
    intros r df n df' o rc0 R H. unfold file_remove_age, remove_age in H. destruct (unit_remove _ _ _) as [[u rest]|].
    - destruct (rotate _ _ _ _ _) as [rc' o'] eqn:Q. apply (rotate_abort _ _ _ _ rc0) in Q. destruct Q as [Q Q']. injection H as <- <-. cbn [with_recipients fl_meta md_recipients fl_map]. split; auto.
      intro P. destruct o'; try discriminate P. auto.
    - injection H as <- <-. split; [discriminate|]. auto.
  Qed.
  Lemma remove_kms_abort : forall k df n df' o rc0, renewed rc0 (md_recipients (fl_meta df)) -> file_remove_kms tp ag E k df n = (df', o) ->
    (o = Panic -> no_reply) /\ renewed rc0 (md_recipients (fl_meta df')) /\ fl_map df' = fl_map df.
  Proof.
    intros r df n df' o rc0 R H. unfold file_remove_kms, remove_kms in H. destruct (unit_remove _ _ _) as [[u rest]|].
    - destruct (rotate _ _ _ _ _) as [rc' o'] eqn:Q. apply (rotate_abort _ _ _ _ rc0) in Q. destruct Q as [Q Q']. injection H as <- <-. cbn [with_recipients fl_meta md_recipients fl_map]. split; auto.
      intro P. destruct o'; try discriminate P. auto.
    - injection H as <- <-. split; [discriminate|]. auto.
  Qed.
  Lemma remove_all_abort : forall {K U} (remove : K -> dfile -> nat -> dfile * outcome (U * nat)) rc0,
    (forall k df n df' o, renewed rc0 (md_recipients (fl_meta df)) -> remove k df n = (df', o) -> (o = Panic -> no_reply) /\ renewed rc0 (md_recipients (fl_meta df')) /\ fl_map df' = fl_map df) ->
    forall ids df n, renewed rc0 (md_recipients (fl_meta df)) -> (remove_all remove ids df n = Panic -> no_reply)
      /\ forall r, remove_all remove ids df n = Ok r -> renewed rc0 (md_recipients (fl_meta (fst r))) /\ fl_map (fst r) = fl_map df.
  Proof.
    intros K U remove rc0 Q. induction ids as [|k ids IH]; intros df n R; cbn [remove_all]. { split; [discriminate|]. intros r H. injection H as <-. auto. }
    destruct (remove k df n) as [df' o] eqn:M. destruct (Q _ _ _ _ _ R M) as (A & B & C). destruct o as [[u n']|e|]; cbn [bind snd].
    - rewrite <- C. now apply IH.
    - split; discriminate.
    - split; [auto|discriminate].
  Qed.

  (** ** Files *)
  Definition file_cause (f : fmt) (ef : efile) : Prop :=
    passphrase (md_recipients (fl_meta ef)) \/ no_reply
    \/ (exists ks s, at_path (FMap (fl_map ef)) ks (FStr s) /\ parse_evalue s = Panic)
    \/ (exists mac, authentic_mac ag E ef mac /\ ~ utf8_text mac)
    \/ (f = Json /\ exists dm ks v, content re ag E f ef dm /\ In (ks, v) (map_values dm) /\ non_finite v).

  Lemma decrypt_mac_panic : forall e key lm, decrypt_mac e key lm <> Panic.
  Proof. intros e key lm H. unfold decrypt_mac in H. step H m Em; [|discriminate]. unfold cipher_decrypt, ok_or in H. destruct (gcm_decrypt _ _ _ _ _); discriminate. Qed.
  Lemma validate_panic : forall ef key mac dm, retrieve_data_key ag E (md_recipients (fl_meta ef)) = Ok key -> decrypt_mac (md_mac (fl_meta ef)) key (timestamp_text (md_modified (fl_meta ef))) = Ok mac ->
    validate_mac re dm (with_mac (fl_meta ef) (fst mac)) = Panic -> exists mac, authentic_mac ag E ef mac /\ ~ utf8_text mac.
  Proof.
    intros ef key [mac nonce] dm K M H. cbn [fst] in H. exists mac. apply decrypt_mac_some in M. destruct M as [M _]. split. { exists key. auto. }
    unfold validate_mac in H. cbn [with_mac md_mac md_only md_partial] in H.
    destruct (bytes_eqb (compute_mac re (md_only (fl_meta ef)) (md_partial (fl_meta ef)) dm) mac); try discriminate.
    unfold mac_text in H. destruct (utf8_valid mac) eqn:U; try discriminate. intro X. apply utf8_valid_iff in X. congruence.
  Qed.
  Lemma decrypt_abort : forall f ef, held f (FMap (fl_map ef)) -> file_decrypt re ag E f f ef = Panic -> file_cause f ef.
  Proof.
    intros f ef W H. unfold file_cause, file_decrypt in *. step H key K. { apply retrieve_abort in H. tauto. }
    step H mac M; [now apply decrypt_mac_panic in H|]. step H em A. { apply enc_map_read_panic in H. tauto. }
    step H dm D. { now apply decrypt_map_no_panic in H. } step H u V. { right. right. right. left. eapply validate_panic; eauto. }
    step H fm C; [|discriminate]. right. right. right. right. apply (conversion_outcome f dm) in H; [|eapply decrypt_held; eauto].
    destruct H as [-> (ks & v & I & N)]. split; auto. exists dm, ks, v. split; auto. exists key, em. auto.
  Qed.
  Lemma decrypt_save_abort : forall f ef, held f (FMap (fl_map ef)) -> file_decrypt_save re ag E f f ef = Panic -> file_cause f ef.
  Proof.
    intros f ef W H. unfold file_cause, file_decrypt_save in *. step H key K. { apply retrieve_abort in H. tauto. }
    step H mac M; [now apply decrypt_mac_panic in H|]. step H em A. { apply enc_map_read_panic in H. tauto. }
    step H dm D. { now apply decrypt_map_no_panic in H. } step H u V. { right. right. right. left. eapply validate_panic; eauto. }
    destruct dm as [dm sv]. apply decrypt_save_map in D. cbn [fst] in *.
    step H fm C; [|discriminate]. right. right. right. right. apply (conversion_outcome f dm) in H; [|eapply decrypt_held; eauto].
    destruct H as [-> (ks & v & I & N)]. split; auto. exists dm, ks, v. split; auto. exists key, em. auto.
  Qed.
  Lemma decrypted_held : forall f ef df, held f (FMap (fl_map ef)) -> file_decrypt re ag E f f ef = Ok df ->
    held f (FMap (fl_map df)) /\ expressible f (FMap (fl_map df)) /\ md_recipients (fl_meta df) = md_recipients (fl_meta ef).
  Proof.
    intros f ef df W H. unfold file_decrypt in H. apply bind_ok in H. destruct H as (key & K & H). apply bind_ok in H. destruct H as (mac & M & H). apply bind_ok in H. destruct H as (em & A & H).
    apply bind_ok in H. destruct H as (dm & D & H). apply bind_ok in H. destruct H as (u & V & H). apply bind_ok in H. destruct H as (m & C & H). injection H as <-. cbn [fl_map fl_meta with_mac md_recipients].
    assert (R : rust_map dm) by (eapply decrypt_held; eauto). destruct (dec_map_from_held _ _ _ R C). auto.
  Qed.

  (** Encrypting. *)
  Lemma enc_from_panic : forall f t ks, enc_from_internal f t = Panic -> exists ks' w, In (ks', Escaped w) (values_under ks t) /\ from_internal_value f w = Panic.
  Proof.
    intros f. induction t as [l IH|m IH| |w] using tree_ind'; intros ks H; cbn [enc_from_internal] in H.
    - step H l' El; [|discriminate]. apply mapM_panic in H. destruct H as (t & I & H). rewrite Forall_forall in IH. destruct (IH _ I ks H) as (ks' & w & J & P). exists ks', w. split; auto. cbn [values_under]. apply in_flat_map. eauto.
    - step H l' El; [|discriminate]. apply mapM_panic in H. destruct H as ((k & t) & I & H). step H v Ev; [|discriminate]. rewrite Forall_forall in IH. cbn [fst snd] in *. destruct (IH _ I (ks ++ [k]) H) as (ks' & w & J & P).
      exists ks', w. split; auto. cbn [values_under]. apply in_flat_map. exists (k, t). auto.
    - destruct f; discriminate.
    - destruct w as [e|w]; [discriminate|]. exists ks, w. split; auto. now left.
  Qed.
  Lemma enc_map_from_panic : forall f em, enc_map_from_internal f em = Panic -> exists ks w, In (ks, Escaped w) (map_values em) /\ from_internal_value f w = Panic.
  Proof.
    intros f em H. apply (enc_from_panic f (Map em) []). cbn [enc_from_internal]. unfold enc_map_from_internal in H.
    match goal with |- (let* l := ?x in _) = _ => match type of H with (let* l := ?y in _) = _ => change x with y; destruct y end end; try discriminate. reflexivity.
  Qed.
  Lemma escaped_from : forall saved key pc dm n em n', encrypt_map re tp saved key pc dm n = Ok (em, n') -> forall ks w, In (ks, Escaped w) (map_values em) -> In (ks, w) (map_values dm).
  Proof.
    intros saved key pc dm n em n' H ks w I. apply encrypt_map_rel in H. destruct H as [_ H]. destruct (Forall2_in_r _ _ _ _ H I) as ((ks' & v) & J & K & R). cbn [fst snd] in *. subst ks'.
    destruct (escapes _); [injection R as <-; exact J|]. destruct R as (? & ? & R & _). discriminate R.
  Qed.
  Lemma encrypt_mac_panic : forall sv mac key lm n, encrypt_mac tp sv mac key lm n <> Panic.
  Proof.
    intros sv mac key lm n H. unfold encrypt_mac in H. destruct (match sv with Some _ => _ | None => _ end) as [nonce n']. step H ct Ec; [|discriminate]. unfold cipher_encrypt in H. destruct (gcm_encrypt _ _ _ _) in H; discriminate.
  Qed.
  Lemma encrypt_meta_panic : forall sv md key n, encrypt_meta tp sv md key n <> Panic.
  Proof. intros sv md key n H. unfold encrypt_meta in H. step H e Ee; [now apply encrypt_mac_panic in H|discriminate]. Qed.

  Definition sound_values (f : fmt) (dm : dmap) : Prop := rust_map dm /\ (f = Json -> forall ks w, In (ks, w) (map_values dm) -> ~ non_finite w).
  Lemma enc_map_result : forall f saved key pc dm n em n', sound_values f dm -> encrypt_map re tp saved key pc dm n = Ok (em, n') ->
    enc_map_from_internal f em <> Panic /\ forall m, enc_map_from_internal f em = Ok m -> expressible f (FMap m).
  Proof.
    intros f saved key pc dm n em n' [R F] H. pose proof (escaped_from _ _ _ _ _ _ _ H) as S. split.
    - intro P. apply enc_map_from_panic in P. destruct P as (ks & w & I & P). apply S in I. apply from_value_panic in P; [|now apply (R ks)]. destruct P as [-> P]. now apply (F eq_refl ks w).
    - intros m M. apply (enc_map_from_expressible f em m); auto. intros ks w I. apply S in I. now apply (R ks).
  Qed.
  Lemma encrypt_parts_result : forall f sv key dm md n, sound_values f dm ->
    encrypt_parts re tp f sv key dm md n <> Panic /\ forall r, encrypt_parts re tp f sv key dm md n = Ok r -> expressible f (FMap (fl_map (fst r))).
  Proof.
    intros f sv key dm md n S. unfold encrypt_parts. destruct (encrypt_map re tp (option_map sv_map sv) key (md_partial md) dm n) as [[em n1]|e|] eqn:M; cbn [bind fst snd]; [|split; discriminate|now apply encrypt_map_no_panic in M].
    destruct (encrypt_meta tp (option_map sv_mac sv) md key n1) as [emd|e|] eqn:D; cbn [bind]; [|split; discriminate|now apply encrypt_meta_panic in D].
    destruct (enc_map_result _ _ _ _ _ _ _ _ S M) as [A B]. destruct (enc_map_from_internal f em) as [m|e|]; cbn [bind]; [|split; discriminate|now destruct A].
    split; [discriminate|]. intros r H. injection H as <-. cbn [fst fl_map]. auto.
  Qed.
  Lemma builder_result : forall f b n, held f (FMap (bd_map b)) -> (builder_encrypt re tp ag E f b n = Panic -> no_reply)
    /\ forall r, builder_encrypt re tp ag E f b n = Ok r -> expressible f (FMap (fl_map (fst r))).
  Proof.
    intros f b n W. unfold builder_encrypt. destruct (dec_map_to_internal f (bd_map b)) as [dm|e|] eqn:D; cbn [bind]; [|split; discriminate|].
    2:{ exfalso. assert (X : dec_to_internal f (FMap (bd_map b)) <> Panic) by apply dec_no_panic. cbn [dec_to_internal] in X. unfold dec_map_to_internal in D.
        match type of D with (let* l := ?x in _) = _ => match type of X with (let* l := ?y in _) <> _ => change y with x in X; destruct x end end; try discriminate. now apply X. }
    assert (S : sound_values f dm) by (eapply dec_map_held; eauto).
    destruct (build_recipients _ _ _ _ _ _) as [rc|e|] eqn:B; cbn [bind]; [|split; discriminate|].
    2:{ split; [|discriminate]. intros _. apply build_panic in B; [exact B|apply draw_key_len]. }
    destruct (encrypt_map re tp None (draw_key tp n) (bd_partial b) dm (Datatypes.S n)) as [[em n1]|e|] eqn:M; cbn [bind fst snd]; [|split; discriminate|now apply encrypt_map_no_panic in M].
    match goal with |- context [encrypt_meta tp ?a ?b ?c ?d] => destruct (encrypt_meta tp a b c d) as [emd|e|] eqn:X end; cbn [bind]; [|split; discriminate|now apply encrypt_meta_panic in X].
    destruct (enc_map_result _ _ _ _ _ _ _ _ S M) as [A C]. destruct (enc_map_from_internal f em) as [m|e|]; cbn [bind]; [|split; discriminate|now destruct A].
    split; [discriminate|]. intros r H. injection H as <-. cbn [fst fl_map]. auto.
  Qed.

  (** ** Texts *)
  Context (cd : codec) (PL : parser_law cd) (WL : printer_law cd) (AL : age_law ag).

  Lemma written_ok : forall f es, expressible f (FMap es) -> written cd f es <> Panic.
  Proof. intros f es H. destruct (WL f es H) as (t & T). unfold written. rewrite T. discriminate. Qed.
  Lemma each_app : forall {A} (P : A -> Prop) l l', each P l -> each P l' -> each P (l ++ l').
  Proof. intros A P l l' H H'. apply each_Forall in H, H'. apply each_Forall. apply Forall_app. auto. Qed.
  Definition plainly (f : fmt) (kv : fvalue * fvalue) : Prop := ((exists s, fst kv = FStr s) \/ (f = Yaml /\ expressible f (fst kv))) /\ expressible f (snd kv).
  Lemma field_plainly : forall f k v, expressible f v -> plainly f (field k v).
  Proof. intros f k v H. split; auto. left. eexists. reflexivity. Qed.
  Lemma units_plainly : forall K f k (config : K -> fmap) us, (forall x, each (plainly f) (config x)) -> each (plainly f) (units_field k config us).
  Proof.
    intros K f k config us H. destruct us as [|u us]; [exact I|]. unfold units_field. split; [|exact I]. apply field_plainly. cbn [expressible]. apply each_intro. intros x J. apply in_map_iff in J. destruct J as (w & <- & _).
    unfold unit_value. change (each (plainly f) (config (u_key w) ++ opt_field k_created (u_created w) (fun t => FStr (time_text t)) ++ [field k_enc (FStr (u_enc w))])). apply each_app; auto. apply each_app.
    - destruct (u_created w); [|exact I]. split; [|exact I]. apply field_plainly. exact I.
    - split; [|exact I]. apply field_plainly. exact I.
  Qed.
  Lemma file_text_ok : forall f ef, expressible f (FMap (fl_map ef)) -> file_text cd f ef <> Panic.
  Proof.
    intros f ef H. apply written_ok. unfold efile_entries. change (each (plainly f) (fl_map ef ++ [field k_sops (FMap (meta_entries evalue_text (fl_meta ef)))])). apply each_app; [exact H|]. split; [|exact I]. apply field_plainly.
    change (each (plainly f) (meta_entries evalue_text (fl_meta ef))). unfold meta_entries. repeat apply each_app.
    - apply units_plainly. intro x. repeat split; try exact I; left; eexists; reflexivity.
    - apply units_plainly. intro x. repeat split; try exact I; left; eexists; reflexivity.
    - repeat split; try exact I; left; eexists; reflexivity.
    - destruct (md_partial (fl_meta ef)) as [[]|]; repeat split; try exact I; left; eexists; reflexivity.
    - destruct (md_only (fl_meta ef)); [|exact I]. split; [|exact I]. apply field_plainly. exact I.
  Qed.

  Lemma encrypt_text_abort : forall f a s n, utf8_text s -> (forall pa, ea_partial a = Some pa -> partial_of_args pa <> Panic) -> encrypt_text re tp ag cd E f a s n = Panic -> no_reply.
  Proof.
    intros f a s n U P H. unfold encrypt_text in H. destruct (read_map_facts cd f s PL U) as [A B]. step H m Em; [now apply A in H|]. step H p Ep.
    { destruct (ea_partial a) as [pa|]; [|discriminate]. specialize (P _ eq_refl). destruct (partial_of_args pa); try discriminate. now destruct P. }
    match type of H with context [builder_encrypt re tp ag E f ?b n] => destruct (builder_result f b n) as [C D]; [cbn [bd_map]; auto|] end.
    step H r Er; [auto|]. step H t Et; [|discriminate]. exfalso. revert H. apply file_text_ok. now apply D.
  Qed.
  Definition text_cause (f : fmt) (s : bytes) : Prop :=
    (exists es ks k, cd_read cd f s = Ok es /\ at_path (FMap es) ks (FStr k) /\ (parse_arn k = Panic \/ parse_evalue k = Panic))
    \/ exists ef, read_efile (re_valid re) ag cd f s = Ok ef /\ file_cause f ef.
  Lemma read_abort : forall f s, utf8_text s -> read_efile (re_valid re) ag cd f s = Panic -> text_cause f s.
  Proof. intros f s U H. left. now apply read_efile_panic in H. Qed.
  Lemma reply_cause : forall f s ef, read_efile (re_valid re) ag cd f s = Ok ef -> no_reply -> text_cause f s.
  Proof. intros f s ef R H. right. exists ef. split; auto. right. now left. Qed.
  Lemma key_cause : forall f s ef, read_efile (re_valid re) ag cd f s = Ok ef -> passphrase (md_recipients (fl_meta ef)) \/ no_reply -> text_cause f s.
  Proof. intros f s ef R H. right. exists ef. split; auto. unfold file_cause. tauto. Qed.
  Lemma decrypt_text_abort : forall f s, utf8_text s -> decrypt_text re ag cd E f s = Panic -> text_cause f s.
  Proof.
    intros f s U H. unfold decrypt_text in H. step H ef R; [now apply read_abort|]. destruct (read_efile_held _ _ _ _ _ _ PL U R) as (W & _ & _). step H df D; [right; exists ef; split; auto; now apply decrypt_abort|].
    exfalso. revert H. apply written_ok. eapply decrypted_held; eauto.
  Qed.
  Lemma add_text_abort : forall f ks s n, utf8_text s -> add_text re ag cd E f ks s n = Panic -> text_cause f s.
  Proof.
    intros f ks s n U H. unfold add_text in H. step H ef R; [now apply read_abort|]. destruct (read_efile_held _ _ _ _ _ _ PL U R) as (_ & X & _).
    destruct (file_add_age ag E (ks_age ks) ef n) as [ef1 o1] eqn:A1. unfold file_add_age in A1.
    assert (Q1 : (o1 = Panic -> passphrase (md_recipients (fl_meta ef)) \/ no_reply) /\ renewed (md_recipients (fl_meta ef)) (md_recipients (fl_meta ef1)) /\ fl_map ef1 = fl_map ef).
    { destruct (retrieve_data_key ag E (md_recipients (fl_meta ef))) as [key|e|] eqn:K.
      - destruct (add_age ag (ks_age ks) key (md_recipients (fl_meta ef)) n) as [rc o] eqn:B. injection A1 as <- <-. apply (add_age_abort _ _ _ _ _ _ (md_recipients (fl_meta ef))) in B; [|now apply retrieve_len in K|apply renewed_refl].
        destruct B as [B1 B2]. split; [intro P; now apply B1 in P|]. auto.
      - injection A1 as <- <-. split; [discriminate|]. split; auto. apply renewed_refl.
      - injection A1 as <- <-. split; [|split; auto; apply renewed_refl]. intros _. now apply retrieve_abort in K. }
    clear A1. destruct Q1 as (P1 & R1 & M1). step H n1 En; [eapply key_cause; eauto|].
    destruct (file_add_kms ag E (ks_kms ks) ef1 n1) as [ef2 o2] eqn:A2. unfold file_add_kms in A2.
    assert (Q2 : (o2 = Panic -> passphrase (md_recipients (fl_meta ef)) \/ no_reply) /\ fl_map ef2 = fl_map ef).
    { destruct (retrieve_data_key ag E (md_recipients (fl_meta ef1))) as [key|e|] eqn:K.
      - destruct (add_kms E (ks_kms ks) key (md_recipients (fl_meta ef1)) n1) as [rc o] eqn:B. injection A2 as <- <-. apply (add_kms_abort _ _ _ _ _ _ (md_recipients (fl_meta ef))) in B; auto. destruct B as [B1 B2]. split; auto.
      - injection A2 as <- <-. split; [discriminate|auto].
      - injection A2 as <- <-. split; auto. intros _. eapply renewed_abort; eauto. }
    destruct Q2 as (P2 & M2). step H n2 En2; [eapply key_cause; eauto|]. step H t Et; [|discriminate]. exfalso. revert H. apply file_text_ok. now rewrite M2.
  Qed.
  Lemma dec_map_total : forall f m, dec_map_to_internal f m <> Panic.
  Proof.
    intros f m D. assert (X : dec_to_internal f (FMap m) <> Panic) by apply dec_no_panic. cbn [dec_to_internal] in X. unfold dec_map_to_internal in D.
    match type of D with (let* l := ?x in _) = _ => match type of X with (let* l := ?y in _) <> _ => change y with x in X; destruct x end end; try discriminate. now apply X.
  Qed.
  Lemma remove_text_abort : forall f ks s n, utf8_text s -> remove_text re tp ag cd E f ks s n = Panic -> text_cause f s.
  Proof.
    intros f ks s n U H. unfold remove_text in H. step H ef R; [now apply read_abort|]. destruct (read_efile_held _ _ _ _ _ _ PL U R) as (W & _ & _). step H df D; [right; exists ef; split; auto; now apply decrypt_abort|].
    destruct (decrypted_held _ _ _ W D) as (W' & _ & Rc). assert (R0 : renewed (md_recipients (fl_meta ef)) (md_recipients (fl_meta df))) by (rewrite Rc; apply renewed_refl).
    destruct (remove_all_abort (file_remove_age tp ag E) (md_recipients (fl_meta ef)) (fun k df n df' o => remove_age_abort k df n df' o _) (ks_age ks) df n R0) as [A1 A2].
    step H a Ea; [eapply reply_cause; eauto|]. destruct (A2 _ Ea) as [R1 M1].
    destruct (remove_all_abort (file_remove_kms tp ag E) (md_recipients (fl_meta ef)) (fun k df n df' o => remove_kms_abort k df n df' o _) (ks_kms ks) (fst a) (snd a) R1) as [B1 B2].
    step H k Ek; [eapply reply_cause; eauto|]. destruct (B2 _ Ek) as [R2 M2]. step H r Er.
    - unfold file_encrypt in H. step H key K; [eapply key_cause; eauto; eapply renewed_abort; eauto|]. step H dm Dm; [now apply dec_map_total in H|]. exfalso. rewrite M2, M1 in Dm.
      destruct (encrypt_parts_result f None key dm (fl_meta (fst k)) (snd k)) as [N _]; [eapply dec_map_held; eauto|]. now apply N.
    - step H t Et; [|discriminate]. exfalso. revert H. apply file_text_ok. unfold file_encrypt in Er. apply bind_ok in Er. destruct Er as (key & K & Er). apply bind_ok in Er. destruct Er as (dm & Dm & Er). rewrite M2, M1 in Dm.
      destruct (encrypt_parts_result f None key dm (fl_meta (fst k)) (snd k)) as [_ N]; [eapply dec_map_held; eauto|]. now apply N.
  Qed.
  Lemma refresh_text_abort : forall f rules path s n, utf8_text s -> refresh_text re tp ag cd E f rules path s n = Panic -> text_cause f s.
  Proof.
    intros f rules path s n U H. unfold refresh_text in H. step H ef R; [now apply read_abort|]. destruct (read_efile_held _ _ _ _ _ _ PL U R) as (W & _ & _). destruct (matching_rule re (path_to_match path) rules) as [r|]; [|discriminate].
    destruct (implies_metadata r (fl_meta ef)); [discriminate|]. step H df D; [right; exists ef; split; auto; now apply decrypt_abort|]. destruct (decrypted_held _ _ _ W D) as (W' & _ & _).
    match type of H with context [builder_encrypt re tp ag E f ?b n] => destruct (builder_result f b n) as [C D']; [exact W'|] end.
    step H b Eb; [eapply reply_cause; eauto|]. step H t Et; [|discriminate]. exfalso. revert H. apply file_text_ok. now apply D'.
  Qed.
  Lemma edited_text_abort : forall f df sv m n, held f (FMap m) -> edited_text re tp cd E f df sv m n <> Panic.
  Proof.
    intros f df sv m n W H. unfold edited_text in H.
    assert (Q : file_set_map re E f df m n <> Panic /\ forall df', file_set_map re E f df m n = Ok df' -> held f (FMap (fl_map df'))).
    { unfold file_set_map. split.
      - intro P. step P dm Dm; [now apply dec_map_total in P|]. step P fm Fm; [|discriminate]. destruct (dec_map_held _ _ _ W Dm) as [Ru No]. apply (conversion_outcome f dm Ru) in P. destruct P as [-> (ks & v & I & N)]. now apply (No eq_refl ks v).
      - intros df' P. apply bind_ok in P. destruct P as (dm & Dm & P). apply bind_ok in P. destruct P as (fm & Fm & P). assert (M : fl_map df' = fm) by (injection P as <-; reflexivity). rewrite M. destruct (dec_map_held _ _ _ W Dm) as [Ru _]. eapply dec_map_from_held; eauto. }
    destruct Q as [Q1 Q2]. step H df' Ed; [now apply Q1|]. apply Q2 in Ed. unfold file_encrypt_saved in H. step H r Er.
    - step H dm Dm; [now apply dec_map_total in H|]. eapply encrypt_parts_result; [|exact H]. eapply dec_map_held; eauto.
    - apply bind_ok in Er. destruct Er as (dm & Dm & Er). step H t Et; [|discriminate]. revert H. apply file_text_ok. eapply encrypt_parts_result; [|exact Er]. eapply dec_map_held; eauto.
  Qed.
End Causes.

(** ** Commands *)
Section Commands.
  Context (re : regex_engine) (tp : tape) (ag : age_crate) (cd : codec) (O : os) (PL : parser_law cd) (WL : printer_law cd) (AL : age_law ag).

  Lemma chain_panic : forall A B (p : prog A) (k : A -> prog B) s s', chain p k s = (s', Panic) -> p s = (s', Panic) \/ exists s1 a, p s = (s1, Ok a) /\ k a s1 = (s', Panic).
  Proof. intros A B p k s s' H. unfold chain in H. destruct (p s) as [s1 [a|e|]]; [right; eauto|discriminate|]. injection H as ->. auto. Qed.
  Lemma lift_panic : forall A (o : outcome A) s s', lift o s = (s', Panic) -> o = Panic.
  Proof. intros A o s s' H. unfold lift in H. now injection H. Qed.
  Lemma drawing_panic : forall A (f : nat -> outcome (A * nat)) s s', drawing f s = (s', Panic) -> exists n, f n = Panic.
  Proof. intros A f s s' H. unfold drawing in H. destruct (f (sy_draws s)) as [[a n]|e|] eqn:F; try discriminate. eauto. Qed.
  Lemma perform_panic : forall o s s', perform O o s = (s', Panic) -> exists t, o = Printed t /\ os_io O (sy_ops s) o <> None.
  Proof. intros o s s' H. unfold perform in H. destruct (os_io O (sy_ops s) o) eqn:I; [|discriminate]. destruct o; try discriminate. eexists. split; [reflexivity|]. congruence. Qed.
  Lemma read_panic : forall p s s', read_to_string O p s <> (s', Panic).
  Proof.
    intros p s s' H. unfold read_to_string in H. apply chain_panic in H. destruct H as [H|(s1 & u & _ & H)].
    - apply perform_panic in H. destruct H as (t & H & _). discriminate H.
    - destruct (sy_file s1 p) as [| |c]; try discriminate. destruct (utf8_valid c); discriminate.
  Qed.
  Lemma write_panic : forall p t s s', fs_write O p t s <> (s', Panic).
  Proof.
    intros p t s s' H. unfold fs_write in H. apply chain_panic in H. destruct H as [H|(s1 & u & _ & H)]; apply perform_panic in H; destruct H as (x & H & _); discriminate H.
  Qed.
  Lemma read_config_file_panic : forall p s s', read_config_file re ag cd O p s = (s', Panic) -> exists t, sy_file s p = Content t /\ utf8_text t /\ read_config re ag cd t = Panic.
  Proof.
    intros p s s' H. unfold read_config_file in H. apply chain_panic in H. destruct H as [H|(s1 & t & R & H)]; [now apply read_panic in H|]. apply lift_panic in H. apply read_ok in R. destruct R as (_ & _ & F & V). exists t. repeat split; auto. now apply utf8_valid_iff.
  Qed.
  Lemma traverse_panic : forall dirs s s', Config.traverse re ag cd O dirs s = (s', Panic) ->
    exists a d t, dirs = a ++ d /\ sy_file s (config_in d) <> Absent /\ (forall b e, dirs = b ++ e -> length d < length e -> sy_file s (config_in e) = Absent)
      /\ sy_file s (config_in d) = Content t /\ utf8_text t /\ read_config re ag cd t = Panic.
  Proof.
    induction dirs as [|d up IH]; intros s s' H.
    - cbn [Config.traverse] in H. unfold chain, exists_path in H. destruct (sy_file s (config_in [])) as [| |c] eqn:C; [discriminate| |];
        apply read_config_file_panic in H; destruct H as (t & F & V & R); exists [], [], t; repeat split; auto; try congruence; intros b e E L; symmetry in E; apply app_eq_nil in E; destruct E as [_ ->]; cbn in L; lia.
    - cbn [Config.traverse] in H. unfold chain, exists_path in H. destruct (sy_file s (config_in (d :: up))) as [| |c] eqn:C.
      + specialize (IH _ _ H). destruct IH as (a & d' & t & -> & NA & AB & F & V & R). exists (d :: a), d', t. repeat split; auto. intros b e E L. destruct b as [|x b]; cbn [app] in E; [rewrite <- E; exact C|]. injection E as _ E. eauto.
      + apply read_config_file_panic in H; destruct H as (t & F & V & R). congruence.
      + apply read_config_file_panic in H; destruct H as (t & F & V & R). exists [], (d :: up), t. repeat split; auto; [congruence|]. intros b e E L. apply (f_equal (@length bytes)) in E. rewrite app_length in E. lia.
  Qed.
  Lemma retrieve_panics : forall c s s', retrieve re ag cd O (config_path c) s = (s', Panic) -> aborts re ag cd O c (sy_file s).
  Proof.
    intros c s s' H. assert (Q : exists p t, config_source O (sy_file s) (config_path c) (Some p) /\ sy_file s p = Content t /\ utf8_text t /\ read_config re ag cd t = Panic).
    { destruct (config_path c) as [p|]; cbn [retrieve] in H.
      - apply read_config_file_panic in H. destruct H as (t & H). exists p, t. split; auto. now constructor.
      - destruct (os_config_var O) as [p|] eqn:V. { apply read_config_file_panic in H. destruct H as (t & H). exists p, t. split; auto. now apply src_var. }
        destruct (os_cwd O) as [dirs|] eqn:C; [|discriminate]. apply traverse_panic in H. destruct H as (a & d & t & E & NA & AB & H). exists (config_in d), t. split; auto. eapply src_nearest; eauto. }
    destruct Q as (p & t & S & F & U & R). apply read_config_panic in R; auto. destruct R as (es & ks & k & R & A & P). eapply ab_config; eauto.
  Qed.
  Lemma format_panics : forall c fs, get_format (input_file c) (format_option c) = Panic -> aborts re ag cd O c fs.
  Proof.
    intros c fs H. unfold get_format in H. destruct (format_option c) eqn:F; [discriminate|]. destruct (input_file c) as [p|] eqn:I; [|discriminate]. destruct (extension p) as [e|] eqn:X; [|discriminate].
    destruct (utf8_valid e) eqn:V. { destruct (format_of_name e); discriminate. } apply extension_has in X. eapply ab_extension; eauto. intro U. apply utf8_valid_iff in U. congruence.
  Qed.
  Lemma input_panic_only : forall path i s s', get_input_string O path i s = (s', Panic) -> path = None /\ is_set i = true.
  Proof.
    intros path i s s' H. unfold get_input_string, read_from_path, read_stdin in H. destruct path as [p|].
    - assert (G : (match os_stdin O with Some _ => lift (Err EMultipleInputs) | None => read_to_string O p end) s = (s', Panic)) by (destruct (is_set i); exact H).
      destruct (os_stdin O); [discriminate|]. now apply read_panic in G.
    - destruct (is_set i); [auto|]. destruct (os_stdin O) as [x|]; [|discriminate]. apply lift_panic in H. destruct (utf8_valid x); discriminate.
  Qed.
  Lemma causes : forall c fs f t, utf8_text t -> given_text O c fs f t -> text_cause re ag (os_env O) cd f t -> aborts re ag cd O c fs.
  Proof.
    intros c fs f t V G [(es & ks & k & R & A & P)|(ef & R & C)].
    - eapply ab_text; eauto.
    - assert (F : given_file re ag cd O c fs f ef) by (exists t; auto). destruct C as [(i & u & I & P & H)|[[(req & b & H)|(n & req & b & H)]|[(ks & s & A & P)|[(mac & A & U)|(-> & dm & ks & v & Co & I & N)]]]].
      + eapply ab_passphrase; eauto.
      + eapply ab_decrypt_reply; eauto.
      + eapply ab_encrypt_reply; eauto.
      + destruct (read_efile_held _ _ _ _ _ _ PL V R) as (_ & _ & es' & Re' & S). eapply ab_text; eauto.
      + eapply ab_mac; eauto.
      + eapply ab_float; eauto.
  Qed.
  Lemma replies : forall c fs, no_reply (os_env O) -> aborts re ag cd O c fs.
  Proof. intros c fs [(req & b & H)|(n & req & b & H)]; [eapply ab_decrypt_reply; eauto|eapply ab_encrypt_reply; eauto]. Qed.
  Lemma loop_panic : forall f l s s', edit_loop cd O f l s <> (s', Panic).
  Proof.
    intro f. induction l as [|e l IH]; intros s s' H; cbn [edit_loop] in H; [discriminate|]. destruct (e (sy_file s (os_temp O))) as [|c|c k]; try discriminate.
    apply chain_panic in H. destruct H as [H|(s1 & t & R & H)]; [now apply read_panic in H|]. apply read_ok in R. destruct R as (_ & _ & _ & V). apply utf8_valid_iff in V. destruct (read_map_facts cd f t PL V) as [N _].
    destruct (read_map cd f t) as [m|err|]; [discriminate| |now apply N]. destruct k; try discriminate. now apply IH in H.
  Qed.
  Lemma editor_panic : forall a fs, select_editor O = Panic -> aborts re ag cd O (Edit a) fs.
  Proof.
    intros a fs H. apply select_aborts in H. destruct H as [(v & V & _ & S)|(V & p & D & N)]; [eapply ab_editor|eapply ab_default]; eauto.
  Qed.
  Lemma args_total : forall p, partial_of_args (args_of_partial p) <> Panic.
  Proof. intros []; discriminate. Qed.

  Lemma accepted_encrypt : forall a, accepted (Encrypt a) -> (in_file (ea_input a) = None -> is_set (ea_in_place a) = false) /\ forall pa, ea_partial a = Some pa -> partial_of_args pa <> Panic.
  Proof.
    intros a H. inversion H as [l c E Ec|i p c E Ec|i p c E Ec| | |]; subst; unfold parse_place in *; try (destruct (p && _); discriminate).
    unfold parse_encrypt in E. destruct (_ || _ || _) eqn:B in E; [discriminate|]. injection E as <-. cbn [ea_input ea_in_place ea_partial set_true is_set]. apply orb_false_iff in B. destruct B as [B B3]. split.
    - intro N. rewrite N in B3. cbn [given Nat.eqb] in B3. now rewrite andb_true_r in B3.
    - intros pa P. destruct (options_given (el_partial l)) eqn:G; cbn [Nat.eqb] in P; [discriminate|]. injection P as <-. unfold partial_of_args. unfold options_given in G. destruct (el_partial l) as [[] [] [] []]; try discriminate.
  Qed.
  Lemma accepted_decrypt : forall a, accepted (Decrypt a) -> in_file (pl_input a) = None -> is_set (pl_in_place a) = false.
  Proof.
    intros a H. inversion H as [l c E Ec|i p c E Ec|i p c E Ec| | |]; subst; unfold parse_place, parse_encrypt in *.
    - destruct (_ || _ || _) in E; discriminate.
    - destruct (p && _) eqn:B; [discriminate|]. injection E as <-. cbn [pl_input pl_in_place set_true is_set]. intro N. rewrite N in B. cbn [given Nat.eqb] in B. now rewrite andb_true_r in B.
    - destruct (p && _) eqn:B; discriminate.
  Qed.
  Lemma accepted_refresh : forall a, accepted (Refresh a) -> in_file (pl_input a) = None -> is_set (pl_in_place a) = false.
  Proof.
    intros a H. inversion H as [l c E Ec|i p c E Ec|i p c E Ec| | |]; subst; unfold parse_place, parse_encrypt in *.
    - destruct (_ || _ || _) in E; discriminate.
    - destruct (p && _) eqn:B; discriminate.
    - destruct (p && _) eqn:B; [discriminate|]. injection E as <-. cbn [pl_input pl_in_place set_true is_set]. intro N. rewrite N in B. cbn [given Nat.eqb] in B. now rewrite andb_true_r in B.
  Qed.

  Ltac cstep H s x R := apply chain_panic in H; destruct H as [H|(s & x & R & H)].
  Lemma compute_panic : forall c s s', accepted c -> compute O re tp ag cd c s = (s', Panic) -> aborts re ag cd O c (sy_file s).
  Proof.
    intros c s s' A H. unfold compute in H. cstep H s1 rules R; [now apply retrieve_panics in H|]. apply retrieve_ok in R. destruct R as (F1 & _ & _).
    assert (G : forall f (t : bytes) s2, lift (get_format (input_file c) (format_option c)) s1 = (s2, Ok f) -> s2 = s1 /\ get_format (input_file c) (format_option c) = Ok f) by (intros f t s2 L; now apply lift_ok in L).
    destruct c as [a|a|a|a|a|a]; (cstep H s2 f Rf; [apply lift_panic in H; now apply format_panics|]); apply lift_ok in Rf; destruct Rf as [-> Rf]; cstep H s3 t Rt;
      try (apply input_panic_only in H; destruct H as [H H']).
    - apply accepted_encrypt in A. destruct A as [A _]. rewrite A in H'; [discriminate|assumption].
    - apply input_ok in Rt. destruct Rt as (F2 & _ & S & V). apply utf8_valid_iff in V. cstep H s4 x Rx; [|discriminate]. apply drawing_panic in H. destruct H as (n & H). apply encrypt_text_abort in H; auto; [now apply replies|].
      intros pa P. apply accepted_encrypt in A. destruct A as [_ A]. unfold merge_encrypt in P. destruct (matching_rule _ _ _) as [r|]; [|now apply A]. cbn [ea_partial] in P. unfold or_else in P. destruct (ea_partial a) as [q|]; [injection P as <-; now apply A|].
      destruct (cr_partial r); [|discriminate]. injection P as <-. apply args_total.
    - rewrite (accepted_decrypt _ A H) in H'. discriminate.
    - apply input_ok in Rt. destruct Rt as (F2 & _ & S & V). apply utf8_valid_iff in V. cstep H s4 x Rx; [|discriminate]. apply lift_panic in H. apply decrypt_text_abort in H; auto. rewrite F1 in S. eapply causes; eauto. split; auto.
    - discriminate.
    - apply input_ok in Rt. destruct Rt as (F2 & _ & S & V). apply utf8_valid_iff in V. rewrite F1 in S. assert (GT : given_text O (Edit a) (sy_file s) f t) by (split; auto).
      cstep H s4 ef Re. { apply lift_panic in H. apply (causes _ _ f t); auto. now apply read_abort. } apply lift_ok in Re. destruct Re as [-> Re]. destruct (read_efile_held _ _ _ _ _ _ PL V Re) as (W & _ & _).
      cstep H s5 d Rd. { apply lift_panic in H. apply (causes _ _ f t); auto. right. exists ef. split; auto. now apply decrypt_save_abort. } apply lift_ok in Rd. destruct Rd as [-> Rd].
      destruct d as [df sv]. apply decrypt_save_inv in Rd. destruct Rd as [Rd _]. destruct (decrypted_held _ _ _ _ _ _ W Rd) as (_ & X & _). cbn [fst snd] in H.
      cstep H s6 u Ru. { apply perform_panic in H. destruct H as (y & H & _). discriminate H. } cstep H s7 o Ro.
      + unfold with_cleanup in H. match type of H with (let '(x, y) := ?b in _) = _ => destruct b as [s8 o] eqn:B end. injection H as _ ->. cstep B s9 t0 Rt0. { apply lift_panic in B. now apply (written_ok cd WL) in B. }
        cstep B s10 u1 Ru1; [now apply write_panic in B|]. cstep B s11 u2 Ru2; [apply lift_panic in B; now apply editor_panic|]. now apply loop_panic in B.
      + destruct o as [m|]; [|discriminate]. cstep H s8 x Rx; [|discriminate]. apply drawing_panic in H. destruct H as (n & H). exfalso. revert H. apply edited_text_abort; auto.
        apply cleanup_ok in Ro. destruct Ro as (s9 & Ro & _). apply chain_ok in Ro. destruct Ro as (s10 & t0 & _ & Ro). apply chain_ok in Ro. destruct Ro as (s11 & u1 & _ & Ro). apply chain_ok in Ro. destruct Ro as (s12 & u2 & _ & Ro).
        apply loop_ok in Ro. destruct Ro as (_ & e & rest & c & t1 & k & _ & _ & U1 & M). apply utf8_valid_iff in U1. now apply (read_map_facts cd f t1 PL U1).
    - discriminate.
    - apply input_ok in Rt. destruct Rt as (F2 & _ & S & V). apply utf8_valid_iff in V. cstep H s4 x Rx; [|discriminate]. apply drawing_panic in H. destruct H as (n & H). apply add_text_abort in H; auto. rewrite F1 in S. eapply causes; eauto. split; auto.
    - discriminate.
    - apply input_ok in Rt. destruct Rt as (F2 & _ & S & V). apply utf8_valid_iff in V. cstep H s4 x Rx; [|discriminate]. apply drawing_panic in H. destruct H as (n & H). apply remove_text_abort in H; auto. rewrite F1 in S. eapply causes; eauto. split; auto.
    - rewrite (accepted_refresh _ A H) in H'. discriminate.
    - apply input_ok in Rt. destruct Rt as (F2 & _ & S & V). apply utf8_valid_iff in V. cstep H s4 rules' Rr.
      + assert (Y : aborts re ag cd O (Refresh a) (sy_file s3)) by (apply (retrieve_panics (Refresh a) _ _ H)). now rewrite F2, F1 in Y.
      + cstep H s5 x Rx; [|discriminate]. apply drawing_panic in H. destruct H as (n & H). apply refresh_text_abort in H; auto. rewrite F1 in S. eapply causes; eauto. split; auto.
  Qed.
  Lemma run_panic : forall c s s', accepted c -> run_command re tp ag cd O c s = (s', Panic) -> aborts re ag cd O c (sy_file s).
  Proof.
    intros c s s' A H. rewrite run_split in H. cstep H s1 r R; [now apply compute_panic in H|]. destruct r as [t|]; [|discriminate]. unfold deliver in H. destruct (output_file O c) as [p|] eqn:F; [now apply write_panic in H|].
    unfold println in H. apply perform_panic in H. destruct H as (x & _ & H). eapply ab_print; eauto.
  Qed.
End Commands.
