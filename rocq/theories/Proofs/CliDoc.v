(** What the commands do to the document and to the recipients of a file. *)
From Verif.Model Require Import Cli.
From Verif.Spec Require Import SpecCli.
From Verif.Proofs Require Import BytesFacts Utf8Facts ValueFacts MapFacts FormatFacts IntegrationFacts FileFacts FileSafety FileKeys DocumentFacts DocumentFile DocumentSops CliPath EditorFacts CliRun.

Local Open Scope nat_scope.

Section Doc.
  Context (re : regex_engine) (tp : tape) (ag : age_crate) (cd : codec) (W : env -> Prop) (g : f64 -> f64)
          (AL : age_law ag) (KL : kms_law W) (TL : time_law cd) (PW : plain_world ag W).
  Notation plain := (plain_meta (re_valid re) ag).
  Notation has := (holds re tp ag W).

  (** The text is that of a file holding the document, in a format that is read as it was written. *)
  Definition stored (f : fmt) (s : bytes) (ef : efile) (key : bytes) (dm : dmap) : Prop :=
    read_efile (re_valid re) ag cd f s = Ok ef /\ has f ef key dm /\ plain (fl_meta ef) /\ file_text cd f ef = Ok s /\ codec_law cd g f.

  Lemma kept : forall f ef key dm t, codec_law cd g f -> has f ef key dm -> text_safe g f dm -> plain (fl_meta ef) -> file_text cd f ef = Ok t -> stored f t ef key dm.
  Proof.
    intros f ef key dm t CL H TS P T. destruct (stored_back re (re_valid re) tp ag W cd g TL f ef key dm CL H TS P) as (s & A & B). rewrite A in T. injection T as <-. split; [exact B|]. split; auto.
  Qed.

  (** ** keys add *)
  Lemma add_age_stored : forall E f ids ef n ef' o key dm, W E -> has f ef key dm -> plain (fl_meta ef) -> Forall (plain_recipient ag) ids ->
    file_add_age ag E ids ef n = (ef', o) -> has f ef' key dm /\ plain (fl_meta ef').
  Proof.
    intros E f ids ef n ef' o key dm WE (L & AW & R) P FA H. apply plain_meta_parts in P. destruct P as (P1 & P2). destruct (add_age_file ag W AL KL E ids ef n ef' o key WE L AW H) as (rc & -> & AW').
    split; [now split|]. apply plain_meta_parts. split; auto. cbn [with_recipients fl_meta md_recipients]. unfold file_add_age in H.
    destruct (retrieve_data_key ag E (md_recipients (fl_meta ef))) as [k|e|].
    - destruct (add_age ag ids k (md_recipients (fl_meta ef)) n) as [rc' o'] eqn:A. assert (Q : rc' = rc) by (injection H; intros; congruence). subst rc'. eapply add_age_plain; eauto.
    - assert (Q : ef = with_recipients ef rc) by (injection H; intros; congruence). assert (Q2 : rc = md_recipients (fl_meta ef)) by (rewrite Q; reflexivity). rewrite Q2. exact P1.
    - assert (Q : ef = with_recipients ef rc) by (injection H; intros; congruence). assert (Q2 : rc = md_recipients (fl_meta ef)) by (rewrite Q; reflexivity). rewrite Q2. exact P1.
  Qed.
  Lemma add_kms_stored : forall E f ids ef n ef' o key dm, W E -> has f ef key dm -> plain (fl_meta ef) -> Forall plain_key ids ->
    file_add_kms ag E ids ef n = (ef', o) -> has f ef' key dm /\ plain (fl_meta ef').
  Proof.
    intros E f ids ef n ef' o key dm WE (L & AW & R) P FA H. apply plain_meta_parts in P. destruct P as (P1 & P2). destruct (add_kms_file ag W AL KL E ids ef n ef' o key WE L AW H) as (rc & -> & AW').
    split; [now split|]. apply plain_meta_parts. split; auto. cbn [with_recipients fl_meta md_recipients]. unfold file_add_kms in H.
    destruct (retrieve_data_key ag E (md_recipients (fl_meta ef))) as [k|e|].
    - destruct (add_kms E ids k (md_recipients (fl_meta ef)) n) as [rc' o'] eqn:A. assert (Q : rc' = rc) by (injection H; intros; congruence). subst rc'. eapply add_kms_plain; eauto.
    - assert (Q : ef = with_recipients ef rc) by (injection H; intros; congruence). assert (Q2 : rc = md_recipients (fl_meta ef)) by (rewrite Q; reflexivity). rewrite Q2. exact P1.
    - assert (Q : ef = with_recipients ef rc) by (injection H; intros; congruence). assert (Q2 : rc = md_recipients (fl_meta ef)) by (rewrite Q; reflexivity). rewrite Q2. exact P1.
  Qed.
  Lemma add_keeps : forall E f ks s ef key dm n t n', W E -> stored f s ef key dm -> text_safe g f dm -> plain_keys ag ks -> add_text re ag cd E f ks s n = Ok (t, n') ->
    exists ef', stored f t ef' key dm
    /\ (forall k, In k (map u_key (rc_age (md_recipients (fl_meta ef')))) <-> In k (map u_key (rc_age (md_recipients (fl_meta ef)))) \/ In k (ks_age ks))
    /\ (forall k, In k (map u_key (rc_kms (md_recipients (fl_meta ef')))) <-> In k (map u_key (rc_kms (md_recipients (fl_meta ef)))) \/ In k (ks_kms ks))
    /\ md_partial (fl_meta ef') = md_partial (fl_meta ef) /\ md_only (fl_meta ef') = md_only (fl_meta ef) /\ md_modified (fl_meta ef') = md_modified (fl_meta ef) /\ fl_map ef' = fl_map ef.
  Proof.
    intros E f ks s ef key dm n t n' WE (R & H & P & _ & CL) TS [KA KK] X. unfold add_text in X. rewrite R in X. cbn [bind] in X.
    destruct (file_add_age ag E (ks_age ks) ef n) as [ef1 o1] eqn:A1. apply bind_ok in X. destruct X as (n1 & -> & X).
    destruct (file_add_kms ag E (ks_kms ks) ef1 n1) as [ef2 o2] eqn:A2. apply bind_ok in X. destruct X as (n2 & -> & X). apply bind_ok in X. destruct X as (t' & T & X). injection X as <- <-.
    destruct (add_age_stored _ _ _ _ _ _ _ _ _ WE H P KA A1) as [H1 P1]. destruct (add_kms_stored _ _ _ _ _ _ _ _ _ WE H1 P1 KK A2) as [H2 P2].
    pose proof H as (L & AW & _). pose proof H1 as (_ & AW1 & _).
    destruct (added_age ag W AL KL E _ _ _ _ _ _ WE L AW A1) as (M1 & _ & T1 & Q1 & O1 & K1 & _ & _ & _ & _ & I1).
    destruct (added_kms ag W AL KL E _ _ _ _ _ _ WE L AW1 A2) as (M2 & _ & T2 & Q2 & O2 & K2 & _ & _ & _ & _ & I2). cbn zeta in *.
    exists ef2. split; [eapply kept; eauto|]. split; [rewrite K2; eapply I1; eauto|]. split; [rewrite <- K1; eapply I2; eauto|]. repeat split; congruence.
  Qed.

  (** ** keys remove *)
  Definition open_file (f : fmt) (df : dfile) (dm : dmap) : Prop :=
    holds_plain re ag W f df None dm /\ plain_recipients ag (md_recipients (fl_meta df)) /\ real_time (md_modified (fl_meta df)) /\ plain_rule (re_valid re) (md_partial (fl_meta df)).
  Lemma opened : forall E f s ef key dm df, W E -> stored f s ef key dm -> file_decrypt re ag E f f ef = Ok df -> open_file f df dm /\ md_recipients (fl_meta df) = md_recipients (fl_meta ef)
    /\ md_partial (fl_meta df) = md_partial (fl_meta ef) /\ md_only (fl_meta df) = md_only (fl_meta ef) /\ md_modified (fl_meta df) = md_modified (fl_meta ef).
  Proof.
    intros E f s ef key dm df WE (R & H & P & _) D. pose proof H as (_ & _ & _ & F & _). pose proof (decrypt_keeps re tp ag W AL KL E f f ef df key dm WE H F D) as HP.
    apply decrypt_inv in D. destruct D as (key' & mac & nonce & em & dm' & _ & _ & _ & _ & _ & _ & Em). apply plain_meta_parts in P. destruct P as (P1 & P2 & _ & P4). unfold open_file. rewrite Em. cbn [with_mac md_recipients md_partial md_only md_modified]. auto 10.
  Qed.

  Definition same_but_keys (df df' : dfile) : Prop :=
    md_partial (fl_meta df') = md_partial (fl_meta df) /\ md_only (fl_meta df') = md_only (fl_meta df) /\ md_modified (fl_meta df') = md_modified (fl_meta df).
  Lemma rewrap_mono : forall {K} wrap (us : list (wrapped K)) n us' n', (forall k n e n', wrap k n = Ok (e, n') -> n <= n') -> rewrap_units wrap us n = (us', Ok n') -> n <= n'.
  Proof.
    intros K wrap us. induction us as [|u us IH]; intros n us' n' M H; cbn [rewrap_units] in H; [injection H as _ ->; auto|].
    destruct (wrap (u_key u) n) as [[e n1]|e|] eqn:Q; try discriminate. apply M in Q. destruct (rewrap_units wrap us n1) as [us1 o1] eqn:R. injection H as _ ->. apply IH in R; auto. lia.
  Qed.
  Lemma rotate_mono : forall E rc n rc' n', rotate tp ag E rc n = (rc', Ok n') -> n <= n'.
  Proof.
    intros E rc n rc' n' H. unfold rotate in H. destruct (rewrap_units (fun r => age_encrypt_key ag r (draw_key tp n)) (rc_age rc) (S n)) as [a [n1|e|]] eqn:A; try discriminate.
    destruct (rewrap_units (fun k => kms_encrypt_key E k (draw_key tp n)) (rc_kms rc) n1) as [k o] eqn:K. injection H as _ ->.
    apply rewrap_mono in A. 2: { intros x m e m' Q. unfold age_encrypt_key in Q. injection Q as _ <-. lia. }
    apply rewrap_mono in K. 2: { intros x m e m' Q. unfold kms_encrypt_key in Q. apply bind_ok in Q. destruct Q as (c & _ & Q). destruct c; try discriminate. destruct (e_kms_encrypt E _ _ _); try discriminate. injection Q as _ <-. lia. }
    lia.
  Qed.
  (** Nothing was removed, or there is a new data key. *)
  Definition rekeyed {K} (ids old : list K) (n n' : nat) (rc rc' : recipients) : Prop :=
    n <= n' /\ ((rc' = rc /\ forall k, In k ids -> ~ In k old) \/ exists j, n <= j /\ all_wrap ag W (draw_key tp j) rc').
  Lemma rekeyed_trans : forall {K} (r : K) ids old old1 n n1 n2 rc rc1 rc2, rekeyed [r] old n n1 rc rc1 -> rekeyed ids old1 n1 n2 rc1 rc2 -> (forall k, In k old -> k <> r -> In k old1) -> rekeyed (r :: ids) old n n2 rc rc2.
  Proof.
    intros K r ids old old1 n n1 n2 rc rc1 rc2 (L1 & R1) (L2 & R2) I. split; [lia|]. destruct R2 as [(-> & N2)|(j & J & A)]; [|right; exists j; split; auto; lia].
    destruct R1 as [(-> & N1)|(j & J & A)]; [|right; exists j; auto]. left. split; auto. intros k [<-|X] Y; [apply (N1 r); [now left|exact Y]|]. apply (N2 k X), I; auto. intros ->. apply (N1 r); [now left|exact Y].
  Qed.
  Lemma remove_ages : forall E f dm ids df n df' n', W E -> open_file f df dm -> remove_all (file_remove_age tp ag E) ids df n = Ok (df', n') ->
    open_file f df' dm /\ same_but_keys df df' /\ map u_key (rc_kms (md_recipients (fl_meta df'))) = map u_key (rc_kms (md_recipients (fl_meta df)))
    /\ (forall k, In k (map u_key (rc_age (md_recipients (fl_meta df')))) <-> In k (map u_key (rc_age (md_recipients (fl_meta df)))) /\ ~ In k ids)
    /\ rekeyed ids (map u_key (rc_age (md_recipients (fl_meta df)))) n n' (md_recipients (fl_meta df)) (md_recipients (fl_meta df')).
  Proof.
    intros E f dm ids. induction ids as [|r ids IH]; intros df n df' n' WE OF H.
    - injection H as <- <-. split; auto. split; [now repeat split|]. split; auto. split; [intro k; cbn; tauto|]. split; auto.
    - cbn [remove_all] in H. destruct (file_remove_age tp ag E r df n) as [df1 o1] eqn:R. apply bind_ok in H. destruct H as ([u n1] & -> & H). cbn [snd] in H.
      assert (X : open_file f df1 dm /\ same_but_keys df df1 /\ map u_key (rc_kms (md_recipients (fl_meta df1))) = map u_key (rc_kms (md_recipients (fl_meta df)))
        /\ (forall k, In k (map u_key (rc_age (md_recipients (fl_meta df1)))) <-> In k (map u_key (rc_age (md_recipients (fl_meta df)))) /\ k <> r)
        /\ rekeyed [r] (map u_key (rc_age (md_recipients (fl_meta df)))) n n1 (md_recipients (fl_meta df)) (md_recipients (fl_meta df1))).
      { destruct OF as (HP & PR & RT & PL). destruct u as [u|].
        - pose proof R as R'. apply (removed_age tp ag W) in R; auto; [|apply PR]. cbn zeta in R. destruct R as (_ & _ & Q1 & Q2 & Q3 & _ & _ & QA & QK & QW).
          unfold file_remove_age in R'. destruct (remove_age tp ag E r (md_recipients (fl_meta df)) n) as [rc o] eqn:X. injection R' as <- ->. split; [|split; [now split|split; auto; split; auto; split; [|right; exists n; auto]]].
          2: { unfold remove_age in X. destruct (unit_remove _ r _) as [[v rest]|]; [|discriminate]. destruct (rotate tp ag E _ n) as [rc1 [m|e|]] eqn:Ro; try discriminate. injection X as _ _ <-. eapply rotate_mono; eauto. }
          split; [|split; [eapply remove_age_plain; eauto|split; auto]]. eapply holds_plain_recipients; eauto; [apply draw_key_len|intros s Y; discriminate Y|discriminate].
        - unfold file_remove_age in R. destruct (remove_age tp ag E r (md_recipients (fl_meta df)) n) as [rc o] eqn:X. injection R as <- ->. pose proof X as X'. apply remove_age_absent in X. subst rc. rewrite with_recipients_same.
          split; [now split|]. split; [now repeat split|]. split; auto.
          unfold remove_age in X'. destruct (unit_remove bytes_eqb r (rc_age (md_recipients (fl_meta df)))) as [[v rest]|] eqn:U; [destruct (rotate tp ag E _ n) as [rc1 [m|e|]]; discriminate|]. injection X' as <-.
          apply (unit_remove_none bytes_eqb bytes_eqb_eq) in U. split; [intro k; split; [intro I; split; auto; now intros ->|tauto]|]. split; auto. left. split; auto. intros k [<-|[]]. exact U. }
      destruct X as (OF1 & (B1 & B2 & B3) & K1 & A1 & RK1). destruct (IH _ _ _ _ WE OF1 H) as (OF2 & (B4 & B5 & B6) & K2 & A2 & RK2). split; auto. split; [repeat split; congruence|]. split; [congruence|].
      split; [intro k; rewrite A2, A1; cbn [In]; intuition congruence|]. eapply rekeyed_trans; eauto. intros k I J. apply A1. now split.
  Qed.
  Lemma remove_kmss : forall E f dm ids df n df' n', W E -> open_file f df dm -> remove_all (file_remove_kms tp ag E) ids df n = Ok (df', n') ->
    open_file f df' dm /\ same_but_keys df df' /\ map u_key (rc_age (md_recipients (fl_meta df'))) = map u_key (rc_age (md_recipients (fl_meta df)))
    /\ (forall k, In k (map u_key (rc_kms (md_recipients (fl_meta df')))) <-> In k (map u_key (rc_kms (md_recipients (fl_meta df)))) /\ ~ In k ids)
    /\ rekeyed ids (map u_key (rc_kms (md_recipients (fl_meta df)))) n n' (md_recipients (fl_meta df)) (md_recipients (fl_meta df')).
  Proof.
    intros E f dm ids. induction ids as [|r ids IH]; intros df n df' n' WE OF H.
    - injection H as <- <-. split; auto. split; [now repeat split|]. split; auto. split; [intro k; cbn; tauto|]. split; auto.
    - cbn [remove_all] in H. destruct (file_remove_kms tp ag E r df n) as [df1 o1] eqn:R. apply bind_ok in H. destruct H as ([u n1] & -> & H). cbn [snd] in H.
      assert (X : open_file f df1 dm /\ same_but_keys df df1 /\ map u_key (rc_age (md_recipients (fl_meta df1))) = map u_key (rc_age (md_recipients (fl_meta df)))
        /\ (forall k, In k (map u_key (rc_kms (md_recipients (fl_meta df1)))) <-> In k (map u_key (rc_kms (md_recipients (fl_meta df)))) /\ k <> r)
        /\ rekeyed [r] (map u_key (rc_kms (md_recipients (fl_meta df)))) n n1 (md_recipients (fl_meta df)) (md_recipients (fl_meta df1))).
      { destruct OF as (HP & PR & RT & PL). destruct u as [u|].
        - pose proof R as R'. apply (removed_kms tp ag W) in R; auto; [|apply PR]. cbn zeta in R. destruct R as (_ & _ & Q1 & Q2 & Q3 & _ & _ & QA & QK & QW).
          unfold file_remove_kms in R'. destruct (remove_kms tp ag E r (md_recipients (fl_meta df)) n) as [rc o] eqn:X. injection R' as <- ->. split; [|split; [now split|split; auto; split; auto; split; [|right; exists n; auto]]].
          2: { unfold remove_kms in X. destruct (unit_remove _ r _) as [[v rest]|]; [|discriminate]. destruct (rotate tp ag E _ n) as [rc1 [m|e|]] eqn:Ro; try discriminate. injection X as _ _ <-. eapply rotate_mono; eauto. }
          split; [|split; [eapply remove_kms_plain; eauto|split; auto]]. eapply holds_plain_recipients; eauto; [apply draw_key_len|intros s Y; discriminate Y|discriminate].
        - unfold file_remove_kms in R. destruct (remove_kms tp ag E r (md_recipients (fl_meta df)) n) as [rc o] eqn:X. injection R as <- ->. pose proof X as X'. apply remove_kms_absent in X. subst rc. rewrite with_recipients_same.
          split; [now split|]. split; [now repeat split|]. split; auto.
          unfold remove_kms in X'. destruct (unit_remove aws_key_eqb r (rc_kms (md_recipients (fl_meta df)))) as [[v rest]|] eqn:U; [destruct (rotate tp ag E _ n) as [rc1 [m|e|]]; discriminate|]. injection X' as <-.
          apply (unit_remove_none aws_key_eqb aws_key_eqb_eq) in U. split; [intro k; split; [intro I; split; auto; now intros ->|tauto]|]. split; auto. left. split; auto. intros k [<-|[]]. exact U. }
      destruct X as (OF1 & (B1 & B2 & B3) & K1 & A1 & RK1). destruct (IH _ _ _ _ WE OF1 H) as (OF2 & (B4 & B5 & B6) & K2 & A2 & RK2). split; auto. split; [repeat split; congruence|]. split; [congruence|].
      split; [intro k; rewrite A2, A1; cbn [In]; intuition congruence|]. eapply rekeyed_trans; eauto. intros k I J. apply A1. now split.
  Qed.

  Lemma closed : forall E f df dm n ef n', W E -> open_file f df dm -> file_encrypt re tp ag E f f df n = Ok (ef, n') -> exists key, has f ef key dm /\ plain (fl_meta ef)
    /\ md_recipients (fl_meta ef) = md_recipients (fl_meta df) /\ md_partial (fl_meta ef) = md_partial (fl_meta df) /\ md_only (fl_meta ef) = md_only (fl_meta df).
  Proof.
    intros E f df dm n ef n' WE ((G & F & D & M & _ & key & L & AW & _) & PR & RT & PL) H. unfold file_encrypt in H. apply bind_ok in H. destruct H as (k & K & H).
    assert (k = key) by (eapply retrieve_safe; eauto). subst k. unfold document in D. rewrite D in H. cbn [bind] in H. exists key. pose proof H as H'. apply encrypt_parts_ok in H'. destruct H' as (em & n1 & e & _ & B & _ & Em).
    split; [eapply encrypt_parts_holds; eauto; intros s X; discriminate X|]. rewrite Em. cbn [with_mac md_recipients md_partial md_only]. split; auto.
    apply plain_meta_parts. cbn [with_mac md_recipients md_modified md_mac md_partial]. split; auto. split; auto. split; auto. eapply mac_rust; [|exact B]. discriminate.
  Qed.

  Lemma remove_keeps : forall E f ks s ef key dm n t n', W E -> stored f s ef key dm -> text_safe g f dm -> remove_text re tp ag cd E f ks s n = Ok (t, n') ->
    exists ef' key', stored f t ef' key' dm
    /\ (forall k, In k (map u_key (rc_age (md_recipients (fl_meta ef')))) <-> In k (map u_key (rc_age (md_recipients (fl_meta ef)))) /\ ~ In k (ks_age ks))
    /\ (forall k, In k (map u_key (rc_kms (md_recipients (fl_meta ef')))) <-> In k (map u_key (rc_kms (md_recipients (fl_meta ef)))) /\ ~ In k (ks_kms ks))
    /\ md_partial (fl_meta ef') = md_partial (fl_meta ef) /\ md_only (fl_meta ef') = md_only (fl_meta ef)
    /\ ((md_recipients (fl_meta ef') = md_recipients (fl_meta ef) /\ (forall k, In k (ks_age ks) -> ~ In k (map u_key (rc_age (md_recipients (fl_meta ef))))) /\ (forall k, In k (ks_kms ks) -> ~ In k (map u_key (rc_kms (md_recipients (fl_meta ef))))))
        \/ exists j, n <= j /\ all_wrap ag W (draw_key tp j) (md_recipients (fl_meta ef'))).
  Proof.
    intros E f ks s ef key dm n t n' WE ST TS X. pose proof ST as (R & _ & _ & _ & CL). unfold remove_text in X. rewrite R in X. cbn [bind] in X. apply bind_ok in X. destruct X as (df & D & X).
    apply bind_ok in X. destruct X as ([df1 n1] & A & X). apply bind_ok in X. destruct X as ([df2 n2] & K & X). apply bind_ok in X. destruct X as ([ef' n3] & C & X). apply bind_ok in X. destruct X as (t' & T & X). injection X as <- <-. cbn [fst snd] in *.
    destruct (opened _ _ _ _ _ _ _ WE ST D) as (OF & Q1 & Q2 & Q3 & _). destruct (remove_ages _ _ _ _ _ _ _ _ WE OF A) as (OF1 & (B1 & B2 & _) & K1 & A1 & (L1 & RK1)). destruct (remove_kmss _ _ _ _ _ _ _ _ WE OF1 K) as (OF2 & (B3 & B4 & _) & A2 & K2 & (L2 & RK2)).
    destruct (closed _ _ _ _ _ _ _ WE OF2 C) as (key' & H & P & R1 & R2 & R3). exists ef', key'. split; [eapply kept; eauto|]. rewrite R1, A2. rewrite Q1 in *. split; [exact A1|]. split; [intro k; rewrite K2, K1; tauto|]. split; [congruence|]. split; [congruence|].
    destruct RK2 as [(-> & N2)|(j & J & AW)]; [|right; exists j; split; auto; lia]. destruct RK1 as [(-> & N1)|(j & J & AW)]; [left; rewrite K1 in N2; auto|right; eauto].
  Qed.

  (** ** refresh *)
  Lemma identical_spec : forall {K} (eqb : K -> K -> bool), (forall a b, eqb a b = true <-> a = b) -> forall a b, identical_keys eqb a b = true <-> (forall k, In k b <-> In k a).
  Proof.
    intros K eqb Q a b. unfold identical_keys. rewrite andb_true_iff, !forallb_forall. assert (X : forall x l, existsb (eqb x) l = true <-> In x l).
    { intros x l. rewrite existsb_exists. split; [intros (y & I & E); apply Q in E; now subst|intro I; exists x; split; auto; now apply Q]. }
    split.
    - intros [A B] k. split; intro I; [apply X, B, I|apply X, A, I].
    - intro H. split; intros x I; apply X, H, I.
  Qed.
  Lemma partial_eqb_eq : forall a b, partial_eqb a b = true <-> a = b.
  Proof. intros [s|s|s|s] [t|t|t|t]; cbn [partial_eqb]; try (split; discriminate); rewrite bytes_eqb_eq; split; congruence. Qed.
  Lemma implies_spec : forall r (md : meta evalue), implies_metadata r md = true <-> (agrees md r /\ cr_only r = md_only md).
  Proof.
    intros r md. unfold implies_metadata, implies_recipients, agrees. rewrite !andb_true_iff, (identical_spec bytes_eqb bytes_eqb_eq), (identical_spec aws_key_eqb aws_key_eqb_eq).
    assert (A : option_eqb Bool.eqb (cr_only r) (md_only md) = true <-> cr_only r = md_only md) by (destruct (cr_only r) as [[|]|], (md_only md) as [[|]|]; cbn; split; congruence).
    assert (B : option_eqb partial_eqb (cr_partial r) (md_partial md) = true <-> md_partial md = cr_partial r).
    { destruct (cr_partial r), (md_partial md); cbn [option_eqb]; try (split; congruence). rewrite partial_eqb_eq. split; congruence. }
    rewrite A, B. intuition congruence.
  Qed.

  (** Whatever the file: after a refresh the metadata agrees with the rule. *)
  Lemma refresh_agrees : forall E f rules path s n t n' r, first_matching re rules (path_to_match path) r -> refresh_text re tp ag cd E f rules path s n = Ok (t, n') ->
    exists ef', agrees (fl_meta ef') r /\ ((t = s /\ n' = n /\ read_efile (re_valid re) ag cd f s = Ok ef') \/ file_text cd f ef' = Ok t).
  Proof.
    intros E f rules path s n t n' r (a & b & -> & M & B) H. unfold refresh_text in H. apply bind_ok in H. destruct H as (ef & R & H).
    assert (Q : matching_rule re (path_to_match path) (a ++ r :: b) = Some r).
    { unfold matching_rule. clear -M B. induction a as [|x a IH]; cbn [app find]; [now rewrite M|]. rewrite (B x) by now left. apply IH. intros; apply B. now right. }
    rewrite Q in H. destruct (implies_metadata r (fl_meta ef)) eqn:I.
    - injection H as <- <-. exists ef. apply implies_spec in I. split; [tauto|now left].
    - apply bind_ok in H. destruct H as (df & D & H). apply bind_ok in H. destruct H as ([ef' n1] & C & H). apply bind_ok in H. destruct H as (t' & T & H). injection H as <- <-. exists ef'. split; [|now right].
      apply build_ok in C. destruct C as (dm & em & n2 & rc & n3 & e & _ & _ & C & _ & _ & Em). cbn [bd_age bd_kms bd_partial bd_only] in *. apply (build_recipients_ok ag (fun _ => True)) in C; auto. destruct C as (_ & _ & _ & KA & KK).
      unfold agrees. rewrite Em. cbn [md_recipients md_partial md_only]. split; auto. split; auto. split; auto. destruct (cr_only r) as [[|]|]; cbn [is_set]; split; congruence.
  Qed.

  Lemma refresh_keeps : forall E f rules path s ef key dm n t n', W E -> stored f s ef key dm -> text_safe g f dm ->
    (forall r, first_matching re rules (path_to_match path) r -> good_rule re ag dm r) -> refresh_text re tp ag cd E f rules path s n = Ok (t, n') ->
    exists ef' key', stored f t ef' key' dm /\ ((forall r, ~ first_matching re rules (path_to_match path) r) -> t = s /\ n' = n)
    /\ (forall r, first_matching re rules (path_to_match path) r -> agrees (fl_meta ef') r
         /\ (cr_only r <> Some false -> forall E' n2, refresh_text re tp ag cd E' f rules path t n2 = Ok (t, n2))).
  Proof.
    intros E f rules path s ef key dm n t n' WE ST TS GR H. pose proof ST as (R & Ho & P & _ & CL). unfold refresh_text in H. rewrite R in H. cbn [bind] in H.
    destruct (matching_rule re (path_to_match path) rules) as [r|] eqn:Q.
    - assert (FM : first_matching re rules (path_to_match path) r).
      { clear -Q. unfold matching_rule in Q. induction rules as [|x rules IH]; [discriminate|]. cbn [find] in Q. destruct (re_match re (cr_path x) (path_to_match path)) eqn:M.
        - injection Q as ->. exists [], rules. split; auto. split; auto. intros ? [].
        - destruct (IH Q) as (a & b & -> & M' & B). exists (x :: a), b. split; auto. split; auto. intros r' [<-|I]; auto. }
      assert (U : forall r', first_matching re rules (path_to_match path) r' -> r' = r).
      { intros r' (a & b & -> & M & B). unfold matching_rule in Q. clear -Q M B. induction a as [|x a IH]; cbn [app find] in Q; [rewrite M in Q; congruence|]. rewrite (B x) in Q by now left. apply IH; auto. intros; apply B. now right. }
      assert (AG : forall ef', read_efile (re_valid re) ag cd f t = Ok ef' -> agrees (fl_meta ef') r -> md_only (fl_meta ef') = None \/ md_only (fl_meta ef') = Some true \/ cr_only r = md_only (fl_meta ef') ->
        forall r', first_matching re rules (path_to_match path) r' -> agrees (fl_meta ef') r' /\ (cr_only r' <> Some false -> forall E' n2, refresh_text re tp ag cd E' f rules path t n2 = Ok (t, n2))).
      { intros ef' R' A MO r' FM'. rewrite (U r' FM'). split; auto. intros NF E' n2. unfold refresh_text. rewrite R'. cbn [bind]. rewrite Q. assert (I : implies_metadata r (fl_meta ef') = true); [|now rewrite I].
        apply implies_spec. split; auto. destruct A as (_ & _ & _ & A). destruct (cr_only r) as [[|]|]; [symmetry; tauto|congruence|]. destruct MO as [MO|[MO|MO]]; auto. destruct A as [A _]. specialize (A MO). discriminate. }
      destruct (GR r FM) as ([G1 G2] & G3 & G4). destruct (implies_metadata r (fl_meta ef)) eqn:I.
      + injection H as <- <-. exists ef, key. split; auto. split; [intro N; destruct (N r FM)|]. apply implies_spec in I. apply AG; tauto.
      + apply bind_ok in H. destruct H as (df & D & H). apply bind_ok in H. destruct H as ([ef' n1] & C & H). apply bind_ok in H. destruct H as (t' & T & H). injection H as <- <-. cbn [fst] in T.
        destruct (opened _ _ _ _ _ _ _ WE ST D) as (((G & F & Do & _) & _) & _). pose proof D as D'. apply decrypt_inv in D'. destruct D' as (k1 & mac & nonce & em & dm1 & K & _ & A & De & _ & Cv & _).
        destruct (holds_read _ _ _ _ _ _ _ _ Ho) as (em2 & nonce2 & A2 & De2 & _). assert (k1 = key) by (destruct Ho as (L & AW & _); eapply retrieve_safe; eauto). subst k1. rewrite A2 in A. injection A as <-. assert (dm1 = dm) by (rewrite De2 in De; now injection De as ->). subst dm1.
        assert (FD : fmt_doc f (fl_map df)). { destruct (dec_written g f dm (fl_map df) G TS Cv) as (S & _). now apply storable_fmt. }
        assert (F' : fits f (cr_partial r) dm) by (destruct F as (_ & F); now split).
        assert (H' : has f ef' (draw_key tp n) dm) by (eapply built_holds in C; eauto).
        assert (P' : plain (fl_meta ef')) by (eapply built_plain in C; eauto).
        exists ef', (draw_key tp n). pose proof (kept _ _ _ _ _ CL H' TS P' T) as ST'. split; auto. split; [intro N; destruct (N r FM)|]. apply AG.
        * apply ST'.
        * apply build_ok in C. destruct C as (dm3 & em3 & n4 & rc & n3 & e & _ & _ & C & _ & _ & Em). cbn [bd_age bd_kms bd_partial bd_only] in *. apply (build_recipients_ok ag (fun _ => True)) in C; auto. destruct C as (_ & _ & _ & KA & KK).
          unfold agrees. rewrite Em. cbn [md_recipients md_partial md_only]. split; auto. split; auto. split; auto. destruct (cr_only r) as [[|]|]; cbn [is_set]; split; congruence.
        * apply build_ok in C. destruct C as (dm3 & em3 & n4 & rc & n3 & e & _ & _ & C & _ & _ & ->). cbn [md_only bd_only]. destruct (is_set (cr_only r)); auto.
    - injection H as <- <-. exists ef, key. split; auto. split; auto. intros r (a & b & -> & M & B). unfold matching_rule in Q. exfalso. apply find_none with (x := r) in Q; [congruence|]. apply in_or_app. right. now left.
  Qed.

  (** ** edit *)
  Lemma edit_keeps : forall E f s ef key dm df sv m dm' n t n', W E -> stored f s ef key dm -> file_decrypt_save re ag E f f ef = Ok (df, sv) ->
    fmt_doc f m -> dec_map_to_internal f m = Ok dm' -> fits f (md_partial (fl_meta ef)) dm' -> text_safe g f dm' -> edited_text re tp cd E f df sv m n = Ok (t, n') ->
    exists ef', stored f t ef' key dm' /\ md_recipients (fl_meta ef') = md_recipients (fl_meta ef) /\ md_partial (fl_meta ef') = md_partial (fl_meta ef) /\ md_only (fl_meta ef') = md_only (fl_meta ef).
  Proof.
    intros E f s ef key dm df sv m dm' n t n' WE ST D FD A F TS H. pose proof ST as (R & Ho & P & _ & CL). pose proof Ho as (_ & _ & _ & F0 & _).
    pose proof (decrypt_save_keeps re tp ag W AL KL E f f ef df sv key dm WE Ho F0 D) as (_ & _ & _ & _ & SO & key' & L & AW & SK).
    pose proof D as D'. apply decrypt_save_inv in D'. destruct D' as (D1 & k1 & mac & nonce & em & dm1 & st & K & M & _ & _ & _ & _ & Em & Es).
    assert (k1 = key) by (destruct Ho as (L0 & AW0 & _); eapply retrieve_safe; eauto). subst k1. assert (key' = key) by (rewrite <- (SK sv eq_refl), Es; reflexivity). subst key'.
    destruct (native_good _ _ _ FD A) as (G & _). destruct (fits_convert f _ dm' G F) as (fm & C1 & C2).
    unfold edited_text in H. apply bind_ok in H. destruct H as (df' & SM & H). apply bind_ok in H. destruct H as ([ef' n1] & X & H). apply bind_ok in H. destruct H as (t' & T & H). injection H as <- <-. cbn [fst] in T.
    unfold file_set_map in SM. cbv zeta in SM. rewrite A in SM. cbn [bind] in SM. rewrite C1 in SM. cbn [bind] in SM. injection SM as <-. unfold file_encrypt_saved in X. cbn [fl_map fl_meta] in X. rewrite C2 in X. cbn [bind] in X.
    rewrite (SK sv eq_refl) in X. pose proof X as X'. apply encrypt_parts_ok in X'. destruct X' as (em1 & n2 & e & _ & B & _ & Em'). cbn [md_recipients md_modified md_mac md_partial md_only] in *.
    apply plain_meta_parts in P. destruct P as (P1 & P2 & P3 & P4).
    assert (H' : has f ef' key dm'). { eapply encrypt_parts_holds in X; eauto; cbn [md_partial md_recipients]; rewrite Em; exact F. }
    assert (P' : plain (fl_meta ef')).
    { apply plain_meta_parts. rewrite Em', Em. cbn [with_mac md_recipients md_modified md_mac md_partial]. split; auto. split; [|split; auto].
      - destruct (fmap_eqb f (fl_map df) m); [exact P2|]. eapply now_real; eauto.
      - eapply mac_rust; [|exact B]. intros m0 nonce0 Q. rewrite Es in Q. cbn [option_map sv_mac] in Q. injection Q as <- <-. apply decrypt_mac_some in M. destruct M as [_ ->]. apply P3. }
    exists ef'. split; [eapply kept; eauto|]. rewrite Em', Em. cbn [with_mac md_recipients md_partial md_only]. auto.
  Qed.
  (** The editor sees the document, and leaving it alone gives it back. *)
  Lemma shown : forall E f s ef key dm df sv, W E -> stored f s ef key dm -> text_safe g f dm -> file_decrypt_save re ag E f f ef = Ok (df, sv) ->
    exists t0, map_text cd f (fl_map df) = Ok t0 /\ read_map cd f t0 = Ok (fl_map df) /\ fmt_doc f (fl_map df) /\ dec_map_to_internal f (fl_map df) = Ok dm /\ dec_map_from_internal f dm = Ok (fl_map df).
  Proof.
    intros E f s ef key dm df sv WE (R & Ho & P & _ & CL) TS D. pose proof Ho as (L0 & AW0 & G & F0 & _). pose proof D as D'. apply decrypt_save_inv in D'. destruct D' as (_ & k1 & mac & nonce & em & dm1 & st & K & M & A & De & _ & Cv & Em & Es).
    destruct (decrypt_save_keeps re tp ag W AL KL E f f ef df sv key dm WE Ho F0 D) as (_ & _ & Do & _). assert (k1 = key) by (eapply retrieve_safe; eauto). subst k1.
    destruct (fits_convert f _ dm G F0) as (fm & C1 & C2). assert (Q : dec_map_from_internal f dm = Ok (fl_map df)).
    { pose proof (decrypt_save_inv re ag _ _ _ _ _ _ D) as [D1 _]. apply decrypt_inv in D1. destruct D1 as (k2 & mac2 & nonce2 & em2 & dm2 & K2 & _ & A2 & De2 & _ & Cv2 & _). destruct (holds_read _ _ _ _ _ _ _ _ Ho) as (em3 & nonce3 & A3 & De3 & _).
      rewrite K in K2. injection K2 as <-. rewrite A3 in A2. injection A2 as <-. rewrite De3 in De2. now injection De2 as <-. }
    destruct (document_back cd g f dm (fl_map df) CL G TS Q) as (t0 & X & Y). exists t0. split; auto. split; auto. split; auto. destruct (dec_written g f dm (fl_map df) G TS Q) as (S & _). now apply storable_fmt.
  Qed.
  Lemma unchanged_session : forall O f t0 m, leaves_alone O -> session cd O f t0 m -> read_map cd f t0 = Ok m.
  Proof.
    intros O f t0 m LA (l0 & e & rest & c & t & k & AT & T & E & _ & R). assert (X : forall l c0 l' c', tried cd f l c0 l' c' -> (forall e, In e l -> In e l0) -> c' = c0 /\ forall e, In e l' -> In e l0).
    { clear -LA AT. intros l c0 l' c' T. induction T as [l c|x l c t r c' err Ex V R T IH]; intro I; [auto|]. destruct IH as [IH1 IH2]; [intros; apply I; now right|]. split; auto.
      destruct (LA _ x c AT (I x (or_introl eq_refl))) as [Q|[Q|(k & Q)]]; rewrite Q in Ex; try discriminate. injection Ex as -> _. exact IH1. }
    destruct (X _ _ _ _ T (fun e I => I)) as [-> I]. destruct (LA _ e (Content t0) AT (I e (or_introl eq_refl))) as [Q|[Q|(k' & Q)]]; rewrite Q in E; try discriminate. injection E as <- _. exact R.
  Qed.

  (** ** decrypt *)
  Lemma decrypts : forall E f s ef key dm m, W E -> stored f s ef key dm -> text_safe g f dm -> can_open ag E (md_recipients (fl_meta ef)) -> dec_map_from_internal f dm = Ok m ->
    exists t, decrypt_text re ag cd E f s = Ok t /\ read_map cd f t = Ok m.
  Proof.
    intros E f s ef key dm m WE (R & Ho & P & _ & CL) TS CO C. pose proof Ho as (L & AW & G & F & _). destruct (holds_decrypts re tp ag W E f f ef key dm) as (df & X & Y & _); auto; [eapply retrieve_open; eauto|].
    pose proof X as D. apply decrypt_inv in D. destruct D as (k2 & mac2 & nonce2 & em2 & dm2 & K2 & _ & A2 & De2 & _ & Cv2 & _). destruct (holds_read _ _ _ _ _ _ _ _ Ho) as (em3 & nonce3 & A3 & De3 & _).
    assert (k2 = key) by (eapply retrieve_safe; eauto). subst k2. rewrite A3 in A2. injection A2 as <-. rewrite De3 in De2. injection De2 as <-. rewrite C in Cv2. injection Cv2 as Cm.
    destruct (document_back cd g f dm _ CL G TS C) as (t & T & B). exists t. unfold decrypt_text. rewrite R. cbn [bind]. rewrite X. cbn [bind]. rewrite <- Cm. now split.
  Qed.

  (** ** Sequences *)
  Lemma step_keeps : forall p f dm O c s s' o t ef key, W (os_env O) -> no_failures O -> os_temp O <> p -> text_safe g f dm -> keeps_document re ag cd p f dm O (sy_file s) c ->
    run_command re tp ag cd O c s = (s', o) -> sy_file s p = Content t -> stored f t ef key dm -> exists t' ef' key', sy_file s' p = Content t' /\ stored f t' ef' key' dm.
  Proof.
    intros p f dm O c s s' o t ef key WE NF NT TS KD H F ST. assert (X : ~ some_failure O) by (intros (h & e & G); apply G, NF).
    apply run_trace in H. destruct H as (l1 & TO & [(_ & FS & _)|(t' & l2 & C & D & _ & FS & _)]).
    - exists t, ef, key. split; auto. rewrite FS, (temp_only_keeps _ _ _ p TO) by auto. exact F.
    - assert (K : replay l1 (sy_file s) p = Content t) by (rewrite (temp_only_keeps _ _ _ p TO) by auto; exact F).
      inversion D as [E1 E2 E3|u SF E1 E2 E3|q SF E1 E2 E3|q k SF E1 E2 E3|q E1 E2 E3]; try tauto; subst l2; rewrite FS, replay_app.
      + exists t, ef, key. split; auto.
      + cbn [replay fold_left]. destruct (list_eq_dec Byte.byte_eq_dec p q) as [<-|N]; [|exists t, ef, key; split; auto; now rewrite written_other].
        exists t'. rewrite written_here. cut (exists ef' key', stored f t' ef' key' dm); [intros (ef' & key' & Z); exists ef', key'; now split|]. destruct C as (rules & f' & x & CF & OS & _ & C).
        assert (IX : input_file c = Some p -> x = t). { intro IP. destruct OS as [(q & Q & _ & FX)|(Q & _)]; congruence. }
        destruct KD as [a GF EF PK|a GF EF|a GF EF GR|a GF EF LA|c N]; cbn [input_file config_path] in *.
        * subst p. destruct C as (GF' & n' & C). rewrite (IX eq_refl) in C. rewrite (GF _ GF') in C. destruct (add_keeps _ _ _ _ _ _ _ _ _ _ WE ST TS PK C) as (ef' & Z & _). eauto.
        * subst p. destruct C as (GF' & n' & C). rewrite (IX eq_refl) in C. rewrite (GF _ GF') in C. destruct (remove_keeps _ _ _ _ _ _ _ _ _ _ WE ST TS C) as (ef' & key' & Z & _). eauto.
        * destruct C as (GF' & n' & C). rewrite (IX EF) in C. rewrite EF in *. rewrite (GF _ GF') in C. destruct (refresh_keeps _ _ _ _ _ _ _ _ _ _ _ WE ST TS (fun r => GR rules r CF) C) as (ef' & key' & Z & _). eauto.
        * destruct C as (GF' & ef0 & df & sv & t0 & m & n' & R & DS & MT & SE & ET). rewrite (IX EF) in R. rewrite EF in GF'. pose proof (GF _ GF') as ->. pose proof ST as (R0 & Ho & _). rewrite R0 in R. injection R as <-.
          destruct (shown _ _ _ _ _ _ _ _ WE ST TS DS) as (t1 & MT1 & RM & FD & DI & _). rewrite MT in MT1. injection MT1 as <-. pose proof (unchanged_session _ _ _ _ LA SE) as RM'. rewrite RM in RM'. injection RM' as <-.
          destruct Ho as (_ & _ & _ & F0 & _). destruct (edit_keeps _ _ _ _ _ _ _ _ _ _ _ _ _ WE ST DS FD DI F0 TS ET) as (ef' & Z & _). eauto.
        * congruence.
  Qed.
  Lemma sequence_keeps : forall p f dm s s' t ef key, text_safe g f dm -> sequence re tp ag cd W p f dm s s' -> sy_file s p = Content t -> stored f t ef key dm ->
    exists t' ef' key', sy_file s' p = Content t' /\ stored f t' ef' key' dm.
  Proof.
    intros p f dm s s' t ef key TS SQ F ST. induction SQ as [|s1 O c s2 o _ IH WE NF NT KD H|s1 s2 _ IH Q]; [eauto| |rewrite Q; auto].
    destruct IH as (t1 & ef1 & key1 & F1 & ST1). eapply step_keeps; eauto.
  Qed.

  (** ** Histories *)
  Lemma session_end : forall f l c l1 c1, tried cd f l c l1 c1 -> forall e1 r1 t1 k1 l2 c2 e2 r2 t2 k2, tried cd f l c l2 c2 -> l1 = e1 :: r1 -> l2 = e2 :: r2 ->
    e1 c1 = Closed (Content t1) k1 -> e2 c2 = Closed (Content t2) k2 -> (k1 = KeyPressed -> forall err, read_map cd f t1 <> Err err) -> (k2 = KeyPressed -> forall err, read_map cd f t2 <> Err err) -> t1 = t2 /\ k1 = k2.
  Proof.
    intros f l c l1 c1 T. induction T as [l c|x l c t r c' err E V R T IH]; intros e1 r1 t1 k1 l2 c2 e2 r2 t2 k2 T2 Q1 Q2 E1 E2 N1 N2.
    - inversion T2; subst.
      + match goal with H : _ :: _ = _ :: _ |- _ => injection H as -> -> end. rewrite E1 in E2. now injection E2 as <- <-.
      + match goal with H : _ :: _ = _ :: _ |- _ => injection H as -> -> end. rewrite E1 in *. match goal with H : Closed _ _ = Closed _ _ |- _ => injection H as -> -> end. edestruct N1; eauto.
    - inversion T2; subst.
      + match goal with H : _ :: _ = _ :: _ |- _ => injection H as -> -> end. rewrite E in E2. injection E2 as -> <-. edestruct N2; eauto.
      + match goal with H : _ c = Closed (Content ?u) KeyPressed, H' : _ c = Closed (Content t) KeyPressed |- _ => rewrite H' in H; injection H as <- end. eapply IH; eauto.
  Qed.

  Definition held (p : bytes) (f : fmt) (m : fmap) (s : sys) : Prop :=
    exists t ef key dm, sy_file s p = Content t /\ stored f t ef key dm /\ fmt_doc f m /\ dec_map_to_internal f m = Ok dm /\ text_safe g f dm /\ dec_map_from_internal f dm = Ok (normal_doc m).
  Lemma edit_run : forall p f m m' dm' O a s s' t0, held p f m s -> W (os_env O) -> no_failures O -> in_file a = Some p -> get_format (Some p) (in_format a) = Ok f ->
    map_text cd f (normal_doc m) = Ok t0 -> session cd O f t0 m' -> plain_document g f m' dm' ->
    (forall t ef, sy_file s p = Content t -> read_efile (re_valid re) ag cd f t = Ok ef -> colon_safe_map (md_partial (fl_meta ef)) dm') ->
    run_command re tp ag cd O (Edit a) s = (s', Ok tt) -> held p f m' s'
    /\ exists t ef t' ef', sy_file s p = Content t /\ read_efile (re_valid re) ag cd f t = Ok ef /\ sy_file s' p = Content t' /\ read_efile (re_valid re) ag cd f t' = Ok ef'
       /\ md_recipients (fl_meta ef') = md_recipients (fl_meta ef) /\ md_partial (fl_meta ef') = md_partial (fl_meta ef) /\ md_only (fl_meta ef') = md_only (fl_meta ef).
  Proof.
    intros p f m m' dm' O a s s' t0 IH WE NF IF GF MT SE (FD & A & DP & NS & KT) CS R.
    destruct IH as (t & ef & key & dm & F & ST & _ & _ & TS0 & D0). pose proof (user_text g f _ _ FD A DP NS KT) as TS. destruct (native_good _ _ _ FD A) as (G & NTo & NJ). destruct (dec_map_to_from f _ _ FD A) as (D & _).
    assert (SR : forall x, only_source O (sy_file s) (in_file a) x -> x = t). { intros x [(q & Q & _ & FX)|(Q & _)]; congruence. }
    pose proof ST as (R0 & _). assert (NS' : ~ some_failure O) by (intros (h & e & X); apply X, NF).
    apply run_trace in R. destruct R as (l1 & TO & [(_ & _ & _ & CA)|(t' & l2 & C & DE & _ & FS & _)]).
    + exfalso. destruct (CA eq_refl) as (a' & rules1 & f' & x & ef1 & df & sv & t1 & l & e & rest & c' & u & err & Ca & _ & OS & _ & GF' & RE & DS & MT' & AT & T & EC & _ & RM). injection Ca as <-. rewrite IF in GF'. rewrite GF in GF'. injection GF' as <-.
      rewrite (SR _ OS) in RE. rewrite R0 in RE. injection RE as <-. destruct (shown _ _ _ _ _ _ _ _ WE ST TS0 DS) as (t2 & MT2 & _ & _ & _ & Q). rewrite D0 in Q. injection Q as Q. rewrite <- Q in MT'. rewrite MT in MT'. injection MT' as <-.
      destruct SE as (l2 & e2 & r2 & c2 & u2 & k2 & AT2 & T2 & EC2 & _ & RM2). rewrite (attempts_same _ _ _ AT2 AT) in T2. destruct (session_end _ _ _ _ _ T _ _ _ _ _ _ _ _ _ _ T2 eq_refl eq_refl EC EC2) as [-> _]; [discriminate|intros _ err' X; congruence|]. congruence.
    + destruct C as (rules & f' & x & _ & OS & _ & GF' & ef1 & df & sv & t1 & m1 & n' & RE & DS & MT' & SE' & ET). rewrite IF in GF'. rewrite GF in GF'. injection GF' as <-.
      rewrite (SR _ OS) in RE. rewrite R0 in RE. injection RE as <-. destruct (shown _ _ _ _ _ _ _ _ WE ST TS0 DS) as (t2 & MT2 & _ & _ & _ & Q). rewrite D0 in Q. injection Q as Q. rewrite <- Q in MT'. rewrite MT in MT'. injection MT' as <-.
      assert (m1 = m'). { destruct SE as (l3 & e2 & r2 & c2 & u2 & k2 & AT2 & T2 & EC2 & _ & RM2). destruct SE' as (l4 & e3 & r3 & c3 & u3 & k3 & AT3 & T3 & EC3 & _ & RM3). rewrite (attempts_same _ _ _ AT3 AT2) in T3.
        destruct (session_end _ _ _ _ _ T2 _ _ _ _ _ _ _ _ _ _ T3 eq_refl eq_refl EC2 EC3) as [-> _]; [intros _ err' X; congruence|intros _ err' X; congruence|]. congruence. } subst m1.
      assert (Fi : fits f (md_partial (fl_meta ef)) dm') by (split; eauto).
      destruct (edit_keeps _ _ _ _ _ _ _ _ _ _ _ _ _ WE ST DS FD A Fi TS ET) as (ef' & ST' & G1 & G2 & G3).
      assert (OF : output_file O (Edit a) = Some p). { cbn [output_file input_file] in *. destruct OS as [(q & Q1 & -> & _)|(Q1 & _)]; congruence. }
      assert (F' : sy_file s' p = Content t').
      { rewrite OF in DE. inversion DE as [E1 E2 E3|u SF E1 E2 E3|q SF E1 E2 E3|q k SF E1 E2 E3|q E1 E2 E3]; try tauto; subst l2. rewrite FS, replay_app. apply written_here. }
      split; [exists t', ef', key, dm'; auto 10|]. exists t, ef, t', ef'. split; auto. split; auto. split; auto. split; [apply ST'|]. auto.
  Qed.
  Lemma history_holds : forall p f m s, codec_law cd g f -> history re tp ag cd W g p f m s -> held p f m s.
  Proof.
    intros p f m s CL H. induction H as [E b n ef n' t dm s WE (FD & A & DP & NS & KT) CS [PK1 PK2] PR B T F|m dm s s' _ IH A SQ|m m' dm' O a s s' t0 _ IH WE NF NT IF GF MT SE (FD & A & DP & NS & KT) CS R].
    - pose proof (user_text g f _ _ FD A DP NS KT) as TS. destruct (native_good _ _ _ FD A) as (G & NT & NJ). assert (Fi : fits f (bd_partial b) dm) by (split; auto).
      pose proof (built_holds re tp ag W _ _ _ _ _ _ _ WE FD A Fi B) as Ho. pose proof (built_plain re (re_valid re) tp ag W PW E f b n ef n' WE PK1 PK2 PR B) as PM.
      destruct (dec_map_to_from f _ _ FD A) as (D & _). exists t, ef, (draw_key tp n), dm. split; auto. split; [eapply kept; eauto|]. split; [exact FD|]. split; auto.
    - destruct IH as (t & ef & key & dm' & F & ST & FD & A' & TS & D). rewrite A in A'. injection A' as <-. destruct (sequence_keeps _ _ _ _ _ _ _ _ TS SQ F ST) as (t' & ef' & key' & F' & ST'). exists t', ef', key', dm. auto 10.
    - eapply edit_run; eauto. now split.
  Qed.
End Doc.
