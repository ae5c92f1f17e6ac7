(** Facts about private keys, wrapped data keys and recipient entries. *)
From Verif.Model Require Import File.
From Verif.Spec Require Import SpecFile.
From Verif.Proofs Require Import BytesFacts Base64Facts ValueFacts FormatFacts.

Local Open Scope nat_scope.

(** ** Equality of key ids *)
Lemma obytes_eqb_eq : forall a b, obytes_eqb a b = true <-> a = b.
Proof.
  intros [a|] [b|]; cbn; split; intro H; try discriminate; auto.
  - apply bytes_eqb_eq in H. now subst.
  - injection H as ->. apply bytes_eqb_refl.
Qed.
Lemma aws_key_eqb_eq : forall a b, aws_key_eqb a b = true <-> a = b.
Proof.
  intros [p [a1 a2 a3 a4 a5 a6]] [q [b1 b2 b3 b4 b5 b6]]. unfold aws_key_eqb, aws_arn_eqb. cbn.
  rewrite !andb_true_iff, !bytes_eqb_eq, !obytes_eqb_eq. split.
  - intros (-> & ((((-> & ->) & ->) & ->) & ->) & ->). reflexivity.
  - intro H. injection H as -> -> -> -> -> -> ->. tauto.
Qed.

(** ** Private keys *)
Lemma is_space_iff : forall b, is_space b = true <-> white b.
Proof. intro b. unfold white. destruct b; split; intro H; try discriminate H; try reflexivity; try (repeat (destruct H as [H|H]; [discriminate H|]); discriminate H); tauto. Qed.

Lemma trim_left_shape : forall s, exists a, s = a ++ trim_left s /\ blank a /\ forall x r, trim_left s = x :: r -> ~ white x.
Proof.
  induction s as [|b s (a & E & B & N)]; cbn [trim_left].
  - exists []. split; auto. split. constructor. discriminate.
  - destruct (is_space b) eqn:Eb.
    + exists (b :: a). split. { rewrite E at 1. reflexivity. } split; auto. constructor; auto. now apply is_space_iff.
    + exists []. split; auto. split. constructor. intros x r H. injection H as <- <-. intro W. apply is_space_iff in W. congruence.
Qed.

Lemma trim_trimmed : forall s, trimmed s (trim s).
Proof.
  intro s. unfold trim. destruct (trim_left_shape s) as (a & E & B & N).
  destruct (trim_left_shape (rev (trim_left s))) as (b & E2 & B2 & N2).
  set (t := trim_left (rev (trim_left s))) in *.
  assert (E3 : trim_left s = rev t ++ rev b) by (rewrite <- rev_app_distr, <- E2, rev_involutive; reflexivity).
  exists a, (rev b). split. { rewrite <- E3. exact E. } split; auto. split. { apply Forall_rev. exact B2. } split.
  - intros x r H. apply (N x (r ++ rev b)). now rewrite E3, H.
  - intros r x H. apply (N2 x (rev r)). rewrite <- (rev_involutive t), H, rev_app_distr. reflexivity.
Qed.

Lemma blank_app : forall a b, blank (a ++ b) <-> blank a /\ blank b.
Proof. intros. apply Forall_app. Qed.

Lemma trim_blank : forall s, blank s <-> trim s = [].
Proof.
  intro s. destruct (trim_trimmed s) as (a & b & E & B1 & B2 & N & _). split; intro H.
  - destruct (trim s) as [|x r] eqn:T; auto. exfalso. rewrite E in H. apply blank_app in H. destruct H as [_ H].
    cbn in H. inversion H as [|? ? Wx]. now apply (N x r).
  - rewrite H in E. rewrite E. apply blank_app. split; auto.
Qed.

Lemma key_lines_fun : forall ls, key_lines ls (filter (fun l => negb (bytes_eqb l [])) (map trim ls)).
Proof.
  induction ls as [|l ls IH]; cbn [map filter]. constructor.
  destruct (bytes_eqb (trim l) []) eqn:E; cbn [negb].
  - constructor; auto. apply trim_blank. now apply bytes_eqb_eq.
  - apply kl_key; [|apply trim_trimmed|exact IH]. intro B. apply trim_blank in B. rewrite B in E. discriminate.
Qed.

Lemma trimmed_unique : forall s t t', trimmed s t -> trimmed s t' -> t = t'.
Proof.
  assert (L : forall a t a' t', a ++ t = a' ++ t' -> blank a -> blank a' -> (forall x r, t = x :: r -> ~ white x) -> (forall x r, t' = x :: r -> ~ white x) -> t = t').
  { induction a as [|x a IH]; intros t [|x' a'] t' E B B' N N'; cbn in E; auto.
    - subst t. inversion B'. exfalso. eapply N; eauto.
    - subst t'. inversion B. exfalso. eapply N'; eauto.
    - injection E as -> E. inversion B. inversion B'. eapply IH; eauto. }
  intros s t t' (a & b & E & A & B & N & M) (a' & b' & E' & A' & B' & N' & M').
  (* compare from the left, with the trailing blank *)
  destruct t as [|x r].
  - destruct t' as [|x' r']; auto. exfalso. assert (Bl : blank s) by (rewrite E; apply blank_app; split; auto).
    rewrite E' in Bl. apply blank_app in Bl. destruct Bl as [_ Bl]. inversion Bl. eapply N'; eauto.
  - destruct t' as [|x' r'].
    { exfalso. assert (Bl : blank s) by (rewrite E'; apply blank_app; split; auto). rewrite E in Bl. apply blank_app in Bl. destruct Bl as [_ Bl]. inversion Bl. eapply N; eauto. }
    assert (Q : (x :: r) ++ b = (x' :: r') ++ b').
    { eapply (L a _ a' _); auto. congruence. intros y z H. injection H as <- _. now apply (N x r). intros y z H. injection H as <- _. now apply (N' x' r'). }
    assert (Q' : rev (x :: r) = rev (x' :: r')).
    { apply (L (rev b) _ (rev b') _).
      - rewrite <- !rev_app_distr. now rewrite Q.
      - now apply Forall_rev. - now apply Forall_rev.
      - intros y z H. apply (M (rev z) y). rewrite <- (rev_involutive (x :: r)), H. reflexivity.
      - intros y z H. apply (M' (rev z) y). rewrite <- (rev_involutive (x' :: r')), H. reflexivity. }
    rewrite <- (rev_involutive (x :: r)), Q', rev_involutive. reflexivity.
Qed.

Lemma key_lines_unique : forall ls ts ts', key_lines ls ts -> key_lines ls ts' -> ts = ts'.
Proof.
  intros ls ts ts' H. revert ts'. induction H as [|l ls ts B H IH|l t ls ts B T H IH]; intros ts' H'; inversion H'; subst; auto; try contradiction.
  f_equal; auto. eapply trimmed_unique; eauto.
Qed.

(** Lines of a text as [str::lines] yields them, up to blank lines and trailing carriage returns, which trimming removes. *)
Lemma trim_chomp : forall s, trim (chomp s) = trim s.
Proof.
  intro s. unfold chomp. destruct (strip_suffix1 x0d s) as [r|] eqn:E; auto. apply strip_suffix1_some in E. subst s.
  destruct (trim_trimmed r) as (a & b & E & A & B & N & M). eapply trimmed_unique; [|apply trim_trimmed].
  exists a, (b ++ [x0d]). split. { rewrite E at 1. now rewrite <- !app_assoc. } split; auto. split; auto.
  apply blank_app. split; auto. constructor; [unfold white; tauto|constructor].
Qed.

Lemma filter_drop : forall l, filter (fun x => negb (bytes_eqb x [])) (map trim (drop_last_empty l)) = filter (fun x => negb (bytes_eqb x [])) (map trim l).
Proof.
  induction l as [|x [|y l] IH]; auto.
  - cbn [drop_last_empty]. destruct (bytes_eqb x []) eqn:E; auto. apply bytes_eqb_eq in E. now subst.
  - change (drop_last_empty (x :: y :: l)) with (x :: drop_last_empty (y :: l)). cbn [map filter] in *. rewrite IH. reflexivity.
Qed.

Lemma file_lines : forall ls, ls <> [] -> (forall l, In l ls -> ~ In x0a l) -> forall ts, key_lines ls ts ->
  filter (fun l => negb (bytes_eqb l [])) (map trim (lines (join_with x0a ls))) = ts.
Proof.
  intros ls N S ts K. unfold lines. rewrite split_join; auto. rewrite map_map.
  rewrite (map_ext (fun x => trim (chomp x)) trim) by (intro; apply trim_chomp). rewrite filter_drop.
  eapply key_lines_unique; [apply key_lines_fun|exact K].
Qed.

Lemma mapM_app_ok : forall {A B} (g : A -> outcome B) l l' r, mapM g (l ++ l') = Ok r <-> exists a b, mapM g l = Ok a /\ mapM g l' = Ok b /\ r = a ++ b.
Proof.
  intros A B g l l' r. rewrite mapM_ok. split.
  - intro H. apply Forall2_app_inv_l in H. destruct H as (a & b & H1 & H2 & ->). exists a, b. rewrite !mapM_ok. auto.
  - intros (a & b & H1 & H2 & ->). rewrite mapM_ok in H1, H2. now apply Forall2_app.
Qed.

Lemma retrieve_entries : forall {P} E name (parse : bytes -> outcome P) es p ts, (forall s, parse s <> Panic) ->
  env_entries (e_var E (env_var_name name)) es -> key_file_path E name = Ok p -> file_entries (e_file E p) ts ->
  (forall ks, retrieve_private_keys E name parse = Ok ks <-> Forall2 (fun t k => parse t = Ok k) (es ++ ts) ks)
  /\ ((exists t e, In t (es ++ ts) /\ parse t = Err e) -> exists e, retrieve_private_keys E name parse = Err e).
Proof.
  intros P E name parse es p ts NP He Hp Hf.
  assert (A : private_keys_from_env E name parse = mapM parse es).
  { unfold private_keys_from_env. destruct He as [[-> ->]|(N & S & ->)]; auto. now rewrite split_join. }
  assert (B : private_keys_from_file E name parse = mapM parse ts).
  { unfold private_keys_from_file. rewrite Hp. cbn [bind]. destruct Hf as [[-> ->]|(ls & N & S & -> & K)]; auto. now rewrite (file_lines ls N S ts K). }
  assert (Q : forall ks, retrieve_private_keys E name parse = Ok ks <-> mapM parse (es ++ ts) = Ok ks).
  { intro ks. unfold retrieve_private_keys. rewrite A, B, mapM_app_ok. split.
    - intro H. apply bind_ok in H. destruct H as (a & Ha & H). apply bind_ok in H. destruct H as (b & Hb & H). injection H as <-. eauto.
    - intros (a & b & Ha & Hb & ->). rewrite Ha, Hb. reflexivity. }
  split.
  - intro ks. rewrite Q. apply mapM_ok.
  - intros (t & e & I & Pe). destruct (retrieve_private_keys E name parse) as [ks|e'|] eqn:R.
    + pose proof (proj1 (Q ks) eq_refl) as R'. apply mapM_ok in R'. destruct (Forall2_in_l _ _ _ _ R' I) as (k & _ & K). congruence.
    + eauto.
    + unfold retrieve_private_keys in R. rewrite A, B in R. apply bind_panic in R. exfalso. destruct R as [R|(a & _ & R)].
      * apply mapM_panic in R. destruct R as (x & _ & R). now apply NP in R.
      * apply bind_panic in R. destruct R as [R|(b & _ & R)]; [|discriminate]. apply mapM_panic in R. destruct R as (x & _ & R). now apply NP in R.
Qed.

(** ** Lists of entries *)
Section Units.
  Context {K : Type} (eqb : K -> K -> bool) (eqb_eq : forall a b, eqb a b = true <-> a = b).

  Lemma eqb_neq : forall a b, eqb a b = false <-> a <> b.
  Proof.
    intros a b. destruct (eqb a b) eqn:E; split; intro H; try discriminate; auto.
    - apply eqb_eq in E. contradiction.
    - intro X. apply eqb_eq in X. congruence.
  Qed.

  Lemma unit_insert_in : forall u l, In u (unit_insert eqb u l).
  Proof. intros u l. induction l as [|x l IH]; cbn; auto. destruct (eqb (u_key x) (u_key u)); cbn; auto. Qed.

  Lemma unit_insert_cases : forall u l v, In v (unit_insert eqb u l) -> v = u \/ In v l.
  Proof.
    intros u l v. induction l as [|x l IH]; cbn.
    - intros [H|[]]; auto.
    - destruct (eqb (u_key x) (u_key u)); cbn; intros [H|H]; auto. destruct (IH H); auto.
  Qed.

  Lemma unit_insert_keep : forall u l v, In v l -> u_key v <> u_key u -> In v (unit_insert eqb u l).
  Proof.
    intros u l v. induction l as [|x l IH]; cbn; auto. intros [->|H] N.
    - assert (E : eqb (u_key v) (u_key u) = false) by now apply eqb_neq. rewrite E. now left.
    - destruct (eqb (u_key x) (u_key u)); cbn; auto.
  Qed.

  Lemma unit_insert_old : forall u l, In (u_key u) (map u_key l) -> map u_key (unit_insert eqb u l) = map u_key l.
  Proof.
    intros u l. induction l as [|x l IH]; cbn; [intros []|]. destruct (eqb (u_key x) (u_key u)) eqn:E; cbn.
    - apply eqb_eq in E. now rewrite E.
    - intros [H|H]; [apply eqb_neq in E; congruence|]. now rewrite IH.
  Qed.
  Lemma unit_insert_new : forall u l, ~ In (u_key u) (map u_key l) -> unit_insert eqb u l = l ++ [u].
  Proof.
    intros u l. induction l as [|x l IH]; cbn; auto. intro N. destruct (eqb (u_key x) (u_key u)) eqn:E.
    - apply eqb_eq in E. tauto.
    - now rewrite IH by tauto.
  Qed.

  Lemma key_dec : forall k (l : list (wrapped K)), In k (map u_key l) \/ ~ In k (map u_key l).
  Proof.
    intros k l. induction l as [|x l IH]; cbn; auto. destruct (eqb (u_key x) k) eqn:E.
    - apply eqb_eq in E. auto.
    - apply eqb_neq in E. destruct IH; tauto.
  Qed.

  Lemma unit_insert_keys : forall u l k, In k (map u_key (unit_insert eqb u l)) <-> k = u_key u \/ In k (map u_key l).
  Proof.
    intros u l k. destruct (key_dec (u_key u) l) as [H|H].
    - rewrite unit_insert_old by auto. split; auto. intros [->|]; auto.
    - rewrite unit_insert_new by auto. rewrite map_app, in_app_iff. cbn. intuition.
  Qed.

  Lemma unit_insert_distinct : forall u l, distinct_units l -> distinct_units (unit_insert eqb u l).
  Proof.
    intros u l D. unfold distinct_units in *. destruct (key_dec (u_key u) l) as [H|H].
    - now rewrite unit_insert_old.
    - rewrite unit_insert_new, map_app by auto. cbn. revert D H. generalize (map u_key l) (u_key u). clear. induction l as [|x l IH]; intros k D H; cbn.
      + constructor; auto.
      + inversion D; subst. cbn in H. constructor. { rewrite in_app_iff. cbn. intros [?|[?|[]]]; auto. } apply IH; auto.
  Qed.

  (** The keys after adding ids one by one: old ones first, each new one once. *)
  Lemma add_units_spec : forall mk ids us n us' o, (forall k n u n', mk k n = Ok (u, n') -> u_key u = k) ->
    add_units eqb mk ids us n = (us', o) ->
    (forall v, In v us' -> In v us \/ exists k m m', In k ids /\ mk k m = Ok (v, m'))
    /\ (distinct_units us -> distinct_units us')
    /\ (forall k, In k (map u_key us) -> In k (map u_key us'))
    /\ (forall v, In v us -> ~ In (u_key v) ids -> In v us')
    /\ (forall n', o = Ok n' -> (forall k, In k (map u_key us') <-> In k (map u_key us) \/ In k ids)
                     /\ (forall k, In k ids -> exists v m m', In v us' /\ u_key v = k /\ mk k m = Ok (v, m'))).
  Proof.
    intros mk ids us n us' o KM. revert us n. induction ids as [|k ids IH]; intros us n H; cbn [add_units] in H.
    - injection H as <- <-. split; [auto|]. split; [auto|]. split; [auto|]. split; [auto|]. intros n' _. split; [intro k; cbn; tauto|intros k []].
    - destruct (mk k n) as [[u n']|e|] eqn:M.
      + specialize (KM k n u n' M) as KU. destruct (IH _ _ H) as (A & B & C & D & F). split; [|split; [|split; [|split]]].
        * intros v I. destruct (A v I) as [J|(k' & m & m' & J & J')].
          -- apply unit_insert_cases in J. destruct J as [->|J]; auto. right. exists k, n, n'. cbn. auto.
          -- right. exists k', m, m'. cbn. auto.
        * intro X. apply B. now apply unit_insert_distinct.
        * intros k' I. apply C. apply unit_insert_keys. auto.
        * intros v I N. apply D. { apply unit_insert_keep; auto. intro X. apply N. left. congruence. } intro X. apply N. now right.
        * intros n0 E0. destruct (F n0 E0) as [F1 F2]. split.
          -- intro k'. rewrite F1, unit_insert_keys, KU. cbn. intuition.
          -- intros k' [<-|I]; [|auto]. 
             assert (X : In k ids \/ ~ In k ids).
             { clear - eqb_eq. induction ids as [|y l IHl]; cbn; auto. destruct (eqb y k) eqn:E.
               - apply eqb_eq in E. auto. - apply eqb_neq in E. destruct IHl; tauto. }
             destruct X as [X|X]; [auto|]. exists u, n, n'. split; auto. apply D. apply unit_insert_in. now rewrite KU.
      + injection H as <- <-. split; [auto|]. split; [auto|]. split; [auto|]. split; [auto|]. discriminate.
      + injection H as <- <-. split; [auto|]. split; [auto|]. split; [auto|]. split; [auto|]. discriminate.
  Qed.

  Lemma unit_remove_some : forall k l u r, unit_remove eqb k l = Some (u, r) ->
    u_key u = k /\ exists a b, l = a ++ u :: b /\ r = a ++ b /\ ~ In k (map u_key a).
  Proof.
    intros k l. induction l as [|x l IH]; intros u r H; cbn in H; try discriminate.
    destruct (eqb (u_key x) k) eqn:E.
    - injection H as <- <-. apply eqb_eq in E. split; auto. exists [], l. cbn. auto.
    - destruct (unit_remove eqb k l) as [[u' r']|]; try discriminate. injection H as <- <-.
      destruct (IH _ _ eq_refl) as (Ek & a & b & -> & -> & N). split; auto. exists (x :: a), b. cbn. split; auto. split; auto.
      apply eqb_neq in E. tauto.
  Qed.
  Lemma unit_remove_none : forall k l, unit_remove eqb k l = None <-> ~ In k (map u_key l).
  Proof.
    intros k l. induction l as [|x l IH]; cbn; [split; auto; intros _ []|].
    destruct (eqb (u_key x) k) eqn:E.
    - apply eqb_eq in E. split; [discriminate|]. intro N. exfalso. auto.
    - apply eqb_neq in E. destruct (unit_remove eqb k l) as [[u r]|].
      + split; [discriminate|]. intro N. exfalso. destruct IH as [_ IH]. discriminate IH. tauto.
      + split; auto. intros _ [H|H]; auto. now apply IH.
  Qed.
  Lemma unit_remove_distinct : forall k l u r, distinct_units l -> unit_remove eqb k l = Some (u, r) ->
    distinct_units r /\ ~ In k (map u_key r) /\ (forall v, In v r <-> In v l /\ u_key v <> k).
  Proof.
    intros k l u r D H. apply unit_remove_some in H. destruct H as (Ek & a & b & -> & -> & _).
    unfold distinct_units in *. rewrite map_app in *. cbn in D. pose proof (NoDup_remove_1 _ _ _ D) as D1. pose proof (NoDup_remove_2 _ _ _ D) as D2.
    rewrite Ek in D2. split; auto. split; auto. intro v. split.
    - intro I. split. { apply in_app_iff in I. apply in_app_iff. cbn. tauto. } intro X. apply D2. apply (in_map u_key) in I. now rewrite map_app, X in I.
    - intros [I N]. apply in_app_iff in I. cbn in I. apply in_app_iff. destruct I as [I|[I|I]]; auto. subst v. contradiction.
  Qed.

  (** Wrapping again: keys and creation times stay; entries are rewritten from the front until a failure. *)
  Lemma rewrap_units_ok : forall (wrap : K -> nat -> outcome (bytes * nat)) us n us' n', rewrap_units wrap us n = (us', Ok n') ->
    Forall2 (fun u u' => u_key u' = u_key u /\ u_created u' = u_created u /\ exists m m', wrap (u_key u) m = Ok (u_enc u', m')) us us'.
  Proof.
    intros wrap us. induction us as [|u us IH]; intros n us' n' H; cbn [rewrap_units] in H.
    - injection H as <- <-. constructor.
    - destruct (wrap (u_key u) n) as [[enc n1]|e|] eqn:E; try discriminate.
      destruct (rewrap_units wrap us n1) as [r o] eqn:R. injection H as <- ->. constructor; cbn; eauto.
  Qed.
  Lemma rewrap_units_keys : forall (wrap : K -> nat -> outcome (bytes * nat)) us n us' o, rewrap_units wrap us n = (us', o) ->
    map u_key us' = map u_key us /\ map u_created us' = map u_created us.
  Proof.
    intros wrap us. induction us as [|u us IH]; intros n us' o H; cbn [rewrap_units] in H.
    - injection H as <- <-. auto.
    - destruct (wrap (u_key u) n) as [[enc n1]|e|] eqn:E; try (injection H as <- <-; auto).
      destruct (rewrap_units wrap us n1) as [r o'] eqn:R. injection H as <- ->. cbn. destruct (IH _ _ _ R) as [-> ->]. auto.
  Qed.

  Lemma first_key_ok : forall (open : K -> bytes -> outcome (option bytes)) us key,
    first_key open us = Ok (Some key) <-> exists a u b, us = a ++ u :: b /\ Forall (fun v => open (u_key v) (u_enc v) = Ok None) a /\ open (u_key u) (u_enc u) = Ok (Some key).
  Proof.
    intros open us key. split.
    - induction us as [|u us IH]; cbn [first_key]; intro H; try discriminate.
      destruct (open (u_key u) (u_enc u)) as [[k|]|e|] eqn:E; try discriminate.
      + exists [], u, us. split; auto. split; auto. rewrite E. exact H.
      + destruct (IH H) as (a & v & b & -> & F & G). exists (u :: a), v, b. split; auto.
    - intros (a & u & b & -> & F & G). induction F as [|v a Hv F IH]; cbn [first_key app].
      + rewrite G. reflexivity.
      + rewrite Hv. exact IH.
  Qed.
  Lemma first_key_none : forall (open : K -> bytes -> outcome (option bytes)) us,
    first_key open us = Ok None <-> Forall (fun v => open (u_key v) (u_enc v) = Ok None) us.
  Proof.
    intros open us. split.
    - induction us as [|u us IH]; cbn [first_key]; intro H; constructor.
      + destruct (open (u_key u) (u_enc u)) as [[k|]|e|]; try discriminate. reflexivity.
      + apply IH. destruct (open (u_key u) (u_enc u)) as [[k|]|e|]; try discriminate. exact H.
    - induction 1 as [|u us Hu _ IH]; cbn [first_key]; auto. now rewrite Hu.
  Qed.
  Lemma first_key_err : forall (open : K -> bytes -> outcome (option bytes)) us e,
    first_key open us = Err e <-> exists a u b, us = a ++ u :: b /\ Forall (fun v => open (u_key v) (u_enc v) = Ok None) a /\ open (u_key u) (u_enc u) = Err e.
  Proof.
    intros open us e. split.
    - induction us as [|u us IH]; cbn [first_key]; intro H; try discriminate.
      destruct (open (u_key u) (u_enc u)) as [[k|]|e'|] eqn:E; try discriminate.
      + destruct (IH H) as (a & v & b & -> & F & G). exists (u :: a), v, b. split; auto.
      + exists [], u, us. split; auto. split; auto. rewrite E. exact H.
    - intros (a & u & b & -> & F & G). induction F as [|v a Hv F IH]; cbn [first_key app].
      + rewrite G. reflexivity.
      + rewrite Hv. exact IH.
  Qed.
End Units.

(** ** Opening wrapped keys *)
Section Opening.
  Context (ag : age_crate) (W : env -> Prop) (AL : age_law ag) (KL : kms_law W).

  Lemma age_open_wrapped : forall E ids r key enc, age_available ag E ids -> length key = 32 -> age_wraps ag key r enc ->
    age_decrypt_key ag E r enc = if existsb (fun i => bytes_eqb (ag_public ag i) r) ids then Ok (Some key) else Ok None.
  Proof.
    intros E ids r key enc A L (n & ->). unfold age_decrypt_key. unfold age_available in A. rewrite A. cbn [bind].
    destruct (find (fun i => bytes_eqb (ag_public ag i) r) ids) as [i|] eqn:F.
    - assert (X : existsb (fun i => bytes_eqb (ag_public ag i) r) ids = true).
      { apply existsb_exists. apply find_some in F. eauto. }
      rewrite X. apply find_some in F. destruct F as [_ F]. apply bytes_eqb_eq in F. subst r. rewrite AL by auto.
      rewrite L. change (Nat.leb key_size 32) with true. cbn iota. change key_size with 32. rewrite <- L, firstn_all. reflexivity.
    - assert (X : existsb (fun i => bytes_eqb (ag_public ag i) r) ids = false).
      { apply not_true_is_false. intro X. apply existsb_exists in X. destruct X as (i & I & X). rewrite (find_none _ _ F i I) in X. discriminate. }
      now rewrite X.
  Qed.

  Lemma age_open_safe : forall E r key enc k, length key = 32 -> age_wraps ag key r enc -> age_decrypt_key ag E r enc = Ok (Some k) -> k = key.
  Proof.
    intros E r key enc k L Wr H. unfold age_decrypt_key in H. destruct (age_private_keys ag E) as [ids|e|] eqn:A; try discriminate.
    assert (Q := age_open_wrapped E ids r key enc A L Wr). unfold age_decrypt_key in Q. rewrite A in Q. rewrite Q in H.
    destruct (existsb _ ids); congruence.
  Qed.

  Lemma kms_open_safe : forall E k key enc x, W E -> length key = 32 -> kms_wraps W key k enc -> kms_decrypt_key E k enc = Ok (Some x) -> x = key.
  Proof.
    intros E k key enc x WE L (E0 & n & req & b & WE0 & En & Rg & Kr & ->) H. unfold kms_decrypt_key in H. rewrite decode_encode_vec in H. cbn [map_err bind] in H.
    apply bind_ok in H. destruct H as (c & C & H). destruct c as [req'|]; try discriminate.
    unfold find_client in C. apply bind_ok in C. destruct C as (ids & _ & C). destruct (find _ ids); try discriminate. injection C as <-.
    set (req' := {| kr_region := arn_region (ak_arn k); kr_id := as_id a; kr_secret := as_secret a; kr_key := arn_key (ak_arn k) |}) in *.
    destruct (KL E0 E n req req' key b WE0 WE En) as [Q|Q]; [symmetry; exact Rg|symmetry; exact Kr| |]; rewrite Q in H; try discriminate.
    rewrite L in H. cbn in H. congruence.
  Qed.

  (** If every entry wraps one data key then retrieval can only give that key. *)
  Lemma retrieve_safe : forall E rc key k, W E -> length key = 32 -> all_wrap ag W key rc -> retrieve_data_key ag E rc = Ok k -> k = key.
  Proof.
    intros E rc key k WE L [WA WK] H. unfold retrieve_data_key in H. apply bind_ok in H. destruct H as (o & H & Ho).
    destruct o as [x|]; try discriminate. injection Ho as ->. unfold decrypt_data_key in H. apply bind_ok in H. destruct H as (a & Ha & H).
    destruct a as [y|].
    - injection H as ->. apply first_key_ok in Ha. destruct Ha as (l & u & l' & E1 & _ & O). eapply age_open_safe; [exact L| |exact O].
      apply WA. rewrite E1. apply in_app_iff. cbn. auto.
    - apply first_key_ok in H. destruct H as (l & u & l' & E1 & _ & O). eapply kms_open_safe; [exact WE|exact L| |exact O].
      apply WK. rewrite E1. apply in_app_iff. cbn. auto.
  Qed.

  (** If moreover an available identity matches an age entry, retrieval gives it. *)
  Lemma retrieve_age : forall E rc key ids i u, length key = 32 -> all_wrap ag W key rc -> age_available ag E ids -> In i ids -> In u (rc_age rc) ->
    u_key u = ag_public ag i -> retrieve_data_key ag E rc = Ok key.
  Proof.
    intros E rc key ids i u L [WA _] A I J Q. unfold retrieve_data_key, decrypt_data_key.
    assert (F : first_key (age_decrypt_key ag E) (rc_age rc) = Ok (Some key)).
    { revert WA J. generalize (rc_age rc). induction l as [|v l IH]; intros WA J; [destruct J|]. cbn [first_key].
      rewrite (age_open_wrapped E ids (u_key v) key (u_enc v) A L) by (apply WA; now left).
      destruct (existsb (fun i0 => bytes_eqb (ag_public ag i0) (u_key v)) ids) eqn:X; auto.
      apply IH. { intros w Iw. apply WA. now right. } destruct J as [->|J]; auto. exfalso.
      assert (Y : existsb (fun i0 => bytes_eqb (ag_public ag i0) (u_key u)) ids = true).
      { apply existsb_exists. exists i. split; auto. rewrite Q. apply bytes_eqb_refl. } congruence. }
    rewrite F. reflexivity.
  Qed.

  (** For KMS: no age identity matches, there are credentials for the profile of an entry but of none before it, and the service answers. *)
  Lemma retrieve_open : forall E rc key, W E -> length key = 32 -> all_wrap ag W key rc -> can_open ag E rc -> retrieve_data_key ag E rc = Ok key.
  Proof.
    intros E rc key WE L AW [ids i A I J|ids ks a u b c A NI KA Er Na Ic Pc Up].
    - apply in_map_iff in J. destruct J as (u & Q & J). eapply retrieve_age; eauto.
    - destruct AW as [WA WK]. unfold retrieve_data_key, decrypt_data_key.
      assert (F : first_key (age_decrypt_key ag E) (rc_age rc) = Ok None).
      { apply first_key_none. apply Forall_forall. intros v J. rewrite (age_open_wrapped E ids (u_key v) key (u_enc v) A L) by (now apply WA).
        destruct (existsb _ ids) eqn:X; auto. apply existsb_exists in X. destruct X as (i & I & X). apply bytes_eqb_eq in X. exfalso.
        apply (NI i I). rewrite X. now apply in_map. }
      rewrite F. cbn [bind].
      assert (G : first_key (kms_decrypt_key E) (rc_kms rc) = Ok (Some key)).
      { apply first_key_ok. exists a, u, b. split; auto. unfold kms_available in KA. split.
        - apply Forall_forall. intros v J. destruct (WK v) as (E0 & n & req & bl & _ & _ & _ & _ & Eq). { rewrite Er. apply in_app_iff. auto. }
          unfold kms_decrypt_key. rewrite Eq, decode_encode_vec. cbn [map_err bind]. unfold find_client. rewrite KA. cbn [bind].
          destruct (find (fun p => bytes_eqb (as_profile p) (ak_profile (u_key v))) ks) as [p|] eqn:Fp; auto.
          apply find_some in Fp. destruct Fp as [Ip Ep]. apply bytes_eqb_eq in Ep. exfalso. exact (Na v p J Ip Ep).
        - destruct (WK u) as (E0 & n & req & bl & WE0 & En & Rg & Kr & Eq). { rewrite Er. apply in_app_iff. cbn. auto. }
          unfold kms_decrypt_key. rewrite Eq, decode_encode_vec. cbn [map_err bind]. unfold find_client. rewrite KA. cbn [bind].
          destruct (find (fun p => bytes_eqb (as_profile p) (ak_profile (u_key u))) ks) as [p|] eqn:Fp.
          + match goal with |- context [e_kms_decrypt E ?r bl] => set (req' := r) in * end.
            destruct (KL E0 E n req req' key bl WE0 WE En) as [Q|Q]; [symmetry; exact Rg|symmetry; exact Kr| |]; rewrite Q.
            * rewrite L. cbn. reflexivity.
            * exfalso. exact (Up req' bl eq_refl eq_refl Eq Q).
          + exfalso. pose proof (find_none _ _ Fp c Ic) as X. cbn in X. rewrite Pc, bytes_eqb_refl in X. discriminate. }
      rewrite G. reflexivity.
  Qed.
End Opening.

(** ** Adding and removing recipients *)
Section AddRemove.
  Context (tp : tape) (ag : age_crate) (W : env -> Prop).

  Lemma new_age_unit_ok : forall key r n u n', new_age_unit ag key r n = Ok (u, n') -> u_key u = r /\ age_wraps ag key r (u_enc u) /\ u_created u = None.
  Proof. intros key r n u n' H. unfold new_age_unit, age_encrypt_key in H. cbn in H. injection H as <- <-. cbn. split; auto. split; auto. now exists n. Qed.

  Lemma kms_encrypt_ok : forall E k key n enc n', W E -> kms_encrypt_key E k key n = Ok (enc, n') -> kms_wraps W key k enc.
  Proof.
    intros E k key n enc n' WE H. unfold kms_encrypt_key in H. apply bind_ok in H. destruct H as (c & C & H). destruct c as [req|]; try discriminate.
    destruct (e_kms_encrypt E n req key) as [| |b] eqn:En; try discriminate. injection H as <- <-.
    unfold find_client in C. apply bind_ok in C. destruct C as (ids & _ & C). destruct (find _ ids); try discriminate. injection C as <-.
    exists E, n. eexists. exists b. split; [exact WE|]. split; [exact En|]. cbn. auto.
  Qed.
  Lemma new_kms_unit_ok : forall E key k n u n', W E -> new_kms_unit E key k n = Ok (u, n') -> u_key u = k /\ kms_wraps W key k (u_enc u).
  Proof.
    intros E key k n u n' WE H. unfold new_kms_unit in H. apply bind_ok in H. destruct H as ([enc m] & H & H'). injection H' as <- <-. cbn.
    split; auto. eapply kms_encrypt_ok; eauto.
  Qed.

  (** What adding recipients does to the entries, whether or not it succeeds in the end. *)
  Definition added {K} (wraps : K -> bytes -> Prop) (ids : list K) (us us' : list (wrapped K)) (ok : Prop) : Prop :=
    (forall v, In v us' -> In v us \/ In (u_key v) ids /\ wraps (u_key v) (u_enc v))
    /\ (distinct_units us -> distinct_units us')
    /\ (forall k, In k (map u_key us) -> In k (map u_key us'))
    /\ (forall v, In v us -> ~ In (u_key v) ids -> In v us')
    /\ (ok -> (forall k, In k (map u_key us') <-> In k (map u_key us) \/ In k ids)
              /\ (forall k, In k ids -> exists v, In v us' /\ u_key v = k /\ wraps k (u_enc v))).

  Lemma add_age_spec : forall ids key rc n rc' o, add_age ag ids key rc n = (rc', o) ->
    rc_kms rc' = rc_kms rc /\ added (fun r enc => age_wraps ag key r enc) ids (rc_age rc) (rc_age rc') (exists n', o = Ok n') /\ exists n', o = Ok n'.
  Proof.
    intros ids key rc n rc' o H. unfold add_age in H. destruct (add_units bytes_eqb (new_age_unit ag key) ids (rc_age rc) n) as [us o'] eqn:U.
    injection H as <- <-. cbn [rc_kms rc_age]. split; auto.
    destruct (add_units_spec bytes_eqb bytes_eqb_eq (new_age_unit ag key) ids (rc_age rc) n us o') as (A & B & C & D & F); auto.
    { intros k m u m' M. now apply new_age_unit_ok in M. }
    assert (T : exists n', o' = Ok n').
    { revert U. generalize (rc_age rc) n. clear. induction ids as [|r ids IH]; intros l n H; cbn in H. injection H as _ <-. eauto. eapply IH; eauto. }
    split; auto. split; [|split; [|split; [|split]]]; auto.
    - intros v I. destruct (A v I) as [J|(k & m & m' & J & M)]; auto. right. apply new_age_unit_ok in M. destruct M as (M1 & M2 & _). rewrite M1. auto.
    - intros (n' & E). destruct (F n' E) as [F1 F2]. split; auto. intros k I. destruct (F2 k I) as (v & m & m' & J & Q & M). apply new_age_unit_ok in M.
      exists v. tauto.
  Qed.

  Lemma add_kms_spec : forall E ids key rc n rc' o, W E -> add_kms E ids key rc n = (rc', o) ->
    rc_age rc' = rc_age rc /\ added (fun k enc => kms_wraps W key k enc) ids (rc_kms rc) (rc_kms rc') (exists n', o = Ok n').
  Proof.
    intros E ids key rc n rc' o WE H. unfold add_kms in H. destruct (add_units aws_key_eqb (new_kms_unit E key) ids (rc_kms rc) n) as [us o'] eqn:U.
    injection H as <- <-. cbn [rc_kms rc_age]. split; auto.
    destruct (add_units_spec aws_key_eqb aws_key_eqb_eq (new_kms_unit E key) ids (rc_kms rc) n us o') as (A & B & C & D & F); auto.
    { intros k m u m' M. now apply new_kms_unit_ok in M. }
    split; [|split; [|split; [|split]]]; auto.
    - intros v I. destruct (A v I) as [J|(k & m & m' & J & M)]; auto. right. apply new_kms_unit_ok in M; auto. destruct M as (M1 & M2). rewrite M1. auto.
    - intros (n' & En). destruct (F n' En) as [F1 F2]. split; auto. intros k I. destruct (F2 k I) as (v & m & m' & J & Q & M). apply new_kms_unit_ok in M; auto.
      exists v. tauto.
  Qed.

  Lemma add_age_wrap : forall ids key rc n rc' o, all_wrap ag W key rc -> add_age ag ids key rc n = (rc', o) -> all_wrap ag W key rc'.
  Proof.
    intros ids key rc n rc' o [WA WK] H. destruct (add_age_spec _ _ _ _ _ _ H) as (Ek & (A & _) & _). split.
    - intros u I. destruct (A u I) as [J|[_ J]]; auto.
    - rewrite Ek. auto.
  Qed.
  Lemma add_kms_wrap : forall E ids key rc n rc' o, W E -> all_wrap ag W key rc -> add_kms E ids key rc n = (rc', o) -> all_wrap ag W key rc'.
  Proof.
    intros E ids key rc n rc' o WE [WA WK] H. destruct (add_kms_spec _ _ _ _ _ _ _ WE H) as (Ek & (A & _)). split.
    - rewrite Ek. auto.
    - intros u I. destruct (A u I) as [J|[_ J]]; auto.
  Qed.

  Lemma draw_key_len : forall n, length (draw_key tp n) = 32.
  Proof. intro n. unfold draw_key, draw. rewrite map_length, seq_length. reflexivity. Qed.

  (** After a successful rotation every entry wraps the drawn key, for the same recipients. *)
  Lemma rotate_ok : forall E rc n rc' n', W E -> rotate tp ag E rc n = (rc', Ok n') ->
    all_wrap ag W (draw_key tp n) rc' /\ map u_key (rc_age rc') = map u_key (rc_age rc) /\ map u_key (rc_kms rc') = map u_key (rc_kms rc).
  Proof.
    intros E rc n rc' n' WE H. unfold rotate in H.
    destruct (rewrap_units (fun r => age_encrypt_key ag r (draw_key tp n)) (rc_age rc) (S n)) as [a oa] eqn:Ra. destruct oa as [n1|e|]; try discriminate.
    destruct (rewrap_units (fun k => kms_encrypt_key E k (draw_key tp n)) (rc_kms rc) n1) as [k ok] eqn:Rk. injection H as <- ->.
    cbn [rc_age rc_kms]. split; [|split].
    - split.
      + intros u I. apply rewrap_units_ok in Ra. destruct (Forall2_in_r _ _ _ _ Ra I) as (u0 & _ & Q1 & _ & m & m' & Q2). cbn in Q2. rewrite Q1.
        injection Q2 as <- _. now exists m.
      + intros u I. apply rewrap_units_ok in Rk. destruct (Forall2_in_r _ _ _ _ Rk I) as (u0 & _ & Q1 & _ & m & m' & Q2). rewrite Q1. eapply kms_encrypt_ok; eauto.
    - apply (rewrap_units_keys _ _ _ _ _ Ra).
    - apply (rewrap_units_keys _ _ _ _ _ Rk).
  Qed.

  (** A rotation that fails changes no recipient; without KMS entries it does not fail. *)
  Lemma rotate_keys : forall E rc n rc' o, rotate tp ag E rc n = (rc', o) ->
    map u_key (rc_age rc') = map u_key (rc_age rc) /\ map u_key (rc_kms rc') = map u_key (rc_kms rc) /\ (rc_kms rc = [] -> exists n', o = Ok n').
  Proof.
    intros E rc n rc' o H. unfold rotate in H.
    destruct (rewrap_units (fun r => age_encrypt_key ag r (draw_key tp n)) (rc_age rc) (S n)) as [a oa] eqn:Ra.
    pose proof (rewrap_units_keys _ _ _ _ _ Ra) as [Ka _].
    assert (T : exists n1, oa = Ok n1).
    { revert Ra. generalize (rc_age rc) (S n) a. clear. induction l as [|u l IH]; intros m a H; cbn in H. injection H as _ <-. eauto.
      destruct (rewrap_units _ l (S m)) as [r o] eqn:E. injection H as _ <-. eapply IH; eauto. }
    destruct T as (n1 & ->). destruct (rewrap_units (fun k => kms_encrypt_key E k (draw_key tp n)) (rc_kms rc) n1) as [k ok] eqn:Rk. injection H as <- <-.
    cbn [rc_age rc_kms]. split; auto. split. { apply (rewrap_units_keys _ _ _ _ _ Rk). }
    intro N. rewrite N in Rk. cbn in Rk. injection Rk as _ <-. eauto.
  Qed.

  Lemma build_recipients_ok : forall E age_ids kms_ids key n rc n', W E -> build_recipients ag E age_ids kms_ids key n = Ok (rc, n') ->
    (age_ids <> [] \/ kms_ids <> []) /\ all_wrap ag W key rc /\ distinct_recipients rc
    /\ (forall r, In r (map u_key (rc_age rc)) <-> In r age_ids) /\ (forall k, In k (map u_key (rc_kms rc)) <-> In k kms_ids).
  Proof.
    intros E age_ids kms_ids key n rc n' WE H.
    assert (N : age_ids <> [] \/ kms_ids <> []).
    { destruct age_ids; [|left; discriminate]. destruct kms_ids; [discriminate H|right; discriminate]. }
    split; auto.
    assert (H' : (let '(rc1, o1) := add_age ag age_ids key no_recipients n in let* n1 := o1 in
                  let '(rc2, o2) := add_kms E kms_ids key rc1 n1 in let* n2 := o2 in Ok (rc2, n2)) = Ok (rc, n')).
    { unfold build_recipients in H. destruct age_ids, kms_ids; auto; discriminate. }
    clear H. destruct (add_age ag age_ids key no_recipients n) as [rc1 o1] eqn:A. apply bind_ok in H'. destruct H' as (n1 & -> & H).
    destruct (add_kms E kms_ids key rc1 n1) as [rc2 o2] eqn:B. apply bind_ok in H. destruct H as (n2 & -> & H). injection H as <- <-.
    assert (W0 : all_wrap ag W key no_recipients) by (split; intros u []).
    pose proof (add_age_wrap _ _ _ _ _ _ W0 A) as W1. pose proof (add_kms_wrap _ _ _ _ _ _ _ WE W1 B) as W2. split; auto.
    destruct (add_age_spec _ _ _ _ _ _ A) as (E1 & (_ & D1 & _ & _ & F1) & T1). destruct (add_kms_spec _ _ _ _ _ _ _ WE B) as (E2 & (_ & D2 & _ & _ & F2)).
    destruct (F1 T1) as [F1a _]. destruct (F2 (ex_intro _ n2 eq_refl)) as [F2a _]. cbn in F1a. rewrite E1 in F2a. cbn in F2a.
    split; [|split].
    - split. { rewrite E2. apply D1. constructor. } { apply D2. rewrite E1. constructor. }
    - intro r. rewrite E2, F1a. tauto.
    - intro k. rewrite F2a. tauto.
  Qed.
End AddRemove.
