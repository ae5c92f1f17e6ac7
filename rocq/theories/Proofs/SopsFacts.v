(** What the reader of metadata reads (C76). *)
From Verif.Model Require Import Document.
From Verif.Spec Require Import SpecSops.
From Verif.Proofs Require Import BytesFacts ValueFacts FormatFacts IntegrationFacts DocumentFacts.
Open Scope byte_scope.

Lemma key_is_iff : forall k kv, key_is k kv = true <-> fst kv = FStr k.
Proof.
  intros k [x v]. unfold key_is. cbn [fst]. destruct x; try (split; [discriminate|intro H; discriminate H]). rewrite bytes_eqb_eq. split; [intros ->; reflexivity|intro H; now injection H].
Qed.
Lemma silent_filter : forall k es, silent es k <-> filter (key_is k) es = [].
Proof.
  intros k es. unfold silent. split.
  - intro N. destruct (filter (key_is k) es) as [|x l] eqn:F; auto. exfalso. apply N. assert (I : In x (filter (key_is k) es)) by (rewrite F; now left). apply filter_In in I. destruct I as [I K]. apply key_is_iff in K. rewrite <- K. now apply in_map.
  - intros F I. apply in_map_iff in I. destruct I as (x & K & I). assert (J : In x (filter (key_is k) es)) by (apply filter_In; split; auto; now apply key_is_iff). now rewrite F in J.
Qed.
Lemma states_filter : forall k v es, states es k v <-> filter (key_is k) es = [(FStr k, v)].
Proof.
  intros k v es. split.
  - intros (a & b & -> & N). rewrite map_app, in_app_iff in N. rewrite filter_app. cbn [filter]. rewrite (proj2 (key_is_iff k (FStr k, v)) eq_refl). rewrite (proj1 (silent_filter k a)), (proj1 (silent_filter k b)); auto; unfold silent; tauto.
  - induction es as [|x es IH]; cbn [filter]; [discriminate|]. destruct (key_is k x) eqn:K.
    + intro H. injection H as -> H. exists [], es. split; auto. now apply silent_filter.
    + intro H. destruct (IH H) as (a & b & -> & N). exists (x :: a), b. split; auto. cbn [app map]. intros [E|I]; auto. apply key_is_iff in E. congruence.
Qed.
Lemma get_states : forall k es v, get_field k es = Ok (Some v) <-> states es k v.
Proof.
  intros k es v. rewrite states_filter. unfold get_field. destruct (filter (key_is k) es) as [|[x y] [|z l]] eqn:F; split; intro H; try discriminate.
  - injection H as ->. assert (I : In (x, v) (filter (key_is k) es)) by (rewrite F; now left). apply filter_In in I. destruct I as [_ I]. apply key_is_iff in I. cbn [fst] in I. now subst x.
  - now injection H as -> ->.
Qed.
Lemma get_silent : forall k es, get_field k es = Ok None <-> silent es k.
Proof.
  intros k es. rewrite silent_filter. unfold get_field. destruct (filter (key_is k) es) as [|x [|z l]]; split; intro H; try discriminate; auto.
Qed.
Lemma need_ok : forall A (o : option A) a, need o = Ok a <-> o = Some a.
Proof. intros A o a. apply ok_or_ok. Qed.
Lemma string_ok : forall v s, as_string v = Ok s <-> v = FStr s.
Proof. intros v s. unfold as_string. destruct v; split; intro H; try discriminate; injection H as ->; reflexivity. Qed.
Lemma as_map_ok : forall v m, as_map v = Ok m <-> v = FMap m.
Proof. intros v m. unfold as_map. destruct v; split; intro H; try discriminate; injection H as ->; reflexivity. Qed.
Lemma map_err_iff : forall A e (o : outcome A) a, map_err e o = Ok a <-> o = Ok a.
Proof. intros A e o a. unfold map_err. destruct o; split; intro H; try discriminate; auto. Qed.

(** A field that has to be there and is a string. *)
Lemma string_field : forall B k es (c : bytes -> outcome B) b,
  (let* o := get_field k es in let* v := need o in let* s := as_string v in c s) = Ok b <-> exists s, states es k (FStr s) /\ c s = Ok b.
Proof.
  intros B k es c b. rewrite bind_ok. split.
  - intros (o & G & H). apply bind_ok in H. destruct H as (v & N & H). apply need_ok in N. subst o. apply bind_ok in H. destruct H as (s & S & H). apply string_ok in S. subst v. exists s. split; auto. now apply get_states.
  - intros (s & S & H). exists (Some (FStr s)). split; [now apply get_states|]. exact H.
Qed.
Section Reading.
  Context (re_valid : bytes -> bool) (ag : age_crate) (cd : codec).

  Lemma as_time_ok : forall v t, as_time cd v = Ok t <-> exists s, v = FStr s /\ cd_time cd s = Some t.
  Proof.
    intros v t. unfold as_time. rewrite bind_ok. split.
    - intros (s & S & H). apply string_ok in S. apply ok_or_ok in H. eauto.
    - intros (s & -> & H). exists s. split; auto. now apply ok_or_ok.
  Qed.
  Lemma created_ok : forall es o, (let* c := get_field k_created es in match c with None | Some FNull => Ok None | Some x => omap Some (as_time cd x) end) = Ok o <-> says_created cd es o.
  Proof.
    intros es o. rewrite bind_ok. unfold says_created. change (lit "created_at") with k_created. split.
    - intros (c & G & H). destruct c as [v|]; [|injection H as <-; left; now apply get_silent]. apply get_states in G.
      assert (C : v = FNull /\ o = None \/ omap Some (as_time cd v) = Ok o) by (destruct v; try (right; exact H); left; injection H as <-; auto). clear H.
      destruct C as [[-> ->]|H]; [now right|]. unfold omap in H. destruct (as_time cd v) as [w| |] eqn:T; try discriminate. injection H as <-. apply as_time_ok in T. destruct T as (x & -> & T). eauto.
    - destruct o as [t|].
      + intros (s & S & T). exists (Some (FStr s)). split; [now apply get_states|]. unfold omap. rewrite (proj2 (as_time_ok (FStr s) t)); eauto.
      + intros [S|S]; [exists None|exists (Some FNull)]; (split; [now apply get_silent || now apply get_states|reflexivity]).
  Qed.
  Lemma bind_assoc : forall A B C (o : outcome A) (f : A -> outcome B) (g : B -> outcome C), bind (bind o f) g = bind o (fun a => bind (f a) g).
  Proof. intros A B C o f g. now destruct o. Qed.
  Lemma unit_ok : forall K (config : fmap -> outcome K) v u, read_unit cd config v = Ok u <->
    exists es, v = FMap es /\ config es = Ok (u_key u) /\ says_created cd es (u_created u) /\ states es (lit "enc") (FStr (u_enc u)).
  Proof.
    intros K config v u. unfold read_unit. change (lit "enc") with k_enc. rewrite bind_ok. split.
    - intros (es & M & H). apply as_map_ok in M. apply bind_ok in H. destruct H as (k & C & H). rewrite <- bind_assoc in H. apply bind_ok in H. destruct H as (c & CR & H). apply created_ok in CR.
      apply (string_field _ k_enc es (fun enc => Ok {| u_key := k; u_created := c; u_enc := enc |})) in H. destruct H as (s & S & H). injection H as <-. cbn [u_key u_created u_enc]. eauto 6.
    - intros (es & -> & C & CR & S). exists es. split; auto. apply bind_ok. exists (u_key u). split; auto. rewrite <- bind_assoc. apply bind_ok. exists (u_created u). split; [now apply created_ok|].
      apply (string_field _ k_enc es (fun enc => Ok {| u_key := u_key u; u_created := u_created u; u_enc := enc |})). exists (u_enc u). split; auto. now destruct u.
  Qed.
  Lemma age_ok : forall v u, read_unit cd (read_age_config ag) v = Ok u <-> says_age ag cd v u.
  Proof.
    intros v u. rewrite unit_ok. unfold says_age. split.
    - intros (es & -> & C & CR & S). apply (string_field _ k_recipient es (fun s => ok_or EInvalidField (ag_recipient ag s))) in C. destruct C as (r & R & C). apply ok_or_ok in C. eauto 8.
    - intros (es & r & -> & R & C & CR & S). exists es. repeat split; auto. apply (string_field _ k_recipient es (fun s => ok_or EInvalidField (ag_recipient ag s))). exists r. split; auto. now apply ok_or_ok.
  Qed.
  Lemma kms_ok : forall v u, read_unit cd read_kms_config v = Ok u <-> says_kms cd v u.
  Proof.
    intros v u. rewrite unit_ok. unfold says_kms, read_kms_config. split.
    - intros (es & -> & C & CR & S).
      apply (string_field _ k_profile es (fun profile => let* a := get_field k_arn es in let* a' := need a in let* s := as_string a' in let* arn := map_err EInvalidField (parse_arn s) in Ok {| ak_profile := profile; ak_arn := arn |})) in C.
      destruct C as (p & P & C). apply (string_field _ k_arn es (fun s => let* arn := map_err EInvalidField (parse_arn s) in Ok {| ak_profile := p; ak_arn := arn |})) in C. destruct C as (a & A & C). apply bind_ok in C. destruct C as (arn & X & C). apply map_err_iff in X. injection C as C.
      exists es, a. rewrite <- C. cbn [ak_profile ak_arn]. auto 8.
    - intros (es & a & -> & P & A & X & CR & S). exists es. repeat split; auto.
      apply (string_field _ k_profile es (fun profile => let* a := get_field k_arn es in let* a' := need a in let* s := as_string a' in let* arn := map_err EInvalidField (parse_arn s) in Ok {| ak_profile := profile; ak_arn := arn |})).
      exists (ak_profile (u_key u)). split; auto. apply (string_field _ k_arn es (fun s => let* arn := map_err EInvalidField (parse_arn s) in Ok {| ak_profile := ak_profile (u_key u); ak_arn := arn |})). exists a. split; auto. rewrite X. cbn [map_err bind]. now destruct (u_key u).
  Qed.

  (** Inserting one after the other leaves the last of each key. *)
  Lemma inserted_latest : forall K (eqb : K -> K -> bool) (EQ : forall a b, eqb a b = true <-> a = b) ws, latest ws (fold_left (fun acc u => unit_insert eqb u acc) ws []).
  Proof.
    intros K eqb EQ ws. induction ws as [|w ws IH] using rev_ind. { split; [constructor|]. intro u. split; [intros []|]. intros (a & b & E & _). now destruct a. }
    rewrite fold_left_app. cbn [fold_left]. set (acc := fold_left _ ws []) in *. destruct IH as [D I]. split; [now apply unit_insert_distinct|]. intro u. split.
    - intro H. destruct (unit_insert_cases eqb w acc u H) as [->|H'].
      + exists ws, []. split; auto.
      + destruct (key_dec eqb EQ (u_key w) [u]) as [[E|[]]|N].
        * assert (u = w) as ->; [|exists ws, []; auto]. pose proof (unit_insert_distinct eqb EQ w acc D) as D2. pose proof (unit_insert_in eqb w acc) as W. clear -D2 W H E.
          induction (unit_insert eqb w acc) as [|x l IHl]; [destruct W|]. cbn [map] in D2. inversion D2 as [|? ? N D3]; subst. destruct W as [->|W], H as [->|H]; auto.
          -- exfalso. apply N. rewrite <- E. now apply in_map.
          -- exfalso. apply N. rewrite E. now apply in_map.
        * apply I in H'. destruct H' as (a & b & -> & NB). exists a, (b ++ [w]). split; [now rewrite <- app_assoc|]. rewrite map_app, in_app_iff. cbn [map In]. intros [X|[X|[]]]; [auto|]. apply N. cbn [map In]. auto.
    - intros (a & b & E & N). destruct b as [|x b'] using rev_ind.
      + apply app_inj_tail in E. destruct E as [-> ->]. apply unit_insert_in.
      + clear IHb'. rewrite app_comm_cons, app_assoc in E. apply app_inj_tail in E. destruct E as [-> <-]. rewrite map_app, in_app_iff in N. cbn [map In] in N. apply unit_insert_keep; auto. apply I. exists a, b'. split; auto.
  Qed.
  Lemma latest_same : forall K (ws us us' : list (wrapped K)), latest ws us -> latest ws us' -> forall u, In u us <-> In u us'.
  Proof. intros K ws us us' [_ A] [_ B] u. now rewrite A, B. Qed.
  Lemma units_ok : forall K k (eqb : K -> K -> bool) (EQ : forall a b, eqb a b = true <-> a = b) config (says : fvalue -> wrapped K -> Prop) es (SO : forall v u, read_unit cd config v = Ok u <-> says v u),
    (forall us, read_units cd k eqb config es = Ok us -> says_recipients es k says us)
    /\ (forall us, says_recipients es k says us -> exists us', read_units cd k eqb config es = Ok us' /\ forall u, In u us' <-> In u us).
  Proof.
    intros K k eqb EQ config says es SO. unfold read_units, says_recipients. split; intro us.
    - intro H. apply bind_ok in H. destruct H as (o & G & H). destruct o as [v|]; [|injection H as <-; left; split; auto; now apply get_silent]. apply get_states in G. right. destruct v; try discriminate. apply bind_ok in H. destruct H as (ws & M & H). injection H as <-.
      exists l, ws. split; auto. split; [|now apply inserted_latest]. apply mapM_ok in M. clear -M SO. induction M; constructor; auto. now apply SO.
    - intros [(S & ->)|(l & ws & S & F & L)].
      + exists []. rewrite (proj2 (get_silent k es) S). split; [reflexivity|]. tauto.
      + rewrite (proj2 (get_states k es (FSeq l)) S). cbn [bind]. assert (M : mapM (read_unit cd config) l = Ok ws). { apply mapM_ok. clear -F SO. induction F; constructor; auto. now apply SO. }
        rewrite M. cbn [bind]. eexists. split; [reflexivity|]. apply (latest_same _ ws); auto. now apply inserted_latest.
  Qed.

  (** The rule. *)
  Lemma rule_named : forall kv, is_rule_entry kv = true <-> named_rule kv.
  Proof.
    intro kv. unfold is_rule_entry, named_rule, rule_names. rewrite !orb_true_iff, !key_is_iff. cbn [In]. split.
    - intros [[[H|H]|H]|H]; rewrite H; eexists; (split; [|reflexivity]); auto.
    - intros (n & [<-|[<-|[<-|[<-|[]]]]] & ->); auto.
  Qed.
  Lemma rule_says : forall kv p, named_rule kv -> (read_rule_entry re_valid kv = Some p <-> says_rule re_valid kv p).
  Proof.
    intros [k v] p (n & I & E). cbn [fst] in E. subst k. unfold read_rule_entry. cbn [snd]. split.
    - destruct v; try discriminate. unfold rule_names in I. cbn [In] in I. destruct I as [<-|[<-|[<-|[<-|[]]]]]; intro H.
      + change (key_is k_esuffix _) with true in H. cbn iota in H. injection H as <-. constructor.
      + change (key_is k_esuffix _) with false in H. change (key_is k_eregex _) with true in H. cbn iota in H. destruct (re_valid s) eqn:V; [|discriminate]. injection H as <-. now constructor.
      + change (key_is k_esuffix _) with false in H. change (key_is k_eregex _) with false in H. change (key_is k_usuffix _) with true in H. cbn iota in H. injection H as <-. constructor.
      + change (key_is k_esuffix _) with false in H. change (key_is k_eregex _) with false in H. change (key_is k_usuffix _) with false in H. cbn iota in H. destruct (re_valid s) eqn:V; [|discriminate]. injection H as <-. now constructor.
    - intro H. inversion H as [s E1 E2|s V E1 E2|s E1 E2|s V E1 E2]; subst.
      + reflexivity.
      + change (key_is k_esuffix _) with false. change (key_is k_eregex _) with true. cbn iota. now rewrite V.
      + reflexivity.
      + change (key_is k_esuffix _) with false. change (key_is k_eregex _) with false. change (key_is k_usuffix _) with false. cbn iota. now rewrite V.
  Qed.
  Lemma find_first : forall A (f : A -> bool) l, match find f l with Some x => exists a b, l = a ++ x :: b /\ (forall y, In y a -> f y = false) /\ f x = true | None => forall y, In y l -> f y = false end.
  Proof.
    intros A f l. induction l as [|x l IH]; cbn [find]; [intros y []|]. destruct (f x) eqn:F.
    - exists [], l. repeat split; auto. intros y [].
    - destruct (find f l) as [z|].
      + destruct IH as (a & b & -> & N & Z). exists (x :: a), b. repeat split; auto. intros y [<-|I]; auto.
      + intros y [<-|I]; auto.
  Qed.
  Lemma scope_ok : forall es o, read_rule re_valid es = o <-> says_scope re_valid es o.
  Proof.
    intros es o. unfold read_rule, says_scope. pose proof (find_first _ is_rule_entry es) as F. split.
    - intros <-. destruct (find is_rule_entry es) as [e|].
      + left. destruct F as (a & b & E & N & R). exists a, e, b. apply rule_named in R. repeat split; auto. { intros kv I X. apply rule_named in X. rewrite (N kv I) in X. discriminate. }
        destruct (read_rule_entry re_valid e) as [p|] eqn:P; [now apply rule_says|]. intros p X. apply rule_says in X; auto. congruence.
      + right. split; auto. intros kv I X. apply rule_named in X. rewrite (F kv I) in X. discriminate.
    - intros [(a & e & b & -> & N & R & X)|(N & ->)].
      + assert (Y : find is_rule_entry (a ++ e :: b) = Some e).
        { clear F X. induction a as [|x a IH]; cbn [app find]; [now rewrite (proj2 (rule_named e) R)|]. destruct (is_rule_entry x) eqn:Q; [apply rule_named in Q; destruct (N x (or_introl eq_refl) Q)|]. apply IH. intros kv I. apply N. now right. }
        rewrite Y. destruct o as [p|]; [now apply rule_says|]. destruct (read_rule_entry re_valid e) as [p|] eqn:P; auto. apply rule_says in P; auto. destruct (X p P).
      + destruct (find is_rule_entry es) as [e|]; auto. destruct F as (a & b & -> & _ & R). destruct (N e); [rewrite in_app_iff; cbn; auto|]. now apply rule_named.
  Qed.

  Lemma only_ok : forall es o, (let* x := get_field k_only es in match x with None | Some FNull => Ok None | Some (FBool b) => Ok (Some b) | Some _ => Err EInvalidField end) = Ok o
    <-> match o with Some b => states es (lit "mac_only_encrypted") (FBool b) | None => silent es (lit "mac_only_encrypted") \/ states es (lit "mac_only_encrypted") FNull end.
  Proof.
    intros es o. change (lit "mac_only_encrypted") with k_only. rewrite bind_ok. split.
    - intros (x & G & H). destruct x as [v|]; [|injection H as <-; left; now apply get_silent]. apply get_states in G. destruct v; try discriminate; injection H as <-; auto.
    - destruct o as [b|]; [intro S; exists (Some (FBool b)); split; [now apply get_states|reflexivity]|]. intros [S|S]; [exists None|exists (Some FNull)]; (split; [now apply get_silent || now apply get_states|reflexivity]).
  Qed.
  Definition meta_rest (es : fmap) (lm : timestamp) (mc : evalue) : outcome (meta evalue) :=
    let* only := (let* o := get_field k_only es in match o with None | Some FNull => Ok None | Some (FBool b) => Ok (Some b) | Some _ => Err EInvalidField end) in
    let* kms := read_units cd k_kms aws_key_eqb read_kms_config es in
    let* age := read_units cd k_age bytes_eqb (read_age_config ag) es in
    Ok {| md_recipients := {| rc_kms := kms; rc_age := age |}; md_modified := lm; md_mac := mc; md_partial := read_rule re_valid es; md_only := only |}.
  Lemma meta_parts : forall es md, read_meta re_valid ag cd parse_evalue (FMap es) = Ok md <->
    exists s t m mc, states es (lit "lastmodified") (FStr s) /\ cd_time cd s = Some t /\ states es (lit "mac") (FStr m) /\ parse_evalue m = Ok mc /\ meta_rest es t mc = Ok md.
  Proof.
    intros es md. unfold read_meta, meta_rest. change (lit "lastmodified") with k_modified. change (lit "mac") with k_mac. cbn [as_map bind]. split.
    - intro H. apply bind_ok in H. destruct H as (o & G & H). apply bind_ok in H. destruct H as (v & N & H). apply need_ok in N. subst o. apply get_states in G. apply bind_ok in H. destruct H as (t & T & H). apply as_time_ok in T. destruct T as (s & -> & T).
      apply (string_field _ k_mac es (fun ms => let* mc := map_err EInvalidField (parse_evalue ms) in let* o := get_field k_only es in let* only := match o with None | Some FNull => Ok None | Some (FBool b) => Ok (Some b) | Some _ => Err EInvalidField end in
        let* kms := read_units cd k_kms aws_key_eqb read_kms_config es in let* age := read_units cd k_age bytes_eqb (read_age_config ag) es in
        Ok {| md_recipients := {| rc_kms := kms; rc_age := age |}; md_modified := t; md_mac := mc; md_partial := read_rule re_valid es; md_only := only |})) in H.
      destruct H as (m & M & H). apply bind_ok in H. destruct H as (mc & P & H). apply map_err_iff in P. exists s, t, m, mc. rewrite bind_assoc. auto.
    - intros (s & t & m & mc & S & T & M & P & H). apply bind_ok. exists (Some (FStr s)). split; [now apply get_states|]. cbn [need ok_or bind]. rewrite (proj2 (as_time_ok (FStr s) t)) by eauto. cbn [bind].
      rewrite (proj2 (get_states _ _ _) M). cbn [need ok_or bind as_string]. rewrite P. cbn [map_err bind]. rewrite bind_assoc in H. exact H.
  Qed.
  Lemma meta_says : forall es md, read_meta re_valid ag cd parse_evalue (FMap es) = Ok md -> says_meta re_valid ag cd es md.
  Proof.
    intros es md H. apply meta_parts in H. destruct H as (s & t & m & mc & S & T & M & P & H). unfold meta_rest in H. apply bind_ok in H. destruct H as (only & O & H). apply only_ok in O.
    apply bind_ok in H. destruct H as (kms & K & H). apply (proj1 (units_ok _ k_kms aws_key_eqb aws_key_eqb_eq _ _ es kms_ok)) in K. apply bind_ok in H. destruct H as (age & A & H). apply (proj1 (units_ok _ k_age bytes_eqb bytes_eqb_eq _ _ es age_ok)) in A. injection H as <-.
    unfold says_meta. cbn [md_modified md_mac md_only md_recipients rc_kms rc_age md_partial]. repeat split; eauto. now apply scope_ok.
  Qed.
  Lemma says_read : forall es md, says_meta re_valid ag cd es md -> exists md', read_meta re_valid ag cd parse_evalue (FMap es) = Ok md' /\ same_meta md' md.
  Proof.
    intros es md ((s & S & T) & (m & M & P) & O & K & A & R). apply only_ok in O. apply (proj2 (units_ok _ k_kms aws_key_eqb aws_key_eqb_eq _ _ es kms_ok)) in K. destruct K as (kms & K & KI).
    apply (proj2 (units_ok _ k_age bytes_eqb bytes_eqb_eq _ _ es age_ok)) in A. destruct A as (age & A & AI). apply scope_ok in R. eexists. split.
    - apply meta_parts. exists s, (md_modified md), m, (md_mac md). repeat split; eauto. unfold meta_rest. rewrite O. cbn [bind]. rewrite K. cbn [bind]. rewrite A. cbn [bind]. reflexivity.
    - unfold same_meta. cbn [md_modified md_mac md_only md_recipients rc_kms rc_age md_partial]. repeat split; auto; apply KI || apply AI.
  Qed.
End Reading.

Lemma filter_all : forall A (f : A -> bool) l, (forall x, In x l -> f x = true) -> filter f l = l.
Proof. intros A f l H. induction l as [|x l IH]; cbn [filter]; auto. rewrite (H x) by now left. f_equal. apply IH. intros y I. apply H. now right. Qed.
Lemma others : forall k v a b, ~ In (FStr k) (map fst (a ++ b)) -> filter (fun kv => negb (key_is k kv)) (a ++ (FStr k, v) :: b) = a ++ b.
Proof.
  intros k v a b N. rewrite filter_app. cbn [filter]. rewrite (proj2 (key_is_iff k (FStr k, v)) eq_refl). cbn [negb]. rewrite <- filter_app. apply filter_all. intros x I. destruct (key_is k x) eqn:K; auto. apply key_is_iff in K. exfalso. apply N. rewrite <- K. now apply in_map.
Qed.
Section Files.
  Context (re_valid : bytes -> bool) (ag : age_crate) (cd : codec).

  Lemma entries_read : forall f es ef, efile_of_entries re_valid ag cd f es = Ok ef ->
    exists a ms b, es = a ++ (FStr (lit "sops"), FMap ms) :: b /\ ~ In (FStr (lit "sops")) (map fst (a ++ b)) /\ says_meta re_valid ag cd ms (fl_meta ef) /\ settle_map f (a ++ b) = Ok (fl_map ef).
  Proof.
    intros f es ef H. unfold efile_of_entries in H. destruct (forallb _ es); [|discriminate]. apply bind_ok in H. destruct H as (o & G & H). apply bind_ok in H. destruct H as (v & N & H). apply need_ok in N. subst o. apply get_states in G.
    destruct G as (a & b & -> & N). apply bind_ok in H. destruct H as (md & M & H). apply bind_ok in H. destruct H as (m & S & H). injection H as <-. rewrite others in S by exact N. cbn [fl_map fl_meta].
    destruct v; try discriminate. exists a, m0, b. split; auto. split; auto. split; auto. now apply meta_says.
  Qed.
  Lemma entries_accepted : forall f a ms b md m, ~ In (FStr (lit "sops")) (map fst (a ++ b)) -> says_meta re_valid ag cd ms md -> settle_map f (a ++ b) = Ok m ->
    (forall kv, In kv (a ++ b) -> scalar_key (fst kv) = true /\ buffered (snd kv) = true) ->
    exists ef, efile_of_entries re_valid ag cd f (a ++ (FStr (lit "sops"), FMap ms) :: b) = Ok ef /\ fl_map ef = m /\ same_meta (fl_meta ef) md.
  Proof.
    intros f a ms b md m N S X B. destruct (says_read _ _ _ _ _ S) as (md' & R & Q). exists {| fl_map := m; fl_meta := md' |}. split; auto. unfold efile_of_entries.
    assert (C : forallb (fun kv => scalar_key (fst kv) && (key_is k_sops kv || buffered (snd kv))) (a ++ (FStr (lit "sops"), FMap ms) :: b) = true).
    { apply forallb_forall. intros kv I. apply in_app_or in I. destruct I as [I|[<-|I]]; [|reflexivity|]; (destruct (B kv) as [B1 B2]; [apply in_or_app; auto|]; rewrite B1, B2; apply orb_true_r). }
    rewrite C. rewrite (proj2 (get_states k_sops _ (FMap ms))) by (exists a, b; auto). cbn [need ok_or bind]. rewrite R. cbn [bind]. rewrite (others k_sops) by exact N. rewrite X. reflexivity.
  Qed.
End Files.
