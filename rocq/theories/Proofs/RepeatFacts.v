(** Repeated keys. *)
From Coq Require Import Lia.
From Verif.Model Require Import Document Json.
From Verif.Proofs Require Import BytesFacts ValueFacts FormatFacts DocumentFacts CliAbort JsonNumber JsonFacts JsonGrammar.
From Verif.Spec Require Import SpecJsonText.
Close Scope Q_scope.
Open Scope byte_scope.

Lemma mapM_forall2 : forall {A B} (g : A -> outcome B) l l', mapM g l = Ok l' -> Forall2 (fun x y => g x = Ok y) l l'.
Proof. intros A B g l l' H. now apply mapM_ok. Qed.

(** * JSON: the last value in the place of the first *)
Definition stringly (m : fmap) : Prop := forall kv, In kv m -> exists s, fst kv = FStr s.
Lemma insert_keys : forall s v m, stringly m -> map fst (insert_entry (FStr s) v m) = if existsb (fun kv => fvalue_eqb Json (fst kv) (FStr s)) m then map fst m else map fst m ++ [FStr s].
Proof.
  intros s v. induction m as [|[k w] m IH]; intro S; [reflexivity|]. cbn [insert_entry existsb fst]. destruct (fvalue_eqb Json k (FStr s)); cbn [orb]; [reflexivity|]. cbn [map fst]. rewrite IH by (intros kv I; apply S; now right). now destruct (existsb _ m).
Qed.
Lemma exists_key : forall s m, stringly m -> existsb (fun kv => fvalue_eqb Json (fst kv) (FStr s)) m = true <-> In (FStr s) (map fst m).
Proof.
  intros s m S. rewrite existsb_exists, in_map_iff. split.
  - intros (kv & I & E). destruct (S kv I) as (s' & Q). rewrite Q, fkey_eqb in E. apply bytes_eqb_eq in E. subst s'. eauto.
  - intros (kv & Q & I). exists kv. split; auto. rewrite Q, fkey_eqb. now apply bytes_eqb_eq.
Qed.
Lemma insert_in : forall s v m k w, stringly m -> NoDup (map fst m) -> In (k, w) (insert_entry (FStr s) v m) -> (k = FStr s /\ w = v) \/ (k <> FStr s /\ In (k, w) m).
Proof.
  intros s v. induction m as [|[k0 w0] m IH]; intros k w S N I; cbn [insert_entry] in I.
  - destruct I as [I|[]]. injection I as <- <-. auto.
  - destruct (S (k0, w0) (or_introl eq_refl)) as (s0 & Q). cbn [fst] in Q. subst k0. rewrite fkey_eqb in I. cbn [map fst] in N. inversion N as [|? ? NI N']; subst. destruct (bytes_eqb s0 s) eqn:E.
    + apply bytes_eqb_eq in E. subst s0. destruct I as [I|I]; [injection I as <- <-; auto|]. right. split; [|now right]. intros ->. apply NI. apply (in_map fst) in I. exact I.
    + apply bytes_eqb_neq in E. destruct I as [I|I]; [injection I as <- <-; right; split; [congruence|now left]|]. destruct (IH k w) as [X|[X Y]]; auto; [intros kv J; apply S; now right|]. right. split; auto. now right.
Qed.
Lemma insert_stringly : forall s v m, stringly m -> stringly (insert_entry (FStr s) v m).
Proof.
  intros s v. induction m as [|[k0 w0] m IH]; intros S kv I; cbn [insert_entry] in I; [destruct I as [<-|[]]; cbn; eauto|]. destruct (fvalue_eqb Json k0 (FStr s)).
  - destruct I as [<-|I]; [apply (S (k0, w0)); now left|apply S; now right].
  - destruct I as [<-|I]; [apply (S (k0, w0)); now left|]. apply IH; auto. intros x J. apply S. now right.
Qed.
Lemma firsts_in : forall {A} (l l' : list A), firsts l l' -> (forall x, In x l <-> In x l') /\ NoDup l'.
Proof.
  intros A l l' F. induction F as [|l l' x F [IH N] I|l l' x F [IH N] I]; [split; [tauto|constructor]| |].
  - split; auto. intro y. rewrite in_app_iff, <- IH. cbn. intuition congruence.
  - split; [intro y; rewrite !in_app_iff, <- IH; tauto|]. rewrite IH in I. apply NoDup_rev in N. rewrite <- (rev_involutive (l' ++ [x])), rev_app_distr. apply NoDup_rev. cbn. constructor; auto. now rewrite <- in_rev.
Qed.
Definition settles (es m : fmap) : Prop := firsts (map fst es) (map fst m) /\ forall k v, In (k, v) m -> last_value es k v.
Lemma settle_json : forall es, stringly es -> exists m, settle_entries Json es = Ok m /\ stringly m /\ settles es m.
Proof.
  unfold settle_entries. induction es as [|[k v] es IH] using rev_ind; intro S.
  - exists []. split; [reflexivity|]. split; [intros kv []|]. split; [constructor|intros k v []].
  - destruct IH as (m & E & SM & F & L). { intros kv I. apply S, in_or_app. now left. }
    rewrite fold_left_app, E. cbn [fold_left bind fst snd]. destruct (S (k, v)) as (s & Q). { apply in_or_app. right. now left. } cbn [fst] in Q. subst k.
    exists (insert_entry (FStr s) v m). split; [reflexivity|]. split; [now apply insert_stringly|]. destruct (firsts_in _ _ F) as [FI ND]. split.
    + rewrite map_app, insert_keys by auto. cbn [map fst]. destruct (existsb (fun kv => fvalue_eqb Json (fst kv) (FStr s)) m) eqn:X.
      * apply exists_key in X; auto. apply fi_old; auto. now apply FI.
      * apply fi_new; auto. rewrite FI. intro I. apply exists_key in I; auto. congruence.
    + intros k w I. destruct (insert_in s v m k w SM ND I) as [[-> ->]|[NE I']].
      * exists es, []. split; auto.
      * destruct (L k w I') as (a & b & -> & NB). exists a, (b ++ [(FStr s, v)]). split; [now rewrite <- app_assoc|]. rewrite map_app, in_app_iff. cbn. intros [J|[J|[]]]; auto.
Qed.

Fixpoint json_like (v : fvalue) : Prop :=
  match v with
  | FMap m => fold_right and True (map (fun kv => (exists s, fst kv = FStr s) /\ json_like (snd kv)) m)
  | FSeq l => fold_right and True (map json_like l)
  | FTagged _ _ | FDate _ => False
  | _ => True
  end.
Lemma all_of : forall {A} (P : A -> Prop) l, fold_right and True (map P l) <-> Forall P l.
Proof. intros A P. induction l as [|x l IH]; cbn; [split; auto|]. rewrite IH. split; [intros [a b]; now constructor|intro H; inversion H; auto]. Qed.
Lemma says_json_like : (forall t v, value_says t v -> json_like v) /\ (forall t l, items_say t l -> json_like (FSeq l)) /\ (forall t m, members_say t m -> json_like (FMap m)).
Proof. apply says_ind; cbn; auto; intros; repeat split; eauto. Qed.
Lemma settle_json_value : forall v, json_like v -> exists v', settle Json v = Ok v' /\ last_wins v v' /\ match v with FMap _ => exists m, v' = FMap m | _ => True end.
Proof.
  induction v as [m IH|l IH|s|b|n| |tg v IH|s] using fvalue_ind'; cbn [json_like settle]; intro J; try (eexists; split; [reflexivity|]; split; [constructor; exact I|exact I]); try tauto.
  - rewrite all_of, Forall_forall in J. rewrite Forall_forall in IH.
    assert (X : exists l, mapM (fun kv => let* k := settle Json (fst kv) in let* x := settle Json (snd kv) in Ok (k, x)) m = Ok l /\ Forall2 (fun kv kv' => fst kv' = fst kv /\ last_wins (snd kv) (snd kv')) m l).
    { apply mapM_exists. apply Forall_forall. intros [k v] I. destruct (J _ I) as [(s & K) JV]. cbn [fst snd] in *. subst k. destruct (IH _ I JV) as (v' & E & W & _). cbn [snd] in *. cbn [settle bind]. rewrite E. cbn [bind]. eexists. split; [reflexivity|]. auto. }
    destruct X as (l & E & F). rewrite E. cbn [bind]. assert (SL : stringly l). { intros kv I. destruct (Forall2_in_r _ _ _ _ F I) as (kv0 & I0 & Q & _). rewrite Q. apply J; auto. }
    destruct (settle_json l SL) as (m' & SE & _ & FI & LV). rewrite SE. cbn [bind]. eexists. split; [reflexivity|]. split; [|eauto].
    assert (KS : map fst l = map fst m). { clear -F. induction F as [|x y a b [Q _] F IH]; cbn; congruence. }
    apply lw_map; [now rewrite <- KS|]. intros k v' I. destruct (LV k v' I) as (a & b & -> & NB). apply Forall2_app_inv_r in F. destruct F as (a0 & b0 & FA & FB & ->). inversion FB as [|[k0 v0] kv' b1 b2 [Q W] FB' E1 E2]; subst. cbn [fst snd] in *. subst k0. exists v0. split; auto. exists a0, b1. split; auto.
    intro IN. apply NB. assert (KB : map fst b = map fst b1). { clear -FB'. induction FB' as [|x y a b [Q _] F IH]; cbn; congruence. } now rewrite KB.
  - rewrite all_of in J. assert (X : exists l', mapM (settle Json) l = Ok l' /\ Forall2 last_wins l l').
    { apply mapM_exists. rewrite Forall_forall in *. intros v I. destruct (IH v I (J v I)) as (v' & E & W & _). eauto. }
    destruct X as (l' & E & F). rewrite E. cbn [bind]. eexists. split; [reflexivity|]. split; [now apply lw_seq|exact I].
Qed.
Lemma settle_map_json : forall m, json_like (FMap m) -> exists m', settle_map Json m = Ok m' /\ last_wins (FMap m) (FMap m').
Proof. intros m J. destruct (settle_json_value (FMap m) J) as (v' & E & W & m' & ->). exists m'. split; auto. unfold settle_map. now rewrite E. Qed.

(** * YAML and TOML: repeated keys are refused *)
Lemma settle_other_entries : forall f l m, f <> Json -> settle_entries f l = Ok m -> m = l /\ forall a k v b k' v' c, l = a ++ (k, v) :: b ++ (k', v') :: c -> fvalue_eqb f k k' = false.
Proof.
  intros f l m NJ. unfold settle_entries. revert m. induction l as [|[k v] l IH] using rev_ind; intros m H.
  - cbn in H. assert (m = []) as -> by congruence. split; auto. intros [|x a] * E; discriminate E.
  - rewrite fold_left_app in H. cbn [fold_left fst snd] in H. apply bind_ok in H. destruct H as (m0 & E & H). destruct (IH m0 E) as [-> D].
    assert (X : existsb (fun kv' => fvalue_eqb f (fst kv') k) l = false /\ m = l ++ [(k, v)]). { destruct f; [|congruence|]; destruct (existsb _ l); try discriminate H; split; congruence. }
    destruct X as [X ->]. split; auto. intros a k1 v1 b k2 v2 c E2. destruct c as [|x c] using rev_ind.
    + rewrite app_comm_cons, app_assoc in E2. apply app_inj_tail in E2. destruct E2 as [-> E3]. injection E3 as <- <-. destruct (fvalue_eqb f k1 k) eqn:Q; auto. assert (Y : existsb (fun kv' => fvalue_eqb f (fst kv') k) (a ++ (k1, v1) :: b) = true) by (apply existsb_exists; exists (k1, v1); split; auto; apply in_or_app; right; now left). congruence.
    + clear IHc. assert (E3 : l ++ [(k, v)] = (a ++ (k1, v1) :: b ++ (k2, v2) :: c) ++ [x]) by (rewrite E2, <- !app_assoc; cbn [app]; do 2 f_equal; now rewrite <- app_assoc). apply app_inj_tail in E3. destruct E3 as [E3 _]. exact (D _ _ _ _ _ _ _ E3).
Qed.
Lemma settle_other : forall f v v', f <> Json -> settle f v = Ok v' -> v' = v /\ keys_differ f v.
Proof.
  intros f v v' NJ. revert v'. induction v as [m IH|l IH|s|b|n| |tg v IH|s] using fvalue_ind_all; cbn [settle]; intros v' H; try (split; [congruence|apply kd_scalar; exact I]).
  - apply bind_ok in H. destruct H as (l & E & H). apply bind_ok in H. destruct H as (m' & E' & H). assert (v' = FMap m') as -> by congruence. apply mapM_ok in E. rewrite Forall_forall in IH.
    assert (G : l = m /\ forall k v, In (k, v) m -> keys_differ f k /\ keys_differ f v).
    { clear -E IH. induction E as [|[k v] y m l Q E IHE]; [split; [auto|intros k v []]|]. destruct IHE as [-> K]; [intros x I; apply IH; now right|]. cbn [fst snd] in Q. apply bind_ok in Q. destruct Q as (k' & QK & Q). apply bind_ok in Q. destruct Q as (x' & QX & Q). destruct (IH (k, v) (or_introl eq_refl)) as [IK IV]. cbn [fst snd] in *. destruct (IK _ QK) as [-> DK]. destruct (IV _ QX) as [-> DV]. split; [congruence|]. intros k1 v1 [I|I]; [injection I as <- <-; auto|auto]. }
    destruct G as [-> G]. destruct (settle_other_entries f m m' NJ E') as [-> D]. split; auto. now apply kd_map.
  - apply bind_ok in H. destruct H as (l' & E & H). assert (v' = FSeq l') as -> by congruence. apply mapM_ok in E. rewrite Forall_forall in IH.
    assert (G : l' = l /\ forall v, In v l -> keys_differ f v).
    { clear -E IH. induction E as [|v y m l Q E IHE]; [split; [auto|intros v []]|]. destruct IHE as [-> K]; [intros x I; apply IH; now right|]. destruct (IH v (or_introl eq_refl) _ Q) as [-> D]. split; auto. intros x [<-|I]; auto. }
    destruct G as [-> G]. split; auto. now apply kd_seq.
  - apply bind_ok in H. destruct H as (x & E & H). destruct (IH _ E) as [-> D]. split; [congruence|]. now apply kd_tagged.
Qed.
Lemma settle_map_other : forall f m m', f <> Json -> settle_map f m = Ok m' -> m' = m /\ keys_differ f (FMap m).
Proof. intros f m m' NJ H. unfold settle_map in H. apply bind_ok in H. destruct H as (v & E & H). destruct (settle_other f _ _ NJ E) as [-> D]. split; [congruence|auto]. Qed.
