(** What was decrypted can be encrypted again: a normalised document is as plain as the document. *)
From Verif.Model Require Import Cli.
From Verif.Spec Require Import SpecCli.
From Verif.Proofs Require Import BytesFacts ValueFacts FormatFacts.
Open Scope byte_scope.

Lemma normal_again : forall v, normal (normal v) = normal v.
Proof.
  induction v as [m IH|l IH|s|b|n| |tg v IH|s] using fvalue_ind'; cbn [normal]; auto; f_equal; rewrite map_map; apply map_ext_Forall; (eapply Forall_impl; [|exact IH]); cbn; intros; congruence.
Qed.
Lemma normal_doc_again : forall m, normal_doc (normal_doc m) = normal_doc m.
Proof. intro m. pose proof (normal_again (FMap m)) as H. cbn [normal] in H. now injection H. Qed.

Lemma normal_fmt : forall f v, fmt_value f v -> fmt_value f (normal v).
Proof.
  intros f v. induction v as [m IH|l IH|s|b|n| |tg v IH|s] using fvalue_ind'; cbn [normal]; intro H; auto.
  - destruct H as [D H]. split; [now rewrite map_map|]. apply each_Forall. apply each_Forall in H. rewrite Forall_map. cbn [fst snd]. rewrite Forall_forall in *. intros kv I. destruct (H kv I). split; auto.
  - cbn [fmt_value] in *. apply each_Forall. apply each_Forall in H. rewrite Forall_map. rewrite Forall_forall in *. auto.
  - apply IH, H.
  - apply H.
Qed.
Lemma mapM_map : forall {A B} (h : A -> outcome B) (n : A -> A) l, Forall (fun x => h (n x) = h x) l -> mapM h (map n l) = mapM h l.
Proof. intros A B h n l H. induction H as [|x l H _ IH]; cbn [map mapM]; auto. now rewrite H, IH. Qed.
Lemma normal_to : forall f v, fmt_value f v -> dec_to_internal f (normal v) = dec_to_internal f v.
Proof.
  intros f v. induction v as [m IH|l IH|s|b|n| |tg v IH|s] using fvalue_ind'; cbn [normal]; intro H; auto.
  - cbn [dec_to_internal]. rewrite mapM_map; auto. destruct H as [_ H]. apply each_Forall in H. rewrite Forall_forall in *. intros kv I. cbn [fst snd]. destruct (H kv I). now rewrite IH.
  - cbn [dec_to_internal]. rewrite mapM_map; auto. cbn [fmt_value] in H. apply each_Forall in H. rewrite Forall_forall in *. auto.
  - cbn [dec_to_internal]. apply IH, H.
  - cbn [dec_to_internal]. destruct H as (-> & _ & N). unfold is_toml_null. destruct (bytes_eqb s (lit "null")) eqn:E; auto. apply bytes_eqb_eq in E. contradiction.
Qed.
Lemma normal_depth : forall v, depth (normal v) = depth v.
Proof.
  induction v as [m IH|l IH|s|b|n| |tg v IH|s] using fvalue_ind'; cbn [normal depth]; auto; f_equal; clear - IH; induction IH as [|x l H _ IH]; cbn [map fold_right fst snd]; auto; now rewrite H, IH.
Qed.
Lemma normal_floats : forall v, floats_of (normal v) = floats_of v.
Proof.
  induction v as [m IH|l IH|s|b|n| |tg v IH|s] using fvalue_ind'; cbn [normal floats_of]; auto; clear - IH; induction IH as [|x l H _ IH]; cbn [map flat_map fst snd]; auto; now rewrite H, IH.
Qed.
Lemma normal_table : forall v, fmt_value Toml v -> table_like (normal v) = table_like v.
Proof.
  intros v W. destruct v as [m|l|s|b|n| |tg v|s]; cbn [normal]; auto; [|destruct W; discriminate]. destruct l as [|x l]; auto. cbn [map table_like]. cbn [fmt_value] in W. apply each_Forall in W.
  change (forallb (fun y => match y with FMap _ => true | _ => false end) (map normal (x :: l)) = forallb (fun y => match y with FMap _ => true | _ => false end) (x :: l)).
  induction W as [|y l' H _ IH]; auto. cbn [map forallb]. rewrite IH. f_equal. destruct y; auto. destruct H; discriminate.
Qed.
Lemma normal_first : forall v, fmt_value Toml v -> values_first v -> values_first (normal v).
Proof.
  intros v. induction v as [m IH|l IH|s|b|n| |tg v IH|s] using fvalue_ind'; intros W H; cbn [normal]; auto.
  - cbn [fmt_value] in W. destruct W as [_ W]. apply each_Forall in W. destruct H as [H1 H2]. apply each_Forall in H2. rewrite Forall_forall in *. split.
    + intros a x b y E I. apply map_eq_app in E. destruct E as (a' & m' & -> & _ & E). destruct m' as [|x' b']; [discriminate|]. cbn [map] in E. injection E as <- <-. apply in_map_iff in I. destruct I as (y' & <- & I). cbn [fst snd].
      rewrite !normal_table; [apply (H1 a' x' b' y'); auto| |]; apply W; apply in_or_app; right; [now right|now left].
    + apply each_Forall. rewrite Forall_map, Forall_forall. cbn [fst snd]. intros kv I. apply IH; auto. now apply W.
  - pose proof (normal_table (FSeq l) W) as T. cbn [normal] in T. cbn [values_first]. rewrite T. intro Q. specialize (H Q). apply each_Forall. apply each_Forall in H. cbn [fmt_value] in W. apply each_Forall in W. rewrite Forall_forall in IH, W, H. rewrite Forall_map, Forall_forall. intros y I. apply IH; auto. exact (H y I).
  - destruct W; discriminate.
Qed.
Lemma normal_plain : forall g f m dm, plain_document g f m dm -> plain_document g f (normal_doc m) dm.
Proof.
  intros g f m dm (FD & A & D & NS & K). assert (N : FMap (normal_doc m) = normal (FMap m)) by reflexivity. unfold plain_document, fmt_doc in *. rewrite N. split; [now apply normal_fmt|]. split; [|split; [now rewrite normal_depth|split]].
  - rewrite <- A. unfold dec_map_to_internal, normal_doc. rewrite mapM_map; auto. destruct FD as [_ H]. apply each_Forall in H. rewrite Forall_forall in *. intros kv I. cbn [fst snd]. destruct (H kv I). now rewrite normal_to.
  - unfold no_sops, normal_doc in *. now rewrite map_map.
  - unfold kept_by_text in *. destruct f; auto; rewrite N; [intros x; rewrite normal_floats; apply K|now apply normal_first].
Qed.
