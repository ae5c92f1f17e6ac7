(** C77: JSON text is read as RFC 8259 says.  C78: repeated keys. *)
From Coq Require Import QArith Lia.
From Verif.Model Require Import Document Json.
From Verif.Proofs Require Import BytesFacts ValueFacts FormatFacts DocumentFacts JsonNumber JsonFacts JsonGrammar JsonTotal RepeatFacts.
From Verif.Spec Require Import SpecJsonText.
From Verif.Props Require Import ExWorld.
Close Scope Q_scope.
Local Open Scope nat_scope.

(** * C77 *)

(** Whatever is accepted is JSON text, and the document is what the text says.  Texts are shorter than a GiB. *)
Theorem C77_read : forall s m, (Z.of_nat (length s) < 2 ^ 30)%Z -> json_read s = Ok m -> json_says s m /\ nesting (FMap m) <= 127.
Proof. exact document_meant. Qed.

(** Every JSON text of an object is accepted that is not nested deeper than 127 levels and has no floats at the end of the range. *)
Theorem C77_accepts : forall s m, (Z.of_nat (length s) < 2 ^ 30)%Z -> json_says s m -> nesting (FMap m) <= 127 -> floats_in_reach (FMap m) ->
  exists m', json_read s = Ok m' /\ alike (FMap m) (FMap m').
Proof. intros s m S J N F. destruct (document_reads s m S J N F) as (m' & R & E). exists m'. split; [exact R|]. now apply al_map. Qed.

(** No text aborts: it is a document or an error. *)
Theorem C77_total : forall s, (exists m, json_read s = Ok m) \/ json_read s = Err ESerialization.
Proof. exact json_total. Qed.
Print Assumptions C77_total.
(** A text that is not JSON is refused. *)
Theorem C77_refused : forall s, (Z.of_nat (length s) < 2 ^ 30)%Z -> (forall m, ~ json_says s m) -> json_read s = Err ESerialization.
Proof. intros s S N. destruct (json_total s) as [[m R]|R]; [|exact R]. destruct (N m). exact (proj1 (C77_read s m S R)). Qed.
Print Assumptions C77_refused.

(** Without floats, the text has one meaning and that is what is read. *)
Lemma without_same : forall v v', without_floats v -> alike v v' -> v' = v.
Proof.
  induction v as [m IH|l IH|s|b|n| |tg v IH|s] using fvalue_ind'; intros v' W A; inversion A as [x E1 E2|neg d k x y A1 A2 E1 E2|l0 l' F E1 E2|m0 m' F E1 E2]; subst; auto.
  - f_equal. cbn [without_floats] in W. rewrite all_of in W. clear A. induction F as [|[k v] [k' v'] m m' [K V] F IHF]; auto. inversion IH; inversion W; subst. cbn [fst snd] in *. subst k'. f_equal; [f_equal; auto|auto].
  - f_equal. cbn [without_floats] in W. rewrite all_of in W. clear A. induction F as [|v v' m m' V F IHF]; auto. inversion IH; inversion W; subst. f_equal; auto.
  - destruct W.
Qed.
Lemma without_reach : forall v, without_floats v -> floats_in_reach v.
Proof.
  induction v as [m IH|l IH|s|b|[z|x]| |tg v IH|s] using fvalue_ind'; cbn [without_floats floats_in_reach]; auto; try tauto; rewrite !all_of, !Forall_forall in *; auto.
Qed.
Theorem C77_exact : forall s m, (Z.of_nat (length s) < 2 ^ 30)%Z -> json_says s m -> nesting (FMap m) <= 127 -> without_floats (FMap m) -> json_read s = Ok m.
Proof.
  intros s m S J N W. destruct (C77_accepts s m S J N (without_reach _ W)) as (m' & R & A). apply without_same in A; auto. assert (m' = m) as <- by congruence. exact R.
Qed.
Theorem C77_one_meaning : forall s m m', (Z.of_nat (length s) < 2 ^ 30)%Z -> json_says s m -> json_says s m' -> nesting (FMap m) <= 127 -> without_floats (FMap m) ->
  nesting (FMap m') <= 127 -> floats_in_reach (FMap m') -> alike (FMap m') (FMap m).
Proof.
  intros s m m' S J J' N W N' F'. pose proof (C77_exact s m S J N W) as R. destruct (C77_accepts s m' S J' N' F') as (m2 & R2 & A). assert (m2 = m) as -> by congruence. exact A.
Qed.

(** White space, escapes, a surrogate pair, numbers of every form. *)
Definition txt_text : bytes := Eval vm_compute in
  [" "%byte; x0a] ++ lit "{ ""a\u00e9\n"" : [1 ,-20,3.25e-1, -0, 18446744073709551616,{}] ,""\uD83D\uDE00"":null,""a"":true,""a"":""\/""}" ++ [x0d; x09].
Definition txt_doc : fmap := Eval vm_compute in get [] (json_read txt_text).
Example C77_read_witness : json_read txt_text = Ok txt_doc.
Proof. by_vm. Qed.
Example C77_accepts_witness : json_says txt_text txt_doc /\ nesting (FMap txt_doc) = 3 /\ floats_in_reach (FMap txt_doc).
Proof.
  split; [apply (proj1 (C77_read txt_text txt_doc ltac:(vm_compute; reflexivity) C77_read_witness))|]. split; [reflexivity|]. cbn. repeat split; vm_compute; discriminate.
Qed.
(** What is not JSON is refused: a comma too many, a missing quote, leading zeros, comments, half a surrogate pair, control characters, other
    numbers, other values at the top, text after the end. *)
Definition bad_texts : list bytes := Eval vm_compute in map lit
  ["{""a"":1,}"; "{a:1}"; "{""a"":01}"; "{""a"":1}//"; "{""a"":""\ud800""}"; "{""a"":+1}"; "{""a"":.5}"; "{""a"":1.}"; "{""a"":NaN}"; "{""a"":1e}"; "{""a"":1e400}"; "[1]"; "{}{}"; "{""a"":[1 2]}"; "{'a':1}"; ""]%string
  ++ [lit "{""a"":""" ++ [x0a] ++ lit """}"].
Example C77_refused_witness : map json_read bad_texts = repeat (Err ESerialization) 17.
Proof. by_vm. Qed.

(** * C78 *)

(** Of entries of a JSON object with the same name the last value is kept, in the place of the first, at every depth.  The others are lost
    without an error. *)
Theorem C78_json : forall cd s, (Z.of_nat (length s) < 2 ^ 30)%Z ->
  (forall m, read_map (with_json cd) Json s = Ok m -> exists es, json_says s es /\ last_wins (FMap es) (FMap m))
  /\ (forall es, json_says s es -> nesting (FMap es) <= 127 -> without_floats (FMap es) -> exists m, read_map (with_json cd) Json s = Ok m /\ last_wins (FMap es) (FMap m)).
Proof.
  intros cd s S. assert (X : read_map (with_json cd) Json s = let* es := json_read s in settle_map Json es) by (unfold read_map, with_json, cd_read; reflexivity). rewrite X. clear X. split.
  - intros m H. apply bind_ok in H. destruct H as (es & R & H). destruct (C77_read s es S R) as [J _]. exists es. split; [exact J|].
    assert (L : json_like (FMap es)) by (destruct J as (w & t & w' & _ & V & _); exact (proj1 says_json_like t _ V)).
    destruct (settle_map_json es L) as (m' & E & W). assert (m' = m) as <- by congruence. exact W.
  - intros es J N W. rewrite (C77_exact s es S J N W). cbn [bind].
    assert (L : json_like (FMap es)) by (destruct J as (w & t & w' & _ & V & _); exact (proj1 says_json_like t _ V)). exact (settle_map_json es L).
Qed.
(** In YAML and TOML nothing is lost: a document is taken as it is in the text, or refused if keys are repeated. *)
Theorem C78_others : forall cd f s es, f <> Json -> cd_read cd f s = Ok es ->
  forall m, read_map cd f s = Ok m -> m = es /\ keys_differ f (FMap es).
Proof. intros cd f s es NJ R m H. unfold read_map in H. rewrite R in H. cbn [bind] in H. now apply settle_map_other. Qed.

Definition twice_text : bytes := Eval vm_compute in lit "{""password"":""old"",""port"":1,""nested"":{""k"":[],""k"":null},""password"":""new""}".
Definition twice_said : fmap := Eval vm_compute in get [] (json_read twice_text).
Definition twice_doc : fmap := Eval vm_compute in get [] (settle_map Json twice_said).
Example twice_read : json_read twice_text = Ok twice_said.
Proof. by_vm. Qed.
Example twice_settled : settle_map Json twice_said = Ok twice_doc.
Proof. by_vm. Qed.
(** An entry of the text that is in no part of the document. *)
Example C78_json_witness : forall cd, json_says twice_text twice_said /\ read_map (with_json cd) Json twice_text = Ok twice_doc
  /\ In (FStr (lit "password"), FStr (lit "old")) twice_said /\ ~ In (FStr (lit "old")) (map snd twice_doc) /\ map fst twice_doc = map FStr [lit "password"; lit "port"; lit "nested"].
Proof.
  intro cd. split; [apply (proj1 (C77_read twice_text twice_said ltac:(vm_compute; reflexivity) twice_read))|]. split.
  - assert (X : read_map (with_json cd) Json twice_text = let* es := json_read twice_text in settle_map Json es) by (unfold read_map, with_json, cd_read; reflexivity). rewrite X, twice_read. exact twice_settled.
  - split; [vm_compute; auto|]. split; [vm_compute; intuition discriminate|reflexivity].
Qed.
Example C78_others_witness : settle_map Yaml twice_said = Err EDuplicateField /\ settle_map Toml twice_doc = Ok twice_doc.
Proof. split; by_vm. Qed.
