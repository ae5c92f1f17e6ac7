(** Commands running at the same time: C70, C71. *)
From Verif.Model Require Import Script.
From Verif.Spec Require Import SpecDocument SpecConcurrent.
From Verif.Proofs Require Import BytesFacts CliRun Concurrent SameFile CliDoc.
From Verif.Props Require Import PMap PFormat ExWorld ExCodec PFile PDocument PCli PCliDoc.
Open Scope byte_scope.
Local Open Scope nat_scope.

(** * C70 *)

(** Commands of which none changes a file that another one looks at or changes: however their steps are interleaved, each of them
    that has ended did what it does alone, with the same outcome, output and files. *)
Theorem C70_alone : forall re tp ag cd fs js l M i j p o, apart js -> machine_run (start re tp ag cd fs js) l = M -> nth_error js i = Some j -> nth_error (mc_procs M) i = Some p -> ended p = Some o ->
  exists s', run_command re tp ag cd (jb_os j) (jb_command j) (fresh fs (jb_draws j)) = (s', o) /\ sy_out (pr_sys p) = sy_out s'
  /\ forall q, looks_at (jb_os j) (jb_command j) q \/ changes (jb_os j) (jb_command j) q -> mc_files M q = sy_file s' q.
Proof. intros re tp ag cd fs js l M i j p o AP. eapply ended_alone; eauto. Qed.
Print Assumptions C70_alone.

(** Files that no command changes stay as they were; whether or not the commands ended. *)
Theorem C70_others : forall re tp ag cd fs js l M q, apart js -> machine_run (start re tp ag cd fs js) l = M -> (forall j, In j js -> ~ changes (jb_os j) (jb_command j) q) -> mc_files M q = fs q.
Proof. intros re tp ag cd fs js l M q AP. eapply others_kept; eauto. Qed.
Print Assumptions C70_others.

Lemma changes_dec : forall O c p, changes O c p \/ ~ changes O c p.
Proof.
  intros O c p. unfold changes, scratch_file. assert (D : forall x y : bytes, {x = y} + {x <> y}) by (apply list_eq_dec; apply Byte.byte_eq_dec).
  destruct (output_file O c) as [q|] eqn:E.
  - destruct (D q p) as [->|N]; [left; now left|]. destruct (D p (os_temp O)) as [T|NT].
    + destruct c as [a|a|a|a|a|a]; try (right; intros [X|((b & B) & _)]; congruence). left. right. split; eauto.
    + right. intros [X|(_ & X)]; congruence.
  - destruct (D p (os_temp O)) as [T|NT].
    + destruct c as [a|a|a|a|a|a]; try (right; intros [X|((b & B) & _)]; congruence). left. right. split; eauto.
    + right. intros [X|(_ & X)]; congruence.
Qed.
Lemma some_changes : forall (js : list job) p, (exists i j, nth_error js i = Some j /\ changes (jb_os j) (jb_command j) p) \/ forall j, In j js -> ~ changes (jb_os j) (jb_command j) p.
Proof.
  induction js as [|j js IH]; intro p; [right; intros j []|]. destruct (changes_dec (jb_os j) (jb_command j) p) as [C|N]; [left; exists 0, j; auto|].
  destruct (IH p) as [(i & k & I & C)|A]; [left; exists (S i), k; auto|right]. intros k [<-|I]; auto.
Qed.
(** The schedule does not matter: two runs in which all commands ended leave the same files, outcomes and output. *)
Theorem C70_schedules : forall re tp ag cd fs js l l' M M', apart js -> machine_run (start re tp ag cd fs js) l = M -> machine_run (start re tp ag cd fs js) l' = M' -> all_ended M -> all_ended M' ->
  (forall q, mc_files M q = mc_files M' q)
  /\ forall i p p', nth_error (mc_procs M) i = Some p -> nth_error (mc_procs M') i = Some p' -> ended p = ended p' /\ sy_out (pr_sys p) = sy_out (pr_sys p').
Proof.
  intros re tp ag cd fs js l l' M M' AP R R' E E'.
  assert (X : forall i p p', nth_error (mc_procs M) i = Some p -> nth_error (mc_procs M') i = Some p' -> ended p = ended p' /\ sy_out (pr_sys p) = sy_out (pr_sys p')
    /\ exists j, nth_error js i = Some j /\ forall q, changes (jb_os j) (jb_command j) q -> mc_files M q = mc_files M' q).
  { intros i p p' P P'. assert (J : exists j, nth_error js i = Some j).
    { destruct (nth_error js i) as [j|] eqn:J; [eauto|]. apply nth_error_None in J. assert (L : i < length (mc_procs M)) by (apply nth_error_Some; congruence). rewrite <- R, run_length in L. cbn [start mc_procs] in L. rewrite map_length in L. exfalso. apply (Nat.lt_irrefl i). eapply Nat.lt_le_trans; eauto. }
    destruct J as (j & J). destruct (ended p) as [o|] eqn:D; [|destruct (E p); auto; eapply nth_error_In; eauto]. destruct (ended p') as [o'|] eqn:D'; [|destruct (E' p'); auto; eapply nth_error_In; eauto].
    destruct (C70_alone _ _ _ _ _ _ _ _ _ _ _ _ AP R J P D) as (s & A & B & C). destruct (C70_alone _ _ _ _ _ _ _ _ _ _ _ _ AP R' J P' D') as (s' & A' & B' & C').
    rewrite A in A'. injection A' as <- <-. split; auto. split; [congruence|]. exists j. split; auto. intros q H. rewrite C, C' by auto. reflexivity. }
  split; [|intros i p p' P P'; destruct (X i p p' P P') as (A & B & _); auto].
  intro q. destruct (some_changes js q) as [(i & j & J & C)|N]; [|rewrite (C70_others _ _ _ _ _ _ _ _ _ AP R N), (C70_others _ _ _ _ _ _ _ _ _ AP R' N); reflexivity].
  assert (L : forall l, i < length (mc_procs (machine_run (start re tp ag cd fs js) l))) by (intro; rewrite run_length; cbn [start mc_procs]; rewrite map_length; apply nth_error_Some; congruence).
  pose proof (L l) as L1. pose proof (L l') as L2. rewrite R in L1. rewrite R' in L2. apply nth_error_Some in L1, L2.
  destruct (nth_error (mc_procs M) i) as [p|] eqn:P; [|congruence]. destruct (nth_error (mc_procs M') i) as [p'|] eqn:P'; [|congruence]. destruct (X i p p' P P') as (_ & _ & j' & J' & H). assert (j' = j) by congruence. subst j'. auto.
Qed.
Print Assumptions C70_schedules.
(** No command waits for another one: from wherever the commands are, they can all end. *)
Theorem C70_ends : forall M, exists l, all_ended (machine_run M l).
Proof. exact completes. Qed.
Print Assumptions C70_ends.

(** Carol is added to two files by commands that take turns. *)
Definition ex_path2 : bytes := lit "/home/u/t.yaml".
Definition add_cmd (who path : bytes) : command := AddKeys {| ka_keys := {| ks_age := [who]; ks_kms := [] |}; ka_format := None; ka_file := path |}.
Definition two_files (p : bytes) : node := if bytes_eqb p ex_path2 then Content small_text else ex_files p.
Definition two_jobs : list job := [{| jb_draws := 0; jb_os := ex_os []; jb_command := add_cmd ex_carol ex_path |}; {| jb_draws := 100; jb_os := ex_os []; jb_command := add_cmd ex_carol ex_path2 |}].
Definition ex_machine (fs : bytes -> node) (js : list job) (l : list nat) : machine := machine_run (start ex_re ex_tape toy_age ex_codec fs js) l.
Definition turns (n : nat) : list nat := concat (repeat [0; 1] n).
Definition text_at (M : machine) (p : bytes) : bytes := match mc_files M p with Content t => t | _ => [] end.
Definition added_text2 : bytes := Eval vm_compute in text_at (ex_machine two_files two_jobs (turns 20)) ex_path2.
Lemma not_config : forall O p, os_cwd O = os_cwd (ex_os []) -> os_config_var O = None -> In p [ex_path; ex_path2] -> ~ config_candidate O None p.
Proof.
  intros O p CW CV I [X|[[_ X]|(_ & _ & cwd & a & d & X & Y & Z)]]; try congruence. rewrite CW in X. injection X as <-.
  destruct a as [|a1 [|a2 [|a3 [|a4 a]]]]; cbn [app] in Y; try discriminate; inversion Y; subst; destruct I as [I|[I|[]]]; discriminate.
Qed.
Example C70_witness : apart two_jobs /\ map ended (mc_procs (ex_machine two_files two_jobs (turns 20))) = [Some (Ok tt); Some (Ok tt)]
  /\ text_at (ex_machine two_files two_jobs (turns 20)) ex_path = added_text /\ text_at (ex_machine two_files two_jobs (turns 20)) ex_path2 = added_text2 /\ added_text2 <> small_text.
Proof.
  split; [|split; [by_vm|split; [by_vm|split; [by_vm|discriminate]]]].
  intros i k a b p N A B C. destruct i as [|[|i]], k as [|[|k]]; try (now destruct N); cbn [nth_error two_jobs] in A, B; try (destruct i; discriminate); try (destruct k; discriminate); injection A as <-; injection B as <-; cbn [jb_os jb_command] in *.
  all: destruct C as [C|((e & E) & _)]; [|discriminate]; cbn [add_cmd output_file ka_file] in C; injection C as <-.
  all: split; [intros [X|[X|((e & E) & _)]]|intros [X|((e & E) & _)]]; try discriminate; revert X; apply not_config; auto; cbn; auto.
Qed.

(** * C71 *)

Section Worlds.
  Context (re : regex_engine) (tp : tape) (ag : age_crate) (cd : codec) (W : env -> Prop) (g : f64 -> f64).
  Context (AL : age_law ag) (KL : kms_law W) (TL : time_law cd) (PW : plain_world ag W).

  Lemma same_config : forall O arg (fs fs' : bytes -> node) rules, (forall q, config_candidate O arg q -> fs q = fs' q) -> configured re ag cd O fs arg rules -> configured re ag cd O fs' arg rules.
  Proof.
    intros O arg fs fs' rules H (src & S & C). exists src. destruct S as [q A|q A V|cwd a d A V CW E NA LO|cwd A V CW LO].
    - split; [now apply src_arg|]. rewrite <- H; auto. now left.
    - split; [now apply src_var|]. rewrite <- H; auto. right. left. auto.
    - assert (CC : forall b e, cwd = b ++ e -> config_candidate O arg (config_in e)) by (intros b e Q; right; right; split; auto; split; auto; exists cwd, b, e; auto).
      split; [|rewrite <- H; auto; eapply CC; eauto]. eapply src_nearest; eauto; [rewrite <- H; auto; eapply CC; eauto|]. intros b e Q L. rewrite <- H; [eapply LO; eauto|eapply CC; eauto].
    - split; auto. eapply src_default; eauto. intros b e Q. rewrite <- H; [eapply LO; eauto|]. right. right. split; auto. split; auto. exists cwd, b, e. auto.
  Qed.
  Lemma same_keeps : forall p f dm O fs fs' c, (forall q, config_candidate O (config_path c) q -> fs q = fs' q) -> keeps_document re ag cd p f dm O fs c -> keeps_document re ag cd p f dm O fs' c.
  Proof.
    intros p f dm O fs fs' c H K. destruct K as [a A B C|a A B|a A B C|a A B C|c A].
    - now apply kd_add.
    - now apply kd_remove.
    - apply kd_refresh; auto. intros rules r CF. apply C. eapply same_config; [|exact CF]. intros q Q. symmetry. now apply H.
    - now apply kd_edit.
    - now apply kd_other.
  Qed.

  (** Commands on one file that holds a document: if nothing comes between the moment a command empties the file and the moment it
      writes it, then the file holds the document after every schedule, although the commands read it at any time.
      Full statement: also if the writes of two commands overlap, which is false ([C71_torn_refuted]), and with the effects of all commands,
      which is false ([C71_lost_refuted]); otherwise as for C55. *)
  Theorem C71_document_partial : forall p f m dm fs js l n, codec_law cd g f -> history re tp ag cd W g p f m (fresh fs n) -> dec_map_to_internal f m = Ok dm ->
    apart_but p js -> (forall j, In j js -> W (os_env (jb_os j)) /\ no_failures (jb_os j) /\ os_temp (jb_os j) <> p /\ ~ config_candidate (jb_os j) (config_path (jb_command j)) p
      /\ keeps_document re ag cd p f dm (jb_os j) fs (jb_command j)) ->
    undisturbed p (start re tp ag cd fs js) l -> (forall x, In x (mc_procs (machine_run (start re tp ag cd fs js) l)) -> ~ mid_write p x) ->
    exists t ef, mc_files (machine_run (start re tp ag cd fs js) l) p = Content t /\ read_efile (re_valid re) ag cd f t = Ok ef /\ decrypts_to re ag cd W f t ef (normal_doc m).
  Proof.
    intros p f m dm fs js l n CL H A AP JS U N. destruct (history_holds re tp ag cd W g AL KL TL PW p f m _ CL H) as (t & ef & key & dm' & F & ST & FD & A' & TS & D).
    rewrite A in A'. injection A' as <-. cbn [fresh sy_file] in F.
    destruct (file_fine re tp ag cd fs js p (fun t => exists ef key, stored re tp ag cd W g f t ef key dm) AP) with (l := l) (t0 := t) as (t' & F' & ef' & key' & ST'); auto.
    - intros j J. now apply JS.
    - intros j J. now apply JS.
    - intros j u s' o J (eu & ku & SU) R. destruct (JS j J) as (WE & NF & NT & NC & KD).
      destruct (step_keeps re tp ag cd W g AL KL TL PW p f dm (jb_os j) (jb_command j) (fresh (put_file p (Content u) fs) (jb_draws j)) s' o u eu ku) as (u' & eu' & ku' & FU & SU'); auto.
      + eapply same_keeps; [|exact KD]. intros q Q. cbn [fresh sy_file]. rewrite put_other; auto. intros ->. auto.
      + cbn [fresh sy_file]. unfold put_file. now rewrite bytes_eqb_refl.
      + exists u'. eauto.
    - eauto.
    - exists t', ef'. split; auto. split; [apply ST'|]. intros E WE CO. eapply decrypts; eauto.
  Qed.
End Worlds.
Print Assumptions C71_document_partial.

(** Carol and Dave are added to the small file at the same time; both commands read it before one of them writes it. *)
Definition ex_dave : bytes := lit "age1dave-the-third-of-his-name".
Definition same_jobs : list job := [{| jb_draws := 0; jb_os := ex_os []; jb_command := add_cmd ex_dave ex_path |}; {| jb_draws := 100; jb_os := ex_os []; jb_command := add_cmd ex_carol ex_path |}].
Definition both_read : list nat := repeat 0 8 ++ repeat 1 8.
Definition one_by_one : list nat := both_read ++ [0; 0; 1; 1].
Definition overlapping : list nat := both_read ++ [0; 1; 0; 1].
Definition lost_text : bytes := Eval vm_compute in text_at (ex_machine ex_files same_jobs one_by_one) ex_path.
Definition lost_ef : efile := Eval vm_compute in read_back ex_codec Yaml lost_text.
Definition torn_text : bytes := Eval vm_compute in text_at (ex_machine ex_files same_jobs overlapping) ex_path.
(** A check for [undisturbed]. *)
Definition mid_writing (p : bytes) (x : proc) : bool := match pr_todo x with Effect (Wrote q _) _ => bytes_eqb q p | _ => false end.
Fixpoint orderly (p : bytes) (M : machine) (l : list nat) : bool :=
  match l with
  | [] => negb (existsb (mid_writing p) (mc_procs M))
  | i :: l' => forallb (fun k => orb (Nat.eqb k i) (match nth_error (mc_procs M) k with Some x => negb (mid_writing p x) | None => true end)) (seq 0 (length (mc_procs M))) && orderly p (machine_step M i) l'
  end.
Lemma mid_writing_spec : forall p x, mid_write p x -> mid_writing p x = true.
Proof. intros p x (t & k & E). unfold mid_writing. rewrite E. apply bytes_eqb_refl. Qed.
Lemma orderly_spec : forall p l M, orderly p M l = true -> undisturbed p M l /\ forall x, In x (mc_procs (machine_run M l)) -> ~ mid_write p x.
Proof.
  intros p. induction l as [|i l IH]; intros M H; cbn [orderly undisturbed] in *.
  - split; [exact Logic.I|]. intros x I W. apply negb_true_iff in H. assert (X : existsb (mid_writing p) (mc_procs M) = true) by (apply existsb_exists; exists x; split; auto using mid_writing_spec). congruence.
  - apply andb_true_iff in H. destruct H as [A B]. destruct (IH _ B) as [U V]. split; [split; auto|exact V]. intros k x K W. rewrite forallb_forall in A. specialize (A k). rewrite K in A.
    assert (I : In k (seq 0 (length (mc_procs M)))) by (apply in_seq; split; [apply Nat.le_0_l|apply nth_error_Some; congruence]). specialize (A I). apply orb_true_iff in A. destruct A as [A|A]; [now apply Nat.eqb_eq|].
    rewrite (mid_writing_spec _ _ W) in A. discriminate.
Qed.
Lemma same_apart : apart_but ex_path same_jobs.
Proof.
  intros i k a b q N A B C NQ. destruct i as [|[|i]]; cbn [nth_error same_jobs] in A; [| |destruct i; discriminate]; injection A as <-; cbn [jb_os jb_command] in *; destruct C as [C|((e & E) & _)]; try discriminate; cbn [add_cmd output_file ka_file] in C; congruence.
Qed.
Lemma same_keep : forall j, In j same_jobs -> shown_world (os_env (jb_os j)) /\ no_failures (jb_os j) /\ os_temp (jb_os j) <> ex_path /\ ~ config_candidate (jb_os j) (config_path (jb_command j)) ex_path
  /\ keeps_document ex_re toy_age ex_codec ex_path Yaml small_dm (jb_os j) ex_files (jb_command j).
Proof.
  assert (FE : forall fmt, Ok Yaml = Ok fmt -> fmt = Yaml) by (intros fmt X; now injection X as <-).
  intros j [<-|[<-|[]]]; cbn [jb_os jb_command]; (split; [exact here_shown|split; [intros h o; reflexivity|split; [discriminate|split; [apply not_config; auto; now left|]]]]); (apply kd_add; [exact FE|reflexivity|split; [|constructor]]); repeat constructor; apply utf8_lit; reflexivity.
Qed.
Example C71_document_witness : apart_but ex_path same_jobs /\ undisturbed ex_path (start ex_re ex_tape toy_age ex_codec ex_files same_jobs) one_by_one
  /\ map ended (mc_procs (ex_machine ex_files same_jobs one_by_one)) = [Some (Ok tt); Some (Ok tt)]
  /\ exists t, decrypt_text ex_re toy_age ex_codec ex_here Yaml lost_text = Ok t /\ read_map ex_codec Yaml t = Ok small_doc.
Proof.
  split; [exact same_apart|]. assert (OR : orderly ex_path (start ex_re ex_tape toy_age ex_codec ex_files same_jobs) one_by_one = true) by by_vm. destruct (orderly_spec _ _ _ OR) as [U V]. split; [exact U|]. split; [by_vm|].
  destruct (C71_document_partial ex_re ex_tape toy_age ex_codec shown_world (fun x => x) toy_age_law shown_kms_law ex_time_law toy_plain_world ex_path Yaml small_doc small_dm ex_files same_jobs one_by_one 0 (ex_codec_law Yaml)
    (small_history (fresh ex_files 0) eq_refl)) as (t & ef & F & R & D); [by_vm|exact same_apart|exact same_keep|exact U|exact V|].
  assert (T : mc_files (machine_run (start ex_re ex_tape toy_age ex_codec ex_files same_jobs) one_by_one) ex_path = Content lost_text) by by_vm. rewrite F in T. injection T as ->.
  assert (RE : ef = lost_ef). { assert (X : read_efile (re_valid ex_re) toy_age ex_codec Yaml lost_text = Ok lost_ef) by by_vm. congruence. } subst ef.
  destruct (D ex_here here_shown) as (t' & DT & RM); [|exists t'; split; [exact DT|exact RM]]. apply open_age with (ids := [ex_alice; ex_bob]) (i := ex_alice); [reflexivity|now left|vm_compute; tauto].
Qed.

(** Both commands report success; Carol can open the file and Dave can not.  One after the other they would have added both. *)
Theorem C71_lost_refuted : exists re tp ag cd fs js l M a b p ef, machine_run (start re tp ag cd fs js) l = M /\ undisturbed p (start re tp ag cd fs js) l /\ map jb_command js = [add_cmd a p; add_cmd b p]
  /\ map ended (mc_procs M) = [Some (Ok tt); Some (Ok tt)] /\ mc_files M p = Content lost_text /\ read_efile (re_valid re) ag cd Yaml lost_text = Ok ef
  /\ In b (map u_key (rc_age (md_recipients (fl_meta ef)))) /\ ~ In a (map u_key (rc_age (md_recipients (fl_meta ef)))).
Proof.
  exists ex_re, ex_tape, toy_age, ex_codec, ex_files, same_jobs, one_by_one, (machine_run (start ex_re ex_tape toy_age ex_codec ex_files same_jobs) one_by_one), ex_dave, ex_carol, ex_path, lost_ef.
  split; [reflexivity|]. split; [assert (OR : orderly ex_path (start ex_re ex_tape toy_age ex_codec ex_files same_jobs) one_by_one = true) by by_vm; exact (proj1 (orderly_spec _ _ _ OR))|]. split; [reflexivity|]. split; [by_vm|]. split; [by_vm|]. split; [by_vm|]. split; [vm_compute; tauto|]. vm_compute. intros H. repeat destruct H as [H|H]; try discriminate H. destruct H.
Qed.
Print Assumptions C71_lost_refuted.

(** The writes overlap: both commands report success and the file can not be read any more. *)
Theorem C71_torn_refuted : exists re tp ag cd fs js l M a b p e, machine_run (start re tp ag cd fs js) l = M /\ apart_but p js /\ map jb_command js = [add_cmd a p; add_cmd b p]
  /\ map ended (mc_procs M) = [Some (Ok tt); Some (Ok tt)] /\ mc_files M p = Content torn_text /\ read_efile (re_valid re) ag cd Yaml torn_text = Err e.
Proof.
  exists ex_re, ex_tape, toy_age, ex_codec, ex_files, same_jobs, overlapping, (machine_run (start ex_re ex_tape toy_age ex_codec ex_files same_jobs) overlapping), ex_dave, ex_carol, ex_path.
  eexists. split; [reflexivity|]. split; [exact same_apart|]. split; [reflexivity|]. split; [by_vm|]. split; [by_vm|]. vm_compute. reflexivity.
Qed.
Print Assumptions C71_torn_refuted.
