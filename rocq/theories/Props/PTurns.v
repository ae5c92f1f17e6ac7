(** C80: commands that take turns on one file act as one after the other. *)
From Coq Require Import Permutation.
From Verif.Model Require Import Script Json Chrono.
From Verif.Spec Require Import SpecConcurrent SpecJson.
From Verif.Proofs Require Import BytesFacts ValueFacts Utf8Facts DocumentFacts ScriptFacts CliRun CliDoc Concurrent SameFile Turns JsonFacts.
From Verif.Props Require Import PMap PFormat ExWorld ExCodec PDocument PCli PCliDoc PConcurrent PJson.
Open Scope byte_scope.
Local Open Scope nat_scope.

(** If no command reads [p] while another one that has read it is still running, then there is an order in which the commands, run one after the
    other, have the same outcomes, print the same and leave the same files. *)
Theorem C80_serial : forall re tp ag cd fs js p l M, apart_but p js -> (forall j, In j js -> os_temp (jb_os j) <> p /\ ~ config_candidate (jb_os j) (config_path (jb_command j)) p) ->
  machine_run (start re tp ag cd fs js) l = M -> taking_turns p None (start re tp ag cd fs js) l -> all_ended M ->
  exists order rs fs', Permutation order (seq 0 (length js)) /\ Forall2 (came_to js M) order rs /\ one_after_another re tp ag cd fs rs fs' /\ forall q, mc_files M q = fs' q.
Proof. intros re tp ag cd fs js p l M AP H RU T AE. eapply serial; eauto; intros j J; now apply H. Qed.
Print Assumptions C80_serial.

Section Worlds.
  Context (re : regex_engine) (tp : tape) (ag : age_crate) (cd : codec) (W : env -> Prop) (g : f64 -> f64).
  Context (AL : age_law ag) (KL : kms_law W) (TL : time_law cd) (PW : plain_world ag W).
  Notation age_keys ef := (map u_key (rc_age (md_recipients (fl_meta ef)))).
  Notation kms_keys ef := (map u_key (rc_kms (md_recipients (fl_meta ef)))).
  (** A job that adds keys to [p]. *)
  Definition adds (p : bytes) (f : fmt) (a : key_args) (j : job) : Prop :=
    jb_command j = AddKeys a /\ ka_file a = p /\ get_format (Some p) (ka_format a) = Ok f /\ plain_keys ag (ka_keys a) /\ W (os_env (jb_os j)) /\ no_failures (jb_os j) /\ os_temp (jb_os j) <> p.

  Lemma added_all : forall p f m, codec_law cd g f -> forall fs rs fs', one_after_another re tp ag cd fs rs fs' -> (forall r, In r rs -> exists a, adds p f a (rs_job r)) ->
    forall n t ef, history re tp ag cd W g p f m (fresh fs n) -> fs p = Content t -> read_efile (re_valid re) ag cd f t = Ok ef ->
    exists t' ef', fs' p = Content t' /\ read_efile (re_valid re) ag cd f t' = Ok ef' /\ history re tp ag cd W g p f m (fresh fs' n)
    /\ (forall k, In k (age_keys ef') <-> In k (age_keys ef) \/ exists r a, In r rs /\ rs_outcome r = Ok tt /\ jb_command (rs_job r) = AddKeys a /\ In k (ks_age (ka_keys a)))
    /\ (forall k, In k (kms_keys ef') <-> In k (kms_keys ef) \/ exists r a, In r rs /\ rs_outcome r = Ok tt /\ jb_command (rs_job r) = AddKeys a /\ In k (ks_kms (ka_keys a))).
  Proof.
    intros p f m CL fs rs fs' H. induction H as [fs|fs r s' rs fs' RU OU H IH]; intros A n t ef HI F R.
    - exists t, ef. split; auto. split; auto. split; auto. split; intro k; (split; [auto|intros [X|(r & _ & [] & _)]; exact X]).
    - destruct (A r (or_introl eq_refl)) as (a & JC & KF & GF & PK & WE & NF & NT). set (j := rs_job r) in *.
      assert (dm : exists dm, dec_map_to_internal f m = Ok dm). { destruct (history_holds re tp ag cd W g AL KL TL PW p f m _ CL HI) as (? & ? & ? & dm & _ & _ & _ & D & _). eauto. } destruct dm as (dm & D).
      assert (HJ : history re tp ag cd W g p f m (fresh fs (jb_draws j))) by (eapply hi_more; [exact HI|exact D|]; eapply seq_elsewhere; [apply seq_none|reflexivity]).
      rewrite JC in RU. assert (H' : history re tp ag cd W g p f m (fresh (sy_file s') n)).
      { eapply hi_more; [exact HJ|exact D|]. eapply seq_elsewhere; [eapply seq_run with (O := jb_os j) (c := AddKeys a); [apply seq_none| | | | |exact RU]; auto|reflexivity]. apply kd_add; auto. intros f' E. congruence. }
      assert (X : exists t1 ef1, sy_file s' p = Content t1 /\ read_efile (re_valid re) ag cd f t1 = Ok ef1
        /\ (forall k, In k (age_keys ef1) <-> In k (age_keys ef) \/ rs_outcome r = Ok tt /\ In k (ks_age (ka_keys a))) /\ (forall k, In k (kms_keys ef1) <-> In k (kms_keys ef) \/ rs_outcome r = Ok tt /\ In k (ks_kms (ka_keys a)))).
      { assert (OD : rs_outcome r = Ok tt \/ rs_outcome r <> Ok tt) by (destruct (rs_outcome r) as [[]| |]; [now left|right; discriminate|right; discriminate]). destruct OD as [OK|NO].
        - rewrite OK in RU. destruct (C63_add_partial re tp ag cd W g AL KL TL PW (jb_os j) a p f m (fresh fs (jb_draws j)) s' t ef CL HJ WE NF NT KF GF PK F R RU) as (t1 & ef1 & F1 & R1 & _ & K1 & K2 & _).
          exists t1, ef1. split; auto. split; auto. split; intro k; [rewrite K1|rewrite K2]; tauto.
        - destruct (C36_untouched _ _ _ _ _ _ _ _ _ NF RU NO) as [_ U]. exists t, ef. split; [rewrite U; auto|]. split; auto. split; intro k; tauto. }
      destruct X as (t1 & ef1 & F1 & R1 & K1 & K2). destruct (IH (fun r I => A r (or_intror I)) n t1 ef1 H' F1 R1) as (t' & ef' & F' & R' & HI' & G1 & G2). exists t', ef'. split; auto. split; auto. split; auto. split; intro k.
      + rewrite G1, K1. split.
        * intros [[X|[X Y]]|(r' & a' & I & X)]; [now left|right; exists r, a; auto 6 using in_eq|right; exists r', a'; split; [now right|exact X]].
        * intros [X|(r' & a' & [<-|I] & X & C & Y)]; [tauto| |right; exists r', a'; auto]. left. right. split; auto. fold j in C. assert (a' = a) by congruence. now subst.
      + rewrite G2, K2. split.
        * intros [[X|[X Y]]|(r' & a' & I & X)]; [now left|right; exists r, a; auto 6 using in_eq|right; exists r', a'; split; [now right|exact X]].
        * intros [X|(r' & a' & [<-|I] & X & C & Y)]; [tauto| |right; exists r', a'; auto]. left. right. split; auto. fold j in C. assert (a' = a) by congruence. now subst.
  Qed.

  (** Keys added at the same time by commands that take turns: none is lost.  Documents and recipients as in C55 and C63. *)
  Theorem C80_added : forall p f m fs js l M n t ef, codec_law cd g f -> history re tp ag cd W g p f m (fresh fs n) -> fs p = Content t -> read_efile (re_valid re) ag cd f t = Ok ef ->
    (forall j, In j js -> (exists a, adds p f a j) /\ ~ config_candidate (jb_os j) None p) ->
    machine_run (start re tp ag cd fs js) l = M -> taking_turns p None (start re tp ag cd fs js) l -> all_ended M ->
    exists t' ef', mc_files M p = Content t' /\ read_efile (re_valid re) ag cd f t' = Ok ef' /\ decrypts_to re ag cd W f t' ef' (normal_doc m)
    /\ (forall k, In k (age_keys ef') <-> In k (age_keys ef) \/ exists i j x a, nth_error js i = Some j /\ nth_error (mc_procs M) i = Some x /\ ended x = Some (Ok tt) /\ jb_command j = AddKeys a /\ In k (ks_age (ka_keys a)))
    /\ (forall k, In k (kms_keys ef') <-> In k (kms_keys ef) \/ exists i j x a, nth_error js i = Some j /\ nth_error (mc_procs M) i = Some x /\ ended x = Some (Ok tt) /\ jb_command j = AddKeys a /\ In k (ks_kms (ka_keys a))).
  Proof.
    intros p f m fs js l M n t ef CL HI F R JS RU T AE.
    assert (AP : apart_but p js).
    { intros i k a b q N A B C NQ. exfalso. destruct (JS a (nth_error_In _ _ A)) as ((x & JC & KF & _) & _). rewrite JC in C. destruct C as [C|((e & E) & _)]; [|discriminate]. cbn [output_file] in C. congruence. }
    assert (TC : forall j, In j js -> os_temp (jb_os j) <> p /\ ~ config_candidate (jb_os j) (config_path (jb_command j)) p).
    { intros j J. destruct (JS j J) as ((a & JC & _ & _ & _ & _ & _ & NT) & NC). split; auto. rewrite JC. exact NC. }
    destruct (C80_serial re tp ag cd fs js p l M AP TC RU T AE) as (order & rs & fs' & PE & CT & OA & FS).
    assert (CI : forall r, In r rs -> exists i, came_to js M i r).
    { clear -CT. induction CT as [|i r order rs C CT IH]; intros r' I; [destruct I|destruct I as [<-|I]; eauto]. }
    assert (IC : forall i, In i order -> exists r, In r rs /\ came_to js M i r).
    { clear -CT. induction CT as [|i r order rs C CT IH]; intros i' I; [destruct I|destruct I as [<-|I]; [exists r; split; [now left|auto]|]]. destruct (IH i' I) as (r' & I' & C'). exists r'. split; [now right|auto]. }
    destruct (added_all p f m CL fs rs fs' OA) with (n := n) (t := t) (ef := ef) as (t' & ef' & F' & R' & HI' & K1 & K2); auto.
    { intros r I. destruct (CI r I) as (i & J & _). destruct (JS _ (nth_error_In _ _ J)) as (X & _). exact X. }
    exists t', ef'. split; [now rewrite FS|]. split; auto. split.
    { destruct (history_holds re tp ag cd W g AL KL TL PW p f m _ CL HI') as (t2 & ef2 & key & dm & F2 & ST & FD & D & TS & DE). cbn [fresh sy_file] in F2. rewrite F' in F2. injection F2 as <-.
      assert (ef2 = ef') by (destruct ST; congruence). subst ef2. intros E WE CO. eapply decrypts; eauto. }
    assert (G : forall (P : key_args -> Prop), (exists r a, In r rs /\ rs_outcome r = Ok tt /\ jb_command (rs_job r) = AddKeys a /\ P a)
      <-> exists i j x a, nth_error js i = Some j /\ nth_error (mc_procs M) i = Some x /\ ended x = Some (Ok tt) /\ jb_command j = AddKeys a /\ P a).
    { intro P. split.
      - intros (r & a & I & O & C & H). destruct (CI r I) as (i & J & x & X & EN & _). exists i, (rs_job r), x, a. rewrite O in EN. auto 6.
      - intros (i & j & x & a & J & X & EN & C & H). assert (IO : In i order). { apply (Permutation_in _ (Permutation_sym PE)). apply in_seq. split; [apply Nat.le_0_l|]. cbn [plus]. apply nth_error_Some. congruence. }
        destruct (IC i IO) as (r & I & J' & y & Y & EY & _). assert (y = x) by congruence. subst y. assert (rs_job r = j) by congruence. exists r, a. split; auto. split; [congruence|]. split; [congruence|exact H]. }
    split; intro k; [rewrite K1, (G (fun a => In k (ks_age (ka_keys a))))|rewrite K2, (G (fun a => In k (ks_kms (ka_keys a))))]; tauto.
  Qed.
End Worlds.
Print Assumptions C80_added.
(** For JSON with no law assumed of the text format. *)
Theorem C80_json_added : forall re tp ag cd W p m fs js l M n t ef, age_law ag -> kms_law W -> plain_world ag W ->
  history re tp ag (json_codec cd) W json_float p Json m (fresh fs n) -> fs p = Content t -> read_efile (re_valid re) ag (json_codec cd) Json t = Ok ef ->
  (forall j, In j js -> (exists a, adds ag W p Json a j) /\ ~ config_candidate (jb_os j) None p) ->
  machine_run (start re tp ag (json_codec cd) fs js) l = M -> taking_turns p None (start re tp ag (json_codec cd) fs js) l -> all_ended M ->
  exists t' ef', mc_files M p = Content t' /\ read_efile (re_valid re) ag (json_codec cd) Json t' = Ok ef' /\ decrypts_to re ag (json_codec cd) W Json t' ef' (normal_doc m)
  /\ (forall k, In k (map u_key (rc_age (md_recipients (fl_meta ef')))) <-> In k (map u_key (rc_age (md_recipients (fl_meta ef))))
        \/ exists i j x a, nth_error js i = Some j /\ nth_error (mc_procs M) i = Some x /\ ended x = Some (Ok tt) /\ jb_command j = AddKeys a /\ In k (ks_age (ka_keys a)))
  /\ (forall k, In k (map u_key (rc_kms (md_recipients (fl_meta ef')))) <-> In k (map u_key (rc_kms (md_recipients (fl_meta ef))))
        \/ exists i j x a, nth_error js i = Some j /\ nth_error (mc_procs M) i = Some x /\ ended x = Some (Ok tt) /\ jb_command j = AddKeys a /\ In k (ks_kms (ka_keys a))).
Proof. intros re tp ag cd W p m fs js l M n t ef AL KL PW. exact (C80_added re tp ag (json_codec cd) W json_float AL KL (json_codec_time cd) PW p Json m fs js l M n t ef (json_codec_law cd)). Qed.
Print Assumptions C80_json_added.

(** Witness: Carol and Dave are added to the small file by commands that take turns; the second one has begun before the first one ends. *)
Definition turn_schedule : list nat := repeat 1 4 ++ repeat 0 10 ++ repeat 1 6.
Definition turn_text : bytes := Eval vm_compute in text_at (ex_machine ex_files same_jobs turn_schedule) ex_path.
Definition turn_ef : efile := Eval vm_compute in read_back ex_codec Yaml turn_text.
(** A check for [taking_turns]. *)
Definition reads_now (p : bytes) (M : machine) (i : nat) : bool := match nth_error (mc_procs M) i with Some x => match pr_todo x with Ask q _ => bytes_eqb q p | _ => false end | None => false end.
Fixpoint turnwise (p : bytes) (h : option nat) (M : machine) (l : list nat) : bool :=
  match l with
  | [] => true
  | i :: l' =>
      let M' := machine_step M i in
      if reads_now p M i then match h with None => turnwise p (still_running M' i) M' l' | Some _ => false end
      else turnwise p (match h with Some k => still_running M' k | None => None end) M' l'
  end.
Lemma turnwise_spec : forall p l h M, turnwise p h M l = true -> taking_turns p h M l.
Proof.
  intros p. induction l as [|i l IH]; intros h M H; [apply tt_end|]. cbn [turnwise] in H. cbv zeta in H. destruct (reads_now p M i) eqn:R.
  - destruct h; [discriminate|]. unfold reads_now in R. destruct (nth_error (mc_procs M) i) as [x|] eqn:X; [|discriminate]. destruct (pr_todo x) as [|q k| | |] eqn:T; try discriminate. apply bytes_eqb_eq in R. subst q.
    eapply tt_read; [exact X|exists k; exact T|]. apply IH. exact H.
  - assert (N : forall x, nth_error (mc_procs M) i = Some x -> ~ about_to_read p x). { intros x X (k & T). unfold reads_now in R. rewrite X, T, bytes_eqb_refl in R. discriminate. }
    destruct h as [k|]; [apply tt_held|apply tt_free]; auto.
Qed.
Example C80_serial_witness : apart_but ex_path same_jobs /\ taking_turns ex_path None (start ex_re ex_tape toy_age ex_codec ex_files same_jobs) turn_schedule
  /\ map ended (mc_procs (ex_machine ex_files same_jobs turn_schedule)) = [Some (Ok tt); Some (Ok tt)].
Proof.
  split; [exact same_apart|]. assert (OR : turnwise ex_path None (start ex_re ex_tape toy_age ex_codec ex_files same_jobs) turn_schedule = true) by by_vm. split; [exact (turnwise_spec _ _ _ _ OR)|by_vm].
Qed.
Example C80_added_witness : (forall j, In j same_jobs -> (exists a, adds toy_age shown_world ex_path Yaml a j) /\ ~ config_candidate (jb_os j) None ex_path)
  /\ mc_files (ex_machine ex_files same_jobs turn_schedule) ex_path = Content turn_text /\ read_efile (re_valid ex_re) toy_age ex_codec Yaml turn_text = Ok turn_ef
  /\ In ex_carol (map u_key (rc_age (md_recipients (fl_meta turn_ef)))) /\ In ex_dave (map u_key (rc_age (md_recipients (fl_meta turn_ef)))).
Proof.
  split.
  - intros j J. destruct (same_keep j J) as (A & B & C & D & K). split; [|destruct J as [<-|[<-|[]]]; exact D]. destruct J as [<-|[<-|[]]]; eexists; (split; [reflexivity|]); (split; [reflexivity|]); (split; [by_vm|]); (split; [split; [repeat constructor; apply utf8_lit; reflexivity|constructor]|]); auto.
  - split; [by_vm|]. split; [by_vm|]. split; vm_compute; tauto.
Qed.
