(** Commands running at the same time. *)
From Coq Require Import Lia.
From Verif.Model Require Import Script.
From Verif.Spec Require Import SpecConcurrent.
From Verif.Proofs Require Import BytesFacts ScriptFacts CliRun.
Open Scope byte_scope.

(** * What a script touches *)

Definition op_within (W : bytes -> Prop) (o : op) : Prop :=
  match o with Looked _ | Printed _ => True | Opened p | Wrote p _ | MadeTemp p | Edited p _ | Removed p => W p end.
Fixpoint within {A} (L W : bytes -> Prop) (m : script A) : Prop :=
  match m with
  | Finish _ => True
  | Ask p k => L p /\ forall x, within L W (k x)
  | Effect o k => op_within W o /\ forall b, within L W (k b)
  | Note o k => op_within W o /\ within L W k
  | Draw _ k => forall x, within L W (k x)
  end.

Lemma within_mono : forall {A} (L W L' W' : bytes -> Prop) (m : script A), (forall p, L p -> L' p) -> (forall p, W p -> W' p) -> within L W m -> within L' W' m.
Proof.
  intros A L W L' W' m HL HW. assert (X : forall o, op_within W o -> op_within W' o) by (intros []; cbn; auto).
  induction m as [o|p k IH|o k IH|o k IH|f k IH]; cbn [within]; auto; intros [A1 A2]; auto.
Qed.

Section Within.
  Context (L W : bytes -> Prop).
  Lemma within_andthen : forall {A B} (m : script A) (k : A -> script B), within L W m -> (forall a, within L W (k a)) -> within L W (andthen m k).
  Proof.
    intros A B. induction m as [o|p j IH|o j IH|o j IH|f j IH]; intros k H K; cbn [andthen within] in *.
    - destruct o; cbn [within]; auto.
    - destruct H. split; auto.
    - destruct H. split; auto.
    - destruct H. split; auto.
    - auto.
  Qed.
  Lemma within_does : forall o, op_within W o -> within L W (does o).
  Proof. intros o H. split; auto. intros b. exact Logic.I. Qed.
  Lemma within_reads : forall p, L p -> within L W (reads_file p).
  Proof. intros p H. apply within_andthen; [now apply within_does|]. intros _. split; auto. intro x. exact Logic.I. Qed.
  Lemma within_writes : forall p t, W p -> within L W (writes_file p t).
  Proof. intros p t H. apply within_andthen; [now apply within_does|]. intros _. now apply within_does. Qed.
  Lemma within_prints : forall t, within L W (prints t).
  Proof. intro t. now apply within_does. Qed.
  Lemma within_cleanup : forall {A} p (m : script A), W p -> within L W m -> within L W (afterwards p m).
  Proof.
    intros A p m P. induction m as [o|q j IH|o j IH|o j IH|f j IH]; cbn [afterwards within]; intro H.
    - split; auto.
    - destruct H. split; auto.
    - destruct H. split; auto.
    - destruct H. split; auto.
    - auto.
  Qed.
  Lemma within_draws : forall f, within L W (draws f).
  Proof. intros f x. exact Logic.I. Qed.

  Context (re : regex_engine) (tp : tape) (ag : age_crate) (cd : codec) (O : os).
  Lemma within_config : forall p, L p -> within L W (reads_config re ag cd p).
  Proof. intros p H. apply within_andthen; [now apply within_reads|]. intro s. exact Logic.I. Qed.
  Lemma within_climbs : forall dirs, (forall a d, dirs = a ++ d -> L (config_in d)) -> within L W (climbs re ag cd dirs).
  Proof.
    induction dirs as [|d up IH]; intro H; cbn [climbs within]; split; auto; try (now apply (H [])).
    - intros [| |c]; [exact Logic.I| |]; apply within_config; now apply (H []).
    - intros [| |c]; [|apply within_config; now apply (H [])|apply within_config; now apply (H [])]. apply IH. intros a d0 E. apply (H (d :: a)). now rewrite E.
  Qed.
  Lemma within_retrieves : forall arg, (forall p, config_candidate O arg p -> L p) -> within L W (retrieves re ag cd O arg).
  Proof.
    intros arg H. unfold retrieves. destruct arg as [p|]; [apply within_config; apply H; now left|]. destruct (os_config_var O) as [p|] eqn:V; [apply within_config; apply H; right; left; auto|].
    destruct (os_cwd O) as [cwd|] eqn:C; [|exact Logic.I]. apply within_climbs. intros a d E. apply H. right. right. split; auto. split; auto. exists cwd, a, d. auto.
  Qed.
  Lemma within_input : forall path i, (forall p, path = Some p -> L p) -> within L W (takes_input O path i).
  Proof.
    intros path i H. assert (P : forall p, L p -> within L W (takes_path O p)).
    { intros p Lp. unfold takes_path. destruct (os_stdin O); [exact Logic.I|now apply within_reads]. }
    unfold takes_input. destruct (is_set i), path; try exact Logic.I; auto. destruct (os_stdin O); exact Logic.I.
  Qed.
  Lemma within_delivers : forall i path t, (forall p, is_set i = true -> path = Some p -> W p) -> within L W (delivers i path t).
  Proof. intros i path t H. unfold delivers. destruct (is_set i); [|apply within_prints]. destruct path; [apply within_writes; auto|exact Logic.I]. Qed.
  Lemma within_attempts : forall f l, L (os_temp O) -> W (os_temp O) -> within L W (attempts_script cd O f l).
  Proof.
    intros f l LT WT. induction l as [|a l IH]; [exact Logic.I|]. cbn [attempts_script within]. split; auto. intros x. destruct (a x) as [|c|c k]; [exact Logic.I|split; [exact WT|exact Logic.I]|].
    split; [exact WT|]. apply within_andthen; [now apply within_reads|]. intro t. destruct (read_map cd f t); [exact Logic.I| |exact Logic.I]. destruct k; [exact IH|exact Logic.I|exact Logic.I].
  Qed.
  Lemma within_edit : forall a, (forall p, in_file a = Some p -> L p) -> (forall p, os_stdin O = None -> in_file a = Some p -> W p) -> L (os_temp O) -> W (os_temp O) -> within L W (edit_script re tp ag cd O a).
  Proof.
    intros a HL HW LT WT. unfold edit_script. apply within_andthen; [exact Logic.I|]. intro f. apply within_andthen; [now apply within_input|]. intro s. apply within_andthen; [exact Logic.I|]. intro ef.
    apply within_andthen; [exact Logic.I|]. intro d. apply within_andthen; [now apply within_does|]. intros _. apply within_andthen.
    - apply within_cleanup; auto. apply within_andthen; [exact Logic.I|]. intro t. apply within_andthen; [now apply within_writes|]. intros _. apply within_andthen; [exact Logic.I|]. intro e. now apply within_attempts.
    - intros [m|]; [|exact Logic.I]. apply within_andthen; [apply within_draws|]. intro t. destruct (os_stdin O) eqn:I; [apply within_prints|]. destruct (in_file a) as [p|] eqn:F; [|exact Logic.I]. apply within_writes. auto.
  Qed.
End Within.

Lemma within_command : forall re tp ag cd O c, within (looks_at O c) (changes O c) (command_script re tp ag cd O c).
Proof.
  intros re tp ag cd O c. unfold command_script. apply within_andthen; [apply within_retrieves; intros p H; right; now left|]. intro rules.
  destruct c as [a|a|a|a|a|a]; cbn [merge_config].
  - assert (F : forall r, ea_input (merge_encrypt re r a) = ea_input a /\ ea_in_place (merge_encrypt re r a) = ea_in_place a) by (intro r; unfold merge_encrypt; destruct matching_rule; auto).
    destruct (F rules) as [F1 F2]. unfold encrypt_script. rewrite F1, F2. apply within_andthen; [exact Logic.I|]. intro f. apply within_andthen; [apply within_input; intros p E; now left|]. intro s.
    apply within_andthen; [apply within_draws|]. intro t. apply within_delivers. intros p I E. left. cbn [output_file]. now rewrite I.
  - unfold decrypt_script. apply within_andthen; [exact Logic.I|]. intro f. apply within_andthen; [apply within_input; intros p E; now left|]. intro s.
    apply within_andthen; [exact Logic.I|]. intro t. apply within_delivers. intros p I E. left. cbn [output_file]. now rewrite I.
  - apply within_edit.
    + intros p E. now left.
    + intros p I E. left. cbn [output_file]. now rewrite I.
    + right. right. split; eauto.
    + right. split; eauto.
  - unfold keys_script. apply within_andthen; [exact Logic.I|]. intro f. apply within_andthen; [apply within_input; intros p E; now left|]. intro s.
    apply within_andthen; [apply within_draws|]. intro t. apply within_writes. now left.
  - unfold keys_script. apply within_andthen; [exact Logic.I|]. intro f. apply within_andthen; [apply within_input; intros p E; now left|]. intro s.
    apply within_andthen; [apply within_draws|]. intro t. apply within_writes. now left.
  - unfold refresh_script. apply within_andthen; [exact Logic.I|]. intro f. apply within_andthen; [apply within_input; intros p E; now left|]. intro s.
    apply within_andthen; [apply within_retrieves; intros p H; right; now left|]. intro rules'. apply within_andthen; [apply within_draws|]. intro t. apply within_delivers. intros p I E. left. cbn [output_file]. now rewrite I.
Qed.

(** * Steps *)

Definition similar (U : bytes -> Prop) (s s' : sys) : Prop :=
  (forall p, U p -> sy_file s p = sy_file s' p) /\ sy_out s = sy_out s' /\ sy_ops s = sy_ops s' /\ sy_draws s = sy_draws s'.
Lemma similar_done : forall (U W : bytes -> Prop) o s s', (forall p, W p -> U p) -> op_within W o -> similar U s s' -> similar U (done o s) (done o s').
Proof.
  intros U W o s s' WU H (F & A & B & C). split; [|cbn [done sy_out sy_ops sy_draws]; rewrite A, B; auto].
  intros p P. cbn [done sy_file]. destruct o; cbn [apply_op op_within] in *; auto; unfold put_file; destruct (bytes_eqb p p0) eqn:E; auto. now rewrite (F p0 (WU _ H)).
Qed.
Lemma done_frame : forall (W : bytes -> Prop) o s p, op_within W o -> ~ W p -> sy_file (done o s) p = sy_file s p.
Proof.
  intros W o s p H N. cbn [done sy_file]. destruct o as [q|q|q t|q|q c|q|t]; cbn [apply_op op_within] in *; auto; apply put_other; intros ->; auto.
Qed.
Lemma perform_similar : forall (U W : bytes -> Prop) O o s s', (forall p, W p -> U p) -> op_within W o -> similar U s s' ->
  similar U (fst (perform O o s)) (fst (perform O o s')) /\ snd (perform O o s) = snd (perform O o s').
Proof.
  intros U W O o s s' WU H S. unfold perform. replace (sy_ops s') with (sy_ops s) by apply S. destruct (os_io O (sy_ops s) o) as [k|]; [|split; [eapply similar_done; eauto|reflexivity]].
  destruct o; cbn [fst snd]; auto; split; auto; eapply similar_done; eauto; exact Logic.I.
Qed.
Lemma perform_frame : forall (W : bytes -> Prop) O o s p, op_within W o -> ~ W p -> sy_file (fst (perform O o s)) p = sy_file s p.
Proof.
  intros W O o s p H N. unfold perform. destruct (os_io O (sy_ops s) o) as [k|]; [|eapply done_frame; eauto]. destruct o; cbn [fst]; auto; eapply done_frame; eauto.
Qed.

(** What the next step touches. *)
Definition node_within {A} (L W : bytes -> Prop) (m : script A) : Prop :=
  match m with Ask p _ => L p | Effect o _ | Note o _ => op_within W o | _ => True end.
Lemma within_node : forall {A} L W (m : script A), within L W m -> node_within L W m.
Proof. intros A L W [o|p k|o k|o k|f k] H; cbn in *; tauto. Qed.

Section Steps.
  Context (U L W : bytes -> Prop) (LU : forall p, L p -> U p) (WU : forall p, W p -> U p) (O : os).
  Lemma step_similar : forall {A} (m : script A) s s', node_within L W m -> similar U s s' -> similar U (fst (step O m s)) (fst (step O m s')) /\ snd (step O m s) = snd (step O m s').
  Proof.
    intros A m s s' H S. destruct m as [o|p k|o k|o k|f k]; cbn [step node_within] in *.
    - auto.
    - split; auto. cbn [snd]. destruct S as (F & _). now rewrite (F p (LU _ H)).
    - destruct (perform_similar U W O o s s' WU H S) as [X Y]. destruct (perform O o s) as [s1 r], (perform O o s') as [s1' r']. cbn [fst snd] in *. now subst.
    - split; auto. eapply similar_done; [exact WU|exact H|exact S].
    - replace (sy_draws s') with (sy_draws s) by apply S. destruct (f (sy_draws s)) as [[t n]|e|]; auto. split; auto. destruct S as (F & X & Y & _). repeat split; auto.
  Qed.
  Lemma step_within : forall {A} (m : script A) s, within L W m -> within L W (snd (step O m s)).
  Proof.
    intros A m s H. destruct m as [o|p k|o k|o k|f k]; cbn [step within] in *; try apply H.
    - destruct (perform O o s) as [s' r]. apply H.
    - destruct (f (sy_draws s)) as [[t n]|e|]; apply H.
  Qed.
  Lemma step_frame : forall {A} (m : script A) s p, node_within L W m -> ~ W p -> sy_file (fst (step O m s)) p = sy_file s p.
  Proof.
    intros A m s p H N. destruct m as [o|q k|o k|o k|f k]; cbn [step node_within] in *; auto.
    - pose proof (perform_frame W O o s p H N). now destruct (perform O o s).
    - eapply done_frame; [exact H|exact N].
    - destruct (f (sy_draws s)) as [[t n]|e|]; auto.
  Qed.
End Steps.

(** The state after [n] steps alone. *)
Fixpoint alone {A} (O : os) (m : script A) (s : sys) (n : nat) : sys * script A :=
  match n with O%nat => (s, m) | S n' => let '(s', m') := alone O m s n' in step O m' s' end.
Lemma play_step : forall {A} O (m : script A) s, play O m s = play O (snd (step O m s)) (fst (step O m s)).
Proof. intros A O m s. destruct m as [o|p k|o k|o k|f k]; cbn [step play]; auto. - now destruct (perform O o s). - destruct (f (sy_draws s)) as [[t n]|e|]; auto. Qed.
Lemma alone_play : forall {A} O (m : script A) s n, play O m s = play O (snd (alone O m s n)) (fst (alone O m s n)).
Proof. intros A O m s n. induction n as [|n IH]; auto. cbn [alone]. rewrite IH. destruct (alone O m s n) as [s' m']. cbn [fst snd]. apply play_step. Qed.

Lemma set_nth_same : forall {A} i (x : A) l y, nth_error l i = Some y -> nth_error (set_nth i x l) i = Some x.
Proof. intros A i x l. revert i. induction l as [|z l IH]; intros [|i] y H; try discriminate; cbn in *; eauto. Qed.
Lemma set_nth_other : forall {A} i k (x : A) l, i <> k -> nth_error (set_nth i x l) k = nth_error l k.
Proof. intros A i k x l. revert i k. induction l as [|z l IH]; intros [|i] [|k] N; cbn; auto; try contradiction. Qed.

(** * Many processes *)

Section Many.
  Context (re : regex_engine) (tp : tape) (ag : age_crate) (cd : codec) (fs : bytes -> node) (js : list job) (AP : apart js).
  Definition sees (j : job) (p : bytes) : Prop := looks_at (jb_os j) (jb_command j) p \/ changes (jb_os j) (jb_command j) p.
  Definition script_of (j : job) : script unit := command_script re tp ag cd (jb_os j) (jb_command j).
  Definition on_its_way (M : machine) (j : job) (p : proc) : Prop :=
    pr_os p = jb_os j /\ within (looks_at (jb_os j) (jb_command j)) (changes (jb_os j) (jb_command j)) (pr_todo p)
    /\ exists n, snd (alone (jb_os j) (script_of j) (fresh fs (jb_draws j)) n) = pr_todo p /\ similar (sees j) (fst (alone (jb_os j) (script_of j) (fresh fs (jb_draws j)) n)) (with_files (mc_files M) (pr_sys p)).
  Definition sound (M : machine) : Prop :=
    (forall i j, nth_error js i = Some j -> exists p, nth_error (mc_procs M) i = Some p /\ on_its_way M j p)
    /\ (forall i p, nth_error (mc_procs M) i = Some p -> exists j, nth_error js i = Some j)
    /\ forall q, (forall j, In j js -> ~ changes (jb_os j) (jb_command j) q) -> mc_files M q = fs q.
  Lemma sound_start : sound (start re tp ag cd fs js).
  Proof.
    split; [|split].
    - intros i j H. exists (launch re tp ag cd fs j). split; [cbn [start mc_procs]; now rewrite nth_error_map, H|]. split; [reflexivity|]. split; [apply within_command|]. exists 0. split; [reflexivity|]. repeat split.
    - intros i p H. cbn [start mc_procs] in H. rewrite nth_error_map in H. destruct (nth_error js i) as [j|]; [eauto|discriminate].
    - reflexivity.
  Qed.
  Lemma sound_step : forall M i, sound M -> sound (machine_step M i).
  Proof.
    intros M i (P & Q & F). unfold machine_step. destruct (nth_error (mc_procs M) i) as [p|] eqn:E; [|now split].
    destruct (Q i p E) as (j & J). destruct (P i j J) as (p' & E' & X & Wi & n & SN & SM). assert (p' = p) by congruence. subst p'.
    set (fs' := sy_file (pr_sys (proc_step (mc_files M) p))).
    assert (G : forall q, ~ changes (jb_os j) (jb_command j) q -> fs' q = mc_files M q).
    { intros q N. unfold fs', proc_step. pose proof (step_frame _ _ (pr_os p) (pr_todo p) (with_files (mc_files M) (pr_sys p)) q (within_node _ _ _ Wi) N) as Y. destruct (step (pr_os p) (pr_todo p) (with_files (mc_files M) (pr_sys p))). exact Y. }
    split; [|split]; cbn [mc_procs mc_files].
    - intros k j' J'. destruct (Nat.eq_dec i k) as [->|N].
      + assert (j' = j) by congruence. subst j'. exists (proc_step (mc_files M) p). split; [eapply set_nth_same; eauto|].
        pose proof (step_similar (sees j) _ _ (fun q H => or_introl H) (fun q H => or_intror H) (jb_os j) (pr_todo p) _ _ (within_node _ _ _ Wi) SM) as [Y Z].
        pose proof (step_within _ _ (jb_os j) (pr_todo p) (with_files (mc_files M) (pr_sys p)) Wi) as W'.
        unfold on_its_way, fs', proc_step. rewrite X. destruct (step (jb_os j) (pr_todo p) (with_files (mc_files M) (pr_sys p))) as [s1 m1] eqn:ST. cbn [pr_os pr_sys pr_todo mc_files fst snd] in *.
        split; auto. split; auto. exists (S n). cbn [alone]. destruct (alone (jb_os j) (script_of j) (fresh fs (jb_draws j)) n) as [sn mn]. cbn [fst snd] in *. subst mn. split; [exact Z|].
        replace (with_files (sy_file s1) s1) with s1 by (now destruct s1). exact Y.
      + destruct (P k j' J') as (p' & E1 & X' & W' & n' & S' & SM'). exists p'. split; [now rewrite set_nth_other|]. split; auto. split; auto. exists n'. split; auto.
        destruct SM' as (A & B). split; auto. intros q H. rewrite (A q H). cbn [with_files sy_file mc_files]. symmetry. apply G. intro C. destruct (AP i k j j' q N J J' C) as [N1 N2]. destruct H; auto.
    - intros k p' H. destruct (Nat.eq_dec i k) as [->|N]; [eauto|]. rewrite set_nth_other in H by auto. eauto.
    - intros q H. rewrite <- (F q H). apply G. apply H. eapply nth_error_In; eauto.
  Qed.
  Lemma sound_run : forall l M, sound M -> sound (machine_run M l).
  Proof. induction l as [|i l IH]; intros M H; auto. cbn [machine_run fold_left]. apply IH. now apply sound_step. Qed.

  Theorem ended_alone : forall l M i j p o, machine_run (start re tp ag cd fs js) l = M -> nth_error js i = Some j -> nth_error (mc_procs M) i = Some p -> ended p = Some o ->
    exists s', run_command re tp ag cd (jb_os j) (jb_command j) (fresh fs (jb_draws j)) = (s', o) /\ sy_out (pr_sys p) = sy_out s'
    /\ forall q, looks_at (jb_os j) (jb_command j) q \/ changes (jb_os j) (jb_command j) q -> mc_files M q = sy_file s' q.
  Proof.
    intros l M i j p o R J E D. destruct (sound_run l _ sound_start) as (P & _). rewrite R in P. destruct (P i j J) as (p' & E' & X & Wi & n & SN & SM). assert (p' = p) by congruence. subst p'.
    unfold ended in D. destruct (pr_todo p) as [o0| | | |] eqn:T; try discriminate. injection D as ->.
    pose proof (alone_play (jb_os j) (script_of j) (fresh fs (jb_draws j)) n) as Y. rewrite SN in Y. cbn [play] in Y. exists (fst (alone (jb_os j) (script_of j) (fresh fs (jb_draws j)) n)).
    split; [rewrite <- (plays_command (jb_os j) re tp ag cd (jb_command j)); exact Y|]. destruct SM as (A & B & _). split; [symmetry; exact B|]. intros q H. symmetry. exact (A q H).
  Qed.
  Theorem others_kept : forall l M q, machine_run (start re tp ag cd fs js) l = M -> (forall j, In j js -> ~ changes (jb_os j) (jb_command j) q) -> mc_files M q = fs q.
  Proof. intros l M q R H. destruct (sound_run l _ sound_start) as (_ & _ & F). rewrite R in F. auto. Qed.
End Many.

(** * Schedules end *)

Lemma steps_end : forall (m : script unit) O s, exists n, (exists o, snd (alone O m s n) = Finish o).
Proof.
  assert (SH : forall A O (m : script A) s n, alone O m s (S n) = alone O (snd (step O m s)) (fst (step O m s)) n).
  { intros A O m s n. induction n as [|n IH]; [cbn; now destruct (step O m s)|]. cbn [alone] in *. rewrite IH. now destruct (alone O (snd (step O m s)) (fst (step O m s)) n). }
  induction m as [o|p k IH|o k IH|o k IH|f k IH]; intros O s.
  - exists 0. now exists o.
  - destruct (IH (sy_file s p) O s) as (n & H). exists (S n). now rewrite SH.
  - destruct (perform O o s) as [s' r] eqn:P. destruct (IH (is_ok r) O s') as (n & H). exists (S n). rewrite SH. cbn [step]. now rewrite P.
  - destruct (IH O (done o s)) as (n & H). exists (S n). now rewrite SH.
  - destruct (f (sy_draws s)) as [[t n']|e|] eqn:D.
    + destruct (IH (Ok t) O (moved s n')) as (n & H). exists (S n). rewrite SH. cbn [step]. now rewrite D.
    + destruct (IH (Err e) O s) as (n & H). exists (S n). rewrite SH. cbn [step]. now rewrite D.
    + destruct (IH Panic O s) as (n & H). exists (S n). rewrite SH. cbn [step]. now rewrite D.
Qed.

Lemma ended_stays : forall M i k p, nth_error (mc_procs M) k = Some p -> ended p <> None -> exists p', nth_error (mc_procs (machine_step M i)) k = Some p' /\ ended p' <> None.
Proof.
  intros M i k p E D. unfold machine_step. destruct (nth_error (mc_procs M) i) as [q|] eqn:Q; [|eauto]. cbn [mc_procs]. destruct (Nat.eq_dec i k) as [->|N].
  - exists (proc_step (mc_files M) q). split; [eapply set_nth_same; eauto|]. assert (q = p) by congruence. subst q. unfold ended in D. unfold proc_step. destruct (pr_todo p) as [o| | | |] eqn:T; try (now destruct D).
    cbn [step]. discriminate.
  - exists p. split; auto. now rewrite set_nth_other.
Qed.
Lemma ended_runs : forall l M k p, nth_error (mc_procs M) k = Some p -> ended p <> None -> exists p', nth_error (mc_procs (machine_run M l)) k = Some p' /\ ended p' <> None.
Proof.
  induction l as [|i l IH]; intros M k p E D; [eauto|]. cbn [machine_run fold_left]. destruct (ended_stays M i k p E D) as (p' & E' & D'). exact (IH _ _ _ E' D').
Qed.
Lemma run_one : forall M i p n, nth_error (mc_procs M) i = Some p -> exists p', nth_error (mc_procs (machine_run M (repeat i n))) i = Some p' /\ pr_os p' = pr_os p
  /\ pr_todo p' = snd (alone (pr_os p) (pr_todo p) (with_files (mc_files M) (pr_sys p)) n)
  /\ with_files (mc_files (machine_run M (repeat i n))) (pr_sys p') = fst (alone (pr_os p) (pr_todo p) (with_files (mc_files M) (pr_sys p)) n).
Proof.
  intros M i p n E. induction n as [|n IH]; [exists p; auto|]. destruct IH as (q & Q & X & T & F). replace (repeat i (S n)) with (repeat i n ++ [i]) by (symmetry; apply (repeat_cons n i)).
  unfold machine_run in *. rewrite fold_left_app. cbn [fold_left]. set (N := fold_left machine_step (repeat i n) M) in *. unfold machine_step. rewrite Q. cbn [mc_procs mc_files].
  exists (proc_step (mc_files N) q). split; [eapply set_nth_same; eauto|]. unfold proc_step. rewrite X, T, F. cbn [alone]. destruct (alone (pr_os p) (pr_todo p) (with_files (mc_files M) (pr_sys p)) n) as [s m]. cbn [fst snd].
  destruct (step (pr_os p) m s) as [s' m']. cbn [pr_os pr_todo pr_sys fst snd]. split; auto. split; auto. now destruct s'.
Qed.
Lemma machine_run_app : forall M a b, machine_run M (a ++ b) = machine_run (machine_run M a) b.
Proof. intros. unfold machine_run. apply fold_left_app. Qed.
Lemma step_length : forall M i, length (mc_procs (machine_step M i)) = length (mc_procs M).
Proof.
  assert (L : forall A i (x : A) l, length (set_nth i x l) = length l) by (intros A i x l; revert i; induction l; intros [|i]; cbn; auto).
  intros M i. unfold machine_step. destruct nth_error; auto. cbn [mc_procs]. apply L.
Qed.
Lemma run_length : forall l M, length (mc_procs (machine_run M l)) = length (mc_procs M).
Proof. induction l as [|i l IH]; intro M; auto. unfold machine_run in *. cbn [fold_left]. rewrite IH. apply step_length. Qed.
(** However far the processes are, they can be run to their ends. *)
Theorem completes : forall M, exists l, all_ended (machine_run M l).
Proof.
  intro M. assert (RL : forall l, length (mc_procs (machine_run M l)) = length (mc_procs M)) by (intro l; apply run_length). assert (H : forall n, n <= length (mc_procs M) -> exists l, forall k p, k < n -> nth_error (mc_procs (machine_run M l)) k = Some p -> ended p <> None).
  { induction n as [|n IH]; intro Ln; [exists []; intros k p K; lia|]. destruct IH as (l & IH); [lia|].
    destruct (nth_error (mc_procs (machine_run M l)) n) as [p|] eqn:E.
    - destruct (steps_end (pr_todo p) (pr_os p) (with_files (mc_files (machine_run M l)) (pr_sys p))) as (j & o & F). destruct (run_one _ _ _ j E) as (p' & E' & _ & T & _).
      exists (l ++ repeat n j). rewrite machine_run_app. intros k q K Q. destruct (Nat.eq_dec k n) as [->|Nk].
      + assert (q = p') by congruence. subst q. unfold ended. rewrite T, F. discriminate.
      + destruct (nth_error (mc_procs (machine_run M l)) k) as [r|] eqn:R.
        * destruct (ended_runs (repeat n j) _ _ _ R (IH k r ltac:(lia) R)) as (q' & Q' & D). congruence.
        * apply nth_error_None in R. rewrite RL in R. lia.
    - apply nth_error_None in E. rewrite RL in E. lia. }
  destruct (H _ (le_n _)) as (l & D). exists l. intros p I. apply In_nth_error in I. destruct I as (k & K). apply (D k); auto.
  rewrite <- (RL l). apply nth_error_Some. congruence.
Qed.
