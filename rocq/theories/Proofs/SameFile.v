(** Commands that change one file at the same time. *)
From Coq Require Import Lia.
From Verif.Model Require Import Script.
From Verif.Spec Require Import SpecConcurrent.
From Verif.Proofs Require Import BytesFacts ScriptFacts CliRun Concurrent.
Open Scope byte_scope.

(** * How a command uses one file *)

Section Phases.
  Context (p : bytes).
  Definition else_ (q : bytes) : Prop := q <> p.
  (** After reading [p]: at most [p] is emptied, written, and the command ends. *)
  Fixpoint phase1 {A} (m : script A) : Prop :=
    match m with
    | Finish _ => True
    | Ask q k => else_ q /\ forall x, phase1 (k x)
    | Effect o k => (op_within else_ o /\ forall b, phase1 (k b))
        \/ (o = Opened p /\ (exists e, k false = Finish e) /\ exists t w, k true = Effect (Wrote p t) w /\ forall b, exists e, w b = Finish e)
    | Note o k => op_within else_ o /\ phase1 k
    | Draw _ k => forall x, phase1 (k x)
    end.
  (** Before: [p] is only looked at. *)
  Fixpoint phase0 {A} (m : script A) : Prop :=
    match m with
    | Finish _ => True
    | Ask q k => (q = p /\ forall x, phase1 (k x)) \/ (else_ q /\ forall x, phase0 (k x))
    | Effect o k => op_within else_ o /\ forall b, phase0 (k b)
    | Note o k => op_within else_ o /\ phase0 k
    | Draw _ k => forall x, phase0 (k x)
    end.
  Notation quiet m := (within else_ else_ m).
  Lemma quiet_phase1 : forall {A} (m : script A), quiet m -> phase1 m.
  Proof. intros A. induction m as [o|q k IH|o k IH|o k IH|f k IH]; cbn [within phase1]; auto; intros [X Y]; auto. Qed.
  Lemma quiet_phase0 : forall {A} (m : script A), quiet m -> phase0 m.
  Proof. intros A. induction m as [o|q k IH|o k IH|o k IH|f k IH]; cbn [within phase0]; auto; intros [X Y]; auto. Qed.
  Lemma phase1_then : forall {A B} (m : script A) (k : A -> script B), quiet m -> (forall a, phase1 (k a)) -> phase1 (andthen m k).
  Proof.
    intros A B. induction m as [o|q j IH|o j IH|o j IH|f j IH]; intros k H K; cbn [andthen within phase1] in *; try (destruct H; auto; fail); auto.
    destruct o; cbn [phase1]; auto.
  Qed.
  Lemma phase0_then : forall {A B} (m : script A) (k : A -> script B), quiet m -> (forall a, phase0 (k a)) -> phase0 (andthen m k).
  Proof.
    intros A B. induction m as [o|q j IH|o j IH|o j IH|f j IH]; intros k H K; cbn [andthen within phase0] in *; try (destruct H; auto; fail); auto.
    destruct o; cbn [phase0]; auto.
  Qed.
  Lemma phase1_writes : forall t, phase1 (writes_file p t).
  Proof. intro t. right. split; auto. split; [eexists; reflexivity|]. do 2 eexists. split; [reflexivity|]. intro b. cbn. destruct b; eexists; reflexivity. Qed.
  Lemma phase0_reads : forall {B} (k : bytes -> script B), (forall a, phase1 (k a)) -> phase0 (andthen (reads_file p) k).
  Proof.
    intros B k K. cbn. split; auto. intros [|]; [|exact Logic.I]. cbn [andthen phase0]. left. split; auto. intro x. destruct x as [| |c]; try exact Logic.I. destruct (utf8_valid c); [apply K|exact Logic.I].
  Qed.

  Context (re : regex_engine) (tp : tape) (ag : age_crate) (cd : codec) (O : os) (NT : os_temp O <> p).
  Lemma phase0_input : forall {B} i (k : bytes -> script B), (forall a, phase1 (k a)) -> phase0 (andthen (takes_input O (Some p) i) k).
  Proof.
    intros B i k K. assert (P : phase0 (andthen (takes_path O p) k)) by (unfold takes_path; destruct (os_stdin O); [exact Logic.I|now apply phase0_reads]).
    unfold takes_input. destruct (is_set i); exact P.
  Qed.
  Lemma phase1_delivers : forall i t, phase1 (delivers i (Some p) t).
  Proof. intros i t. unfold delivers. destruct (is_set i); [apply phase1_writes|]. apply quiet_phase1. apply within_prints. Qed.
  Lemma quiet_retrieves : forall arg, ~ config_candidate O arg p -> quiet (retrieves re ag cd O arg).
  Proof. intros arg N. apply within_retrieves. intros q C ->. auto. Qed.
  Lemma phase0_command : forall c, ~ config_candidate O (config_path c) p -> phase0 (command_script re tp ag cd O c).
  Proof.
    intros c NC. assert (DE : {input_file c = Some p} + {input_file c <> Some p}) by (repeat decide equality). destruct DE as [I|N].
    - unfold command_script. apply phase0_then; [now apply quiet_retrieves|]. intro rules. destruct c as [a|a|a|a|a|a]; cbn [merge_config input_file config_path] in *.
      + assert (F : ea_input (merge_encrypt re rules a) = ea_input a) by (unfold merge_encrypt; destruct matching_rule; auto).
        unfold encrypt_script. rewrite F, I. apply phase0_then; [exact Logic.I|]. intro f. apply phase0_input. intro s. apply phase1_then; [apply within_draws|]. intro t. apply phase1_delivers.
      + unfold decrypt_script. rewrite I. apply phase0_then; [exact Logic.I|]. intro f. apply phase0_input. intro s. apply phase1_then; [exact Logic.I|]. intro t. apply phase1_delivers.
      + unfold edit_script. rewrite I. apply phase0_then; [exact Logic.I|]. intro f. apply phase0_input. intro s. apply phase1_then; [exact Logic.I|]. intro ef. apply phase1_then; [exact Logic.I|]. intro d.
        apply phase1_then; [now apply within_does|]. intros _. apply phase1_then.
        * apply within_cleanup; auto. apply within_andthen; [exact Logic.I|]. intro t. apply within_andthen; [now apply within_writes|]. intros _. apply within_andthen; [exact Logic.I|]. intro e. now apply within_attempts.
        * intros [m|]; [|exact Logic.I]. apply phase1_then; [apply within_draws|]. intro t. destruct (os_stdin O); [apply quiet_phase1, within_prints|apply phase1_writes].
      + injection I as I. unfold keys_script. rewrite I. apply phase0_then; [exact Logic.I|]. intro f. apply phase0_input. intro s. apply phase1_then; [apply within_draws|]. intro t. apply phase1_writes.
      + injection I as I. unfold keys_script. rewrite I. apply phase0_then; [exact Logic.I|]. intro f. apply phase0_input. intro s. apply phase1_then; [apply within_draws|]. intro t. apply phase1_writes.
      + unfold refresh_script. rewrite I. apply phase0_then; [exact Logic.I|]. intro f. apply phase0_input. intro s. apply phase1_then; [now apply quiet_retrieves|]. intro rules'. apply phase1_then; [apply within_draws|]. intro t. apply phase1_delivers.
    - apply quiet_phase0. eapply within_mono; [| |apply within_command].
      + intros q [E|[E|(_ & E)]] ->; auto.
      + intros q [E|(_ & E)] ->; auto. apply N. destruct c as [a|a|a|a|a|a]; cbn [output_file input_file] in *; auto.
        * now destruct (is_set (ea_in_place a)).
        * now destruct (is_set (pl_in_place a)).
        * now destruct (os_stdin O).
        * now destruct (is_set (pl_in_place a)).
  Qed.
End Phases.

(** * Many processes *)

Section Same.
  Context (re : regex_engine) (tp : tape) (ag : age_crate) (cd : codec) (fs : bytes -> node) (js : list job) (p : bytes) (good : bytes -> Prop).
  Context (AP : apart_but p js) (NT : forall j, In j js -> os_temp (jb_os j) <> p) (NC : forall j, In j js -> ~ config_candidate (jb_os j) (config_path (jb_command j)) p).
  Context (PRES : forall j t s' o, In j js -> good t -> run_command re tp ag cd (jb_os j) (jb_command j) (fresh (put_file p (Content t) fs) (jb_draws j)) = (s', o) -> exists t', sy_file s' p = Content t' /\ good t').
  Context (t0 : bytes) (T0 : fs p = Content t0) (G0 : good t0).

  Definition sees_ (j : job) (q : bytes) : Prop := sees j q /\ q <> p.
  Definition looks_ (j : job) (q : bytes) : Prop := looks_at (jb_os j) (jb_command j) q /\ q <> p.
  Definition changes_ (j : job) (q : bytes) : Prop := changes (jb_os j) (jb_command j) q /\ q <> p.
  Definition at_ (j : job) (c : node) (n : nat) : sys * script unit := alone (jb_os j) (script_of re tp ag cd j) (fresh (put_file p c fs) (jb_draws j)) n.
  Inductive state (files : bytes -> node) (j : job) (x : proc) : Prop :=
  | st_before n : phase0 p (pr_todo x) -> (forall c, snd (at_ j c n) = pr_todo x /\ sy_file (fst (at_ j c n)) p = c /\ similar (sees_ j) (fst (at_ j c n)) (with_files files (pr_sys x))) -> state files j x
  | st_after t n : good t -> phase1 p (pr_todo x) -> snd (at_ j (Content t) n) = pr_todo x -> sy_file (fst (at_ j (Content t) n)) p = Content t -> similar (sees_ j) (fst (at_ j (Content t) n)) (with_files files (pr_sys x)) -> state files j x
  | st_writing t n u k : good t -> pr_todo x = Effect (Wrote p u) k -> (forall b, exists e, k b = Finish e) -> snd (at_ j (Content t) n) = pr_todo x ->
      sy_file (fst (at_ j (Content t) n)) p = Content [] -> files p = Content [] -> similar (sees_ j) (fst (at_ j (Content t) n)) (with_files files (pr_sys x)) -> state files j x
  | st_done e : pr_todo x = Finish e -> state files j x.
  Definition going (files : bytes -> node) (j : job) (x : proc) : Prop :=
    pr_os x = jb_os j /\ within (looks_at (jb_os j) (jb_command j)) (changes (jb_os j) (jb_command j)) (pr_todo x) /\ state files j x.

  Lemma at_S : forall j c n, at_ j c (S n) = step (jb_os j) (snd (at_ j c n)) (fst (at_ j c n)).
  Proof. intros j c n. unfold at_. cbn [alone]. now destruct alone. Qed.
  (** A step that has nothing to do with [p]. *)
  Lemma besides : forall j n c x files, within (looks_at (jb_os j) (jb_command j)) (changes (jb_os j) (jb_command j)) (pr_todo x) -> pr_os x = jb_os j ->
    node_within (else_ p) (else_ p) (pr_todo x) -> snd (at_ j c n) = pr_todo x -> similar (sees_ j) (fst (at_ j c n)) (with_files files (pr_sys x)) ->
    let x' := proc_step files x in snd (at_ j c (S n)) = pr_todo x' /\ sy_file (fst (at_ j c (S n))) p = sy_file (fst (at_ j c n)) p /\ sy_file (pr_sys x') p = files p
    /\ similar (sees_ j) (fst (at_ j c (S n))) (with_files (sy_file (pr_sys x')) (pr_sys x')).
  Proof.
    intros j n c x files Wi X ND SN SM x'. apply within_node in Wi.
    assert (N' : node_within (looks_ j) (changes_ j) (pr_todo x)).
    { unfold looks_, changes_. destruct (pr_todo x) as [o|q k|o k|o k|f k]; cbn [node_within] in *; auto; destruct o; cbn [op_within] in *; unfold else_ in *; auto. }
    destruct (step_similar (sees_ j) (looks_ j) (changes_ j) (fun q H => conj (or_introl (proj1 H)) (proj2 H)) (fun q H => conj (or_intror (proj1 H)) (proj2 H)) (jb_os j) (pr_todo x) _ _ N' SM) as [Y Z].
    assert (NP : ~ changes_ j p) by (intros [_ H]; auto).
    pose proof (step_frame (looks_ j) (changes_ j) (jb_os j) (pr_todo x) (with_files files (pr_sys x)) p N' NP) as F1.
    pose proof (step_frame (looks_ j) (changes_ j) (jb_os j) (pr_todo x) (fst (at_ j c n)) p N' NP) as F2.
    subst x'. unfold proc_step. rewrite X. unfold at_ in *. cbn [alone]. destruct (alone (jb_os j) (script_of re tp ag cd j) (fresh (put_file p c fs) (jb_draws j)) n) as [sn mn]. cbn [fst snd] in *. subst mn.
    destruct (step (jb_os j) (pr_todo x) (with_files files (pr_sys x))) as [s1 m1]. cbn [fst snd pr_todo pr_sys] in *. replace (with_files (sy_file s1) s1) with s1 by (now destruct s1). auto.
  Qed.
  Lemma phase0_next : forall O (m : script unit) s, phase0 p m -> node_within (else_ p) (else_ p) m -> phase0 p (snd (step O m s)).
  Proof.
    intros O m s H ND. destruct m as [o|q k|o k|o k|f k]; cbn [step phase0 node_within] in *; auto.
    - destruct H as [[E _]|[_ H]]; [destruct (ND E)|apply H].
    - destruct (perform O o s). apply H.
    - apply H.
    - destruct (f (sy_draws s)) as [[t n]|e|]; apply H.
  Qed.
  Lemma phase1_next : forall O (m : script unit) s, phase1 p m -> node_within (else_ p) (else_ p) m -> phase1 p (snd (step O m s)).
  Proof.
    intros O m s H ND. destruct m as [o|q k|o k|o k|f k]; cbn [step phase1 node_within] in *; auto.
    - apply H.
    - destruct (perform O o s). destruct H as [[_ H]|(-> & _)]; [apply H|destruct (ND eq_refl)].
    - apply H.
    - destruct (f (sy_draws s)) as [[t n]|e|]; apply H.
  Qed.
  Definition fine (files : bytes -> node) : Prop := exists t, files p = Content t /\ good t.
  Lemma self_step : forall files j x, In j js -> going files j x -> (~ mid_write p x -> fine files) ->
    let x' := proc_step files x in going (sy_file (pr_sys x')) j x' /\ (mid_write p x' \/ fine (sy_file (pr_sys x'))).
  Proof.
    intros files j x IJ (X & Wi & ST) FI x'.
    assert (X' : pr_os x' = jb_os j) by (subst x'; unfold proc_step; destruct step; exact X).
    assert (W' : within (looks_at (jb_os j) (jb_command j)) (changes (jb_os j) (jb_command j)) (pr_todo x')).
    { subst x'. unfold proc_step. pose proof (step_within _ _ (pr_os x) (pr_todo x) (with_files files (pr_sys x)) Wi) as Y. destruct step. exact Y. }
    assert (T' : pr_todo x' = snd (step (jb_os j) (pr_todo x) (with_files files (pr_sys x)))) by (subst x'; unfold proc_step; rewrite X; now destruct step).
    assert (S' : pr_sys x' = fst (step (jb_os j) (pr_todo x) (with_files files (pr_sys x)))) by (subst x'; unfold proc_step; rewrite X; now destruct step).
    destruct ST as [n PH AL|t n GT PH SN FP SM|t n u k GT TD KF SN FP FF SM|e TD].
    - assert (NM : ~ mid_write p x) by (intros (u & k & E); rewrite E in PH; destruct PH as [PH _]; now apply PH). specialize (FI NM).
      assert (D : node_within (else_ p) (else_ p) (pr_todo x) \/ exists k, pr_todo x = Ask p k /\ forall y, phase1 p (k y)).
      { destruct (pr_todo x) as [o|q k|o k|o k|f k] eqn:E; cbn [node_within phase0] in *; try tauto. destruct PH as [[-> PH]|[PH _]]; [right; eauto|left; auto]. }
      destruct D as [ND|(k & TD & PK)].
      + assert (B : forall c, snd (at_ j c (S n)) = pr_todo x' /\ sy_file (fst (at_ j c (S n))) p = sy_file (fst (at_ j c n)) p /\ sy_file (pr_sys x') p = files p /\ similar (sees_ j) (fst (at_ j c (S n))) (with_files (sy_file (pr_sys x')) (pr_sys x'))).
        { intro c. destruct (AL c) as (A & B & C). apply besides; auto. }
        split; [|right; destruct FI as (t & F & G); exists t; split; auto; destruct (B Absent) as (_ & _ & -> & _); exact F].
        split; auto. split; auto. apply st_before with (n := S n); [rewrite T'; now apply phase0_next|]. intro c. destruct (B c) as (B1 & B2 & B3 & B4). destruct (AL c) as (_ & A2 & _). split; auto. split; auto. congruence.
      + destruct FI as (t & F & G). rewrite TD in T', S'. cbn [step fst snd with_files sy_file] in T', S'. rewrite F in T'. destruct (AL (Content t)) as (A & B & C).
        split; [|right; exists t; rewrite S'; auto]. split; auto. split; auto. apply st_after with (t := t) (n := S n); auto; [rewrite T'; auto| | |]; unfold at_ in *; cbn [alone];
        destruct (alone (jb_os j) (script_of re tp ag cd j) (fresh (put_file p (Content t) fs) (jb_draws j)) n) as [sn mn]; cbn [fst snd] in *; subst mn; rewrite TD; cbn [step fst snd].
        * now rewrite B, T'.
        * exact B.
        * rewrite S'. exact C.
    - assert (NM : ~ mid_write p x) by (intros (u & k & E); rewrite E in PH; destruct PH as [[PH _]|(PH & _)]; [now apply PH|discriminate]). specialize (FI NM).
      assert (D : node_within (else_ p) (else_ p) (pr_todo x) \/ exists k e u w, pr_todo x = Effect (Opened p) k /\ k false = Finish e /\ k true = Effect (Wrote p u) w /\ forall b, exists e, w b = Finish e).
      { destruct (pr_todo x) as [o|q k|o k|o k|f k] eqn:E; cbn [node_within phase1] in *; try tauto. destruct PH as [[PH _]|(-> & (e & PE) & u & w & PW & PF)]; [left; auto|right]. exists k, e, u, w. auto. }
      destruct D as [ND|(k & e & u & w & TD & KE & KW & KF)].
      + destruct (besides j n (Content t) x files Wi X ND SN SM) as (B1 & B2 & B3 & B4). split; [|right; destruct FI as (v & F & G); exists v; split; auto; fold x' in B3; congruence].
        split; auto. split; auto. apply st_after with (t := t) (n := S n); auto; [rewrite T'; now apply phase1_next|congruence].
      + rewrite TD in T', S'. cbn [step] in T', S'. unfold perform in T', S'. cbn [with_files sy_ops] in T', S'. destruct (os_io (jb_os j) (sy_ops (pr_sys x)) (Opened p)) eqn:IO; cbn [is_ok fst snd] in T', S'.
        * split; [|right; rewrite S'; exact FI]. split; auto. split; auto. apply st_done with (e := e). congruence.
        * rewrite KW in T'. split; [|left; exists u, w; exact T']. split; auto. split; auto. destruct SM as (M1 & M2 & M3 & M4).
          assert (E : at_ j (Content t) (S n) = (done (Opened p) (fst (at_ j (Content t) n)), Effect (Wrote p u) w)).
          { unfold at_ in *. cbn [alone]. destruct (alone (jb_os j) (script_of re tp ag cd j) (fresh (put_file p (Content t) fs) (jb_draws j)) n) as [sn mn]. cbn [fst snd] in *. subst mn. rewrite TD. cbn [step]. unfold perform. rewrite M3. cbn [with_files sy_ops]. rewrite IO. cbn [is_ok]. now rewrite KW. }
          apply st_writing with (t := t) (n := S n) (u := u) (k := w); auto; rewrite ?E; cbn [fst snd]; auto.
          -- cbn [done apply_op sy_file]. unfold put_file. now rewrite bytes_eqb_refl.
          -- rewrite S'. cbn [done apply_op sy_file]. unfold put_file. now rewrite bytes_eqb_refl.
          -- rewrite S'. replace (with_files (sy_file (done (Opened p) (with_files files (pr_sys x)))) (done (Opened p) (with_files files (pr_sys x)))) with (done (Opened p) (with_files files (pr_sys x))) by reflexivity.
             split; [|cbn [done sy_out sy_ops sy_draws]; rewrite M2, M3; auto]. intros q [Q1 Q2]. cbn [done apply_op sy_file]. rewrite !put_other by exact Q2. apply M1. now split.
    - rewrite TD in T', S'. assert (SM' : similar (fun q => sees_ j q \/ q = p) (fst (at_ j (Content t) n)) (with_files files (pr_sys x))).
      { destruct SM as (M1 & M2). split; auto. intros q [Q| ->]; auto. rewrite FP. symmetry. exact FF. }
      destruct (step_similar (fun q => sees_ j q \/ q = p) (fun q => q = p) (fun q => q = p) (fun q H => or_intror H) (fun q H => or_intror H) (jb_os j) (Effect (Wrote p u) k) _ _ eq_refl SM') as [Y Z].
      assert (E : exists e, pr_todo x' = Finish e) by (rewrite T'; cbn [step]; destruct perform; cbn [snd]; apply KF). destruct E as (e & E).
      split; [split; auto; split; auto; apply st_done with (e := e); exact E|]. right.
      assert (A : at_ j (Content t) (S n) = (fst (step (jb_os j) (Effect (Wrote p u) k) (fst (at_ j (Content t) n))), Finish e)).
      { rewrite at_S, SN, TD, (surjective_pairing (step _ _ _)). f_equal. now rewrite Z, <- T'. }
      pose proof (alone_play (jb_os j) (script_of re tp ag cd j) (fresh (put_file p (Content t) fs) (jb_draws j)) (S n)) as PL. fold (at_ j (Content t) (S n)) in PL. rewrite A in PL. cbn [fst snd play] in PL.
      unfold script_of in PL. rewrite (plays_command (jb_os j) re tp ag cd (jb_command j)) in PL. destruct (PRES j t _ _ IJ GT PL) as (t' & F' & G'). exists t'. split; auto. rewrite S'. destruct Y as (Y & _). rewrite <- (Y p (or_intror eq_refl)). exact F'.
    - rewrite TD in T', S'. cbn [step fst snd] in T', S'. split; [split; auto; split; auto; apply st_done with (e := e); exact T'|]. right. rewrite S'. apply FI. intros (u & k & E). congruence.
  Qed.

  Definition inv (M : machine) : Prop :=
    (forall i j, nth_error js i = Some j -> exists x, nth_error (mc_procs M) i = Some x /\ going (mc_files M) j x)
    /\ (forall i x, nth_error (mc_procs M) i = Some x -> exists j, nth_error js i = Some j)
    /\ ((forall i x, nth_error (mc_procs M) i = Some x -> ~ mid_write p x) -> fine (mc_files M)).
  Lemma inv_start : inv (start re tp ag cd fs js).
  Proof.
    split; [|split].
    - intros i j H. exists (launch re tp ag cd fs j). split; [cbn [start mc_procs]; now rewrite nth_error_map, H|]. pose proof (nth_error_In _ _ H) as IJ. split; [reflexivity|]. split; [apply within_command|].
      apply st_before with (n := 0); [apply phase0_command; auto|]. intro c. split; [reflexivity|]. cbn [at_ alone fst fresh sy_file]. split; [unfold put_file; now rewrite bytes_eqb_refl|]. split; [|repeat split].
      intros q [_ Q]. cbn [fresh launch pr_sys with_files sy_file mc_files start]. now apply put_other.
    - intros i x H. cbn [start mc_procs] in H. rewrite nth_error_map in H. destruct (nth_error js i) as [j|]; [eauto|discriminate].
    - intros _. exists t0. auto.
  Qed.
  Lemma inv_step : forall M i, inv M -> (forall k x, nth_error (mc_procs M) k = Some x -> mid_write p x -> k = i) -> inv (machine_step M i).
  Proof.
    intros M i (P & Q & F) U. unfold machine_step. destruct (nth_error (mc_procs M) i) as [x|] eqn:E; [|now split].
    destruct (Q i x E) as (j & J). pose proof (nth_error_In _ _ J) as IJ. destruct (P i j J) as (x0 & E0 & GO). assert (x0 = x) by congruence. subst x0.
    assert (FI : ~ mid_write p x -> fine (mc_files M)).
    { intro N. apply F. intros k y Y MW. specialize (U k y Y MW). subst k. assert (y = x) by congruence. subst y. auto. }
    destruct (self_step _ _ _ IJ GO FI) as [GO' FI']. set (x' := proc_step (mc_files M) x) in *.
    assert (G : forall q, ~ changes (jb_os j) (jb_command j) q -> sy_file (pr_sys x') q = mc_files M q).
    { intros q N. subst x'. unfold proc_step. destruct GO as (X & Wi & _). pose proof (step_frame _ _ (pr_os x) (pr_todo x) (with_files (mc_files M) (pr_sys x)) q (within_node _ _ _ Wi) N) as Y. destruct (step (pr_os x) (pr_todo x) (with_files (mc_files M) (pr_sys x))). exact Y. }
    split; [|split]; cbn [mc_procs mc_files].
    - intros k j' J'. destruct (Nat.eq_dec i k) as [->|N]; [exists x'; assert (j' = j) by congruence; subst j'; split; [eapply set_nth_same; eauto|exact GO']|].
      destruct (P k j' J') as (y & Y & X1 & W1 & S1). exists y. split; [now rewrite set_nth_other|]. split; auto. split; auto.
      assert (SIM : forall s, similar (sees_ j') s (with_files (mc_files M) (pr_sys y)) -> similar (sees_ j') s (with_files (sy_file (pr_sys x')) (pr_sys y))).
      { intros s (A & B). split; auto. intros q H. rewrite (A q H). cbn [with_files sy_file]. symmetry. apply G. intro C. destruct H as [H NP]. destruct (AP i k j j' q N J J' C NP) as [N1 N2]. destruct H; auto. }
      destruct S1 as [n PH AL|t n GT PH SN FP SM|t n u w GT TD KF SN FP FF SM|e TD].
      + apply st_before with (n := n); auto. intro c. destruct (AL c) as (A & B & C). auto.
      + apply st_after with (t := t) (n := n); auto.
      + destruct N. symmetry. apply (U k y Y). exists u, w. exact TD.
      + apply st_done with (e := e). exact TD.
    - intros k y H. destruct (Nat.eq_dec i k) as [->|N]; [eauto|]. rewrite set_nth_other in H by auto. eauto.
    - intro N. destruct FI' as [MW|FI']; auto. destruct (N i x'); auto. eapply set_nth_same; eauto.
  Qed.
  Lemma inv_run : forall l M, inv M -> undisturbed p M l -> inv (machine_run M l).
  Proof. induction l as [|i l IH]; intros M H U; auto. destruct U as [U1 U2]. unfold machine_run in *. cbn [fold_left]. apply IH; auto. now apply inv_step. Qed.
  Theorem file_fine : forall l, undisturbed p (start re tp ag cd fs js) l -> (forall x, In x (mc_procs (machine_run (start re tp ag cd fs js) l)) -> ~ mid_write p x) ->
    exists t, mc_files (machine_run (start re tp ag cd fs js) l) p = Content t /\ good t.
  Proof. intros l U N. destruct (inv_run l _ inv_start U) as (_ & _ & F). apply F. intros i x H. apply N. eapply nth_error_In; eauto. Qed.
End Same.
