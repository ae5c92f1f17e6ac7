(** Commands that take turns in changing one file. *)
From Coq Require Import Lia Permutation.
From Verif.Model Require Import Script.
From Verif.Spec Require Import SpecConcurrent.
From Verif.Proofs Require Import BytesFacts ScriptFacts CliRun Concurrent SameFile.
Open Scope byte_scope.

(** * Whole runs *)

Lemma play_similar : forall {A} (U L W : bytes -> Prop) O (m : script A) s s', (forall p, L p -> U p) -> (forall p, W p -> U p) -> within L W m -> similar U s s' ->
  similar U (fst (play O m s)) (fst (play O m s')) /\ snd (play O m s) = snd (play O m s').
Proof.
  intros A U L W O m. induction m as [o|p k IH|o k IH|o k IH|f k IH]; intros s s' LU WU H S; cbn [play within] in *; auto.
  - destruct H as [H1 H2]. assert (E : sy_file s' p = sy_file s p) by (destruct S as (F & _); symmetry; auto). rewrite E. auto.
  - destruct H as [H1 H2]. destruct (perform_similar U W O o s s' WU H1 S) as [X Y]. destruct (perform O o s) as [s1 r], (perform O o s') as [s1' r']. cbn [fst snd] in *. subst r'. auto.
  - destruct H as [H1 H2]. apply IH; auto. eapply similar_done; eauto.
  - replace (sy_draws s') with (sy_draws s) by apply S. destruct S as (F & X & Y & Z). destruct (f (sy_draws s)) as [[t n]|e|]; apply IH; auto; repeat split; auto.
Qed.
Lemma play_frame : forall {A} (L W : bytes -> Prop) O (m : script A) s q, within L W m -> ~ W q -> sy_file (fst (play O m s)) q = sy_file s q.
Proof.
  intros A L W O m. induction m as [o|p k IH|o k IH|o k IH|f k IH]; intros s q H N; cbn [play within] in *; auto.
  - apply IH; auto. apply H.
  - destruct H as [H1 H2]. pose proof (perform_frame W O o s q H1 N) as X. destruct (perform O o s) as [s1 r]. cbn [fst] in X. rewrite IH; auto.
  - destruct H as [H1 H2]. rewrite IH; auto. eapply done_frame; eauto.
  - destruct (f (sy_draws s)) as [[t n]|e|]; rewrite IH; auto.
Qed.
Lemma changes_dec : forall O c q, changes O c q \/ ~ changes O c q.
Proof.
  intros O c q. unfold changes, scratch_file. assert (A : {output_file O c = Some q} + {output_file O c <> Some q}) by (repeat decide equality). assert (B : {q = os_temp O} + {q <> os_temp O}) by (repeat decide equality).
  destruct A as [A|A]; [left; now left|]. destruct B as [B|B]; [|right; tauto]. destruct c as [a|a|a|a|a|a]; try (right; intros [X|((e & E) & _)]; [tauto|discriminate]; fail). left. right. split; eauto.
Qed.

Section Turns.
  Context (re : regex_engine) (tp : tape) (ag : age_crate) (cd : codec) (fs : bytes -> node) (js : list job) (p : bytes).
  Context (AP : apart_but p js) (NT : forall j, In j js -> os_temp (jb_os j) <> p) (NC : forall j, In j js -> ~ config_candidate (jb_os j) (config_path (jb_command j)) p).
  Notation at_ := (SameFile.at_ re tp ag cd fs p).
  Notation sees_ := (SameFile.sees_ p).
  Notation oaa := (one_after_another re tp ag cd).
  Definition with_p (j : job) (q : bytes) : Prop := sees j q \/ q = p.

  Lemma oaa_app : forall a rs b r s', oaa a rs b -> run_command re tp ag cd (jb_os (rs_job r)) (jb_command (rs_job r)) (fresh b (jb_draws (rs_job r))) = (s', rs_outcome r) -> sy_out s' = rs_out r -> oaa a (rs ++ [r]) (sy_file s').
  Proof. intros a rs b r s' H. induction H as [fs0|fs0 r0 s0 rs fs' R O H IH]; intros R' O'; cbn [app]; eapply oa_next; eauto. apply oa_none. Qed.

  (** Those in [order] have ended and are accounted for. *)
  Record core (M : machine) (order : list nat) (rs : list result) (sq : bytes -> node) : Prop := {
    co_seq : oaa fs rs sq;
    co_res : Forall2 (came_to js M) order rs;
    co_nodup : NoDup order;
    co_now : forall q, q <> p -> (forall i j, nth_error js i = Some j -> ~ In i order -> ~ changes (jb_os j) (jb_command j) q) -> mc_files M q = sq q;
    co_old : forall q, q <> p -> (forall i j, nth_error js i = Some j -> In i order -> ~ changes (jb_os j) (jb_command j) q) -> sq q = fs q }.
  Lemma sq_same : forall M order rs sq i j q, core M order rs sq -> nth_error js i = Some j -> ~ In i order -> with_p j q -> sq q = put_file p (sq p) fs q.
  Proof.
    intros M order rs sq i j q C J NI H. unfold put_file. destruct (bytes_eqb q p) eqn:E; [now apply bytes_eqb_eq in E; subst|]. assert (NE : q <> p) by (intros ->; rewrite bytes_eqb_refl in E; discriminate).
    destruct H as [H| ->]; [|contradiction]. apply (co_old _ _ _ _ C); auto. intros k j' J' I CH. assert (N : k <> i) by (intros ->; contradiction). destruct (AP k i j' j q N J' J CH NE) as [N1 N2]. destruct H; auto.
  Qed.
  (** One more is accounted for. *)
  Lemma commit : forall M order rs sq i j x o n, core M order rs sq -> nth_error js i = Some j -> ~ In i order -> nth_error (mc_procs M) i = Some x ->
    pr_todo x = Finish o -> snd (at_ j (sq p) n) = Finish o -> similar (with_p j) (fst (at_ j (sq p) n)) (with_files (mc_files M) (pr_sys x)) ->
    exists rs' sq', core M (order ++ [i]) rs' sq' /\ mc_files M p = sq' p.
  Proof.
    intros M order rs sq i j x o n C J NI X T SN SM.
    pose proof (alone_play (jb_os j) (script_of re tp ag cd j) (fresh (put_file p (sq p) fs) (jb_draws j)) n) as PL. fold (at_ j (sq p) n) in PL. rewrite SN in PL. cbn [play] in PL.
    assert (S0 : similar (with_p j) (fresh (put_file p (sq p) fs) (jb_draws j)) (fresh sq (jb_draws j))) by (split; [intros q H; cbn [fresh sy_file]; symmetry; eapply sq_same; eauto|auto]).
    pose proof (within_command re tp ag cd (jb_os j) (jb_command j)) as WC. fold (script_of re tp ag cd j) in WC.
    destruct (play_similar (with_p j) _ _ (jb_os j) (script_of re tp ag cd j) _ _ (fun q H => or_introl (or_introl H)) (fun q H => or_introl (or_intror H)) WC S0) as [PS PO].
    pose proof (fun q => play_frame _ _ (jb_os j) (script_of re tp ag cd j) (fresh sq (jb_draws j)) q WC) as PF.
    rewrite PL in PS, PO. cbn [fst snd] in PS, PO. destruct (play (jb_os j) (script_of re tp ag cd j) (fresh sq (jb_draws j))) as [s1 o1] eqn:P1. cbn [fst snd] in PS, PO, PF. subst o1.
    unfold script_of in P1. rewrite (plays_command (jb_os j) re tp ag cd (jb_command j)) in P1.
    assert (AG : forall q, with_p j q -> mc_files M q = sy_file s1 q) by (intros q H; destruct SM as (A & _), PS as (B & _); rewrite <- (B q H); symmetry; exact (A q H)).
    exists (rs ++ [{| rs_job := j; rs_outcome := o; rs_out := sy_out s1 |}]), (sy_file s1). split; [|apply AG; now right]. destruct C as [C1 C2 C3 C4 C5]. constructor.
    - eapply oaa_app; eauto.
    - apply Forall2_app; auto. constructor; [|constructor]. split; auto. exists x. split; auto. split; [unfold ended; now rewrite T|]. cbn [rs_out]. destruct SM as (_ & A & _), PS as (_ & B & _). rewrite <- B. symmetry. exact A.
    - apply (Permutation_NoDup (l := i :: order)); [apply Permutation_cons_append|constructor; auto].
    - intros q NQ H. destruct (changes_dec (jb_os j) (jb_command j) q) as [D|D]; [apply AG; left; now right|]. rewrite (PF q D). cbn [fresh sy_file]. apply C4; auto. intros k j' J' NK CH. destruct (Nat.eq_dec k i) as [->|N]; [assert (j' = j) by congruence; subst; auto|].
      apply (H k j' J'); auto. intro I. apply in_app_iff in I. destruct I as [I|[I|[]]]; auto.
    - intros q NQ H. rewrite (PF q); [|apply (H i j J); apply in_app_iff; right; now left]. cbn [fresh sy_file]. apply C5; auto. intros k j' J' I. apply (H k j' J'). apply in_app_iff. now left.
  Qed.

  Definition before (files : bytes -> node) (j : job) (x : proc) : Prop :=
    exists n, phase0 p (pr_todo x) /\ forall c, snd (at_ j c n) = pr_todo x /\ sy_file (fst (at_ j c n)) p = c /\ similar (sees_ j) (fst (at_ j c n)) (with_files files (pr_sys x)).
  Definition holding (c : node) (files : bytes -> node) (j : job) (x : proc) : Prop :=
    exists n, snd (at_ j c n) = pr_todo x /\ similar (with_p j) (fst (at_ j c n)) (with_files files (pr_sys x)).
  Definition ready (j : job) (x : proc) : Prop := pr_os x = jb_os j /\ within (looks_at (jb_os j) (jb_command j)) (changes (jb_os j) (jb_command j)) (pr_todo x).
  Record inv (h : option nat) (M : machine) (order : list nat) (rs : list result) (sq : bytes -> node) : Prop := {
    in_core : core M order rs sq;
    in_procs : forall i j, nth_error js i = Some j -> exists x, nth_error (mc_procs M) i = Some x /\ ready j x
      /\ (In i order \/ ~ In i order /\ h <> Some i /\ before (mc_files M) j x \/ ~ In i order /\ h = Some i /\ ended x = None /\ holding (sq p) (mc_files M) j x);
    in_jobs : forall i x, nth_error (mc_procs M) i = Some x -> exists j, nth_error js i = Some j;
    in_held : forall i, h = Some i -> exists x, nth_error (mc_procs M) i = Some x /\ ended x = None /\ ~ In i order;
    in_free : h = None -> mc_files M p = sq p }.

  Lemma inv_start : inv None (start re tp ag cd fs js) [] [] fs.
  Proof.
    constructor; [constructor| | | |].
    - apply oa_none.
    - constructor.
    - constructor.
    - reflexivity.
    - reflexivity.
    - intros i j H. exists (launch re tp ag cd fs j). split; [cbn [start mc_procs]; now rewrite nth_error_map, H|]. pose proof (nth_error_In _ _ H) as IJ. split; [split; [reflexivity|apply within_command]|]. right. left. split; auto. split; [discriminate|].
      exists 0. split; [apply phase0_command; auto|]. intro c. split; [reflexivity|]. cbn [SameFile.at_ alone fst fresh sy_file]. split; [unfold put_file; now rewrite bytes_eqb_refl|]. split; [|repeat split].
      intros q [_ Q]. cbn [fresh launch pr_sys with_files sy_file mc_files start]. now apply put_other.
    - intros i x H. cbn [start mc_procs] in H. rewrite nth_error_map in H. destruct (nth_error js i) as [j|]; [eauto|discriminate].
    - discriminate.
    - reflexivity.
  Qed.

  (** A step keeps what is accounted for. *)
  Lemma core_step : forall M order rs sq i j x, core M order rs sq -> nth_error js i = Some j -> nth_error (mc_procs M) i = Some x -> ready j x -> (In i order -> exists o, pr_todo x = Finish o) ->
    core (machine_step M i) order rs sq.
  Proof.
    intros M order rs sq i j x C J X (RO & RW) FI. destruct C as [C1 C2 C3 C4 C5].
    assert (MS : machine_step M i = {| mc_files := sy_file (pr_sys (proc_step (mc_files M) x)); mc_procs := set_nth i (proc_step (mc_files M) x) (mc_procs M) |}) by (unfold machine_step; now rewrite X).
    assert (G : forall q, ~ changes (jb_os j) (jb_command j) q -> sy_file (pr_sys (proc_step (mc_files M) x)) q = mc_files M q).
    { intros q N. unfold proc_step. pose proof (step_frame _ _ (pr_os x) (pr_todo x) (with_files (mc_files M) (pr_sys x)) q (within_node _ _ _ RW) N) as Y. destruct (step (pr_os x) (pr_todo x) (with_files (mc_files M) (pr_sys x))). exact Y. }
    constructor; auto.
    - assert (E : forall k r, In k order -> came_to js M k r -> came_to js (machine_step M i) k r).
      { intros k r IK (K1 & y & Y & K2 & K3). split; auto. rewrite MS. cbn [mc_procs]. destruct (Nat.eq_dec i k) as [->|N]; [|exists y; split; auto; now rewrite set_nth_other].
        assert (y = x) by congruence. subst y. exists (proc_step (mc_files M) x). split; [eapply set_nth_same; eauto|]. destruct (FI IK) as (o & T). unfold proc_step. unfold ended in *. rewrite T in *. cbn [step pr_todo pr_sys with_files sy_out]. auto. }
      clear -C2 E. induction C2 as [|k r order rs K C2 IH]; constructor; [apply E; auto; now left|apply IH; intros; apply E; auto; now right].
    - intros q NQ H. rewrite MS. cbn [mc_files]. destruct (in_dec Nat.eq_dec i order) as [I|NI].
      + destruct (FI I) as (o & T). unfold proc_step. rewrite T. cbn [step pr_sys with_files sy_file]. auto.
      + rewrite G; auto. eapply H; eauto.
  Qed.
  Lemma order_ended : forall M order rs i x, Forall2 (came_to js M) order rs -> In i order -> nth_error (mc_procs M) i = Some x -> exists o, pr_todo x = Finish o.
  Proof.
    intros M order rs i x H I X. induction H as [|k r order rs (K1 & y & Y & K2 & K3) H IH]; [destruct I|]. destruct I as [->|I]; auto. assert (y = x) by congruence. subst y. unfold ended in K2. destruct (pr_todo x); try discriminate. eauto.
  Qed.
  Lemma held_after : forall M k x, nth_error (mc_procs M) k = Some x -> still_running M k = if ended x then None else Some k.
  Proof. intros M k x X. unfold still_running. rewrite X. now destruct (ended x). Qed.

  (** The others stay as they are. *)
  Lemma bystander : forall M i j x k j' y, nth_error js i = Some j -> nth_error (mc_procs M) i = Some x -> ready j x -> i <> k -> nth_error js k = Some j' ->
    let files' := mc_files (machine_step M i) in
    (before (mc_files M) j' y -> before files' j' y) /\ (forall c, files' p = mc_files M p -> holding c (mc_files M) j' y -> holding c files' j' y).
  Proof.
    intros M i j x k j' y J X (RO & RW) N J' files'.
    assert (MS : files' = sy_file (pr_sys (proc_step (mc_files M) x))) by (unfold files', machine_step; now rewrite X).
    assert (G : forall q, sees_ j' q -> files' q = mc_files M q).
    { intros q [S Q]. rewrite MS. unfold proc_step. assert (NCH : ~ changes (jb_os j) (jb_command j) q) by (intro C; destruct (AP i k j j' q N J J' C Q) as [N1 N2]; destruct S; auto).
      pose proof (step_frame _ _ (pr_os x) (pr_todo x) (with_files (mc_files M) (pr_sys x)) q (within_node _ _ _ RW) NCH) as Y. destruct (step (pr_os x) (pr_todo x) (with_files (mc_files M) (pr_sys x))). exact Y. }
    split.
    - intros (n & PH & AL). exists n. split; auto. intro c. destruct (AL c) as (A & B & (D & E)). split; auto. split; auto. split; auto. intros q H. rewrite (D q H). cbn [with_files sy_file]. symmetry. now apply G.
    - intros c FP (n & A & (D & E)). exists n. split; auto. split; auto. intros q H. rewrite (D q H). cbn [with_files sy_file]. symmetry. destruct (bytes_eqb q p) eqn:Q; [apply bytes_eqb_eq in Q; now subst|].
      assert (NE : q <> p) by (intros ->; rewrite bytes_eqb_refl in Q; discriminate). destruct H as [H|H]; [|contradiction]. apply G. now split.
  Qed.

  (** A step of a process that has not read [p] and does not read it now. *)
  Lemma before_step : forall files j x, ready j x -> before files j x -> ~ about_to_read p x ->
    let x' := proc_step files x in ready j x' /\ before (sy_file (pr_sys x')) j x' /\ sy_file (pr_sys x') p = files p.
  Proof.
    intros files j x (RO & RW) (n & PH & AL) NR x'.
    assert (ND : node_within (else_ p) (else_ p) (pr_todo x)).
    { destruct (pr_todo x) as [o|q k|o k|o k|f k] eqn:E; cbn [node_within phase0] in *; try tauto. destruct PH as [[-> PH]|[PH _]]; auto. destruct NR. exists k. exact E. }
    assert (R' : ready j x').
    { subst x'. unfold ready, proc_step. pose proof (step_within _ _ (pr_os x) (pr_todo x) (with_files files (pr_sys x)) RW) as Y. destruct step. auto. }
    assert (B : forall c, snd (at_ j c (S n)) = pr_todo x' /\ sy_file (fst (at_ j c (S n))) p = sy_file (fst (at_ j c n)) p /\ sy_file (pr_sys x') p = files p /\ similar (sees_ j) (fst (at_ j c (S n))) (with_files (sy_file (pr_sys x')) (pr_sys x'))).
    { intro c. destruct (AL c) as (A & B & D). apply besides; auto. }
    split; auto. split; [|destruct (B Absent) as (_ & _ & Z & _); exact Z]. exists (S n). split.
    - subst x'. unfold proc_step. pose proof (phase0_next p (pr_os x) (pr_todo x) (with_files files (pr_sys x)) PH ND) as Y. destruct step. exact Y.
    - intro c. destruct (B c) as (B1 & B2 & B3 & B4). destruct (AL c) as (_ & A2 & _). split; auto. split; auto. congruence.
  Qed.
  (** A step of the process that has read [p]. *)
  Lemma holding_step : forall c files j x, ready j x -> holding c files j x -> let x' := proc_step files x in ready j x' /\ holding c (sy_file (pr_sys x')) j x'.
  Proof.
    intros c files j x (RO & RW) (n & SN & SM) x'.
    assert (R' : ready j x').
    { subst x'. unfold ready, proc_step. pose proof (step_within _ _ (pr_os x) (pr_todo x) (with_files files (pr_sys x)) RW) as Y. destruct step. auto. }
    split; auto. exists (S n). rewrite at_S, SN. destruct (step_similar (with_p j) _ _ (fun q H => or_introl (or_introl H)) (fun q H => or_introl (or_intror H)) (jb_os j) (pr_todo x) _ _ (within_node _ _ _ RW) SM) as [Y Z].
    subst x'. unfold proc_step. rewrite RO. destruct (step (jb_os j) (pr_todo x) (with_files files (pr_sys x))) as [s1 m1]. cbn [fst snd pr_todo pr_sys] in *. replace (with_files (sy_file s1) s1) with s1 by (now destruct s1). auto.
  Qed.
  (** Reading [p]. *)
  Lemma read_step : forall files j x, ready j x -> before files j x -> about_to_read p x -> holding (files p) files j x.
  Proof.
    intros files j x R (n & PH & AL) _. exists n. destruct (AL (files p)) as (A & B & (D & E)). split; auto. split; auto. intros q H.
    destruct (bytes_eqb q p) eqn:Q; [apply bytes_eqb_eq in Q; subst q; exact B|]. assert (NE : q <> p) by (intros ->; rewrite bytes_eqb_refl in Q; discriminate). destruct H as [H|H]; [|contradiction]. apply D. now split.
  Qed.

  Lemma step_procs : forall M i x, nth_error (mc_procs M) i = Some x -> let M' := machine_step M i in nth_error (mc_procs M') i = Some (proc_step (mc_files M) x) /\ mc_files M' = sy_file (pr_sys (proc_step (mc_files M) x))
    /\ forall k, k <> i -> nth_error (mc_procs M') k = nth_error (mc_procs M) k.
  Proof. intros M i x X M'. subst M'. unfold machine_step. rewrite X. cbn [mc_procs mc_files]. split; [eapply set_nth_same; eauto|]. split; auto. intros k N. apply set_nth_other. auto. Qed.

  (** The process [i], which has read [p] and has not ended before, takes a step. *)
  Lemma inv_holder : forall M order rs sq i j x, core M order rs sq -> nth_error js i = Some j -> nth_error (mc_procs M) i = Some x -> ready j x -> ~ In i order -> holding (sq p) (mc_files M) j x ->
    (forall k j', nth_error js k = Some j' -> k <> i -> exists y, nth_error (mc_procs M) k = Some y /\ ready j' y /\ (In k order \/ ~ In k order /\ before (mc_files M) j' y)) ->
    (forall k y, nth_error (mc_procs M) k = Some y -> exists j', nth_error js k = Some j') ->
    let M' := machine_step M i in exists order' rs' sq', inv (still_running M' i) M' order' rs' sq'.
  Proof.
    intros M order rs sq i j x C J X R NI HO OT JB M'. destruct (step_procs M i x X) as (X' & F' & Y'). fold M' in X', F', Y'. set (x' := proc_step (mc_files M) x) in *.
    assert (C' : core M' order rs sq) by (eapply core_step; eauto; contradiction). destruct (holding_step (sq p) (mc_files M) j x R HO) as [R' HO']. fold x' in R', HO'. rewrite <- F' in HO'.
    assert (OT' : forall k j', nth_error js k = Some j' -> k <> i -> exists y, nth_error (mc_procs M') k = Some y /\ ready j' y /\ (In k order \/ ~ In k order /\ before (mc_files M') j' y)).
    { intros k j' J' N. destruct (OT k j' J' N) as (y & Y & RY & ST). exists y. split; [rewrite Y'; auto|]. split; auto. destruct ST as [ST|[NK ST]]; auto. right. split; auto. eapply (bystander M i j x k j' y); eauto. }
    assert (JB' : forall k y, nth_error (mc_procs M') k = Some y -> exists j', nth_error js k = Some j').
    { intros k y K. destruct (Nat.eq_dec k i) as [->|N]; [eauto|]. rewrite Y' in K by auto. eauto. }
    rewrite (held_after M' i x' X'). destruct (ended x') as [o|] eqn:EN.
    - unfold ended in EN. destruct (pr_todo x') as [o0| | | |] eqn:T; try discriminate. injection EN as ->. destruct HO' as (n & SN & SM). rewrite T in SN.
      destruct (commit M' order rs sq i j x' o n C' J NI X' T SN SM) as (rs' & sq' & C2 & FR). exists (order ++ [i]), rs', sq'. constructor; auto; [|discriminate].
      intros k j' J'. destruct (Nat.eq_dec k i) as [->|N].
      + assert (j' = j) by congruence. subst j'. exists x'. split; auto. split; auto. left. apply in_app_iff. right. now left.
      + destruct (OT' k j' J' N) as (y & Y & RY & ST). exists y. split; auto. split; auto. destruct ST as [ST|[NK ST]]; [left; apply in_app_iff; now left|]. right. left. split; [|split; [discriminate|auto]]. intro I. apply in_app_iff in I. destruct I as [I|[I|[]]]; auto.
    - exists order, rs, sq. constructor; auto; [| |discriminate].
      + intros k j' J'. destruct (Nat.eq_dec k i) as [->|N].
        * assert (j' = j) by congruence. subst j'. exists x'. split; auto. split; auto. right. right. auto.
        * destruct (OT' k j' J' N) as (y & Y & RY & ST). exists y. split; auto. split; auto. destruct ST as [ST|[NK ST]]; auto. right. left. split; auto. split; auto. congruence.
      + intros k E. assert (k = i) by congruence. subst k. eauto.
  Qed.
  (** Another process takes a step. *)
  Lemma inv_other : forall h M order rs sq i, inv h M order rs sq -> h <> Some i -> (forall x, nth_error (mc_procs M) i = Some x -> ~ about_to_read p x) -> inv h (machine_step M i) order rs sq.
  Proof.
    intros h M order rs sq i I NH NR. destruct (nth_error (mc_procs M) i) as [x|] eqn:X; [|unfold machine_step; now rewrite X]. specialize (NR x eq_refl). destruct I as [C PR JB HE FR]. destruct (JB i x X) as (j & J).
    destruct (PR i j J) as (x0 & X0 & R & ST). assert (x0 = x) by congruence. subst x0. clear X0. destruct (step_procs M i x X) as (X' & F' & Y'). set (M' := machine_step M i) in *. set (x' := proc_step (mc_files M) x) in *.
    assert (D : In i order \/ ~ In i order /\ before (mc_files M) j x) by tauto.
    assert (FP : mc_files M' p = mc_files M p /\ ready j x' /\ (In i order \/ ~ In i order /\ before (mc_files M') j x')).
    { rewrite F'. destruct D as [IO|[NI BE]].
      - destruct (order_ended M order rs i x (co_res _ _ _ _ C) IO X) as (o & T). destruct R as (RO & RW). subst x'. unfold ready, proc_step. rewrite T in *. cbn [step pr_sys pr_todo pr_os with_files sy_file]. auto.
      - destruct (before_step (mc_files M) j x R BE NR) as (A & B & E). auto. }
    destruct FP as (FP & R' & D'). constructor.
    - eapply core_step; eauto. intro IO. exact (order_ended M order rs i x (co_res _ _ _ _ C) IO X).
    - intros k j' J'. destruct (Nat.eq_dec k i) as [->|N].
      + assert (j' = j) by congruence. subst j'. exists x'. split; auto. split; auto. destruct D' as [D'|[D1 D2]]; auto.
      + destruct (PR k j' J') as (y & Y & RY & S). exists y. split; [rewrite Y'; auto|]. split; auto. assert (N' : i <> k) by auto. destruct (bystander M i j x k j' y J X R N' J') as [B1 B2]. fold M' in B1, B2.
        destruct S as [S|[(S1 & S2 & S3)|(S1 & S2 & S3 & S4)]]; [now left|right; left; auto|right; right; auto].
    - intros k y K. destruct (Nat.eq_dec k i) as [->|N]; [eauto|]. rewrite Y' in K by auto. eauto.
    - intros k E. destruct (HE k E) as (y & Y & H). exists y. split; auto. rewrite Y'; auto. congruence.
    - intro E. rewrite FP. auto.
  Qed.
  Lemma inv_turns : forall h M l, taking_turns p h M l -> forall order rs sq, inv h M order rs sq -> exists h' order' rs' sq', inv h' (machine_run M l) order' rs' sq'.
  Proof.
    intros h M l T. induction T as [h M|M i x l X AR T IH|M i l NR T IH|h M i l NR T IH]; intros order rs sq I.
    - eauto 6.
    - destruct I as [C PR JB HE FR]. destruct (JB i x X) as (j & J). destruct (PR i j J) as (x0 & X0 & R & ST). assert (x0 = x) by congruence. subst x0. specialize (FR eq_refl).
      assert (NI : ~ In i order). { intro IO. destruct (order_ended M order rs i x (co_res _ _ _ _ C) IO X) as (o & E). destruct AR as (k & AR). congruence. }
      assert (BE : before (mc_files M) j x) by (destruct ST as [ST|[(_ & _ & ST)|(_ & E & _)]]; [contradiction|auto|discriminate]).
      pose proof (read_step (mc_files M) j x R BE AR) as HO. rewrite FR in HO.
      destruct (inv_holder M order rs sq i j x C J X R NI HO) as (order' & rs' & sq' & I'); auto.
      + intros k j' J' N. destruct (PR k j' J') as (y & Y & RY & S). exists y. split; auto. split; auto. destruct S as [S|[(S1 & _ & S3)|(_ & E & _)]]; auto. discriminate.
      + exact (IH _ _ _ I').
    - apply (IH order rs sq). apply inv_other; auto. discriminate.
    - destruct (Nat.eq_dec h i) as [->|N].
      + destruct I as [C PR JB HE FR]. destruct (HE i eq_refl) as (x & X & EN0 & NI0). destruct (JB i x X) as (j & J). destruct (PR i j J) as (x0 & X0 & R & ST). assert (x0 = x) by congruence. subst x0.
        destruct ST as [IO|[(_ & E & _)|(NI & _ & EN & HO)]]; [contradiction|now destruct E|].
        destruct (inv_holder M order rs sq i j x C J X R NI HO) as (order' & rs' & sq' & I'); auto; [|exact (IH _ _ _ I')].
          intros k j' J' NK. destruct (PR k j' J') as (y & Y & RY & S). exists y. split; auto. split; auto. destruct S as [S|[(S1 & _ & S3)|(_ & E & _)]]; auto. congruence.
      + assert (I' : inv (Some h) (machine_step M i) order rs sq) by (apply inv_other; auto; congruence). 
        assert (E : still_running (machine_step M i) h = Some h).
        { destruct (in_held _ _ _ _ _ I' h eq_refl) as (y & Y & EY & _). rewrite (held_after _ _ _ Y). now rewrite EY. }
        rewrite E in *. exact (IH _ _ _ I').
  Qed.

  (** At the end those that have not read [p] are accounted for, too. *)
  Lemma inv_rest : forall M, all_ended M -> forall todo order rs sq, inv None M order rs sq -> (forall i, i < length js -> In i order \/ In i todo) ->
    exists order' rs' sq', inv None M order' rs' sq' /\ forall i, i < length js -> In i order'.
  Proof.
    intros M AE. induction todo as [|i todo IH]; intros order rs sq I CO.
    - exists order, rs, sq. split; auto. intros i Li. destruct (CO i Li) as [H|[]]; auto.
    - destruct (in_dec Nat.eq_dec i order) as [IO|NI]; [apply (IH order rs sq I); intros k Lk; destruct (CO k Lk) as [H|[H|H]]; subst; auto|].
      destruct (nth_error js i) as [j|] eqn:J; [|apply (IH order rs sq I); intros k Lk; destruct (CO k Lk) as [H|[H|H]]; auto; subst k; apply nth_error_None in J; lia].
      pose proof I as [C PR JB HE FR]. destruct (PR i j J) as (x & X & R & ST). destruct ST as [ST|[(_ & _ & (n & PH & AL))|(_ & E & _)]]; [contradiction| |discriminate]. specialize (FR eq_refl).
      assert (EN : ended x <> None) by (apply AE; eapply nth_error_In; eauto). unfold ended in EN. destruct (pr_todo x) as [o| | | |] eqn:T; try (now destruct EN). destruct (AL (sq p)) as (A & B & (D & E)).
      destruct (commit M order rs sq i j x o n C J NI X T A) as (rs' & sq' & C' & FR').
      { split; auto. intros q H. destruct (bytes_eqb q p) eqn:Q; [apply bytes_eqb_eq in Q; subst q; rewrite B; symmetry; exact FR|]. assert (NE : q <> p) by (intros ->; rewrite bytes_eqb_refl in Q; discriminate). destruct H as [H|H]; [|contradiction]. apply D. now split. }
      apply (IH (order ++ [i]) rs' sq'); [|intros k Lk; destruct (CO k Lk) as [H|[H|H]]; auto; left; apply in_app_iff; [left|right; left]; auto].
      constructor; auto; [|discriminate]. intros k j' J'. destruct (PR k j' J') as (y & Y & RY & S). exists y. split; auto. split; auto. destruct S as [S|[(S1 & S2 & S3)|(_ & S & _)]]; [left; apply in_app_iff; now left| |discriminate].
      destruct (Nat.eq_dec k i) as [->|N]; [left; apply in_app_iff; right; now left|]. right. left. split; [|auto]. intro H. apply in_app_iff in H. destruct H as [H|[H|[]]]; auto.
  Qed.
  Theorem serial : forall l M, machine_run (start re tp ag cd fs js) l = M -> taking_turns p None (start re tp ag cd fs js) l -> all_ended M ->
    exists order rs fs', Permutation order (seq 0 (length js)) /\ Forall2 (came_to js M) order rs /\ oaa fs rs fs' /\ forall q, mc_files M q = fs' q.
  Proof.
    intros l M RU T AE. destruct (inv_turns _ _ _ T _ _ _ inv_start) as (h & order0 & rs0 & sq0 & I0). rewrite RU in I0.
    assert (h = None). { destruct h as [i|]; auto. destruct (in_held _ _ _ _ _ I0 i eq_refl) as (x & X & EN & _). destruct (AE x); auto. eapply nth_error_In; eauto. } subst h.
    destruct (inv_rest M AE (seq 0 (length js)) order0 rs0 sq0 I0) as (order & rs & sq & [C PR JB HE FR] & CO); [intros i Li; right; apply in_seq; lia|]. destruct C as [C1 C2 C3 C4 C5].
    exists order, rs, sq. split; [|split; auto; split; auto].
    - apply NoDup_Permutation; auto; [apply seq_NoDup|]. intro i. rewrite in_seq. split; [|intros [_ Li]; apply CO; lia]. intro IO. split; [lia|]. cbn [plus]. apply nth_error_Some.
      clear -C2 IO. induction C2 as [|k r order rs (K1 & K2) C2 IH]; [destruct IO|]. destruct IO as [->|IO]; auto. congruence.
    - intro q. destruct (bytes_eqb q p) eqn:Q; [apply bytes_eqb_eq in Q; subst q; auto|]. apply C4; [intros ->; rewrite bytes_eqb_refl in Q; discriminate|]. intros i j J NI. destruct NI. apply CO. apply nth_error_Some. congruence.
  Qed.
End Turns.
