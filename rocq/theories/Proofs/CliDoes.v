(** The converse of [run_trace]: a command that can compute a text, and meets no failure, delivers it. *)
From Verif.Model Require Import Cli.
From Verif.Spec Require Import SpecCli.
From Verif.Proofs Require Import BytesFacts EditorFacts CliRun.
Local Open Scope nat_scope.

Section Does.
  Context (re : regex_engine) (tp : tape) (ag : age_crate) (cd : codec) (O : os) (NF : no_failures O).

  Definition same (s s' : sys) : Prop := sy_file s' = sy_file s /\ sy_draws s' = sy_draws s.

  Lemma chain_does : forall A B (p : prog A) (k : A -> prog B) s s1 a, p s = (s1, Ok a) -> chain p k s = k a s1.
  Proof. intros A B p k s s1 a H. unfold chain. now rewrite H. Qed.
  Lemma perform_does : forall o s, perform O o s = (done o s, Ok tt).
  Proof. intros o s. unfold perform. now rewrite NF. Qed.
  Lemma write_does : forall p t s, fs_write O p t s = (done (Wrote p t) (done (Opened p) s), Ok tt).
  Proof. intros p t s. unfold fs_write, chain. now rewrite !perform_does. Qed.

  Lemma retrieve_does : forall arg s rules, configured re ag cd O (sy_file s) arg rules -> exists s', retrieve re ag cd O arg s = (s', Ok rules) /\ same s s'.
  Proof.
    intros arg s rules (src & H & C). pose proof (retrieve_out O re ag cd arg s src NF H) as R. destruct (retrieve re ag cd O arg s) as [s' o] eqn:E. cbn [snd] in R.
    assert (X : o = Ok rules). { rewrite R. unfold source_outcome. destruct src as [p|]; [|now subst]. destruct C as (t & -> & -> & C). exact C. }
    rewrite X in *. exists s'. split; auto. apply retrieve_ok in E. split; tauto.
  Qed.
  Lemma input_does : forall path i s t, only_source O (sy_file s) path t -> utf8_valid t = true -> (path = None -> is_set i = false) -> exists s', get_input_string O path i s = (s', Ok t) /\ same s s'.
  Proof.
    intros path i s t S U I. unfold get_input_string, read_from_path, read_stdin. destruct S as [(p & -> & -> & F)|(-> & ->)].
    - exists (done (Looked p) s). split; [|now split]. destruct (is_set i); unfold read_to_string, chain; rewrite perform_does; cbn [done sy_file apply_op]; now rewrite F, U.
    - exists s. rewrite I by auto. unfold lift. rewrite U. split; [auto|now split].
  Qed.
  Lemma reads : forall p s t, sy_file s p = Content t -> utf8_valid t = true -> read_to_string O p s = (done (Looked p) s, Ok t).
  Proof. intros p s t F U. unfold read_to_string, chain. rewrite perform_does. cbn [done sy_file apply_op]. now rewrite F, U. Qed.
  Lemma edited_content : forall c s, sy_file (done (Edited (os_temp O) c) s) (os_temp O) = c.
  Proof. intros c s. cbn [done sy_file apply_op]. apply put_here. Qed.
  Lemma loop_does : forall f l c0 l' c, tried cd f l c0 l' c -> forall e rest t k m, l' = e :: rest -> e c = Closed (Content t) k -> utf8_valid t = true -> read_map cd f t = Ok m ->
    forall s, sy_file s (os_temp O) = c0 -> exists s', edit_loop cd O f l s = (s', Ok (Some m)) /\ sy_draws s' = sy_draws s.
  Proof.
    intros f l c0 l' c T. induction T as [l c|x l c t r c' err E V R T IH]; intros e rest u k m -> EC U M s F.
    - cbn [edit_loop]. rewrite F, EC. rewrite (chain_does _ _ _ _ _ _ _ (reads _ _ _ (edited_content _ _) U)). rewrite M. eexists. split; reflexivity.
    - cbn [edit_loop]. rewrite F, E. rewrite (chain_does _ _ _ _ _ _ _ (reads _ _ _ (edited_content _ _) V)). rewrite R.
      destruct (IH e rest u k m eq_refl EC U M (done (Looked (os_temp O)) (done (Edited (os_temp O) (Content t)) s))) as (s' & X & D); [apply edited_content|]. exists s'. split; auto.
  Qed.

  Lemma drawing_does : forall A (f : nat -> outcome (A * nat)) s n a n', n = sy_draws s -> f n = Ok (a, n') -> exists s', drawing f s = (s', Ok a).
  Proof. intros A f s n a n' -> H. unfold drawing. rewrite H. eauto. Qed.
  Lemma compute_does : forall c s t, ready O c -> computes re tp ag cd O c (sy_file s) (sy_draws s) t -> exists s', compute O re tp ag cd c s = (s', Ok (Some t)).
  Proof.
    intros c s t RD (rules & f & x & CF & S & U & C). destruct (retrieve_does _ _ _ CF) as (s1 & R1 & F1 & D1). unfold compute. rewrite (chain_does _ _ _ _ _ _ _ R1).
    assert (S1 : only_source O (sy_file s1) (input_file c) x) by (now rewrite F1). destruct c as [a|a|a|a|a|a]; cbn [input_file config_path ready] in *; destruct C as (GF & C); unfold chain at 1, lift; rewrite GF.
    - destruct (input_does _ (ea_in_place a) _ _ S1 U RD) as (s2 & I & F2 & D2). rewrite (chain_does _ _ _ _ _ _ _ I). destruct C as (n' & C). destruct (drawing_does _ _ s2 (sy_draws s) _ _ ltac:(congruence) C) as (s3 & X). rewrite (chain_does _ _ _ _ _ _ _ X). unfold ret. eauto.
    - destruct (input_does _ (pl_in_place a) _ _ S1 U RD) as (s2 & I & F2 & D2). rewrite (chain_does _ _ _ _ _ _ _ I). unfold chain, lift. rewrite C. unfold ret. eauto.
    - destruct C as (ef & df & sv & t0 & m & n' & RE & DS & MT & (l & e & rest & c & u & k & AT & T & EC & V & M) & ET). apply attempts_select in AT. destruct AT as (ed & SE & ->). destruct (input_does _ None _ _ S1 U (fun _ => eq_refl)) as (s2 & I & F2 & D2). rewrite (chain_does _ _ _ _ _ _ _ I).
      unfold chain at 1, lift. rewrite RE. unfold chain at 1, lift. rewrite DS. cbn [fst snd]. rewrite (chain_does _ _ _ _ _ _ _ (perform_does _ _)).
      match goal with |- exists s', chain (with_cleanup O _ ?p) _ ?s3 = _ => assert (X : exists s4, p s3 = (s4, Ok (Some m)) /\ sy_draws s4 = sy_draws s3) end.
      { rewrite (chain_does _ _ _ _ _ _ _ (f_equal (pair _) MT)). rewrite (chain_does _ _ _ _ _ _ _ (write_does _ _ _)). rewrite (chain_does _ _ _ _ _ _ _ (f_equal (pair _) SE)).
        match goal with |- exists s4, edit_loop cd O f _ ?s5 = _ /\ _ => destruct (loop_does _ _ _ _ _ T e rest u k m eq_refl EC V M s5) as (s4 & X & D) end; [cbn [done sy_file]; apply written_here|]. exists s4. split; auto. }
      destruct X as (s4 & X & D4). unfold chain at 1, with_cleanup. rewrite X, perform_does. cbn [fst]. match goal with |- exists s', chain (drawing ?g) _ ?s5 = _ => destruct (drawing_does _ g s5 (sy_draws s) _ _ ltac:(cbn [done sy_draws] in *; congruence) ET) as (s6 & Y) end.
      rewrite (chain_does _ _ _ _ _ _ _ Y). unfold ret. eauto.
    - destruct (input_does _ None _ _ S1 U (fun _ => eq_refl)) as (s2 & I & F2 & D2). rewrite (chain_does _ _ _ _ _ _ _ I). destruct C as (n' & C). destruct (drawing_does _ _ s2 (sy_draws s) _ _ ltac:(congruence) C) as (s3 & X). rewrite (chain_does _ _ _ _ _ _ _ X). unfold ret. eauto.
    - destruct (input_does _ None _ _ S1 U (fun _ => eq_refl)) as (s2 & I & F2 & D2). rewrite (chain_does _ _ _ _ _ _ _ I). destruct C as (n' & C). destruct (drawing_does _ _ s2 (sy_draws s) _ _ ltac:(congruence) C) as (s3 & X). rewrite (chain_does _ _ _ _ _ _ _ X). unfold ret. eauto.
    - destruct (input_does _ (pl_in_place a) _ _ S1 U RD) as (s2 & I & F2 & D2). rewrite (chain_does _ _ _ _ _ _ _ I). assert (CF2 : configured re ag cd O (sy_file s2) (in_config (pl_input a)) rules) by (now rewrite F2, F1).
      destruct (retrieve_does _ _ _ CF2) as (s3 & R3 & F3 & D3). rewrite (chain_does _ _ _ _ _ _ _ R3). destruct C as (n' & C). destruct (drawing_does _ _ s3 (sy_draws s) _ _ ltac:(congruence) C) as (s4 & X). rewrite (chain_does _ _ _ _ _ _ _ X). unfold ret. eauto.
  Qed.

  Lemma run_does : forall c s t, ready O c -> computes re tp ag cd O c (sy_file s) (sy_draws s) t -> exists s', run_command re tp ag cd O c s = (s', Ok tt)
    /\ match output_file O c with
       | Some p => sy_file s' p = Content t /\ sy_out s' = sy_out s /\ forall q, q <> p -> q <> os_temp O -> sy_file s' q = sy_file s q
       | None => sy_out s' = sy_out s ++ t ++ [x0a] /\ forall q, q <> os_temp O -> sy_file s' q = sy_file s q
       end.
  Proof.
    intros c s t RD C. destruct (compute_does c s t RD C) as (s1 & X). rewrite run_split. rewrite (chain_does _ _ _ _ _ _ _ X). destruct (emits_compute O re tp ag cd c _ _ _ X) as (l & _ & FS & OU & TO).
    rewrite (printed_temp _ _ TO), app_nil_r in OU. unfold deliver. destruct (output_file O c) as [p|].
    - rewrite write_does. eexists. split; [reflexivity|]. cbn [done sy_file sy_out]. split; [apply written_here|]. split; auto. intros q N1 N2. etransitivity; [apply (written_other p); exact N1|]. rewrite FS. eapply temp_only_keeps; eauto.
    - unfold println. rewrite perform_does. eexists. split; [reflexivity|]. cbn [done sy_file sy_out apply_op]. split; [now rewrite OU|]. intros q N. rewrite FS. eapply temp_only_keeps; eauto.
  Qed.
  Lemma loop_gives_up : forall f l c0 l' c, tried cd f l c0 l' c -> forall e rest t err, l' = e :: rest -> e c = Closed (Content t) KeyInterrupted -> utf8_valid t = true -> read_map cd f t = Err err ->
    forall s, sy_file s (os_temp O) = c0 -> exists s', edit_loop cd O f l s = (s', Ok None).
  Proof.
    intros f l c0 l' c T. induction T as [l c|x l c t r c' err E V R T IH]; intros e rest u er -> EC U M s F.
    - cbn [edit_loop]. rewrite F, EC. rewrite (chain_does _ _ _ _ _ _ _ (reads _ _ _ (edited_content _ _) U)). rewrite M. eexists. reflexivity.
    - cbn [edit_loop]. rewrite F, E. rewrite (chain_does _ _ _ _ _ _ _ (reads _ _ _ (edited_content _ _) V)). rewrite R.
      destruct (IH e rest u er eq_refl EC U M (done (Looked (os_temp O)) (done (Edited (os_temp O) (Content t)) s))) as (s' & X); [apply edited_content|]. exists s'. auto.
  Qed.
  Lemma run_gives_up : forall c s, cancelled re ag cd O c (sy_file s) -> exists s', run_command re tp ag cd O c s = (s', Ok tt).
  Proof.
    intros c s (a & rules & f & x & ef & df & sv & t0 & l & e & rest & c' & u & err & -> & CF & S & U & GF & RE & DS & MT & AT & T & EC & V & M). destruct (retrieve_does _ _ _ CF) as (s1 & R1 & F1 & D1). unfold run_command. cbn [config_path]. rewrite (chain_does _ _ _ _ _ _ _ R1). cbn [merge_config].
    assert (S1 : only_source O (sy_file s1) (in_file a) x) by (now rewrite F1). unfold run_edit. unfold chain at 1, lift; rewrite GF. apply attempts_select in AT. destruct AT as (ed & SE & ->). destruct (input_does _ None _ _ S1 U (fun _ => eq_refl)) as (s2 & I & F2 & D2). rewrite (chain_does _ _ _ _ _ _ _ I).
    unfold chain at 1, lift. rewrite RE. unfold chain at 1, lift. rewrite DS. cbn [fst snd]. rewrite (chain_does _ _ _ _ _ _ _ (perform_does _ _)).
    match goal with |- exists s', chain (with_cleanup O _ ?p) _ ?s3 = _ => assert (X : exists s4, p s3 = (s4, Ok None)) end.
    { rewrite (chain_does _ _ _ _ _ _ _ (f_equal (pair _) MT)). rewrite (chain_does _ _ _ _ _ _ _ (write_does _ _ _)). rewrite (chain_does _ _ _ _ _ _ _ (f_equal (pair _) SE)).
      match goal with |- exists s4, edit_loop cd O f _ ?s5 = _ => destruct (loop_gives_up _ _ _ _ _ T e rest u err eq_refl EC V M s5) as (s4 & X) end; [cbn [done sy_file]; apply written_here|]. exists s4. auto. }
    destruct X as (s4 & X). unfold chain at 1, with_cleanup. rewrite X, perform_does. cbn [fst]. unfold ret. eauto.
  Qed.
End Does.
