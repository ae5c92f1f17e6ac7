(** What a command depends on. *)
From Verif.Model Require Import Script.
From Verif.Spec Require Import SpecDepends.
From Verif.Proofs Require Import CliRun CliDoes ScriptFacts Concurrent Turns.
Open Scope byte_scope.

(** Like [similar], but the past may differ. *)
Definition alike (U : bytes -> Prop) (s s' : sys) : Prop :=
  (forall p, U p -> sy_file s p = sy_file s' p) /\ sy_out s = sy_out s' /\ sy_draws s = sy_draws s'.
Lemma alike_done : forall (U W : bytes -> Prop) o s s', (forall p, W p -> U p) -> op_within W o -> alike U s s' -> alike U (done o s) (done o s').
Proof.
  intros U W o s s' WU H (F & A & C). split; [|cbn [done sy_out sy_draws]; rewrite A; auto].
  intros p P. cbn [done sy_file]. destruct o; cbn [apply_op op_within] in *; auto; unfold put_file; destruct (bytes_eqb p p0) eqn:E; auto. now rewrite (F p0 (WU _ H)).
Qed.
Lemma play_alike : forall {A} (U L W : bytes -> Prop) O O' (m : script A) s s', no_failures O -> no_failures O' -> (forall p, L p -> U p) -> (forall p, W p -> U p) -> within L W m -> alike U s s' ->
  alike U (fst (play O m s)) (fst (play O' m s')) /\ snd (play O m s) = snd (play O' m s').
Proof.
  intros A U L W O O' m. induction m as [o|p k IH|o k IH|o k IH|f k IH]; intros s s' NF NF' LU WU H S; cbn [play within] in *; auto.
  - destruct H as [H1 H2]. assert (E : sy_file s' p = sy_file s p) by (destruct S as (F & _); symmetry; auto). rewrite E. auto.
  - destruct H as [H1 H2]. unfold perform. rewrite NF, NF'. apply IH; auto. eapply alike_done; eauto.
  - destruct H as [H1 H2]. apply IH; auto. eapply alike_done; eauto.
  - destruct S as (F & A1 & A2). rewrite <- A2. destruct (f (sy_draws s)) as [[t n]|e|]; apply IH; auto; split; auto.
Qed.
Lemma play_chain_alike : forall {A B} (U : bytes -> Prop) O O' (m m' : script A) (k k' : A -> script B) s s',
  (alike U (fst (play O m s)) (fst (play O' m' s')) /\ snd (play O m s) = snd (play O' m' s')) ->
  (forall a t t', play O m s = (t, Ok a) -> play O' m' s' = (t', Ok a) -> alike U t t' -> alike U (fst (play O (k a) t)) (fst (play O' (k' a) t')) /\ snd (play O (k a) t) = snd (play O' (k' a) t')) ->
  alike U (fst (play O (andthen m k) s)) (fst (play O' (andthen m' k') s')) /\ snd (play O (andthen m k) s) = snd (play O' (andthen m' k') s').
Proof.
  intros A B U O O' m m' k k' s s' [H1 H2] H. rewrite !play_andthen. unfold chain. destruct (play O m s) as [t r], (play O' m' s') as [t' r']. cbn [fst snd] in *. subst r'.
  destruct r; cbn [fst snd]; auto.
Qed.

(** Looking for the configuration leaves everything as it is. *)
Definition still (s s' : sys) : Prop := sy_file s' = sy_file s /\ sy_out s' = sy_out s /\ sy_draws s' = sy_draws s.
Lemma still_reads : forall O re ag cd p s, no_failures O -> still s (fst (play O (reads_config re ag cd p) s)).
Proof.
  intros O re ag cd p s NF. unfold reads_config, reads_file, does. cbn [andthen play]. unfold perform. rewrite NF. cbn [is_ok andthen play].
  destruct (sy_file (done (Looked p) s) p) as [| |t]; cbn [andthen play]; try destruct (utf8_valid t); cbn [andthen play fst]; repeat split.
Qed.
Lemma still_retrieves : forall O re ag cd arg s, no_failures O -> still s (fst (play O (retrieves re ag cd O arg) s)).
Proof.
  intros O re ag cd arg s NF. unfold retrieves. destruct arg; [now apply still_reads|]. destruct (os_config_var O); [now apply still_reads|]. destruct (os_cwd O) as [dirs|]; [|repeat split].
  induction dirs as [|d up IH]; cbn [climbs play].
  - destruct (sy_file s (config_in [])); [repeat split| |]; now apply still_reads.
  - destruct (sy_file s (config_in (d :: up))); [exact IH| |]; now apply still_reads.
Qed.
Lemma retrieves_alike : forall U O O' re ag cd arg arg' rules s s', no_failures O -> no_failures O' -> configured re ag cd O (sy_file s) arg rules -> configured re ag cd O' (sy_file s') arg' rules -> alike U s s' ->
  alike U (fst (play O (retrieves re ag cd O arg) s)) (fst (play O' (retrieves re ag cd O' arg') s'))
  /\ snd (play O (retrieves re ag cd O arg) s) = Ok rules /\ snd (play O' (retrieves re ag cd O' arg') s') = Ok rules.
Proof.
  intros U O O' re ag cd arg arg' rules s s' NF NF' C C' (A1 & A2 & A3).
  destruct (still_retrieves O re ag cd arg s NF) as (F1 & F2 & F3), (still_retrieves O' re ag cd arg' s' NF') as (G1 & G2 & G3). split; [|split].
  - split; [|split; congruence]. intros p P. rewrite F1, G1. auto.
  - rewrite plays_retrieves. destruct (retrieve_does re ag cd O NF arg s rules C) as (t & -> & _). reflexivity.
  - rewrite plays_retrieves. destruct (retrieve_does re ag cd O' NF' arg' s' rules C') as (t & -> & _). reflexivity.
Qed.

Lemma still_input : forall O path i s, no_failures O -> still s (fst (play O (takes_input O path i) s)).
Proof.
  intros O path i s NF. assert (P : forall p, still s (fst (play O (takes_path O p) s))).
  { intro p. unfold takes_path. destruct (os_stdin O); [repeat split|]. unfold reads_file, does. cbn [andthen play]. unfold perform. rewrite NF. cbn [is_ok play fst]. repeat split. }
  unfold takes_input. destruct (is_set i), path; auto; [repeat split|]. destruct (os_stdin O); repeat split.
Qed.

Section Rest.
  Context (re : regex_engine) (tp : tape) (ag : age_crate) (cd : codec).
  (** After the configuration has been found. *)
  Definition rest_script (O : os) (c : command) : script unit :=
    match c with
    | Encrypt a => encrypt_script re tp ag cd O a
    | Decrypt a => decrypt_script re ag cd O a
    | Edit a => edit_script re tp ag cd O a
    | AddKeys a => keys_script O (add_text re ag cd) a
    | RemoveKeys a => keys_script O (remove_text re tp ag cd) a
    | Refresh a => refresh_script re tp ag cd O a
    end.
  Lemma within_rest : forall O c rules, (forall a, c <> Refresh a) -> within (subject O c) (changes O c) (rest_script O (merge_config re rules c)).
  Proof.
    intros O c rules N. destruct c as [a|a|a|a|a|a]; cbn [merge_config rest_script].
    - assert (F : forall r, ea_input (merge_encrypt re r a) = ea_input a /\ ea_in_place (merge_encrypt re r a) = ea_in_place a) by (intro r; unfold merge_encrypt; destruct matching_rule; auto).
      destruct (F rules) as [F1 F2]. unfold encrypt_script. rewrite F1, F2. apply within_andthen; [exact Logic.I|]. intro f. apply within_andthen; [apply within_input; intros p E; now left|]. intro s.
      apply within_andthen; [apply within_draws|]. intro t. apply within_delivers. intros p I E. left. cbn [output_file]. now rewrite I.
    - unfold decrypt_script. apply within_andthen; [exact Logic.I|]. intro f. apply within_andthen; [apply within_input; intros p E; now left|]. intro s.
      apply within_andthen; [exact Logic.I|]. intro t. apply within_delivers. intros p I E. left. cbn [output_file]. now rewrite I.
    - apply within_edit.
      + intros p E. now left.
      + intros p I E. left. cbn [output_file]. now rewrite I.
      + right. split; eauto.
      + right. split; eauto.
    - unfold keys_script. apply within_andthen; [exact Logic.I|]. intro f. apply within_andthen; [apply within_input; intros p E; now left|]. intro s.
      apply within_andthen; [apply within_draws|]. intro t. apply within_writes. now left.
    - unfold keys_script. apply within_andthen; [exact Logic.I|]. intro f. apply within_andthen; [apply within_input; intros p E; now left|]. intro s.
      apply within_andthen; [apply within_draws|]. intro t. apply within_writes. now left.
    - destruct (N a eq_refl).
  Qed.
  Lemma rest_elsewhere : forall O cwd var arg c rules, (forall a, c <> Refresh a) ->
    rest_script (elsewhere O cwd var) (merge_config re rules (with_config arg c)) = rest_script O (merge_config re rules c).
  Proof.
    intros O cwd var arg c rules N. destruct c as [a|a|a|a|a|a]; cbn [with_config merge_config rest_script]; try reflexivity.
    - unfold merge_encrypt. cbn [ea_input input_with in_file]. destruct matching_rule; reflexivity.
    - destruct (N a eq_refl).
  Qed.
  Lemma changes_subject : forall O c p, changes O c p -> subject O c p.
  Proof.
    intros O c p [H|H]; [left|now right]. destruct c as [a|a|a|a|a|a]; cbn [output_file input_file] in *; auto;
      match type of H with context [if is_set ?x then _ else _] => destruct (is_set x) | context [match os_stdin ?x with _ => _ end] => destruct (os_stdin x) end; congruence.
  Qed.

  Lemma command_alike : forall O cwd var arg c s s' rules, no_failures O -> let O' := elsewhere O cwd var in let c' := with_config arg c in
    configured re ag cd O (sy_file s) (config_path c) rules -> configured re ag cd O' (sy_file s') (config_path c') rules -> alike (subject O c) s s' ->
    alike (subject O c) (fst (run_command re tp ag cd O c s)) (fst (run_command re tp ag cd O' c' s')) /\ snd (run_command re tp ag cd O c s) = snd (run_command re tp ag cd O' c' s').
  Proof.
    intros O cwd var arg c s s' rules NF O' c' C C' AL. assert (NF' : no_failures O') by (intros h o; apply NF).
    rewrite <- !(plays_command _ re tp ag cd). unfold command_script.
    destruct (retrieves_alike (subject O c) O O' re ag cd (config_path c) (config_path c') rules s s' NF NF' C C' AL) as (R1 & R2 & R3).
    apply play_chain_alike; [split; [exact R1|congruence]|]. intros r t t' P P' AL'. rewrite P in R2. rewrite P' in R3. cbn [snd] in R2, R3. assert (r = rules) by congruence. subst r. clear R1 R2 R3.
    assert (D : (exists a, c = Refresh a) \/ forall a, c <> Refresh a) by (destruct c; eauto; right; congruence). destruct D as [(a & ->)|N].
    - subst c'. cbn [with_config merge_config config_path place_with pl_input pl_in_place input_with in_config in_file in_format] in *. unfold refresh_script. cbn [pl_input pl_in_place place_with input_with in_file in_format in_config].
      pose proof (still_retrieves O re ag cd (in_config (pl_input a)) s NF) as (F1 & _). rewrite P in F1. pose proof (still_retrieves O' re ag cd arg s' NF') as (G1 & _). rewrite P' in G1. cbn [fst] in F1, G1.
      apply play_chain_alike; [cbn [play fst snd]; auto|]. intros f t1 t1' Q Q' AL1. cbn [play] in Q, Q'. assert (t1 = t) by congruence. assert (t1' = t') by congruence. subst t1 t1'. clear Q Q'.
      apply play_chain_alike.
      { unfold O'. change (takes_input (elsewhere O cwd var)) with (takes_input O). eapply (play_alike _ (subject O (Refresh a)) (fun _ => False)); eauto; [intros p []|]. apply within_input. intros p E. now left. }
      intros x t1 t1' Q Q' AL2. pose proof (still_input O (in_file (pl_input a)) (pl_in_place a) t NF) as (F2 & _). rewrite Q in F2. pose proof (still_input O' (in_file (pl_input a)) (pl_in_place a) t' NF') as (G2 & _). rewrite Q' in G2. cbn [fst] in F2, G2.
      destruct (retrieves_alike (subject O (Refresh a)) O O' re ag cd (in_config (pl_input a)) arg rules t1 t1' NF NF') as (R1 & R2 & R3); auto; [rewrite F2, F1; exact C|rewrite G2, G1; exact C'|].
      apply play_chain_alike; [split; [exact R1|congruence]|]. intros r t2 t2' S2 S2' AL3. 
      eapply (play_alike _ (subject O (Refresh a)) (changes O (Refresh a))); eauto; [apply changes_subject|]. apply within_andthen; [apply within_draws|]. intro u. apply within_delivers. intros p I E. left. cbn [output_file]. now rewrite I.
    - change (match merge_config re rules c with Encrypt a => encrypt_script re tp ag cd O a | Decrypt a => decrypt_script re ag cd O a | Edit a => edit_script re tp ag cd O a
        | AddKeys a => keys_script O (add_text re ag cd) a | RemoveKeys a => keys_script O (remove_text re tp ag cd) a | Refresh a => refresh_script re tp ag cd O a end) with (rest_script O (merge_config re rules c)).
      change (match merge_config re rules c' with Encrypt a => encrypt_script re tp ag cd O' a | Decrypt a => decrypt_script re ag cd O' a | Edit a => edit_script re tp ag cd O' a
        | AddKeys a => keys_script O' (add_text re ag cd) a | RemoveKeys a => keys_script O' (remove_text re tp ag cd) a | Refresh a => refresh_script re tp ag cd O' a end) with (rest_script O' (merge_config re rules c')).
      unfold O' at 2 4, c'. rewrite (rest_elsewhere O cwd var arg c rules N).
      eapply (play_alike _ (subject O c) (changes O c)); eauto; [apply changes_subject|]. now apply within_rest.
  Qed.
End Rest.
