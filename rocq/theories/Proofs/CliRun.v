(** Facts about runs of commands: which files they touch, and when. *)
From Verif.Model Require Import Cli.
From Verif.Spec Require Import SpecCli.
From Verif.Proofs Require Import BytesFacts EditorFacts.
Open Scope byte_scope.
Local Open Scope nat_scope.

(** ** Programs *)
Definition printed (ops : list op) : bytes := flat_map (fun o => match o with Printed t => t | _ => [] end) ops.

(** The program only has effects of kind [Q]. *)
Definition emits {A} (Q : op -> Prop) (p : prog A) : Prop := forall s s' o, p s = (s', o) ->
  exists l, sy_ops s' = sy_ops s ++ l /\ sy_file s' = replay l (sy_file s) /\ sy_out s' = sy_out s ++ printed l /\ Forall Q l.

Lemma emits_pure : forall A Q (p : prog A), (forall s, fst (p s) = s \/ exists n, fst (p s) = {| sy_file := sy_file s; sy_out := sy_out s; sy_ops := sy_ops s; sy_draws := n |}) -> emits Q p.
Proof.
  intros A Q p H s s' o E. specialize (H s). rewrite E in H. cbn [fst] in H. exists []. cbn [replay fold_left printed flat_map]. rewrite !app_nil_r.
  destruct H as [->|(n & ->)]; repeat split; auto.
Qed.
Lemma emits_lift : forall A Q (o : outcome A), emits Q (lift o).
Proof. intros A Q o. apply emits_pure. now left. Qed.
Lemma emits_ret : forall A Q (a : A), emits Q (ret a).
Proof. intros A Q a. apply emits_pure. now left. Qed.
Lemma emits_drawing : forall A Q (f : nat -> outcome (A * nat)), emits Q (drawing f).
Proof. intros A Q f. apply emits_pure. intro s. unfold drawing. destruct (f (sy_draws s)) as [[a n]|e|]; cbn [fst]; eauto. Qed.
Lemma replay_app : forall a b fs, replay (a ++ b) fs = replay b (replay a fs).
Proof. intros a b fs. unfold replay. apply fold_left_app. Qed.
Lemma printed_app : forall a b, printed (a ++ b) = printed a ++ printed b.
Proof. intros a b. apply flat_map_app. Qed.
Lemma emits_chain : forall A B Q (p : prog A) (k : A -> prog B), emits Q p -> (forall a, emits Q (k a)) -> emits Q (chain p k).
Proof.
  intros A B Q p k P K s s' o E. unfold chain in E. destruct (p s) as [s1 o1] eqn:H. destruct (P _ _ _ H) as (l & L1 & L2 & L3 & L4).
  destruct o1 as [a|e|]; [|injection E as <- _; eauto|injection E as <- _; eauto].
  destruct (K a _ _ _ E) as (m & M1 & M2 & M3 & M4). exists (l ++ m). rewrite replay_app, printed_app, <- L2, <- M2, M1, L1, M3, L3, <- !app_assoc. repeat split; auto. apply Forall_app. auto.
Qed.

(** Effects on the temporary file only, and on nothing. *)
Definition temp_only (p : bytes) (o : op) : Prop :=
  match o with Looked _ => True | Opened q | Wrote q _ | MadeTemp q | Edited q _ | Removed q => q = p | Printed _ => False end.
Definition looking (o : op) : Prop := match o with Looked _ => True | _ => False end.

Lemma put_other : forall p c fs q, q <> p -> put_file p c fs q = fs q.
Proof. intros p c fs q N. unfold put_file. apply bytes_eqb_neq in N. now rewrite N. Qed.
Lemma put_here : forall p c fs, put_file p c fs p = c.
Proof. intros p c fs. unfold put_file. now rewrite bytes_eqb_refl. Qed.

Lemma temp_only_keeps : forall p l fs q, Forall (temp_only p) l -> q <> p -> replay l fs q = fs q.
Proof.
  intros p l fs q F N. revert fs. induction F as [|o l H _ IH]; intro fs; auto. cbn [replay fold_left]. fold (replay l (apply_op o fs)). rewrite IH.
  destruct o; cbn [apply_op temp_only] in *; subst; auto using put_other.
Qed.
Lemma looking_keeps : forall l fs, Forall looking l -> replay l fs = fs.
Proof. intros l fs F. revert fs. induction F as [|o l H _ IH]; intro fs; auto. cbn [replay fold_left]. fold (replay l (apply_op o fs)). rewrite IH. destruct o; auto; destruct H. Qed.
Lemma looking_temp : forall p o, looking o -> temp_only p o.
Proof. intros p o H. destruct o; auto; destruct H. Qed.
Lemma emits_weaken : forall A (Q R : op -> Prop) (p : prog A), (forall o, Q o -> R o) -> emits Q p -> emits R p.
Proof. intros A Q R p H P s s' o E. destruct (P _ _ _ E) as (l & L1 & L2 & L3 & L4). exists l. repeat split; auto. eapply Forall_impl; eauto. Qed.
Lemma printed_temp : forall p l, Forall (temp_only p) l -> printed l = [].
Proof. intros p l F. induction F as [|o l H _ IH]; auto. cbn. fold (printed l). rewrite IH. destruct o; auto; destruct H. Qed.

Section Runs.
  Context (O : os).

  Lemma emits_perform : forall (Q : op -> Prop) o, Q o -> (forall p t k, o = Wrote p t -> Q (Wrote p (firstn k t))) -> (forall t k, o = Printed t -> Q (Printed (firstn k t))) -> emits Q (perform O o).
  Proof.
    intros Q o H W P s s' r E. unfold perform in E. destruct (os_io O (sy_ops s) o) as [k|].
    - destruct o; injection E as <- _;
        try (exists []; cbn [replay fold_left printed flat_map]; rewrite !app_nil_r; repeat split; auto; fail).
      + exists [Wrote p (firstn k s0)]. cbn [done sy_ops sy_file sy_out printed flat_map app]. rewrite app_nil_r. repeat split; eauto.
      + exists [Printed (firstn k s0)]. cbn [done sy_ops sy_file sy_out printed flat_map app]. rewrite app_nil_r. repeat split; eauto.
    - injection E as <- _. exists [o]. cbn [done sy_ops sy_file sy_out printed flat_map]. rewrite app_nil_r. repeat split; auto. destruct o; now rewrite ?app_nil_r.
  Qed.
  Lemma emits_read : forall p, emits looking (read_to_string O p).
  Proof.
    intro p. apply emits_chain; [apply emits_perform; cbn; auto; discriminate|]. intros _. apply emits_pure. now left.
  Qed.
  Lemma emits_exists : forall Q p, emits Q (exists_path p).
  Proof. intros Q p. apply emits_pure. now left. Qed.

  (** Reading. *)
  Lemma read_ok : forall p s s' t, read_to_string O p s = (s', Ok t) -> sy_file s' = sy_file s /\ sy_draws s' = sy_draws s /\ sy_file s p = Content t /\ utf8_valid t = true.
  Proof.
    intros p s s' t H. unfold read_to_string, chain, perform in H. destruct (os_io O (sy_ops s) (Looked p)); [discriminate|]. injection H as <- H. cbn [done sy_file apply_op sy_draws] in *.
    destruct (sy_file s p) as [| |c]; try discriminate. destruct (utf8_valid c) eqn:V; [|discriminate]. injection H as <-. auto.
  Qed.
  Lemma read_does : forall p s t, no_failures O -> sy_file s p = Content t -> utf8_valid t = true -> snd (read_to_string O p s) = Ok t.
  Proof. intros p s t N H V. unfold read_to_string, chain, perform. rewrite N. cbn [snd done sy_file apply_op]. now rewrite H, V. Qed.

  (** ** Configuration lookup *)
  Context (re : regex_engine) (tp : tape) (ag : age_crate) (cd : codec).

  Lemma emits_config : forall p, emits looking (read_config_file re ag cd O p).
  Proof. intro p. apply emits_chain; [apply emits_read|]. intro. apply emits_lift. Qed.
  Lemma emits_traverse : forall dirs, emits looking (traverse re ag cd O dirs).
  Proof.
    induction dirs as [|d up IH]; cbn [traverse]; (apply emits_chain; [apply emits_exists|]); intros [|]; auto using emits_config, emits_ret.
  Qed.
  Lemma emits_retrieve : forall arg, emits looking (retrieve re ag cd O arg).
  Proof.
    intros [p|]; cbn [retrieve]; [apply emits_config|]. destruct (os_config_var O); [apply emits_config|]. destruct (os_cwd O); [apply emits_traverse|apply emits_lift].
  Qed.
  Lemma emits_looking_same : forall A (p : prog A) s s' o, emits looking p -> p s = (s', o) -> sy_file s' = sy_file s.
  Proof. intros A p s s' o P E. destruct (P _ _ _ E) as (l & _ & -> & _ & F). now apply looking_keeps. Qed.

  Lemma read_config_ok : forall p s s' rules, read_config_file re ag cd O p s = (s', Ok rules) ->
    sy_draws s' = sy_draws s /\ exists t, sy_file s p = Content t /\ utf8_valid t = true /\ read_config re ag cd t = Ok rules.
  Proof.
    intros p s s' rules H. unfold read_config_file, chain in H. destruct (read_to_string O p s) as [s1 [t|e|]] eqn:R; try discriminate.
    unfold lift in H. injection H as <- H. destruct (read_ok _ _ _ _ R) as (_ & D & F & V). eauto.
  Qed.
  Lemma suffix_split : forall (a b d e : list bytes), a ++ d = b ++ e -> length d < length e -> exists x y, e = x :: y ++ d.
  Proof.
    intros a b d e E L. assert (D : d = skipn (length e - length d) e).
    { assert (X : skipn (length a) (a ++ d) = d) by (rewrite skipn_app, skipn_all, Nat.sub_diag; reflexivity).
      rewrite <- X at 1. rewrite E. assert (LE : length a + length d = length b + length e) by (rewrite <- !app_length; now rewrite E).
      rewrite skipn_app. replace (skipn (length a) b) with (@nil bytes) by (symmetry; apply skipn_all2; lia). cbn [app]. f_equal. lia. }
    destruct (firstn (length e - length d) e) as [|x y] eqn:F.
    - exfalso. apply (f_equal (@length bytes)) in F. rewrite firstn_length in F. cbn [length] in F. lia.
    - exists x, y. rewrite <- (firstn_skipn (length e - length d) e), F, <- D. reflexivity.
  Qed.
  Lemma traverse_ok : forall dirs s s' rules, traverse re ag cd O dirs s = (s', Ok rules) -> sy_draws s' = sy_draws s
    /\ ((exists a d t, dirs = a ++ d /\ sy_file s (config_in d) <> Absent /\ (forall b e, dirs = b ++ e -> length d < length e -> sy_file s (config_in e) = Absent)
          /\ sy_file s (config_in d) = Content t /\ utf8_valid t = true /\ read_config re ag cd t = Ok rules)
        \/ (rules = [] /\ forall b e, dirs = b ++ e -> sy_file s (config_in e) = Absent)).
  Proof.
    induction dirs as [|d up IH]; intros s s' rules H.
    - cbn [traverse] in H. unfold chain, exists_path in H. destruct (sy_file s (config_in [])) as [| |c] eqn:C; [|apply read_config_ok in H; destruct H as (_ & t & F & _); congruence|].
      + unfold ret in H. injection H as <- <-. split; auto. right. split; auto. intros b e E. symmetry in E. apply app_eq_nil in E. destruct E as [_ ->]. auto.
      + apply read_config_ok in H. destruct H as (D & t & F & V & R). split; auto. left. exists [], [], t. repeat split; auto; [congruence|]. intros b e E L. symmetry in E. apply app_eq_nil in E. destruct E as [_ ->]. cbn in L. lia.
    - cbn [traverse] in H. unfold chain, exists_path in H. destruct (sy_file s (config_in (d :: up))) as [| |c] eqn:C; [|apply read_config_ok in H; destruct H as (_ & t & F & _); congruence|].
      + specialize (IH _ _ _ H). destruct IH as [D [(a & d' & t & -> & NA & AB & F & V & R)|[-> AB]]]; split; auto.
        * left. exists (d :: a), d', t. repeat split; auto. intros b e E L. destruct b as [|x b]; cbn [app] in E; [rewrite <- E; exact C|]. injection E as _ E. eauto.
        * right. split; auto. intros b e E. destruct b as [|x b]; cbn [app] in E; [rewrite <- E; exact C|]. injection E as _ E. eauto.
      + apply read_config_ok in H. destruct H as (D & t & F & V & R). split; auto. left. exists [], (d :: up), t. repeat split; auto; [congruence|]. intros b e E L. apply (f_equal (@length bytes)) in E. rewrite app_length in E. lia.
  Qed.
  Lemma retrieve_ok : forall arg s s' rules, retrieve re ag cd O arg s = (s', Ok rules) -> sy_file s' = sy_file s /\ sy_draws s' = sy_draws s /\ configured re ag cd O (sy_file s) arg rules.
  Proof.
    intros arg s s' rules H. split; [eapply emits_looking_same; [apply emits_retrieve|exact H]|]. unfold configured. destruct arg as [p|]; cbn [retrieve] in H.
    - apply read_config_ok in H. destruct H as (D & H). split; auto. exists (Some p). split; auto. now constructor.
    - destruct (os_config_var O) as [p|] eqn:V. { apply read_config_ok in H. destruct H as (D & H). split; auto. exists (Some p). split; auto. now apply src_var. }
      destruct (os_cwd O) as [dirs|] eqn:C; [|discriminate]. apply traverse_ok in H. destruct H as [D [(a & d & t & E & NA & AB & F & U & R)|[-> AB]]]; split; auto.
      + exists (Some (config_in d)). split; [eapply src_nearest; eauto|]. eauto.
      + exists None. split; [eapply src_default; eauto|auto].
  Qed.

  (** The outcome of the lookup, for a given source. *)
  Definition source_outcome (fs : bytes -> node) (src : option bytes) : outcome (list rule) :=
    match src with
    | None => Ok []
    | Some p => match fs p with Content t => if utf8_valid t then read_config re ag cd t else Err EIo | _ => Err EIo end
    end.
  Lemma read_config_out : forall p s, no_failures O -> snd (read_config_file re ag cd O p s) = source_outcome (sy_file s) (Some p).
  Proof.
    intros p s N. unfold read_config_file, chain, read_to_string, chain, perform. rewrite N. cbn [done sy_file apply_op source_outcome]. destruct (sy_file s p); auto. now destruct (utf8_valid s0).
  Qed.
  Lemma traverse_out : forall dirs s, no_failures O -> forall src, config_source O (sy_file s) None src -> os_config_var O = None -> os_cwd O = Some dirs ->
    snd (traverse re ag cd O dirs s) = source_outcome (sy_file s) src.
  Proof.
    intros dirs s N src H V C.
    assert (G : forall dirs', (exists a, dirs = a ++ dirs') ->
      (forall p, src = Some p -> exists d, p = config_in d /\ (exists a, dirs' = a ++ d) /\ sy_file s (config_in d) <> Absent /\ forall b e, dirs' = b ++ e -> length d < length e -> sy_file s (config_in e) = Absent) ->
      (src = None -> forall b e, dirs' = b ++ e -> sy_file s (config_in e) = Absent) -> snd (traverse re ag cd O dirs' s) = source_outcome (sy_file s) src).
    { induction dirs' as [|x up IH]; intros P S D; cbn [traverse]; unfold chain, exists_path.
      - destruct src as [p|].
        + destruct (S p eq_refl) as (d & -> & (a & E) & NA & _). symmetry in E. apply app_eq_nil in E. destruct E as [_ ->]. destruct (sy_file s (config_in [])) eqn:F; [now destruct NA| |]; now apply read_config_out.
        + rewrite (D eq_refl [] []) by reflexivity. reflexivity.
      - destruct src as [p|].
        + destruct (S p eq_refl) as (d & -> & (a & E) & NA & AB). destruct a as [|y a].
          * cbn [app] in E. subst d. destruct (sy_file s (config_in (x :: up))) eqn:F; [now destruct NA| |]; now apply read_config_out.
          * cbn [app] in E. injection E as -> E. rewrite (AB [] (y :: up)); [|reflexivity|rewrite E; cbn [length]; rewrite app_length; lia].
            apply IH; [destruct P as (b & ->); exists (b ++ [y]); now rewrite <- app_assoc| |discriminate]. intros q Q. injection Q as <-. exists d. split; auto. split; eauto. split; auto.
            intros b e E' L. apply (AB (y :: b) e); auto. now rewrite E'.
        + rewrite (D eq_refl [] (x :: up)) by reflexivity. apply IH; [destruct P as (b & ->); exists (b ++ [x]); now rewrite <- app_assoc|discriminate|]. intros _ b e ->. now apply (D eq_refl (x :: b)). }
    apply G; [now exists []| |].
    - intros p ->. inversion H; subst; try congruence. match goal with K : os_cwd O = Some _ |- _ => rewrite C in K; injection K as -> end. exists d. repeat split; eauto.
    - intros ->. inversion H; subst; try congruence. match goal with K : os_cwd O = Some _ |- _ => rewrite C in K; injection K as -> end. auto.
  Qed.
  Lemma retrieve_out : forall arg s src, no_failures O -> config_source O (sy_file s) arg src -> snd (retrieve re ag cd O arg s) = source_outcome (sy_file s) src.
  Proof.
    intros arg s src N H. destruct arg as [p|]; cbn [retrieve].
    - inversion H; subst; try congruence. match goal with K : Some _ = Some _ |- _ => injection K as -> end. now apply read_config_out.
    - destruct (os_config_var O) as [p|] eqn:V.
      + inversion H; subst; try congruence. match goal with K : os_config_var O = Some _ |- _ => rewrite V in K; injection K as -> end. now apply read_config_out.
      + destruct (os_cwd O) as [dirs|] eqn:C; [|inversion H; subst; congruence]. now apply traverse_out.
  Qed.

  (** ** A command computes a text, and then delivers it *)
  Definition compute (c : command) : prog (option bytes) :=
    do* rules := retrieve re ag cd O (config_path c) in
    match c with
    | Encrypt a =>
        do* f := lift (get_format (in_file (ea_input a)) (in_format (ea_input a))) in
        do* s := get_input_string O (in_file (ea_input a)) (ea_in_place a) in
        do* t := drawing (encrypt_text re tp ag cd (os_env O) f (merge_encrypt re rules a) s) in ret (Some t)
    | Decrypt a =>
        do* f := lift (get_format (in_file (pl_input a)) (in_format (pl_input a))) in
        do* s := get_input_string O (in_file (pl_input a)) (pl_in_place a) in
        do* t := lift (decrypt_text re ag cd (os_env O) f s) in ret (Some t)
    | Edit a =>
        do* f := lift (get_format (in_file a) (in_format a)) in
        do* s := get_input_string O (in_file a) None in
        do* ef := lift (read_efile (re_valid re) ag cd f s) in
        do* d := lift (file_decrypt_save re ag (os_env O) f f ef) in
        do* _ := perform O (MadeTemp (os_temp O)) in
        do* o := with_cleanup O (os_temp O)
          (do* t := lift (map_text cd f (fl_map (fst d))) in
           do* _ := fs_write O (os_temp O) t in
           do* e := lift (select_editor O) in
           edit_loop cd O f (os_editor O (editor_command O e))) in
        match o with None => ret None | Some m => do* t := drawing (edited_text re tp cd (os_env O) f (fst d) (snd d) m) in ret (Some t) end
    | AddKeys a =>
        do* f := lift (get_format (Some (ka_file a)) (ka_format a)) in
        do* s := get_input_string O (Some (ka_file a)) None in
        do* t := drawing (add_text re ag cd (os_env O) f (ka_keys a) s) in ret (Some t)
    | RemoveKeys a =>
        do* f := lift (get_format (Some (ka_file a)) (ka_format a)) in
        do* s := get_input_string O (Some (ka_file a)) None in
        do* t := drawing (remove_text re tp ag cd (os_env O) f (ka_keys a) s) in ret (Some t)
    | Refresh a =>
        do* f := lift (get_format (in_file (pl_input a)) (in_format (pl_input a))) in
        do* s := get_input_string O (in_file (pl_input a)) (pl_in_place a) in
        do* rules' := retrieve re ag cd O (in_config (pl_input a)) in
        do* t := drawing (refresh_text re tp ag cd (os_env O) f rules' (in_file (pl_input a)) s) in ret (Some t)
    end.
  Definition deliver (c : command) (t : bytes) : prog unit := match output_file O c with Some p => fs_write O p t | None => println O t end.

  Lemma input_panics : forall i s, is_set i = true -> get_input_string O None i s = (s, Panic).
  Proof. intros i s H. unfold get_input_string. now rewrite H. Qed.
  Lemma merge_same : forall rules a, ea_input (merge_encrypt re rules a) = ea_input a /\ ea_in_place (merge_encrypt re rules a) = ea_in_place a.
  Proof. intros rules a. unfold merge_encrypt. now destruct matching_rule. Qed.

  Lemma chain_assoc : forall A B C (p : prog A) (k : A -> prog B) (k' : B -> prog C) s, chain (chain p k) k' s = chain p (fun a => chain (k a) k') s.
  Proof. intros A B C p k k' s. unfold chain. now destruct (p s) as [s1 [a|e|]]. Qed.
  Lemma chain_same : forall A B (p : prog A) (k k' : A -> prog B) s, (forall a s', p s = (s', Ok a) -> k a s' = k' a s') -> chain p k s = chain p k' s.
  Proof. intros A B p k k' s H. unfold chain. destruct (p s) as [s1 [a|e|]]; auto. Qed.

  Lemma run_split : forall c s, run_command re tp ag cd O c s = (do* o := compute c in match o with None => ret tt | Some t => deliver c t end) s.
  Proof.
    intros c s. unfold run_command, compute. unfold chain at 1 2 3. destruct (retrieve re ag cd O (config_path c) s) as [s1 [rules|e|]]; auto.
    destruct c as [a|a|a|a|a|a]; cbn [merge_config].
    - unfold run_encrypt, deliver, output_file, write_or_print, chain, lift, ret. destruct (merge_same rules a) as [-> ->]. destruct (get_format _ _) as [f|e|]; auto.
      destruct (in_file (ea_input a)) as [p|] eqn:I.
      + destruct (get_input_string _ _ _ _) as [s2 [x|e|]]; auto. destruct (drawing _ _) as [s3 [y|e|]]; auto. now destruct (is_set _).
      + destruct (is_set (ea_in_place a)) eqn:P; [now rewrite input_panics by exact P|]. destruct (get_input_string _ _ _ _) as [s2 [x|e|]]; auto. destruct (drawing _ _) as [s3 [y|e|]]; auto.
    - unfold run_decrypt, deliver, output_file, write_or_print, chain, lift, ret. destruct (get_format _ _) as [f|e|]; auto.
      destruct (in_file (pl_input a)) as [p|] eqn:I.
      + destruct (get_input_string _ _ _ _) as [s2 [x|e|]]; auto. destruct (decrypt_text _ _ _ _ _ _) as [y|e|]; auto. now destruct (is_set _).
      + destruct (is_set (pl_in_place a)) eqn:P; [now rewrite input_panics by exact P|]. destruct (get_input_string _ _ _ _) as [s2 [x|e|]]; auto. destruct (decrypt_text _ _ _ _ _ _) as [y|e|]; auto.
    - change (run_edit re tp ag cd O a s1 = (do* o := (
        do* f := lift (get_format (in_file a) (in_format a)) in
        do* s := get_input_string O (in_file a) None in
        do* ef := lift (read_efile (re_valid re) ag cd f s) in
        do* d := lift (file_decrypt_save re ag (os_env O) f f ef) in
        do* _ := perform O (MadeTemp (os_temp O)) in
        do* o := with_cleanup O (os_temp O)
          (do* t := lift (map_text cd f (fl_map (fst d))) in
           do* _ := fs_write O (os_temp O) t in
           do* e := lift (select_editor O) in
           edit_loop cd O f (os_editor O (editor_command O e))) in
        match o with None => ret None | Some m => do* t := drawing (edited_text re tp cd (os_env O) f (fst d) (snd d) m) in ret (Some t) end)
        in match o with None => ret tt | Some t => deliver (Edit a) t end) s1).
      unfold run_edit. do 6 (rewrite chain_assoc; apply chain_same; intros ? ? ?). destruct a5 as [m|]; [|reflexivity]. rewrite chain_assoc. apply chain_same. intros y s8 _.
      unfold deliver, output_file, chain, ret. destruct (os_stdin O) eqn:I; auto. destruct (in_file a) eqn:F; auto.
      exfalso. match goal with G : get_input_string _ _ _ _ = _ |- _ => unfold get_input_string in G; cbn [is_set] in G; rewrite I in G; discriminate end.
    - unfold run_keys, deliver, output_file, chain, lift, ret. destruct (get_format _ _) as [f|e|]; auto. destruct (get_input_string _ _ _ _) as [s2 [x|e|]]; auto. destruct (drawing _ _) as [s3 [y|e|]]; auto.
    - unfold run_keys, deliver, output_file, chain, lift, ret. destruct (get_format _ _) as [f|e|]; auto. destruct (get_input_string _ _ _ _) as [s2 [x|e|]]; auto. destruct (drawing _ _) as [s3 [y|e|]]; auto.
    - unfold run_refresh, deliver, output_file, write_or_print, chain, lift, ret. destruct (get_format _ _) as [f|e|]; auto.
      destruct (in_file (pl_input a)) as [p|] eqn:I.
      + destruct (get_input_string _ _ _ _) as [s2 [x|e|]]; auto. destruct (retrieve _ _ _ _ _ _) as [s3 [y|e|]]; auto. destruct (drawing _ _) as [s4 [z|e|]]; auto. now destruct (is_set _).
      + destruct (is_set (pl_in_place a)) eqn:P; [now rewrite input_panics by exact P|]. destruct (get_input_string _ _ _ _) as [s2 [x|e|]]; auto. destruct (retrieve _ _ _ _ _ _) as [s3 [y|e|]]; auto. destruct (drawing _ _) as [s4 [z|e|]]; auto.
  Qed.

  (** *** Computing touches no file but the temporary one *)
  Lemma emits_input : forall path i, emits looking (get_input_string O path i).
  Proof.
    intros path i. unfold get_input_string, read_from_path, read_stdin. destruct (is_set i), path, (os_stdin O); auto using emits_lift, emits_read.
  Qed.
  Lemma emits_write : forall (Q : op -> Prop) p t, Q (Opened p) -> (forall u, Q (Wrote p u)) -> emits Q (fs_write O p t).
  Proof.
    intros Q p t H W. apply emits_chain; [|intros _]; apply emits_perform; auto; try discriminate. intros ? ? k E. injection E as <- <-. auto.
  Qed.
  Lemma emits_loop : forall f l, emits (temp_only (os_temp O)) (edit_loop cd O f l).
  Proof.
    intros f. induction l as [|e l IH]; cbn [edit_loop]; [apply emits_lift|]. intros s s' o H. destruct (e (sy_file s (os_temp O))) as [|c|c k].
    - injection H as <- _. exists []. cbn [replay fold_left printed flat_map]. rewrite !app_nil_r. auto.
    - injection H as <- _. exists [Edited (os_temp O) c]. cbn [printed flat_map]. rewrite app_nil_r. repeat split. constructor; [reflexivity|constructor].
    - assert (G : emits (temp_only (os_temp O)) (do* t := read_to_string O (os_temp O) in
             match read_map cd f t with
             | Ok m => ret (Some m)
             | Panic => lift Panic
             | Err _ => match k with KeyPressed => edit_loop cd O f l | KeyInterrupted => ret None | KeyFailed => lift (Err EIo) end
             end)).
      { apply emits_chain; [eapply emits_weaken; [apply looking_temp|apply emits_read]|]. intro t. destruct (read_map cd f t); auto using emits_ret, emits_lift. destruct k; auto using emits_ret, emits_lift. }
      destruct (G _ _ _ H) as (m & M1 & M2 & M3 & M4). exists (Edited (os_temp O) c :: m). cbn [done sy_ops sy_file sy_out] in *. rewrite M1, M2, M3, <- app_assoc. repeat split. constructor; [reflexivity|exact M4].
  Qed.
  Lemma emits_cleanup : forall A (p : prog A), emits (temp_only (os_temp O)) p -> emits (temp_only (os_temp O)) (with_cleanup O (os_temp O) p).
  Proof.
    intros A p P s s' o H. unfold with_cleanup in H. destruct (p s) as [s1 o1] eqn:E. destruct (perform O (Removed (os_temp O)) s1) as [s2 o2] eqn:R. injection H as <- <-.
    destruct (P _ _ _ E) as (l & L1 & L2 & L3 & L4). assert (G : emits (temp_only (os_temp O)) (perform O (Removed (os_temp O)))) by (apply emits_perform; cbn; auto; discriminate).
    destruct (G _ _ _ R) as (m & M1 & M2 & M3 & M4). exists (l ++ m). cbn [fst]. rewrite replay_app, printed_app, <- L2, <- M2, M1, L1, M3, L3, <- !app_assoc. repeat split; auto. apply Forall_app. auto.
  Qed.
  Lemma emits_compute : forall c, emits (temp_only (os_temp O)) (compute c).
  Proof.
    intro c. assert (I : forall path i, emits (temp_only (os_temp O)) (get_input_string O path i)) by (intros; eapply emits_weaken; [apply looking_temp|apply emits_input]).
    assert (R : forall arg, emits (temp_only (os_temp O)) (retrieve re ag cd O arg)) by (intros; eapply emits_weaken; [apply looking_temp|apply emits_retrieve]).
    unfold compute. apply emits_chain; auto. intro rules.
    destruct c as [a|a|a|a|a|a]; (apply emits_chain; [apply emits_lift|intro f]); (apply emits_chain; [apply I|intro s]);
      try (apply emits_chain; [apply emits_drawing|intro; apply emits_ret]); try (apply emits_chain; [apply emits_lift|intro; apply emits_ret]).
    - apply emits_chain; [apply emits_lift|intro ef]. apply emits_chain; [apply emits_lift|intro d]. apply emits_chain; [apply emits_perform; cbn; auto; discriminate|intros _].
      apply emits_chain.
      + apply emits_cleanup. apply emits_chain; [apply emits_lift|intro]. apply emits_chain; [apply emits_write; cbn; auto|intros _]. apply emits_chain; [apply emits_lift|intro]. apply emits_loop.
      + intros [m|]; [|apply emits_ret]. apply emits_chain; [apply emits_drawing|intro; apply emits_ret].
    - apply emits_chain; [apply R|intro]. apply emits_chain; [apply emits_drawing|intro; apply emits_ret].
  Qed.

  (** *** What is computed *)
  Lemma chain_ok : forall A B (p : prog A) (k : A -> prog B) s s' b, chain p k s = (s', Ok b) -> exists s1 a, p s = (s1, Ok a) /\ k a s1 = (s', Ok b).
  Proof. intros A B p k s s' b H. unfold chain in H. destruct (p s) as [s1 [a|e|]]; try discriminate. eauto. Qed.
  Lemma lift_ok : forall A (o : outcome A) s s' a, lift o s = (s', Ok a) -> s' = s /\ o = Ok a.
  Proof. intros A o s s' a H. unfold lift in H. injection H as <- ->. auto. Qed.
  Lemma drawing_ok : forall A (f : nat -> outcome (A * nat)) s s' a, drawing f s = (s', Ok a) -> f (sy_draws s) = Ok (a, sy_draws s') /\ sy_file s' = sy_file s.
  Proof. intros A f s s' a H. unfold drawing in H. destruct (f (sy_draws s)) as [[x n]|e|]; try discriminate. injection H as <- <-. auto. Qed.
  Lemma input_ok : forall path i s s' t, get_input_string O path i s = (s', Ok t) ->
    sy_file s' = sy_file s /\ sy_draws s' = sy_draws s /\ only_source O (sy_file s) path t /\ utf8_valid t = true.
  Proof.
    intros path i s s' t H. unfold get_input_string, read_from_path, read_stdin, only_source in *. destruct path as [p|].
    - assert (G : (match os_stdin O with Some _ => lift (Err EMultipleInputs) | None => read_to_string O p end) s = (s', Ok t)) by (destruct (is_set i); exact H).
      destruct (os_stdin O); [discriminate|]. apply read_ok in G. destruct G as (? & ? & ? & ?). repeat split; auto. left. eauto.
    - destruct (is_set i); [discriminate|]. destruct (os_stdin O) as [x|]; [|discriminate]. apply lift_ok in H. destruct H as (-> & H). destruct (utf8_valid x) eqn:V; [|discriminate]. injection H as ->. repeat split; auto.
  Qed.
  Lemma loop_ok : forall f l s s' r, edit_loop cd O f l s = (s', Ok r) -> sy_draws s' = sy_draws s
    /\ exists e rest c t k, tried cd f l (sy_file s (os_temp O)) (e :: rest) c /\ e c = Closed (Content t) k /\ utf8_valid t = true
       /\ match r with Some m => read_map cd f t = Ok m | None => k = KeyInterrupted /\ exists err, read_map cd f t = Err err end.
  Proof.
    intro f. induction l as [|e l IH]; intros s s' r H; cbn [edit_loop] in H; [discriminate|]. destruct (e (sy_file s (os_temp O))) as [|c|c k] eqn:E; try discriminate.
    apply chain_ok in H. destruct H as (s1 & t & R & H). apply read_ok in R. destruct R as (F & D & C & V). cbn [done sy_file apply_op sy_draws] in *. rewrite put_here in C. subst c.
    destruct (read_map cd f t) as [m|err|] eqn:M; [| |discriminate].
    - unfold ret in H. injection H as <- <-. split; [congruence|]. exists e, l, (sy_file s (os_temp O)), t, k. repeat split; auto. constructor.
    - destruct k; [|unfold ret in H; injection H as <- <-|discriminate].
      + apply IH in H. destruct H as (D' & e' & rest & c & u & k & T & G). split; [congruence|]. exists e', rest, c, u, k. split; auto. econstructor; eauto. rewrite F, put_here in T. exact T.
      + split; [congruence|]. exists e, l, (sy_file s (os_temp O)), t, KeyInterrupted. repeat split; eauto. constructor.
  Qed.
  Lemma write_ok : forall p t s s' u, fs_write O p t s = (s', Ok u) -> s' = done (Wrote p t) (done (Opened p) s).
  Proof.
    intros p t s s' u H. unfold fs_write, chain, perform in H. destruct (os_io O (sy_ops s) (Opened p)); [discriminate|]. destruct (os_io O _ (Wrote p t)); [discriminate|]. now injection H as <-.
  Qed.
  Lemma written_here : forall p t fs, apply_op (Wrote p t) (apply_op (Opened p) fs) p = Content t.
  Proof. intros p t fs. cbn [apply_op]. rewrite !put_here, skipn_nil, app_nil_r. reflexivity. Qed.
  Lemma written_other : forall p t fs q, q <> p -> apply_op (Wrote p t) (apply_op (Opened p) fs) q = fs q.
  Proof. intros p t fs q N. cbn [apply_op]. now rewrite !put_other. Qed.
  Lemma cleanup_ok : forall A (p : prog A) s s' a, with_cleanup O (os_temp O) p s = (s', Ok a) -> exists s1, p s = (s1, Ok a) /\ sy_draws s' = sy_draws s1.
  Proof.
    intros A p s s' a H. unfold with_cleanup in H. destruct (p s) as [s1 o] eqn:E. injection H as <- ->. exists s1. split; auto. unfold perform. now destruct (os_io O _ _).
  Qed.

  Lemma compute_ok : forall c s s' r, compute c s = (s', Ok r) -> match r with Some t => computes re tp ag cd O c (sy_file s) (sy_draws s) t | None => cancelled re ag cd O c (sy_file s) end.
  Proof.
    intros c s s' r H. unfold compute in H. apply chain_ok in H. destruct H as (s1 & rules & R & H). apply retrieve_ok in R. destruct R as (F1 & D1 & R).
    destruct c as [a|a|a|a|a|a]; apply chain_ok in H; destruct H as (s2 & f & GF & H); apply lift_ok in GF; destruct GF as (-> & GF);
      apply chain_ok in H; destruct H as (s3 & x & GI & H); apply input_ok in GI; destruct GI as (F3 & D3 & GI & V); rewrite F1 in *.
    - apply chain_ok in H. destruct H as (s4 & t & G & H). apply drawing_ok in G. destruct G as (G & _). injection H as _ <-. exists rules, f, x. repeat split; auto. exists (sy_draws s4). congruence.
    - apply chain_ok in H. destruct H as (s4 & t & G & H). apply lift_ok in G. destruct G as (_ & G). injection H as _ <-. exists rules, f, x. repeat split; auto.
    - apply chain_ok in H. destruct H as (s4 & ef & G & H). apply lift_ok in G. destruct G as (-> & G). apply chain_ok in H. destruct H as (s4 & d & Y & H). apply lift_ok in Y. destruct Y as (-> & Y).
      destruct d as [df sv]. cbn [fst snd] in H. apply chain_ok in H. destruct H as (s4 & u & P & H). assert (D4 : sy_draws s4 = sy_draws s3).
      { unfold perform in P. destruct (os_io O _ _); [discriminate|]. now injection P as <-. }
      apply chain_ok in H. destruct H as (s5 & o & W & H). apply cleanup_ok in W. destruct W as (s6 & W & D5). apply chain_ok in W. destruct W as (s7 & t0 & T & W). apply lift_ok in T. destruct T as (-> & T).
      apply chain_ok in W. destruct W as (s7 & u' & W1 & W). apply write_ok in W1. apply chain_ok in W. destruct W as (s8 & ed & S & W). apply lift_ok in S. destruct S as (-> & S). apply select_attempts in S. apply loop_ok in W. destruct W as (D6 & e & rest & c & t & k & Q & E & VT & M).
      rewrite W1 in Q, D6. cbn [done sy_file sy_draws] in Q, D6. rewrite written_here in Q. destruct o as [m|].
      + apply chain_ok in H. destruct H as (s9 & y & G' & H). apply drawing_ok in G'. destruct G' as (G' & _). injection H as _ <-. exists rules, f, x. repeat split; auto. exists ef, df, sv, t0, m, (sy_draws s9). repeat split; auto; [|congruence].
        eexists _, e, rest, c, t, k. eauto.
      + injection H as _ <-. destruct M as (-> & err & M). exists a, rules, f, x, ef, df, sv, t0, (os_editor O (editor_command O ed)), e, rest, c, t, err. repeat split; auto.
    - apply chain_ok in H. destruct H as (s4 & t & G & H). apply drawing_ok in G. destruct G as (G & _). injection H as _ <-. exists rules, f, x. repeat split; auto. exists (sy_draws s4). congruence.
    - apply chain_ok in H. destruct H as (s4 & t & G & H). apply drawing_ok in G. destruct G as (G & _). injection H as _ <-. exists rules, f, x. repeat split; auto. exists (sy_draws s4). congruence.
    - apply chain_ok in H. destruct H as (s4 & rules' & R' & H). apply retrieve_ok in R'. destruct R' as (F4 & D4 & R'). apply chain_ok in H. destruct H as (s5 & t & G & H). apply drawing_ok in G. destruct G as (G & _). injection H as _ <-.
      rewrite F3 in R'. exists rules', f, x. repeat split; auto. exists (sy_draws s5). congruence.
  Qed.

  (** *** Delivering *)
  Inductive delivered (t : bytes) : option bytes -> list op -> outcome unit -> Prop :=
  | dl_printed : delivered t None [Printed (t ++ [x0a])] (Ok tt)
  | dl_print_failed k : some_failure O -> delivered t None [Printed (firstn k (t ++ [x0a]))] Panic
  | dl_not_opened p : some_failure O -> delivered t (Some p) [] (Err EIo)
  | dl_not_written p k : some_failure O -> delivered t (Some p) [Opened p; Wrote p (firstn k t)] (Err EIo)
  | dl_written p : delivered t (Some p) [Opened p; Wrote p t] (Ok tt).
  Lemma deliver_trace : forall c t s s' o, deliver c t s = (s', o) ->
    exists l, sy_ops s' = sy_ops s ++ l /\ sy_file s' = replay l (sy_file s) /\ sy_out s' = sy_out s ++ printed l /\ delivered t (output_file O c) l o.
  Proof.
    intros c t s s' o H. unfold deliver in H. destruct (output_file O c) as [p|].
    - unfold fs_write, chain, perform in H. destruct (os_io O (sy_ops s) (Opened p)) eqn:A.
      { injection H as <- <-. exists []. cbn [printed flat_map replay fold_left]. rewrite !app_nil_r. repeat split. constructor. exists (sy_ops s), (Opened p). congruence. }
      destruct (os_io O (sy_ops (done (Opened p) s)) (Wrote p t)) as [k|] eqn:B; injection H as <- <-.
      + exists [Opened p; Wrote p (firstn k t)]. cbn [done sy_ops sy_file sy_out printed flat_map replay fold_left]. rewrite !app_nil_r, <- app_assoc. repeat split. constructor. eexists _, _. rewrite B. discriminate.
      + exists [Opened p; Wrote p t]. cbn [done sy_ops sy_file sy_out printed flat_map replay fold_left]. rewrite !app_nil_r, <- app_assoc. repeat split. constructor.
    - unfold println, perform in H. destruct (os_io O (sy_ops s) (Printed (t ++ [x0a]))) as [k|] eqn:A; injection H as <- <-; eexists; (split; [reflexivity|]);
        (split; [reflexivity|]); cbn [done sy_out printed flat_map]; rewrite app_nil_r; (split; [reflexivity|]); constructor. eexists _, _. rewrite A. discriminate.
  Qed.

  Definition run_of (c : command) (s s' : sys) (o : outcome unit) : Prop :=
    exists l1, Forall (temp_only (os_temp O)) l1 /\
      ((sy_ops s' = sy_ops s ++ l1 /\ sy_file s' = replay l1 (sy_file s) /\ sy_out s' = sy_out s /\ (o = Ok tt -> cancelled re ag cd O c (sy_file s)))
       \/ exists t l2, computes re tp ag cd O c (sy_file s) (sy_draws s) t /\ delivered t (output_file O c) l2 o
          /\ sy_ops s' = sy_ops s ++ l1 ++ l2 /\ sy_file s' = replay (l1 ++ l2) (sy_file s) /\ sy_out s' = sy_out s ++ printed l2).
  Lemma run_trace : forall c s s' o, run_command re tp ag cd O c s = (s', o) -> run_of c s s' o.
  Proof.
    intros c s s' o H. rewrite run_split in H. unfold chain in H. destruct (compute c s) as [s1 r] eqn:C. destruct (emits_compute c _ _ _ C) as (l & L1 & L2 & L3 & L4). exists l. split; auto.
    rewrite (printed_temp _ _ L4), app_nil_r in L3. destruct r as [[t|]|e|].
    - right. apply compute_ok in C. apply deliver_trace in H. destruct H as (m & M1 & M2 & M3 & M4). exists t, m. rewrite replay_app, <- L2, <- M2, M1, L1, M3, L3, <- !app_assoc. auto.
    - left. injection H as <- <-. apply compute_ok in C. auto.
    - left. injection H as <- <-. repeat split; auto. discriminate.
    - left. injection H as <- <-. repeat split; auto. discriminate.
  Qed.

  (** *** The temporary file *)
  Lemma not_edit_looks : forall c, (forall a, c <> Edit a) -> emits looking (compute c).
  Proof.
    intros c N. unfold compute. apply emits_chain; [apply emits_retrieve|intro rules].
    destruct c as [a|a|a|a|a|a]; [| |now destruct (N a)| | |]; (apply emits_chain; [apply emits_lift|intro f]); (apply emits_chain; [apply emits_input|intro s]);
      try (apply emits_chain; [apply emits_drawing|intro; apply emits_ret]); try (apply emits_chain; [apply emits_lift|intro; apply emits_ret]).
    apply emits_chain; [apply emits_retrieve|intro]. apply emits_chain; [apply emits_drawing|intro; apply emits_ret].
  Qed.
  Lemma cleanup_removes : forall A (p : prog A) s, removable O -> sy_file (fst (with_cleanup O (os_temp O) p s)) (os_temp O) = Absent.
  Proof.
    intros A p s R. unfold with_cleanup. destruct (p s) as [s1 o]. unfold perform. rewrite R. cbn [fst done sy_file apply_op]. apply put_here.
  Qed.
  Lemma temp_gone : forall c s s' r, removable O -> sy_file s (os_temp O) = Absent -> compute c s = (s', r) -> sy_file s' (os_temp O) = Absent.
  Proof.
    intros c s s' r R A H. assert (N : (forall a, c <> Edit a) \/ exists a, c = Edit a) by (destruct c; try (left; discriminate); right; eauto). destruct N as [N|(a & ->)].
    { rewrite (emits_looking_same _ _ _ _ _ (not_edit_looks c N) H). exact A. }
    assert (K : forall X (p : prog X) (k : X -> prog (option bytes)) z, emits looking p -> sy_file z (os_temp O) = Absent ->
      (forall x z', sy_file z' (os_temp O) = Absent -> sy_file (fst (k x z')) (os_temp O) = Absent) -> sy_file (fst (chain p k z)) (os_temp O) = Absent).
    { intros X p k z P Z G. unfold chain. destruct (p z) as [z' o] eqn:E. assert (Z' : sy_file z' (os_temp O) = Absent) by (rewrite (emits_looking_same _ _ _ _ _ P E); exact Z). destruct o; cbn [fst]; auto. }
    change s' with (fst (s', r)). rewrite <- H. unfold compute. apply K; [apply emits_retrieve|exact A|intros rules s1 A1]. apply K; [apply emits_lift|exact A1|intros f s2 A2]. apply K; [apply emits_input|exact A2|intros x s3 A3].
    apply K; [apply emits_lift|exact A3|intros ef s4 A4]. apply K; [apply emits_lift|exact A4|intros d s5 A5]. unfold chain at 1. unfold perform at 1. destruct (os_io O (sy_ops s5) (MadeTemp (os_temp O))); [exact A5|].
    unfold chain at 1. match goal with |- context[with_cleanup O (os_temp O) ?q ?z] => pose proof (cleanup_removes _ q z R) as G; destruct (with_cleanup O (os_temp O) q z) as [s6 o] end. cbn [fst] in G.
    destruct o as [[m|]|e|]; cbn [fst]; auto. apply K; [apply emits_drawing|exact G|intros; exact H0].
  Qed.

  (** *** Stopping during a run *)
  Inductive partly (t : bytes) (p : bytes) : list op -> Prop :=
  | pt_none : partly t p []
  | pt_opened : partly t p [Opened p]
  | pt_part k : partly t p [Opened p; Wrote p (firstn k t)].
  Lemma partly_file : forall t p l fs, partly t p l -> replay l fs p = fs p \/ exists k, replay l fs p = Content (firstn k t).
  Proof.
    intros t p l fs [| |k]; [now left| |]; right.
    - exists 0. cbn [replay fold_left apply_op firstn]. now rewrite put_here.
    - exists k. cbn [replay fold_left]. now rewrite written_here.
  Qed.
  Lemma partly_other : forall t p l fs q, partly t p l -> q <> p -> replay l fs q = fs q.
  Proof.
    intros t p l fs q [| |k] N; auto; cbn [replay fold_left]; [|now apply written_other]. cbn [apply_op]. now rewrite put_other.
  Qed.
  (** The beginnings of a list of effects, the last one possibly cut. *)
  Inductive begun : list op -> list op -> Prop :=
  | bg_nil l : begun [] l
  | bg_cons o a l : begun a l -> begun (o :: a) (o :: l)
  | bg_part p w k l : begun [Wrote p (firstn k w)] (Wrote p w :: l).
  Lemma begun_whole : forall a b, begun a (a ++ b).
  Proof. induction a as [|o a IH]; intro b; cbn [app]; constructor. auto. Qed.
  Lemma stopped_begun : forall l fs fs', stopped l fs fs' -> exists a, begun a l /\ fs' = replay a fs.
  Proof.
    intros l fs fs' [a b ->|a p w b k ->].
    - exists a. split; auto using begun_whole.
    - exists (a ++ [Wrote p (firstn k w)]). split; auto. induction a as [|o a IH]; cbn [app]; constructor. auto.
  Qed.
  Lemma begun_app : forall l1 l2 a, begun a (l1 ++ l2) -> begun a l1 \/ exists r, a = l1 ++ r /\ begun r l2.
  Proof.
    induction l1 as [|o l1 IH]; intros l2 a H; cbn [app] in H; [right; now exists a|]. inversion H; subst.
    - left. constructor.
    - match goal with K : begun _ (l1 ++ l2) |- _ => apply IH in K; destruct K as [K|(r & -> & K)] end; [left; now constructor|right; now exists r].
    - left. constructor.
  Qed.
  Lemma begun_temp : forall p l a, Forall (temp_only p) l -> begun a l -> Forall (temp_only p) a.
  Proof.
    intros p l a F B. revert F. induction B as [l|o a l B IH|q w k l]; intro F; [constructor| |].
    - apply Forall_cons_iff in F. constructor; tauto.
    - apply Forall_cons_iff in F. constructor; [|constructor]. exact (proj1 F).
  Qed.
  Lemma begun_delivered : forall t out l o a, delivered t out l o -> begun a l ->
    match out with Some p => partly t p a | None => forall fs, replay a fs = fs end.
  Proof.
    intros t out l o a D B. inversion D; subst; inversion B; subst; try (intro; reflexivity); try constructor.
    - match goal with K : begun _ [] |- _ => inversion K; subst end. reflexivity.
    - match goal with K : begun _ [] |- _ => inversion K; subst end. reflexivity.
    - match goal with K : begun _ [_] |- _ => inversion K; subst end; [constructor| |].
      + match goal with K : begun _ [] |- _ => inversion K; subst end. constructor.
      + rewrite firstn_firstn. constructor.
    - match goal with K : begun _ [_] |- _ => inversion K; subst end; [constructor| |].
      + match goal with K : begun _ [] |- _ => inversion K; subst end. pose proof (pt_part t p (length t)) as G. now rewrite firstn_all in G.
      + constructor.
  Qed.
  Lemma stopped_files : forall l1 l2 fs fs' t out o, Forall (temp_only (os_temp O)) l1 -> delivered t out l2 o -> stopped (l1 ++ l2) fs fs' ->
    forall q, q <> os_temp O -> fs' q = fs q \/ out = Some q /\ exists k, fs' q = Content (firstn k t).
  Proof.
    intros l1 l2 fs fs' t out o F D S q N. apply stopped_begun in S. destruct S as (a & B & ->). apply begun_app in B. destruct B as [B|(r & -> & B)].
    - left. eapply temp_only_keeps; eauto using begun_temp.
    - rewrite replay_app. assert (C : replay l1 fs q = fs q) by (eapply temp_only_keeps; eauto). apply (begun_delivered _ _ _ _ _ D) in B. destruct out as [p|].
      + destruct (list_eq_dec Byte.byte_eq_dec q p) as [->|NE]; [|left; rewrite (partly_other t p) by auto; auto]. destruct (partly_file _ _ _ (replay l1 fs) B) as [E|E]; [left; rewrite E; auto|right; auto].
      + left. now rewrite B.
  Qed.
  Lemma stopped_temp : forall l fs fs' q, Forall (temp_only (os_temp O)) l -> stopped l fs fs' -> q <> os_temp O -> fs' q = fs q.
  Proof. intros l fs fs' q F S N. apply stopped_begun in S. destruct S as (a & B & ->). eapply temp_only_keeps; eauto using begun_temp. Qed.

  (** *** Editing sessions, the other way round *)
  Lemma loop_does : forall f l c0 e rest c t k s, no_failures O -> sy_file s (os_temp O) = c0 -> tried cd f l c0 (e :: rest) c -> e c = Closed (Content t) k -> utf8_valid t = true ->
    (forall m, read_map cd f t = Ok m -> snd (edit_loop cd O f l s) = Ok (Some m))
    /\ (forall err, read_map cd f t = Err err -> k = KeyInterrupted -> snd (edit_loop cd O f l s) = Ok None).
  Proof.
    intros f l c0 e rest c t k s NF C T. remember (e :: rest) as r eqn:R. revert s C R.
    assert (RD : forall u s, sy_file s (os_temp O) = Content u -> utf8_valid u = true -> exists s', read_to_string O (os_temp O) s = (s', Ok u) /\ sy_file s' = sy_file s).
    { intros u s F V. pose proof (read_does _ s u NF F V) as G. destruct (read_to_string O (os_temp O) s) as [s' o] eqn:X. cbn [snd] in G. subst o. exists s'. split; auto. apply read_ok in X. tauto. }
    induction T as [l c|e0 l c u r c' err E V M T IH]; intros s C R X VT.
    - subst l. cbn [edit_loop]. rewrite C, X. destruct (RD t (done (Edited (os_temp O) (Content t)) s)) as (s1 & G & _); auto. { cbn [done sy_file apply_op]. now rewrite put_here. }
      unfold chain. rewrite G. split; [intros m M|intros err M K]; rewrite M; [|subst k]; reflexivity.
    - cbn [edit_loop]. rewrite C, E. destruct (RD u (done (Edited (os_temp O) (Content u)) s)) as (s1 & G & F1); auto. { cbn [done sy_file apply_op]. now rewrite put_here. }
      unfold chain. rewrite G, M. apply IH; auto. rewrite F1. cbn [done sy_file apply_op]. now rewrite put_here.
  Qed.
End Runs.
