(** A script carried out alone is the command. *)
From Verif.Model Require Import Script.
Open Scope byte_scope.

Section Alone.
  Context (O : os).
  Definition plays {A} (m : script A) (p : prog A) : Prop := forall s, play O m s = p s.

  Lemma play_andthen : forall {A B} (m : script A) (k : A -> script B) s, play O (andthen m k) s = chain (play O m) (fun a => play O (k a)) s.
  Proof.
    intros A B. induction m as [o|p j IH|o j IH|o j IH|f j IH]; intros k s; cbn [andthen play].
    - destruct o; reflexivity.
    - now rewrite IH.
    - unfold chain. cbn [play]. destruct (perform O o s) as [s' r]. now rewrite IH.
    - now rewrite IH.
    - unfold chain. cbn [play]. destruct (f (sy_draws s)) as [[t n]|e|]; now rewrite IH.
  Qed.
  Lemma plays_chain : forall {A B} (m : script A) p (k : A -> script B) q, plays m p -> (forall a, plays (k a) (q a)) -> plays (andthen m k) (chain p q).
  Proof. intros A B m p k q H K s. rewrite play_andthen. unfold chain. rewrite H. destruct (p s) as [s' [a|e|]]; auto. apply K. Qed.
  Lemma plays_lift : forall {A} (o : outcome A), plays (Finish o) (lift o).
  Proof. intros A o s. reflexivity. Qed.
  Lemma plays_does : forall o, plays (does o) (perform O o).
  Proof. intros o s. unfold does. cbn [play]. unfold perform. destruct (os_io O (sy_ops s) o); [destruct o; reflexivity|reflexivity]. Qed.
  Lemma plays_draws : forall f, plays (draws f) (drawing f).
  Proof. intros f s. unfold draws, drawing. cbn [play]. destruct (f (sy_draws s)) as [[t n]|e|]; reflexivity. Qed.
  Lemma plays_cleanup : forall {A} p (m : script A) b, plays m b -> plays (afterwards p m) (with_cleanup O p b).
  Proof.
    intros A p m b H s. unfold with_cleanup. rewrite <- H. clear b H. revert s. induction m as [o|q j IH|o j IH|o j IH|f j IH]; intro s; cbn [afterwards play]; auto.
    - destruct (perform O (Removed p) s) as [s' r]. reflexivity.
    - destruct (perform O o s) as [s' r]. auto.
    - destruct (f (sy_draws s)) as [[t n]|e|]; auto.
  Qed.
  Lemma plays_reads : forall p, plays (reads_file p) (read_to_string O p).
  Proof. intros p. unfold reads_file, read_to_string. apply plays_chain; [apply plays_does|]. intros u s. reflexivity. Qed.
  Lemma plays_writes : forall p t, plays (writes_file p t) (fs_write O p t).
  Proof. intros p t. unfold writes_file, fs_write. apply plays_chain; [apply plays_does|]. intros _. apply plays_does. Qed.
  Lemma plays_prints : forall t, plays (prints t) (println O t).
  Proof. intro t. apply plays_does. Qed.

  Context (re : regex_engine) (tp : tape) (ag : age_crate) (cd : codec).
  Lemma plays_config : forall p, plays (reads_config re ag cd p) (read_config_file re ag cd O p).
  Proof. intro p. unfold reads_config, read_config_file. apply plays_chain; [apply plays_reads|]. intro s. apply plays_lift. Qed.
  Lemma plays_climbs : forall dirs, plays (climbs re ag cd dirs) (traverse re ag cd O dirs).
  Proof.
    induction dirs as [|d up IH]; intro s; cbn [climbs traverse play]; unfold exists_path; unfold chain; cbn [fst snd].
    - destruct (sy_file s (config_in [])); [reflexivity| |]; apply plays_config.
    - destruct (sy_file s (config_in (d :: up))); [apply IH| |]; apply plays_config.
  Qed.
  Lemma plays_retrieves : forall arg, plays (retrieves re ag cd O arg) (retrieve re ag cd O arg).
  Proof.
    intro arg. unfold retrieves, retrieve. destruct arg; [apply plays_config|]. destruct (os_config_var O); [apply plays_config|]. destruct (os_cwd O); [apply plays_climbs|apply plays_lift].
  Qed.
  Lemma plays_input : forall path i, plays (takes_input O path i) (get_input_string O path i).
  Proof.
    intros path i. assert (P : forall p, plays (takes_path O p) (read_from_path O p)).
    { intro p. unfold takes_path, read_from_path. destruct (os_stdin O); [apply plays_lift|apply plays_reads]. }
    unfold takes_input, get_input_string. destruct (is_set i), path; auto using plays_lift. destruct (os_stdin O); apply plays_lift.
  Qed.
  Lemma plays_delivers : forall i path t, plays (delivers i path t) (write_or_print O i path t).
  Proof. intros i path t. unfold delivers, write_or_print. destruct (is_set i); [|apply plays_prints]. destruct path; [apply plays_writes|apply plays_lift]. Qed.
  Lemma plays_attempts : forall f l, plays (attempts_script cd O f l) (edit_loop cd O f l).
  Proof.
    intros f l. induction l as [|a l IH]; [apply plays_lift|]. intro s. cbn [attempts_script edit_loop play]. destruct (a (sy_file s (os_temp O))) as [|c|c k]; try reflexivity.
    cbn [play]. refine (plays_chain _ (read_to_string O (os_temp O)) _ _ (plays_reads _) _ _). intro t. destruct (read_map cd f t); [apply plays_lift| |apply plays_lift].
    destruct k; [exact IH|apply plays_lift|apply plays_lift].
  Qed.
  Lemma plays_edit : forall a, plays (edit_script re tp ag cd O a) (run_edit re tp ag cd O a).
  Proof.
    intro a. unfold edit_script, run_edit. apply plays_chain; [apply plays_lift|]. intro f. apply plays_chain; [apply plays_input|]. intro s. apply plays_chain; [apply plays_lift|]. intro ef.
    apply plays_chain; [apply plays_lift|]. intro d. apply plays_chain; [apply plays_does|]. intros _. apply plays_chain.
    - apply plays_cleanup. apply plays_chain; [apply plays_lift|]. intro t. apply plays_chain; [apply plays_writes|]. intros _. apply plays_chain; [apply plays_lift|]. intro e. apply plays_attempts.
    - intros [m|]; [|apply plays_lift]. apply plays_chain; [apply plays_draws|]. intro t. destruct (os_stdin O); [apply plays_prints|]. destruct (in_file a); [apply plays_writes|apply plays_lift].
  Qed.
  Theorem plays_command : forall c, plays (command_script re tp ag cd O c) (run_command re tp ag cd O c).
  Proof.
    intro c. unfold command_script, run_command. apply plays_chain; [apply plays_retrieves|]. intro rules. destruct (merge_config re rules c) as [a|a|a|a|a|a].
    - unfold encrypt_script, run_encrypt. apply plays_chain; [apply plays_lift|]. intro f. apply plays_chain; [apply plays_input|]. intro s. apply plays_chain; [apply plays_draws|]. intro t. apply plays_delivers.
    - unfold decrypt_script, run_decrypt. apply plays_chain; [apply plays_lift|]. intro f. apply plays_chain; [apply plays_input|]. intro s. apply plays_chain; [apply plays_lift|]. intro t. apply plays_delivers.
    - apply plays_edit.
    - unfold keys_script, run_keys. apply plays_chain; [apply plays_lift|]. intro f. apply plays_chain; [apply plays_input|]. intro s. apply plays_chain; [apply plays_draws|]. intro t. apply plays_writes.
    - unfold keys_script, run_keys. apply plays_chain; [apply plays_lift|]. intro f. apply plays_chain; [apply plays_input|]. intro s. apply plays_chain; [apply plays_draws|]. intro t. apply plays_writes.
    - unfold refresh_script, run_refresh. apply plays_chain; [apply plays_lift|]. intro f. apply plays_chain; [apply plays_input|]. intro s. apply plays_chain; [apply plays_retrieves|]. intro rules'.
      apply plays_chain; [apply plays_draws|]. intro t. apply plays_delivers.
  Qed.
End Alone.
