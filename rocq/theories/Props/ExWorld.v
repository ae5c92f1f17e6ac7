(** A small world for the examples: a toy age crate and a toy KMS that satisfy the laws, environments, and encrypted files. *)
From Verif.Model Require Import File.
From Verif.Spec Require Import SpecFile.
From Verif.Proofs Require Import BytesFacts Base64Facts.
From Verif.Props Require Import PMap PFormat.

Local Open Scope nat_scope.

(** Equality by computation, done once by the kernel. *)
Ltac by_vm := match goal with |- _ = ?b => vm_cast_no_check (eq_refl b) end.

(** The result of a computation that succeeds. *)
Definition get {A} (d : A) (o : outcome A) : A := match o with Ok a => a | _ => d end.

(** The toy age crate: the identity "AGE-SECRET-x" belongs to the recipient "age1x"; the wrapped key shows recipient, entropy and key. *)
Definition toy_public (i : bytes) : bytes := lit "age1" ++ skipn 11 i.
Definition toy_wrap (n : nat) (r key : bytes) : bytes := lit "wrapped " ++ r ++ lit " " ++ hex_encode_upper key ++ lit "/" ++ N_text (N.of_nat n).
Definition toy_open (i enc : bytes) : age_opened :=
  if starts_with (lit "PASSPHRASE") enc then AgePassphrase else
  match strip_prefix (lit "wrapped " ++ toy_public i ++ lit " ") enc with
  | Some h => match hex_decode (firstn 64 h) with Some k => AgePlain k | None => AgeFailed end
  | None => AgeFailed
  end.
Definition toy_age : age_crate :=
  {| ag_recipient := fun s => if starts_with (lit "age1") s then Some s else None;
     ag_identity := fun s => if starts_with (lit "AGE-SECRET-") s then Some s else None;
     ag_public := toy_public; ag_wrap := toy_wrap; ag_open := toy_open |}.

(** The toy KMS puts the key id in front of the data key. *)
Definition toy_kms_encrypt (req : kms_request) (key : bytes) : kms_reply := KmsBlob (kr_key req ++ key).
Definition toy_kms_decrypt (req : kms_request) (b : bytes) : kms_reply :=
  match strip_prefix (kr_key req) b with Some k => KmsBlob k | None => KmsFailed end.

(** The environments considered: the service answers like this or fails. *)
Definition toy_world (E : env) : Prop :=
  (forall n req key, e_kms_encrypt E n req key = toy_kms_encrypt req key \/ e_kms_encrypt E n req key = KmsFailed)
  /\ (forall req b, e_kms_decrypt E req b = toy_kms_decrypt req b \/ e_kms_decrypt E req b = KmsFailed).

Lemma toy_age_law : age_law toy_age.
Proof.
  intros n i key L. cbn [toy_age ag_open ag_wrap ag_public]. unfold toy_open, toy_wrap.
  replace (starts_with (lit "PASSPHRASE") _) with false by reflexivity.
  rewrite (app_assoc (toy_public i)), (app_assoc (lit "wrapped ") (toy_public i ++ lit " ")), strip_prefix_app.
  assert (H : length (hex_encode_upper key) = 64) by (rewrite hex_encode_length, L; reflexivity).
  rewrite <- H, firstn_app, firstn_all, Nat.sub_diag, firstn_O, app_nil_r, hex_decode_encode. reflexivity.
Qed.

Lemma toy_kms_law : kms_law toy_world.
Proof.
  intros E E' n req req' key b [W _] [_ W'] H R K. destruct (W n req key) as [Q|Q]; rewrite Q in H; [|discriminate]. injection H as <-.
  destruct (W' req' (kr_key req ++ key)) as [Q'|Q']; rewrite Q'; auto. left. unfold toy_kms_decrypt. now rewrite K, strip_prefix_app.
Qed.

(** Environments: the two private key variables, the clock, and whether KMS answers. *)
Definition ex_env (age kms : env_var) (t : timestamp) (up : bool) : env :=
  {| e_var := fun s => if bytes_eqb s (lit "ROPS_AGE") then age else if bytes_eqb s (lit "ROPS_AWS_KMS") then kms else VarUnset;
     e_config_dir := Some (lit "/home/u/.config"); e_file := fun _ => FileAbsent; e_clock := fun _ => t;
     e_kms_encrypt := fun _ req key => if up then toy_kms_encrypt req key else KmsFailed;
     e_kms_decrypt := fun req b => if up then toy_kms_decrypt req b else KmsFailed |}.
Lemma ex_env_world : forall a k t up, toy_world (ex_env a k t up).
Proof. intros a k t []; split; intros; cbn; auto. Qed.

Definition ex_time : timestamp := {| t_year := 2024; t_month := 11; t_day := 5; t_hour := 8; t_min := 30; t_sec := 59; t_nano := 123456789 |}.
Definition ex_later : timestamp := {| t_year := 2024; t_month := 11; t_day := 6; t_hour := 0; t_min := 0; t_sec := 0; t_nano := 5 |}.

Definition ex_alice : bytes := lit "AGE-SECRET-alice".
Definition ex_bob : bytes := lit "AGE-SECRET-bob".
Definition ex_kms_text : bytes := lit "default.arn:aws:kms:eu-north-1:822284028627:key/1029cba4-6ea5-4d57-91e3-6ef9f7ad9a3d".
Definition no_kms : aws_key :=
  {| ak_profile := []; ak_arn := {| arn_partition := None; arn_service := []; arn_region := []; arn_account := None; arn_parent := None; arn_key := [] |} |}.
Definition ex_kms : aws_key := Eval vm_compute in match parse_aws_key ex_kms_text with Ok k => k | _ => no_kms end.

Definition ex_age_var : env_var := VarText (lit "AGE-SECRET-alice,AGE-SECRET-bob").
Definition ex_kms_var : env_var := VarText (lit "default.AKIAXXXX.secret").
Definition ex_here : env := ex_env ex_age_var ex_kms_var ex_time true.
Definition ex_tomorrow : env := ex_env ex_age_var ex_kms_var ex_later true.
(** Only Bob's identity. *)
Definition ex_at_bob : env := ex_env (VarText ex_bob) VarUnset ex_later true.
(** Only credentials for KMS. *)
Definition ex_at_kms : env := ex_env VarUnset ex_kms_var ex_later true.

(** An encrypted file: a YAML document for Alice, Bob (given twice) and a KMS key. *)
Definition ex_builder : builder :=
  {| bd_map := ex_doc; bd_partial := ex_rule; bd_only := Some true;
     bd_age := [toy_public ex_alice; toy_public ex_bob; toy_public ex_alice]; bd_kms := [ex_kms] |}.
Definition no_evalue : evalue := {| ev_data := []; ev_nonce := []; ev_tag := []; ev_type := TyStr |}.
Definition no_meta {M} (mac : M) : meta M := {| md_recipients := no_recipients; md_modified := ex_time; md_mac := mac; md_partial := None; md_only := None |}.
Definition no_efile : efile := {| fl_map := []; fl_meta := no_meta no_evalue |}.
Definition no_dfile : dfile := {| fl_map := []; fl_meta := no_meta [] |}.
Definition build (f : fmt) (b : builder) (n : nat) : efile := fst (get (no_efile, 0) (builder_encrypt ex_re ex_tape toy_age ex_here f b n)).
Definition ex_ef : efile := Eval vm_compute in build Yaml ex_builder 0.
Definition ex_df : dfile := Eval vm_compute in get no_dfile (file_decrypt ex_re toy_age ex_here Yaml Yaml ex_ef).

Example ex_built : builder_encrypt ex_re ex_tape toy_age ex_here Yaml ex_builder 0 = Ok (ex_ef, 12).
Proof. by_vm. Qed.
Example ex_opened : file_decrypt ex_re toy_age ex_here Yaml Yaml ex_ef = Ok ex_df.
Proof. by_vm. Qed.

(** A small file for the same recipients, everything encrypted. *)
Definition small_builder (f : fmt) (m : fmap) : builder :=
  {| bd_map := m; bd_partial := None; bd_only := None; bd_age := [toy_public ex_alice; toy_public ex_bob]; bd_kms := [ex_kms] |}.
Definition small_doc : fmap := [(FStr (lit "a"), FStr (lit "x")); (FStr (lit "b"), FNum (NInt 5))].
Definition small_ef : efile := Eval vm_compute in build Yaml (small_builder Yaml small_doc) 0.
Definition no_saved : saved := {| sv_key := []; sv_map := []; sv_mac := ([], []) |}.
Definition opened (E : env) (f : fmt) (ef : efile) : dfile * saved := get (no_dfile, no_saved) (file_decrypt_save ex_re toy_age E f f ef).
Definition small_df : dfile := Eval vm_compute in fst (opened ex_here Yaml small_ef).
Definition small_sv : saved := Eval vm_compute in snd (opened ex_here Yaml small_ef).

Example small_built : builder_encrypt ex_re ex_tape toy_age ex_here Yaml (small_builder Yaml small_doc) 0 = Ok (small_ef, 9).
Proof. by_vm. Qed.
Example small_opened : file_decrypt_save ex_re toy_age ex_here Yaml Yaml small_ef = Ok (small_df, small_sv).
Proof. by_vm. Qed.
Example small_decrypted : file_decrypt ex_re toy_age ex_here Yaml Yaml small_ef = Ok small_df.
Proof. by_vm. Qed.

(** A decision procedure for [no_forgery], for examples. *)
Definition no_forgery_b (em em' : emap) : bool :=
  forallb (fun x => match snd x with
                    | Escaped _ => true
                    | Encrypted e' => existsb (fun y => match snd y with
                        | Escaped _ => false
                        | Encrypted e => bytes_eqb (ev_nonce e') (ev_nonce e) && bytes_eqb (ev_data e') (ev_data e) && bytes_eqb (ev_tag e') (ev_tag e)
                                         && bytes_eqb (path_text (fst y)) (path_text (fst x))
                        end) (map_values em)
                    end) (map_values em').
Lemma no_forgery_by : forall em em', no_forgery_b em em' = true -> no_forgery em em'.
Proof.
  intros em em' H i ks e' V. unfold no_forgery_b in H. rewrite forallb_forall in H. apply nth_error_In in V. specialize (H _ V). cbn [snd fst] in H.
  apply existsb_exists in H. destruct H as ([ks0 [e|v]] & I & H); cbn [snd fst] in H; [|discriminate]. apply In_nth_error in I. destruct I as (j & I).
  rewrite !andb_true_iff, !bytes_eqb_eq in H. destruct H as (((A & B) & C) & D). exists j, ks0, e. split; auto.
Qed.

(** Files with other contents for Alice and Bob, with a rule. *)
Definition build_doc (f : fmt) (rule : option partial) (m : fmap) : efile :=
  build f {| bd_map := m; bd_partial := rule; bd_only := None; bd_age := [toy_public ex_alice; toy_public ex_bob]; bd_kms := [] |} 0.
Definition read_enc (f : fmt) (ef : efile) : emap := get [] (enc_map_to_internal ex_re f (md_partial (fl_meta ef)) (fl_map ef)).
Definition write_enc (f : fmt) (em : emap) : fmap := get [] (enc_map_from_internal f em).
Definition reopened (E : env) (f fo : fmt) (ef : efile) : dfile := get no_dfile (file_decrypt ex_re toy_age E f fo ef).

(** The first draws of the example generator differ. *)
Fixpoint distinct_b (l : list bytes) : bool := match l with [] => true | x :: l' => negb (existsb (bytes_eqb x) l') && distinct_b l' end.
Lemma distinct_b_nth : forall l i j x, distinct_b l = true -> nth_error l i = Some x -> nth_error l j = Some x -> i = j.
Proof.
  induction l as [|y l IH]; intros i j x D I J. { destruct i; discriminate. }
  cbn [distinct_b] in D. apply andb_true_iff in D. destruct D as [N D]. apply negb_true_iff in N.
  assert (X : forall k, nth_error l k <> Some y).
  { intros k K. apply nth_error_In in K. assert (Q : existsb (bytes_eqb y) l = true) by (apply existsb_exists; exists y; split; auto using bytes_eqb_refl). rewrite Q in N. discriminate. }
  destruct i as [|i], j as [|j]; cbn in I, J; auto.
  - injection I as ->. exfalso. exact (X _ J).
  - injection J as ->. exfalso. exact (X _ I).
  - f_equal. eapply IH; eauto.
Qed.
Lemma ex_draws_below : forall n, distinct_b (map (draw_nonce ex_tape) (seq 0 n)) = true ->
  forall i j, i < n -> j < n -> draw_nonce ex_tape i = draw_nonce ex_tape j -> i = j.
Proof.
  intros n D i j I J H. eapply distinct_b_nth; [exact D| |].
  - rewrite nth_error_map, nth_error_nth' with (d := 0) by (rewrite seq_length; lia). rewrite seq_nth by lia. reflexivity.
  - rewrite nth_error_map, nth_error_nth' with (d := 0) by (rewrite seq_length; lia). rewrite seq_nth by lia. cbn [option_map Nat.add]. now rewrite <- H.
Qed.
Lemma ex_draws_differ : forall n, distinct_b (map (draw_nonce ex_tape) (seq 0 n)) = true ->
  forall x y, 0 < x < n -> 0 < y < n -> draw_nonce ex_tape x = draw_nonce ex_tape y -> x = y.
Proof. intros n D x y I J. apply (ex_draws_below n D); lia. Qed.

Lemma ex_fits : fits Yaml ex_rule ex_dmap.
Proof.
  split; [|split; discriminate]. intros ks v _. right. intro H. cbn in H. repeat (destruct H as [H|H]; [discriminate H|]). destruct H.
Qed.
