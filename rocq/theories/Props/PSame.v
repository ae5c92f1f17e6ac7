(** Everyone who opens a file sees the same document. *)
From Verif.Model Require Import Cli.
From Verif.Spec Require Import SpecCli.
From Verif.Proofs Require Import BytesFacts ValueFacts GcmFacts IntegrationFacts FileFacts FileSafety CliRun.
From Verif.Props Require Import PMap PFormat ExWorld ExCodec PDocument PCli PCliDoc PAccess.
Open Scope byte_scope.

(** * C83 *)

(** What it takes to show two people different documents: two data keys under which every ciphertext of the file, and its MAC, is
    authentic, and each MAC is the MAC of what the values decrypt to under its key. *)
Definition ambiguous (re : regex_engine) (f : fmt) (ef : efile) : Prop :=
  let md := fl_meta ef in
  let mac := md_mac md in
  exists em k1 k2 dm1 dm2 p1 p2, k1 <> k2 /\ enc_map_to_internal re f (md_partial md) (fl_map ef) = Ok em
  /\ decrypt_map k1 em = Ok dm1 /\ gcm_decrypt k1 (ev_nonce mac) (timestamp_text (md_modified md)) (ev_data mac) (ev_tag mac) = Some p1 /\ mac_of re (md_only md) (md_partial md) dm1 p1
  /\ decrypt_map k2 em = Ok dm2 /\ gcm_decrypt k2 (ev_nonce mac) (timestamp_text (md_modified md)) (ev_data mac) (ev_tag mac) = Some p2 /\ mac_of re (md_only md) (md_partial md) dm2 p2.

Lemma same_file : forall a b : dfile, fl_map a = fl_map b -> fl_meta a = fl_meta b -> a = b.
Proof. intros [m1 d1] [m2 d2] A B. cbn in A, B. congruence. Qed.
(** For every file, also a forged one: two people who can decrypt it see the same document, or the file is ambiguous. *)
Theorem C83_view : forall re ag E1 E2 f fo ef df1 df2, file_decrypt re ag E1 f fo ef = Ok df1 -> file_decrypt re ag E2 f fo ef = Ok df2 ->
  df1 = df2 \/ ambiguous re f ef.
Proof.
  intros re ag E1 E2 f fo ef df1 df2 H1 H2. apply decrypt_inv in H1, H2. destruct H1 as (k1 & m1 & x1 & em & dm1 & K1 & M1 & A1 & D1 & P1 & C1 & F1), H2 as (k2 & m2 & x2 & em2 & dm2 & K2 & M2 & A2 & D2 & P2 & C2 & F2).
  rewrite A1 in A2. injection A2 as <-. destruct (list_eq_dec Byte.byte_eq_dec k1 k2) as [<-|N].
  - left. rewrite D1 in D2. injection D2 as <-. rewrite C1 in C2. injection C2 as C2. rewrite <- P1 in P2. subst m2. apply same_file; congruence.
  - right. apply decrypt_mac_some in M1, M2. destruct M1 as [M1 _], M2 as [M2 _]. exists em, k1, k2, dm1, dm2, m1, m2. split; auto. split; auto. split; auto. split; auto.
    split; [rewrite P1; apply mac_of_compute|]. split; auto. split; auto. rewrite P2. apply mac_of_compute.
Qed.
Print Assumptions C83_view.

(** A file whose entries all wrap one data key is shown to everyone alike. *)
Theorem C83_honest : forall re ag W E1 E2 f fo ef key df1 df2, age_law ag -> kms_law W -> W E1 -> W E2 -> length key = 32 -> all_wrap ag W key (md_recipients (fl_meta ef)) ->
  file_decrypt re ag E1 f fo ef = Ok df1 -> file_decrypt re ag E2 f fo ef = Ok df2 -> df1 = df2.
Proof.
  intros re ag W E1 E2 f fo ef key df1 df2 AL KL W1 W2 L AW H1 H2. apply decrypt_inv in H1, H2. destruct H1 as (k1 & m1 & x1 & em & dm1 & K1 & M1 & A1 & D1 & P1 & C1 & F1), H2 as (k2 & m2 & x2 & em2 & dm2 & K2 & M2 & A2 & D2 & P2 & C2 & F2).
  assert (k1 = key) by (apply (retrieve_safe ag W AL KL E1 _ key k1 W1 L AW K1)). assert (k2 = key) by (apply (retrieve_safe ag W AL KL E2 _ key k2 W2 L AW K2)). subst k1 k2. rewrite A1 in A2. injection A2 as <-. rewrite D1 in D2. injection D2 as <-. rewrite C1 in C2. injection C2 as C2.
  rewrite <- P1 in P2. subst m2. apply same_file; congruence.
Qed.
Print Assumptions C83_honest.

(** The commands: two people decrypt the same text of a file, each in their own surroundings; they are shown the same text. *)
Theorem C83_commands : forall re tp ag cd O1 O2 a1 a2 s1 s2 s1' s2' f x,
  sy_file s1 (os_temp O1) = Absent -> sy_file s2 (os_temp O2) = Absent -> is_set (pl_in_place a1) = false -> is_set (pl_in_place a2) = false ->
  get_format (in_file (pl_input a1)) (in_format (pl_input a1)) = Ok f -> get_format (in_file (pl_input a2)) (in_format (pl_input a2)) = Ok f ->
  only_source O1 (sy_file s1) (in_file (pl_input a1)) x -> only_source O2 (sy_file s2) (in_file (pl_input a2)) x ->
  run_command re tp ag cd O1 (Decrypt a1) s1 = (s1', Ok tt) -> run_command re tp ag cd O2 (Decrypt a2) s2 = (s2', Ok tt) ->
  exists ef t1 t2, read_efile (re_valid re) ag cd f x = Ok ef /\ sy_out s1' = sy_out s1 ++ t1 ++ [x0a] /\ sy_out s2' = sy_out s2 ++ t2 ++ [x0a]
  /\ (t1 = t2 \/ ambiguous re f ef)
  /\ forall W key, age_law ag -> kms_law W -> W (os_env O1) -> W (os_env O2) -> length key = 32 -> all_wrap ag W key (md_recipients (fl_meta ef)) -> t1 = t2.
Proof.
  intros re tp ag cd O1 O2 a1 a2 s1 s2 s1' s2' f x T1 T2 I1 I2 G1 G2 S1 S2 R1 R2.
  assert (X : forall O a s s', sy_file s (os_temp O) = Absent -> is_set (pl_in_place a) = false -> get_format (in_file (pl_input a)) (in_format (pl_input a)) = Ok f -> only_source O (sy_file s) (in_file (pl_input a)) x ->
    run_command re tp ag cd O (Decrypt a) s = (s', Ok tt) -> exists ef df t, read_efile (re_valid re) ag cd f x = Ok ef /\ file_decrypt re ag (os_env O) f f ef = Ok df /\ map_text cd f (fl_map df) = Ok t /\ sy_out s' = sy_out s ++ t ++ [x0a]).
  { intros O a s s' T I G S R. apply C36_success in R; auto. destruct R as [(t & (rules & f' & x' & _ & S' & _ & G' & D) & R)|((b & ? & ? & ? & ? & ? & ? & ? & ? & ? & ? & ? & ? & ? & E & _) & _)]; [|discriminate E].
    cbn [output_file] in R. rewrite I in R. destruct R as [R _]. rewrite G in G'. injection G' as <-.
    assert (x' = x). { cbn [input_file] in S'. destruct S as [(p & P & Q & Y)|(P & Q)], S' as [(p' & P' & Q' & Y')|(P' & Q')]; congruence. }
    subst x'. unfold decrypt_text in D. apply bind_ok in D. destruct D as (ef & D1 & D). apply bind_ok in D. destruct D as (df & D2 & D). exists ef, df, t. auto. }
  destruct (X O1 a1 s1 s1' T1 I1 G1 S1 R1) as (ef & df1 & t1 & E1 & D1 & M1 & U1), (X O2 a2 s2 s2' T2 I2 G2 S2 R2) as (ef2 & df2 & t2 & E2 & D2 & M2 & U2). clear X. rewrite E1 in E2. injection E2 as <-.
  exists ef, t1, t2. split; auto. split; auto. split; auto. split.
  - destruct (C83_view _ _ _ _ _ _ _ _ _ D1 D2) as [<-|A]; auto. left. congruence.
  - intros W key AL KL W1 W2 L AW. assert (df1 = df2) by (exact (C83_honest re ag W (os_env O1) (os_env O2) f f ef key df1 df2 AL KL W1 W2 L AW D1 D2)). subst df2. congruence.
Qed.
Print Assumptions C83_commands.

(** Alice and Bob decrypt the small file. *)
Definition alice_sees : sys * outcome unit := run_command ex_re ex_tape toy_age ex_codec (ex_os []) bob_decrypts ex_start.
Definition bob_sees : sys * outcome unit := run_command ex_re ex_tape toy_age ex_codec os_at_bob bob_decrypts ex_start.
Example C83_witness : age_private_keys toy_age (os_env (ex_os [])) <> age_private_keys toy_age (os_env os_at_bob)
  /\ (snd alice_sees, sy_out (fst alice_sees)) = (Ok tt, small_shown ++ ["010"]) /\ (snd bob_sees, sy_out (fst bob_sees)) = (Ok tt, small_shown ++ ["010"]).
Proof. split; [|split; by_vm]. vm_compute. discriminate. Qed.
