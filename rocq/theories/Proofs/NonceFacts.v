(** Nonces: fresh draws, saved nonces, edit histories. *)
From Verif.Model Require Import MapCrypt.
From Verif.Proofs Require Import BytesFacts GcmFacts ValueFacts TreeFacts MapFacts.
From Verif.Spec Require Import SpecMap SpecHistory.

Lemma Forall2_nth_l : forall {A B} (R : A -> B -> Prop) l l' i a, Forall2 R l l' -> nth_error l i = Some a -> exists b, nth_error l' i = Some b /\ R a b.
Proof.
  intros A B R l l' i a H. revert i. induction H as [|x y l l' Hx _ IH]; intros [|i] E; simpl in *; try discriminate; eauto.
  injection E as <-. eauto.
Qed.
Lemma Forall2_nth_r : forall {A B} (R : A -> B -> Prop) l l' i b, Forall2 R l l' -> nth_error l' i = Some b -> exists a, nth_error l i = Some a /\ R a b.
Proof.
  intros A B R l l' i b H. revert i. induction H as [|x y l l' Hx _ IH]; intros [|i] E; simpl in *; try discriminate; eauto.
  injection E as <-. eauto.
Qed.
Lemma Forall2_nth_intro : forall {A B} (R : A -> B -> Prop) l l', length l = length l' ->
  (forall i a b, nth_error l i = Some a -> nth_error l' i = Some b -> R a b) -> Forall2 R l l'.
Proof.
  intros A B R. induction l as [|x l IH]; intros [|y l'] Ln H; try discriminate; constructor.
  - apply (H 0); reflexivity.
  - apply IH. { simpl in Ln. lia. } intros i a b E1 E2. apply (H (S i)); auto.
Qed.

Lemma Forall2_len : forall {A B} (R : A -> B -> Prop) l l', Forall2 R l l' -> length l = length l'.
Proof. induction 1; simpl; auto. Qed.

Section Nonces.
  Context (re : regex_engine) (tp : tape).

  Lemma saved_get_in : forall p v s nonce, saved_get p v s = Some nonce -> In ((p, v), nonce) s.
  Proof.
    intros p v. induction s as [|[[p' v'] n'] s IH]; intros nonce H; cbn [saved_get] in H; try discriminate.
    destruct (bytes_eqb p p' && value_eqb v v') eqn:E.
    - injection H as <-. apply andb_true_iff in E. destruct E as [E1 E2]. apply bytes_eqb_eq in E1. apply value_eqb_eq in E2. subst. now left.
    - right. auto.
  Qed.

  Lemma saved_get_found : forall p v s nonce, In ((p, v), nonce) s -> exists nonce', saved_get p v s = Some nonce'.
  Proof.
    intros p v. induction s as [|[[p' v'] n'] s IH]; intros nonce H; [destruct H|]. cbn [saved_get].
    destruct (bytes_eqb p p' && value_eqb v v') eqn:E; eauto.
    destruct H as [H|H]; [|eauto]. injection H as -> -> ->. 
    rewrite (proj2 (bytes_eqb_eq p p) eq_refl), value_eqb_refl in E. discriminate.
  Qed.

  Lemma in_nonces_saved : forall em m p v nonce, length (map_values em) = length (map_values m) -> map fst (map_values m) = map fst (map_values em) ->
    In ((p, v), nonce) (nonces_saved (map_values em) (map snd (map_values m))) <->
    exists i ks e, pair_at em m i ks e v /\ p = path_text ks /\ nonce = ev_nonce e.
  Proof.
    intros em m p v nonce. unfold pair_at, value_at, nonces_saved. rewrite <- in_rev, in_flat_map.
    generalize (map_values em) (map_values m). intros l l' Ln Ks. split.
    - intros ([[ks l0] v0] & I & H). cbn [fst snd] in H. destruct l0 as [e|w]; [|destruct H]. destruct H as [H|[]].
      injection H as <- -> <-. apply In_nth_error in I. destruct I as (i & I). exists i, ks, e.
      assert (nth_error l i = Some (ks, Encrypted e) /\ nth_error (map snd l') i = Some v) as [A B].
      { revert I. clear. revert l' i. induction l as [|x l IH]; intros [|y l'] [|i] I; simpl in *; try discriminate; auto. injection I as -> ->. auto. }
      split; auto. split; auto. rewrite nth_error_map in B. destruct (nth_error l' i) as [[ks' v']|] eqn:E; [|discriminate]. cbn in B. injection B as ->.
      apply (f_equal (fun x => nth_error x i)) in Ks. rewrite !nth_error_map, A, E in Ks. cbn in Ks. injection Ks as ->. reflexivity.
    - intros (i & ks & e & [A B] & -> & ->). exists ((ks, Encrypted e), v). split; [|left; reflexivity].
      clear Ks. revert l' Ln i A B. induction l as [|x l IH]; intros [|y l'] Ln [|i] A B; simpl in *; try discriminate.
      + left. injection A as ->. injection B as ->. reflexivity.
      + right. eapply IH; eauto.
  Qed.

  Lemma decrypt_save_table : forall key em m s p v nonce, decrypt_map_save key em = Ok (m, s) ->
    (In ((p, v), nonce) s <-> exists i ks e, pair_at em m i ks e v /\ p = path_text ks /\ nonce = ev_nonce e).
  Proof.
    intros key em m s p v nonce H. apply decrypt_save_iff in H. destruct H as (_ & F & ->).
    apply dec_rel_split in F. destruct F as [E F]. apply in_nonces_saved; auto. rewrite <- (map_length fst (map_values em)), <- E. apply map_length.
  Qed.

  Lemma decrypt_pair : forall key em m i ks e v, decrypt_map key em = Ok m -> pair_at em m i ks e v -> decrypt_value e key (path_text ks) = Ok v.
  Proof.
    intros key em m i ks e v H [A B]. apply decrypt_map_iff in H. destruct H as [_ F].
    apply (Forall2_nth_l _ _ _ _ _ F) in A. destruct A as ([ks' v'] & A & [K D]). cbn [fst snd] in *. rewrite B in A. injection A as <- <-. exact D.
  Qed.

  Lemma decrypt_save_map : forall key em m s, decrypt_map_save key em = Ok (m, s) -> decrypt_map key em = Ok m.
  Proof. intros key em m s H. unfold decrypt_map. rewrite H. reflexivity. Qed.

  Lemma run_mono : forall {X Y} (f : X -> nat -> outcome (Y * nat)), (forall x n y n', f x n = Ok (y, n') -> n <= n') ->
    forall l n l' n', run f l n l' n' -> n <= n'.
  Proof. intros X Y f H l n l' n' R. induction R as [|x y l l' s s1 s2 E R IH]; auto. apply H in E. lia. Qed.

  Lemma run_nth : forall {X Y} (f : X -> nat -> outcome (Y * nat)), (forall x n y n', f x n = Ok (y, n') -> n <= n') ->
    forall l n l' n' i y, run f l n l' n' -> nth_error l' i = Some y -> exists x a b, nth_error l i = Some x /\ f x a = Ok (y, b) /\ n <= a /\ b <= n'.
  Proof.
    intros X Y f H l n l' n' i y R. revert i. induction R as [|x0 y0 l l' s s1 s2 E R IH]; intros [|i] Hy; simpl in Hy; try discriminate.
    - injection Hy as <-. exists x0, s, s1. repeat split; auto. eapply run_mono; eauto.
    - destruct (IH _ Hy) as (x & a & b & A & B & C & D). exists x, a, b. repeat split; auto. apply H in E. lia.
  Qed.

  Lemma enc_step_mono : forall saved key pc x n y n', enc_step re tp saved key pc x n = Ok (y, n') -> n <= n'.
  Proof.
    intros saved key pc [ks v] n y n' H. apply enc_step_ok in H.
    destruct H as [(_ & _ & ->)|(_ & e & nonce & _ & _ & _ & [[-> _]|[-> _]])]; lia.
  Qed.

  Lemma encrypt_map_mono : forall saved key pc m n em n', encrypt_map re tp saved key pc m n = Ok (em, n') -> n <= n'.
  Proof.
    intros saved key pc m n em n' H. apply encrypt_map_ok in H. destruct H as (_ & _ & R). eapply run_mono; [|exact R]. apply enc_step_mono.
  Qed.

  (** Every encrypted value of the output: which message, which nonce. *)
  Lemma encrypt_map_at : forall saved key pc m n em n' i ks l, encrypt_map re tp saved key pc m n = Ok (em, n') -> value_at em i ks l ->
    exists v, value_at m i ks v /\
    ((escapes (scope_at re (last_piece ":") pc ks) = true /\ l = Escaped v)
     \/ (escapes (scope_at re (last_piece ":") pc ks) = false /\ exists e, l = Encrypted e
         /\ encrypt_value v (ev_nonce e) key (path_text ks) = Ok e
         /\ ((exists s, saved = Some s /\ saved_get (path_text ks) v s = Some (ev_nonce e))
             \/ ((exists j, n <= j < n' /\ ev_nonce e = draw_nonce tp j) /\ forall s, saved = Some s -> saved_get (path_text ks) v s = None)))).
  Proof.
    intros saved key pc m n em n' i ks l H A. apply encrypt_map_ok in H. destruct H as (_ & Ks & R).
    unfold value_at in *. assert (A' : nth_error (map snd (map_values em)) i = Some l) by (rewrite nth_error_map, A; reflexivity).
    destruct (run_nth _ (enc_step_mono _ _ _) _ _ _ _ _ _ R A') as ([ks' v] & a & b & B & E & La & Lb).
    apply (f_equal (fun x => nth_error x i)) in Ks. rewrite !nth_error_map, A, B in Ks. cbn in Ks. injection Ks as <-.
    exists v. split; auto. apply enc_step_ok in E. destruct E as [(S1 & -> & _)|(S1 & e & nonce & -> & X & <- & Y)]; [left; auto|].
    right. split; auto. exists e. split; auto. split; auto. destruct Y as [(_ & s & -> & Y)|(-> & Y & Z)]; [left; eauto|right; split; auto].
    exists a. split; [lia|auto].
  Qed.

  Lemma encrypt_map_values_at : forall saved key pc m n em n' i ks v, encrypt_map re tp saved key pc m n = Ok (em, n') -> value_at m i ks v ->
    exists l, value_at em i ks l.
  Proof.
    intros saved key pc m n em n' i ks v H A. apply encrypt_map_rel in H. destruct H as [_ F].
    apply (Forall2_nth_l _ _ _ _ _ F) in A. destruct A as ([ks' l] & A & [E _]). cbn in E. subst. eauto.
  Qed.

  (** Fresh encryption draws one nonce per encrypted value, in order. *)
  Lemma fresh_nonces : forall key pc m n em n', encrypt_map re tp None key pc m n = Ok (em, n') ->
    n' = n + length (nonces_of em) /\ nonces_of em = map (draw_nonce tp) (seq n (length (nonces_of em))).
  Proof.
    intros key pc m n em n' H. apply encrypt_map_ok in H. destruct H as (_ & _ & R). unfold nonces_of.
    assert (flat_map (fun x : list bytes * eleaf => match snd x with Encrypted e => [ev_nonce e] | Escaped _ => [] end) (map_values em)
      = flat_map (fun x => match x with Encrypted e => [ev_nonce e] | Escaped _ => [] end) (map snd (map_values em))) as ->.
    { generalize (map_values em). clear. induction l as [|x l IH]; simpl; congruence. }
    revert R. generalize (map_values m) (map snd (map_values em)). intros l l' R.
    induction R as [s|[ks v] y l l' s s1 s2 E R IH]. { simpl. split; auto. }
    apply enc_step_ok in E. cbn [flat_map]. destruct E as [(_ & -> & ->)|(_ & e & nonce & -> & _ & <- & [(_ & s' & X & _)|(-> & Y & _)])]; auto; try discriminate.
    cbn [app length seq map]. destruct IH as [A B]. split. lia. rewrite Y. f_equal. exact B.
  Qed.

  Lemma run_states : forall {X Y} (f : X -> nat -> outcome (Y * nat)) l n l' n', run f l n l' n' ->
    exists st : nat -> nat, st 0 = n /\ st (length l) = n' /\
      forall i x y, nth_error l i = Some x -> nth_error l' i = Some y -> f x (st i) = Ok (y, st (S i)).
  Proof.
    intros X Y f l n l' n' R. induction R as [s|x y l l' s s1 s2 E R (st & A & B & C)].
    - exists (fun _ => s). repeat split. intros [|i] x y H; discriminate.
    - exists (fun i => match i with 0 => s | S i => st i end). split; auto. split; auto.
      intros [|i] x' y' H1 H2; simpl in *. injection H1 as <-. injection H2 as <-. now rewrite A. auto.
  Qed.

  (** Two fresh draws for different positions are different draws. *)
  Lemma encrypt_map_draws : forall saved key pc m n em n', encrypt_map re tp saved key pc m n = Ok (em, n') ->
    exists st : nat -> nat, (forall i ks e v, pair_at em m i ks e v ->
      (exists s, saved = Some s /\ saved_get (path_text ks) v s = Some (ev_nonce e)) \/ (ev_nonce e = draw_nonce tp (st i) /\ n <= st i < n'))
    /\ (forall i j ks e v ks' e' v', pair_at em m i ks e v -> pair_at em m j ks' e' v' ->
         (forall s, saved = Some s -> saved_get (path_text ks) v s = None) -> (forall s, saved = Some s -> saved_get (path_text ks') v' s = None) ->
         st i = st j -> i = j).
  Proof.
    intros saved key pc m n em n' H. apply encrypt_map_ok in H. destruct H as (_ & Ks & R).
    pose proof (run_length _ _ _ _ _ R) as Ln. rewrite map_length in Ln.
    apply run_states in R. destruct R as (st & S0 & S1 & R). exists st.
    assert (M : forall i, i < length (map_values m) -> st i <= st (S i)).
    { intros i Hi. destruct (nth_error (map_values m) i) as [x|] eqn:E1; [|apply nth_error_None in E1; lia].
      destruct (nth_error (map snd (map_values em)) i) as [y|] eqn:E2; [|apply nth_error_None in E2; rewrite map_length in E2; lia].
      eapply enc_step_mono. eapply R; eauto. }
    assert (MM : forall i j, i <= j -> j <= length (map_values m) -> st i <= st j).
    { intros i j L. induction L as [|j L IH]; intro Hj; auto. specialize (M j). lia. }
    assert (At : forall i ks e v, pair_at em m i ks e v ->
      (st (S i) = st i /\ exists s, saved = Some s /\ saved_get (path_text ks) v s = Some (ev_nonce e))
      \/ (st (S i) = S (st i) /\ ev_nonce e = draw_nonce tp (st i))).
    { intros i ks e v [A B]. unfold value_at in *. assert (A' : nth_error (map snd (map_values em)) i = Some (Encrypted e)) by (rewrite nth_error_map, A; reflexivity).
      specialize (R _ _ _ B A'). apply enc_step_ok in R. destruct R as [(_ & X & _)|(_ & e' & nonce & X & _ & <- & Y)]; [discriminate|].
      injection X as <-. destruct Y as [(Y & Z)|(Y & Z & _)]; auto. }
    split.
    - intros i ks e v P. pose proof P as [_ B]. unfold value_at in B. assert (i < length (map_values m)) by (apply nth_error_Some; congruence).
      destruct (At _ _ _ _ P) as [[_ X]|[E X]]; auto. right. split; auto. split. { rewrite <- S0. apply MM; lia. }
      rewrite <- S1. assert (st (S i) <= st (length (map_values m))) by (apply MM; lia). lia.
    - intros i j ks e v ks' e' v' P P' N N' E.
      destruct (At _ _ _ _ P) as [[_ (s & X & Y)]|[F X]]; [rewrite (N _ X) in Y; discriminate|].
      destruct (At _ _ _ _ P') as [[_ (s & X' & Y)]|[F' X']]; [rewrite (N' _ X') in Y; discriminate|].
      destruct P as [_ B]. destruct P' as [_ B']. unfold value_at in *.
      assert (i < length (map_values m)) by (apply nth_error_Some; congruence).
      assert (j < length (map_values m)) by (apply nth_error_Some; congruence).
      destruct (Nat.lt_trichotomy i j) as [L|[L|L]]; auto.
      + assert (st (S i) <= st j) by (apply MM; lia). lia.
      + assert (st (S j) <= st i) by (apply MM; lia). lia.
  Qed.

  (** ** Histories of edits *)

  Lemma pair_at_inj : forall em m i ks e v ks' e' v', pair_at em m i ks e v -> pair_at em m i ks' e' v' -> ks = ks' /\ e = e' /\ v = v'.
  Proof. intros em m i ks e v ks' e' v' [A B] [A' B']. unfold value_at in *. rewrite A in A'. rewrite B in B'. injection A'. injection B'. auto. Qed.

  Lemma history_invariant : forall key used em n, (forall i j, i < n -> j < n -> draw_nonce tp i = draw_nonce tp j -> i = j) -> history re tp key used em n ->
    (forall nonce p v, used (nonce, p, v) -> exists i, i < n /\ nonce = draw_nonce tp i)
    /\ (forall nonce p v p' v', used (nonce, p, v) -> used (nonce, p', v') -> p = p' /\ v = v')
    /\ (exists m, rust_map m /\ decrypt_map key em = Ok m /\ forall u, uses_of em m u -> used u).
  Proof.
    intros key used em n Inj H. revert Inj.
    induction H as [m pc n em n' RV E|used em n k m s m2 pc em2 n2 H IH Lk RV D E]; intro Inj;
      [|assert (L2 : k <= n2) by (eapply encrypt_map_mono; eauto); destruct IH as (IHa & IHb & (m0 & R0 & D0 & U0)); [intros; apply Inj; auto; lia|]].
    - pose proof (encrypt_map_draws _ _ _ _ _ _ _ E) as (st & A & B).
      assert (A' : forall i ks e v, pair_at em m i ks e v -> ev_nonce e = draw_nonce tp (st i) /\ n <= st i < n').
      { intros i ks e v P. destruct (A _ _ _ _ P) as [(s & X & _)|X]; [discriminate|auto]. }
      split; [|split].
      + intros nonce p v (i & ks & e & v' & P & X). injection X as -> -> ->. destruct (A' _ _ _ _ P) as [-> L]. exists (st i). split; [lia|auto].
      + intros nonce p v p' v' (i & ks & e & w & P & X) (i' & ks' & e' & w' & P' & X'). injection X as -> -> ->. injection X' as X' -> ->.
        destruct (A' _ _ _ _ P) as [Y L1]. destruct (A' _ _ _ _ P') as [Y' L1']. rewrite Y, Y' in X'. apply Inj in X'; try lia.
        assert (i = i') by (eapply B; eauto; discriminate). subst i'. destruct (pair_at_inj _ _ _ _ _ _ _ _ _ P P') as (-> & -> & ->). auto.
      + exists m. split; auto. split; auto. eapply decrypt_encrypt_map; eauto.
    - pose proof (encrypt_map_draws _ _ _ _ _ _ _ E) as (st & A & B).
      assert (m = m0) as -> by (apply decrypt_save_map in D; congruence).
      assert (New : forall i ks e v, pair_at em2 m2 i ks e v -> used (ev_nonce e, path_text ks, v)
                \/ (ev_nonce e = draw_nonce tp (st i) /\ k <= st i < n2 /\ saved_get (path_text ks) v s = None)).
      { intros i ks e v P. destruct (saved_get (path_text ks) v s) as [nonce|] eqn:G.
        - left. destruct P as [P1 P2]. destruct (encrypt_map_at _ _ _ _ _ _ _ _ _ _ E P1) as (v' & P2' & [(_ & X)|(_ & e' & X & _ & Y)]); [discriminate|].
          injection X as <-. unfold value_at in *. rewrite P2 in P2'. injection P2' as <-.
          destruct Y as [(s' & X & Y)|(_ & Y)]; [|rewrite (Y s eq_refl) in G; discriminate]. injection X as <-.
          apply saved_get_in in Y. apply (decrypt_save_table _ _ _ _ _ _ _ D) in Y. destruct Y as (j & ks' & e' & Pj & E1 & E2).
          apply U0. exists j, ks', e', v. split; auto. congruence.
        - right. destruct (A _ _ _ _ P) as [(s' & X & Y)|[X L]]; [injection X as <-; congruence|auto]. }
      split; [|split].
      + intros nonce p v [U|(i & ks & e & w & P & X)].
        * destruct (IHa _ _ _ U) as (j & Lj & ->). exists j. split; [lia|auto].
        * injection X as -> -> ->. destruct (New _ _ _ _ P) as [U|(-> & L & _)]. { destruct (IHa _ _ _ U) as (j & Lj & ->). exists j. split; [lia|auto]. }
          exists (st i). split; [lia|auto].
      + intros nonce p v p' v' U U'.
        assert (C : forall p v, used (nonce, p, v) \/ uses_of em2 m2 (nonce, p, v) -> used (nonce, p, v)
          \/ exists i ks e, pair_at em2 m2 i ks e v /\ nonce = ev_nonce e /\ p = path_text ks /\ nonce = draw_nonce tp (st i) /\ k <= st i < n2 /\ saved_get (path_text ks) v s = None).
        { intros q w [Z|(i & ks & e & w' & P & X)]; auto. injection X as -> -> ->. destruct (New _ _ _ _ P) as [Z|(Z & L & G)]; auto.
          right. exists i, ks, e. split; [exact P|]. split; [reflexivity|]. split; [reflexivity|]. split; [exact Z|]. split; [lia|exact G]. }
        destruct (C _ _ U) as [V|(i & ks & e & P & E1 & E2 & E3 & L & G)]; destruct (C _ _ U') as [V'|(i' & ks' & e' & P' & E1' & E2' & E3' & L' & G')].
        * eapply IHb; eauto.
        * exfalso. destruct (IHa _ _ _ V) as (j & Lj & X). rewrite X in E3'. apply Inj in E3'; lia.
        * exfalso. destruct (IHa _ _ _ V') as (j & Lj & X). rewrite X in E3. apply Inj in E3; lia.
        * assert (st i = st i') as F by (apply Inj; try lia; congruence).
          assert (i = i') by (eapply B; [exact P|exact P'| | |exact F]; intros s' X; injection X as <-; auto). subst i'.
          destruct (pair_at_inj _ _ _ _ _ _ _ _ _ P P') as (-> & -> & ->). subst. auto.
      + exists m2. split; auto. split. { eapply decrypt_encrypt_map; eauto. } auto.
  Qed.

  (** Re-encryption of an unedited document. *)
  Lemma rust_map_at : forall m i ks v, rust_map m -> value_at m i ks v -> rust_value v.
  Proof. intros m i ks v R H. apply (R ks). eapply nth_error_In. exact H. Qed.

  Lemma unchanged_value : forall saved0 key pc m n em n1 s m2 pc2 n2 em2 n3 i ks e v j,
    rust_map m -> encrypt_map re tp saved0 key pc m n = Ok (em, n1) -> decrypt_map_save key em = Ok (m, s) ->
    encrypt_map re tp (Some s) key pc2 m2 n2 = Ok (em2, n3) ->
    pair_at em m i ks e v -> (forall i' ks' e', pair_at em m i' ks' e' v -> path_text ks' = path_text ks -> e' = e) ->
    value_at m2 j ks v -> escapes (scope_at re (last_piece ":") pc2 ks) = false -> value_at em2 j ks (Encrypted e).
  Proof.
    intros saved0 key pc m n em n1 s m2 pc2 n2 em2 n3 i ks e v j RV E D E2 P U V Sc.
    destruct (encrypt_map_values_at _ _ _ _ _ _ _ _ _ _ E2 V) as (l & A).
    destruct (encrypt_map_at _ _ _ _ _ _ _ _ _ _ E2 A) as (v' & V' & [(X & _)|(_ & e2 & -> & Enc & Y)]); [congruence|].
    unfold value_at in V, V'. rewrite V in V'. injection V' as <-.
    assert (I : In ((path_text ks, v), ev_nonce e) s) by (apply (decrypt_save_table _ _ _ _ _ _ _ D); exists i, ks, e; auto).
    destruct Y as [(s' & X & Y)|(_ & Y)].
    - injection X as <-. apply saved_get_in in Y. apply (decrypt_save_table _ _ _ _ _ _ _ D) in Y. destruct Y as (i' & ks' & e' & P' & E1 & E3).
      assert (e' = e) as -> by (eapply U; eauto).
      destruct P as [P _]. destruct (encrypt_map_at _ _ _ _ _ _ _ _ _ _ E P) as (w & W & [(_ & X)|(_ & e0 & X & Enc0 & _)]); [discriminate|].
      injection X as <-. assert (w = v) as ->.
      { destruct P' as [P1 P2]. destruct (encrypt_map_at _ _ _ _ _ _ _ _ _ _ E P1) as (w' & W' & [(_ & X)|(_ & e0 & X & Enc0' & _)]); [discriminate|].
        injection X as <-. unfold value_at in *. rewrite P2 in W'. injection W' as <-. apply decrypt_encrypt_value in Enc0; [|eapply rust_map_at; eauto].
        apply decrypt_encrypt_value in Enc0'; [|eapply rust_map_at; [eauto|exact P2]]. rewrite <- E1 in Enc0'. congruence. }
      rewrite E3, Enc0 in Enc. injection Enc as <-. exact A.
    - specialize (Y s eq_refl). apply saved_get_found in I. destruct I as (x & X). congruence.
  Qed.

  Lemma map_ext_at : forall {L} (m1 m2 : rmap L), map_skeleton m1 = map_skeleton m2 ->
    (forall i ks l, value_at m1 i ks l -> value_at m2 i ks l) -> length (map_values m1) = length (map_values m2) -> m1 = m2.
  Proof.
    intros L m1 m2 Sk H Ln. assert (V : map_values m1 = map_values m2).
    { unfold value_at in H. revert Ln H. generalize (map_values m1) (map_values m2). clear. intros l1.
      induction l1 as [|[k x] l1 IH]; intros [|y l2] Ln H; try discriminate; auto. f_equal.
      - specialize (H 0 k x eq_refl). injection H as ->. reflexivity.
      - apply IH. { simpl in Ln. lia. } intros i. apply (H (S i)). }
    assert (Map m1 = Map m2) as X; [|now injection X].
    apply (skeleton_values_ext _ _ [] []); auto. change (map snd (map_values m1) = map snd (map_values m2)). now rewrite V.
  Qed.

  Lemma reencrypt_identical : forall saved0 key pc m n em n1 s n2, rust_map m ->
    encrypt_map re tp saved0 key pc m n = Ok (em, n1) -> decrypt_map_save key em = Ok (m, s) ->
    (forall i j ks ks' e e' v, pair_at em m i ks e v -> pair_at em m j ks' e' v -> path_text ks = path_text ks' -> ev_nonce e = ev_nonce e') ->
    encrypt_map re tp (Some s) key pc m n2 = Ok (em, n2).
  Proof.
    intros saved0 key pc m n em n1 s n2 RV E D U.
    assert (Fits : exists em2 n3, encrypt_map re tp (Some s) key pc m n2 = Ok (em2, n3)).
    { destruct (encrypt_map re tp (Some s) key pc m n2) as [[em2 n3]|er|] eqn:E2; eauto.
      - exfalso. apply encrypt_map_fail in E2. revert E2.
        destruct (smapM_total (enc_step re tp (Some s) key pc) (map_values m)) with (s := n2) as (r & ->); [|discriminate].
        intros [ks v] k I. apply In_nth_error in I. destruct I as (i & I).
        destruct (encrypt_map_values_at _ _ _ _ _ _ _ _ _ _ E I) as (l & A).
        destruct (encrypt_map_at _ _ _ _ _ _ _ _ _ _ E A) as (v' & V' & X). unfold value_at in V'. rewrite I in V'. injection V' as <-.
        unfold enc_step, encrypt_leaf. cbn [fst snd]. destruct X as [(-> & _)|(-> & e & _ & Enc & _)]; eauto.
        apply encrypt_value_ok in Enc. destruct Enc as (F1 & F2 & _).
        destruct (saved_get (path_text ks) v s) as [nonce|].
        + destruct (encrypt_value_total v nonce key _ F1 F2) as (x & ->). cbn. eauto.
        + destruct (encrypt_value_total v (draw_nonce tp k) key _ F1 F2) as (x & ->). cbn. eauto.
      - exfalso. now apply encrypt_map_no_panic in E2. }
    destruct Fits as (em2 & n3 & E2).
    assert (U' : forall i ks e v, pair_at em m i ks e v -> forall i' ks' e', pair_at em m i' ks' e' v -> path_text ks' = path_text ks -> e' = e).
    { intros i ks e v P i' ks' e' P' Ep. assert (N : ev_nonce e = ev_nonce e') by (eapply U; eauto).
      assert (X : forall i ks e v, pair_at em m i ks e v -> encrypt_value v (ev_nonce e) key (path_text ks) = Ok e).
      { clear - E. intros i ks e v [A B]. destruct (encrypt_map_at _ _ _ _ _ _ _ _ _ _ E A) as (v' & V' & [(_ & X)|(_ & e0 & X & Enc & _)]); [discriminate|].
        injection X as <-. unfold value_at in *. rewrite B in V'. injection V' as <-. exact Enc. }
      pose proof (X _ _ _ _ P) as X1. pose proof (X _ _ _ _ P') as X2. rewrite Ep, <- N in X2. congruence. }
    assert (em2 = em) as ->.
    { symmetry. apply map_ext_at.
      - apply encrypt_map_rel in E. apply encrypt_map_rel in E2. destruct E as [E _]. destruct E2 as [E2 _]. congruence.
      - intros i ks l A. destruct (encrypt_map_at _ _ _ _ _ _ _ _ _ _ E A) as (v & V & [(Sc & ->)|(Sc & e & -> & Enc & _)]).
        + destruct (encrypt_map_values_at _ _ _ _ _ _ _ _ _ _ E2 V) as (l2 & A2).
          destruct (encrypt_map_at _ _ _ _ _ _ _ _ _ _ E2 A2) as (v' & V' & [(_ & ->)|(X & _)]); [|congruence].
          unfold value_at in V, V'. rewrite V in V'. injection V' as <-. exact A2.
        + eapply (unchanged_value saved0 key pc m n em n1 s m pc n2 em2 n3 i ks e v i RV E D E2); eauto. { split; eauto. } intros i' ks' e' P'. eapply U'; eauto. split; eauto.
      - apply encrypt_map_rel in E. apply encrypt_map_rel in E2. destruct E as [_ E]. destruct E2 as [_ E2].
        apply Forall2_len in E. apply Forall2_len in E2. congruence. }
    rewrite E2. do 2 f_equal.
    (* no draw is made *)
    pose proof E2 as E3. apply encrypt_map_ok in E3. destruct E3 as (_ & Ks & R).
    assert (Z : forall l ls k k', run (enc_step re tp (Some s) key pc) l k ls k' ->
      (forall ks v, In (ks, v) l -> escapes (scope_at re (last_piece ":") pc ks) = false -> saved_get (path_text ks) v s <> None) -> k' = k).
    { intros l ls k k' R'. induction R' as [|[ks v] y l ls k k1 k' St R' IH]; intro Hs; auto.
      rewrite (IH (fun ks v I => Hs ks v (or_intror I))). apply enc_step_ok in St.
      destruct St as [(_ & _ & ->)|(Sc & e & nonce & _ & _ & _ & [(-> & _)|(_ & _ & G)])]; auto.
      exfalso. apply (Hs ks v); auto. now left. }
    symmetry. eapply eq_sym, Z; [exact R|]. intros ks v I Sc G. apply In_nth_error in I. destruct I as (i & I).
    destruct (encrypt_map_values_at _ _ _ _ _ _ _ _ _ _ E I) as (l & A).
    destruct (encrypt_map_at _ _ _ _ _ _ _ _ _ _ E A) as (v' & V' & [(X & _)|(_ & e & -> & _)]); [congruence|].
    unfold value_at in V'. rewrite I in V'. injection V' as <-.
    assert (In ((path_text ks, v), ev_nonce e) s) as In1 by (apply (decrypt_save_table _ _ _ _ _ _ _ D); exists i, ks, e; split; auto; split; auto).
    apply saved_get_found in In1. destruct In1 as (x & X). congruence.
  Qed.
End Nonces.
