(** Encryption and decryption of maps as computations over the list of values. *)
From Verif.Model Require Import MapCrypt.
From Verif.Proofs Require Import BytesFacts GcmFacts ValueFacts TreeFacts.
From Verif.Spec Require Import SpecMap.

(** ** Successful runs of a stateful iteration *)
Inductive run {X Y S : Type} (f : X -> S -> outcome (Y * S)) : list X -> S -> list Y -> S -> Prop :=
| run_nil s : run f [] s [] s
| run_cons x y l l' s s1 s2 : f x s = Ok (y, s1) -> run f l s1 l' s2 -> run f (x :: l) s (y :: l') s2.

Lemma smapM_run : forall {X Y S} (f : X -> S -> outcome (Y * S)) l s l' s', smapM f l s = Ok (l', s') <-> run f l s l' s'.
Proof.
  intros X Y S f. induction l as [|x l IH]; intros s l' s'; cbn [smapM].
  - split. intro H; inversion H; constructor. intro H; inversion H; reflexivity.
  - split.
    + intro H. apply bind_ok in H. destruct H as ([y s1] & E & H). apply bind_ok in H. destruct H as ([l1 s2] & E' & H).
      cbn [fst snd] in *. inversion H. subst. econstructor; eauto. now apply IH.
    + intro H. inversion H as [|? y ? l1 ? s1 ? E R]. subst. rewrite E. cbn [bind fst snd].
      apply IH in R. rewrite R. reflexivity.
Qed.

Lemma run_length : forall {X Y S} (f : X -> S -> outcome (Y * S)) l s l' s', run f l s l' s' -> length l' = length l.
Proof. induction 1; simpl; auto. Qed.

Lemma run_Forall2 : forall {X Y S} (f : X -> S -> outcome (Y * S)) l s l' s', run f l s l' s' ->
  Forall2 (fun x y => exists s0 s1, f x s0 = Ok (y, s1)) l l'.
Proof. induction 1; constructor; eauto. Qed.

Lemma run_map : forall {X X' Y S} (f : X -> S -> outcome (Y * S)) (g : X' -> X) l s l' s',
  run f (map g l) s l' s' <-> run (fun x => f (g x)) l s l' s'.
Proof.
  intros X X' Y S f g. induction l as [|x l IH]; intros s l' s'; split; intro H; inversion H; subst; try constructor; econstructor; eauto; now apply IH.
Qed.

Lemma run_ext : forall {X Y S} (f g : X -> S -> outcome (Y * S)) l s l' s', (forall x s, In x l -> f x s = g x s) -> run f l s l' s' -> run g l s l' s'.
Proof.
  intros X Y S f g l s l' s' E H. induction H as [|x y l l' s s1 s2 Hx R IH]; [constructor|].
  econstructor. rewrite <- E. eassumption. now left. apply IH. intros. apply E. now right.
Qed.

Lemma smapM_ext : forall {X Y S} (f g : X -> S -> outcome (Y * S)) l, Forall (fun x => forall s, f x s = g x s) l -> forall s, smapM f l s = smapM g l s.
Proof.
  intros X Y S f g l H. induction H as [|x l Hx _ IH]; intro s; cbn [smapM]; auto.
  rewrite Hx. destruct (g x s) as [[y s1]| |]; cbn [bind fst snd]; auto. now rewrite IH.
Qed.

Lemma smapM_map : forall {X X' Y S} (f : X -> S -> outcome (Y * S)) (g : X' -> X) l s, smapM f (map g l) s = smapM (fun x => f (g x)) l s.
Proof.
  intros X X' Y S f g. induction l as [|x l IH]; intro s; cbn [map smapM]; auto.
  destruct (f (g x) s) as [[y s1]| |]; cbn [bind fst snd]; auto. now rewrite IH.
Qed.

Lemma Forall2_combine_ctx : forall {K A B} (R : K -> A -> B -> Prop) (l : list (K * A)) bs,
  Forall2 (fun x b => R (fst x) (snd x) b) l bs ->
  Forall2 (fun x y => fst y = fst x /\ R (fst x) (snd x) (snd y)) l (combine (map fst l) bs).
Proof. intros K A B R l bs H. induction H as [|[k a] b l bs H _ IH]; simpl; constructor; auto. Qed.

Lemma Forall2_ctx_combine : forall {K A B} (R : K -> A -> B -> Prop) (l : list (K * A)) (l' : list (K * B)),
  Forall2 (fun x y => fst y = fst x /\ R (fst x) (snd x) (snd y)) l l' ->
  l' = combine (map fst l) (map snd l') /\ Forall2 (fun x b => R (fst x) (snd x) b) l (map snd l').
Proof.
  intros K A B R l l' H. induction H as [|[k a] [k' b] l l' [E H] _ [IH1 IH2]]; simpl in *; subst.
  - split; auto.
  - split. congruence. constructor; auto.
Qed.

(** ** Paths and scopes *)

Lemma path_text_app : forall ks k, path_text (ks ++ [k]) = path_join (path_text ks) k.
Proof. intros. unfold path_text, path_join. rewrite flat_map_app. simpl. now rewrite app_nil_r. Qed.

Lemma path_text_end : forall ks, path_text ks = [] \/ exists p, path_text ks = p ++ [":"%byte].
Proof.
  intro ks. destruct ks as [|k ks] using rev_ind; auto. right. exists (path_text ks ++ k).
  rewrite path_text_app. unfold path_join. now rewrite app_assoc.
Qed.

Lemma path_last_join : forall ks k, path_last (path_join (path_text ks) k) = last_piece ":" k.
Proof.
  intros ks k. unfold path_last, path_join. rewrite app_assoc, strip_suffix1_app.
  destruct (path_text_end ks) as [->|(p & ->)]; auto. rewrite <- app_assoc. simpl. apply last_piece_app.
Qed.

Lemma last_piece_segment : forall k, last_segment k (last_piece ":" k).
Proof.
  intro k. unfold last_segment. destruct (rsplit_once ":" k) as [[a b]|] eqn:E.
  - apply rsplit_once_some in E. destruct E as [-> N]. rewrite last_piece_app, last_piece_nosep by auto. eauto.
  - apply rsplit_once_none in E. rewrite last_piece_nosep by auto. auto.
Qed.

Lemma last_segment_unique : forall k s, last_segment k s <-> s = last_piece ":" k.
Proof.
  intros k s. split; [|intros ->; apply last_piece_segment].
  intros [N [->|(a & ->)]]; [now rewrite last_piece_nosep|now rewrite last_piece_app, last_piece_nosep].
Qed.

Section Scope.
  Context (re : regex_engine).

  Definition scope_at (g : bytes -> bytes) (pc : option partial) (ks : list bytes) : resolved :=
    fold_left (fun r k => step re r (g k)) ks (initial pc).

  Lemma fold_yes : forall (g : bytes -> bytes) ks esc, fold_left (fun r k => step re r (g k)) ks (Yes esc) = Yes esc.
  Proof. induction ks as [|k ks IH]; intro esc; simpl; auto. Qed.

  Definition hit (c : partial) (k : bytes) : bool :=
    match c with
    | EncryptedSuffix s | UnencryptedSuffix s => ends_with s k
    | EncryptedRegex p | UnencryptedRegex p => re_match re p k
    end.
  Definition hit_escape (c : partial) : bool :=
    match c with EncryptedSuffix _ | EncryptedRegex _ => false | UnencryptedSuffix _ | UnencryptedRegex _ => true end.

  Lemma resolve_hit : forall c k, resolve re c k = if hit c k then Yes (hit_escape c) else No c.
  Proof. intros [s|p|s|p] k; unfold resolve, hit, hit_escape; destruct (_ : bool); reflexivity. Qed.

  Lemma fold_no : forall (g : bytes -> bytes) ks c, fold_left (fun r k => step re r (g k)) ks (No c) =
    if existsb (fun k => hit c (g k)) ks then Yes (hit_escape c) else No c.
  Proof.
    induction ks as [|k ks IH]; intro c; cbn [fold_left existsb]; auto.
    change (step re (No c) (g k)) with (resolve re c (g k)). rewrite resolve_hit.
    destruct (hit c (g k)); cbn [orb]. apply fold_yes. apply IH.
  Qed.

  Lemma in_scope_iff : forall g pc ks, escapes (scope_at g pc ks) = false <-> in_scope re pc (map g ks).
  Proof.
    intros g pc ks. unfold scope_at, initial. destruct pc as [c|].
    - rewrite fold_no.
      assert (E : existsb (fun k => hit c (g k)) ks = true <-> exists k, In k (map g ks) /\ hit c k = true).
      { rewrite existsb_exists. split.
        - intros (k & I & H). exists (g k). split; auto. now apply in_map.
        - intros (k & I & H). apply in_map_iff in I. destruct I as (x & <- & I). eauto. }
      assert (E' : existsb (fun k => hit c (g k)) ks = false <-> ~ exists k, In k (map g ks) /\ hit c k = true).
      { rewrite <- E. destruct (existsb _ ks); split; intro; try congruence; try discriminate. }
      assert (ES : forall s k, ends_with s k = true <-> has_suffix s k) by (intros; apply ends_with_iff).
      destruct c as [s|p|s|p]; cbn [in_scope hit] in *;
        destruct (existsb _ ks); cbn [escapes hit_escape];
        (split; [intro H; try discriminate|intro H]); try reflexivity;
        try (apply E; reflexivity); try (apply E'; reflexivity).
      all: try (destruct E as [E _]; specialize (E eq_refl); destruct E as (k & I & X); try apply ES in X; eauto; fail).
      all: try (exfalso; destruct E' as [E' _]; specialize (E' eq_refl); apply E'; destruct H as (k & I & X); exists k; split; auto; apply ES; auto; fail).
      all: try (exfalso; destruct E' as [E' _]; specialize (E' eq_refl); apply E'; destruct H as (k & I & X); exists k; split; auto; fail).
      all: try (exfalso; destruct E as [E _]; specialize (E eq_refl); apply H; destruct E as (k & I & X); exists k; split; auto; apply ES; auto; fail).
      all: try (exfalso; destruct E as [E _]; specialize (E eq_refl); apply H; destruct E as (k & I & X); exists k; split; auto; fail).
      all: try (destruct E' as [E' _]; specialize (E' eq_refl); intros (k & I & X); apply E'; exists k; split; auto; apply ES; auto; fail).
    - rewrite fold_yes. simpl. tauto.
  Qed.

  Lemma out_scope_iff : forall g pc ks, escapes (scope_at g pc ks) = true <-> ~ in_scope re pc (map g ks).
  Proof. intros. rewrite <- in_scope_iff. destruct (escapes _); split; intro; try congruence; try discriminate. Qed.
End Scope.

(** ** The model's functions are traversals *)
Section Main.
  Context (re : regex_engine) (tp : tape).

  Definition edown (c : resolved * bytes) (k : bytes) : resolved * bytes :=
    let path' := path_join (snd c) k in (step re (fst c) (path_last path'), path').

  Lemma encrypt_tree_traverse : forall saved key t r path n,
    encrypt_tree re tp saved key r path t n = traverse edown (fun c v => encrypt_leaf tp saved key (fst c) (snd c) v) (r, path) t n.
  Proof.
    intros saved key. induction t as [l IH|m IH| |v] using tree_ind'; intros r path n; cbn [encrypt_tree traverse]; auto.
    - erewrite smapM_ext; [reflexivity|]. eapply Forall_impl; [|exact IH]. intros t H s. apply H.
    - erewrite smapM_ext; [reflexivity|]. eapply Forall_impl; [|exact IH]. intros [k t] H s. cbn [fst snd]. unfold edown at 2. cbn [fst snd]. now rewrite H.
  Qed.

  Lemma decrypt_tree_traverse : forall key t path s,
    decrypt_tree key path t s = traverse path_join (decrypt_leaf key) path t s.
  Proof.
    intros key. induction t as [l IH|m IH| |v] using tree_ind'; intros path n; cbn [decrypt_tree traverse]; auto.
    - erewrite smapM_ext; [reflexivity|]. eapply Forall_impl; [|exact IH]. intros t H s. apply H.
    - erewrite smapM_ext; [reflexivity|]. eapply Forall_impl; [|exact IH]. intros [k t] H s. cbn [fst snd]. now rewrite H.
  Qed.

  Lemma encrypt_map_tree : forall saved key pc m n,
    encrypt_tree re tp saved key (initial pc) [] (Map m) n = let* x := encrypt_map re tp saved key pc m n in Ok (Map (fst x), snd x).
  Proof. reflexivity. Qed.

  Lemma decrypt_map_tree : forall key m,
    decrypt_tree key [] (Map m) [] = let* x := decrypt_map_save key m in Ok (Map (fst x), snd x).
  Proof. reflexivity. Qed.

  Lemma edown_fold : forall ks pc, fold_left edown ks (initial pc, []) = (scope_at re (last_piece ":") pc ks, path_text ks).
  Proof.
    intros ks pc. induction ks as [|k ks IH] using rev_ind; auto.
    rewrite fold_left_app, IH. unfold scope_at. rewrite fold_left_app. cbn [fold_left]. unfold edown at 1. cbn [fst snd].
    rewrite path_text_app, path_last_join. reflexivity.
  Qed.

  Lemma path_fold : forall ks, fold_left path_join ks [] = path_text ks.
  Proof.
    intro ks. induction ks as [|k ks IH] using rev_ind; auto. rewrite fold_left_app, IH. cbn [fold_left]. now rewrite path_text_app.
  Qed.

  (** One value, given its enclosing keys. *)
  Definition enc_step (saved : option saved_nonces) (key : bytes) (pc : option partial) (x : list bytes * value) (n : nat) : outcome (eleaf * nat) :=
    encrypt_leaf tp saved key (scope_at re (last_piece ":") pc (fst x)) (path_text (fst x)) (snd x) n.

  Definition dec_step (key : bytes) (x : list bytes * eleaf) (s : saved_nonces) : outcome (value * saved_nonces) :=
    decrypt_leaf key (path_text (fst x)) (snd x) s.

  Lemma encrypt_map_run : forall saved key pc m n,
    encrypt_map re tp saved key pc m n
    = let* x := smapM (enc_step saved key pc) (map_values m) n in
      match fst (refill (Map m) (fst x)) with Map em => Ok (em, snd x) | _ => Panic end.
  Proof.
    intros saved key pc m n. pose proof (encrypt_map_tree saved key pc m n) as T.
    rewrite encrypt_tree_traverse, traverse_leaves in T. unfold leaf_run in T.
    rewrite leaves_fold0, smapM_map in T.
    erewrite smapM_ext with (g := enc_step saved key pc) in T.
    2:{ apply Forall_forall. intros [ks v] _ s. cbn [fst snd]. rewrite edown_fold. reflexivity. }
    change (values_under [] (Map m)) with (map_values m) in T.
    destruct (smapM (enc_step saved key pc) (map_values m) n) as [[ls n']|e|]; cbn [bind fst snd] in *.
    - destruct (encrypt_map re tp saved key pc m n) as [[em n1]|e|]; cbn [bind fst snd] in T; try discriminate.
      revert T. generalize (fst (refill (Map m) ls)). intros R0 T. injection T as -> ->. reflexivity.
    - destruct (encrypt_map re tp saved key pc m n) as [[em n1]|e'|]; cbn [bind fst snd] in T; try discriminate; try reflexivity; injection T as ->; reflexivity.
    - destruct (encrypt_map re tp saved key pc m n) as [[em n1]|e'|]; cbn [bind fst snd] in T; try discriminate; try reflexivity; injection T as ->; reflexivity.
  Qed.

  Lemma decrypt_map_run : forall key em,
    decrypt_map_save key em
    = let* x := smapM (dec_step key) (map_values em) [] in
      match fst (refill (Map em) (fst x)) with Map m => Ok (m, snd x) | _ => Panic end.
  Proof.
    intros key m. pose proof (decrypt_map_tree key m) as T.
    rewrite decrypt_tree_traverse, traverse_leaves in T. unfold leaf_run in T.
    rewrite leaves_fold0, smapM_map in T.
    erewrite smapM_ext with (g := dec_step key) in T.
    2:{ apply Forall_forall. intros [ks v] _ s. cbn [fst snd]. rewrite path_fold. reflexivity. }
    change (values_under [] (Map m)) with (map_values m) in T.
    destruct (smapM (dec_step key) (map_values m) []) as [[ls n']|e|]; cbn [bind fst snd] in *.
    - destruct (decrypt_map_save key m) as [[em n1]|e|]; cbn [bind fst snd] in T; try discriminate.
      revert T. generalize (fst (refill (Map m) ls)). intros R0 T. injection T as -> ->. reflexivity.
    - destruct (decrypt_map_save key m) as [[em n1]|e'|]; cbn [bind fst snd] in T; try discriminate; try reflexivity; injection T as ->; reflexivity.
    - destruct (decrypt_map_save key m) as [[em n1]|e'|]; cbn [bind fst snd] in T; try discriminate; try reflexivity; injection T as ->; reflexivity.
  Qed.

  Lemma refill_map : forall {A B} (m : rmap A) (bs : list B), length bs = length (map_values m) ->
    exists m', fst (refill (Map m) bs) = Map m' /\ map_skeleton m' = map_skeleton m /\ map_values m' = combine (map fst (map_values m)) bs.
  Proof.
    intros A B m bs H. pose proof (refill_skeleton (Map m) bs H) as S. pose proof (refill_values (Map m) bs H) as V.
    destruct (fst (refill (Map m) bs)) as [l|m'| |v] eqn:E; try discriminate S. exists m'. split; auto.
  Qed.

  (** Encryption, as a statement about the list of values. *)
  Lemma encrypt_map_ok : forall saved key pc m n em n', encrypt_map re tp saved key pc m n = Ok (em, n') <->
    map_skeleton em = map_skeleton m /\ map fst (map_values em) = map fst (map_values m)
    /\ run (enc_step saved key pc) (map_values m) n (map snd (map_values em)) n'.
  Proof.
    intros saved key pc m n em n'. rewrite encrypt_map_run. split.
    - intro H. apply bind_ok in H. destruct H as ([ls n1] & R & H). apply smapM_run in R. cbn [fst snd] in H.
      pose proof (run_length _ _ _ _ _ R) as Ln.
      destruct (refill_map m ls Ln) as (m' & E & Sk & V). rewrite E in H. injection H as <- <-.
      split; auto. rewrite V. split.
      + rewrite <- (map_length fst) in Ln. revert Ln. generalize (map fst (map_values m)). clear. induction ls as [|x ls IH]; intros [|k ks] H; simpl in *; try discriminate; auto. f_equal. apply IH. lia.
      + replace (map snd (combine (map fst (map_values m)) ls)) with ls; auto.
        rewrite <- (map_length fst) in Ln. revert Ln. generalize (map fst (map_values m)). clear. induction ls as [|x ls IH]; intros [|k ks] H; simpl in *; try discriminate; auto. f_equal. apply IH. lia.
    - intros (Sk & Ks & R). pose proof (run_length _ _ _ _ _ R) as Ln. apply smapM_run in R. rewrite R. cbn [bind fst snd].
      destruct (refill_map m (map snd (map_values em)) Ln) as (m' & E & Sk' & V). rewrite E.
      assert (Map m' = Map em) as X; [|injection X as ->; reflexivity].
      apply (skeleton_values_ext _ _ [] []).
      + unfold map_skeleton in *. congruence.
      + change (map snd (map_values m') = map snd (map_values em)). rewrite V, <- Ks.
        generalize (map_values em). clear. induction l as [|[k x] l IH]; simpl; congruence.
  Qed.

  Lemma encrypt_map_fail : forall saved key pc m n,
    (forall e, encrypt_map re tp saved key pc m n = Err e <-> smapM (enc_step saved key pc) (map_values m) n = Err e)
    /\ (encrypt_map re tp saved key pc m n = Panic <-> smapM (enc_step saved key pc) (map_values m) n = Panic).
  Proof.
    intros saved key pc m n. rewrite encrypt_map_run.
    destruct (smapM (enc_step saved key pc) (map_values m) n) as [[ls n1]|e|] eqn:R; cbn [bind fst snd].
    - apply smapM_run, run_length in R. destruct (refill_map m ls R) as (m' & -> & _).
      split; [intro e|]; split; discriminate.
    - split; [intro e'|]; split; intro X; try discriminate; injection X as ->; reflexivity.
    - split; [intro e'|]; split; intro X; try discriminate; reflexivity.
  Qed.

  Lemma decrypt_save_ok : forall key em m s, decrypt_map_save key em = Ok (m, s) <->
    map_skeleton m = map_skeleton em /\ map fst (map_values m) = map fst (map_values em)
    /\ run (dec_step key) (map_values em) [] (map snd (map_values m)) s.
  Proof.
    intros key m em n'. rewrite decrypt_map_run. split.
    - intro H. apply bind_ok in H. destruct H as ([ls n1] & R & H). apply smapM_run in R. cbn [fst snd] in H.
      pose proof (run_length _ _ _ _ _ R) as Ln.
      destruct (refill_map m ls Ln) as (m' & E & Sk & V). rewrite E in H. injection H as <- <-.
      split; auto. rewrite V. split.
      + rewrite <- (map_length fst) in Ln. revert Ln. generalize (map fst (map_values m)). clear. induction ls as [|x ls IH]; intros [|k ks] H; simpl in *; try discriminate; auto. f_equal. apply IH. lia.
      + replace (map snd (combine (map fst (map_values m)) ls)) with ls; auto.
        rewrite <- (map_length fst) in Ln. revert Ln. generalize (map fst (map_values m)). clear. induction ls as [|x ls IH]; intros [|k ks] H; simpl in *; try discriminate; auto. f_equal. apply IH. lia.
    - intros (Sk & Ks & R). pose proof (run_length _ _ _ _ _ R) as Ln. apply smapM_run in R. rewrite R. cbn [bind fst snd].
      destruct (refill_map m (map snd (map_values em)) Ln) as (m' & E & Sk' & V). rewrite E.
      assert (Map m' = Map em) as X; [|injection X as ->; reflexivity].
      apply (skeleton_values_ext _ _ [] []).
      + unfold map_skeleton in *. congruence.
      + change (map snd (map_values m') = map snd (map_values em)). rewrite V, <- Ks.
        generalize (map_values em). clear. induction l as [|[k x] l IH]; simpl; congruence.
  Qed.

  Lemma decrypt_leaf_no_panic : forall key path l s, decrypt_leaf key path l s <> Panic.
  Proof.
    intros key path [e|v] s H; cbn [decrypt_leaf] in H; try discriminate.
    apply bind_panic in H. destruct H as [H|(a & _ & H)]; [now apply decrypt_value_no_panic in H|discriminate].
  Qed.

  Lemma smapM_no_panic : forall {X Y S} (f : X -> S -> outcome (Y * S)) l, (forall x s, f x s <> Panic) -> forall s, smapM f l s <> Panic.
  Proof.
    intros X Y S f l H. induction l as [|x l IH]; intros s P; cbn [smapM] in P; try discriminate.
    apply bind_panic in P. destruct P as [P|(r & _ & P)]; [now apply H in P|].
    apply bind_panic in P. destruct P as [P|(r' & _ & P)]; [now apply IH in P|discriminate].
  Qed.

  Lemma decrypt_map_no_panic : forall key em, decrypt_map_save key em <> Panic /\ decrypt_map key em <> Panic.
  Proof.
    intros key em. assert (N : decrypt_map_save key em <> Panic).
    { rewrite decrypt_map_run. intro H. apply bind_panic in H. destruct H as [H|([ls s] & R & H)].
      - revert H. apply smapM_no_panic. intros x s. apply decrypt_leaf_no_panic.
      - apply smapM_run, run_length in R. destruct (refill_map em ls R) as (m' & E & _). cbn [fst] in H. rewrite E in H. discriminate. }
    split; auto. unfold decrypt_map. destruct (decrypt_map_save key em) as [[]| |]; cbn; congruence.
  Qed.

  Lemma encrypt_leaf_no_panic : forall saved key r path v n, encrypt_leaf tp saved key r path v n <> Panic.
  Proof.
    intros saved key r path v n. unfold encrypt_leaf. destruct (escapes r); try discriminate.
    destruct (match saved with Some s => saved_get path v s | None => None end) as [nonce|].
    - destruct (encrypt_value_err v nonce key path) as [->|(e & ->)]; discriminate.
    - destruct (encrypt_value_err v (draw_nonce tp n) key path) as [->|(e & ->)]; discriminate.
  Qed.

  Lemma encrypt_map_no_panic : forall saved key pc m n, encrypt_map re tp saved key pc m n <> Panic.
  Proof.
    intros saved key pc m n H. apply encrypt_map_fail in H. revert H. apply smapM_no_panic. intros. apply encrypt_leaf_no_panic.
  Qed.

  (** Encryption of maps whose values and paths fit succeeds. *)
  Lemma smapM_total : forall {X Y S} (f : X -> S -> outcome (Y * S)) l, (forall x s, In x l -> exists r, f x s = Ok r) -> forall s, exists r, smapM f l s = Ok r.
  Proof.
    intros X Y S f. induction l as [|x l IH]; intros H s; cbn [smapM]; eauto.
    destruct (H x s) as ([y s1] & ->); [now left|]. cbn [bind fst snd].
    destruct (IH (fun y s Hy => H y s (or_intror Hy)) s1) as ([l' s2] & ->). cbn [bind]. eauto.
  Qed.

  Lemma encrypt_map_total : forall saved key pc m n,
    (forall ks v, In (ks, v) (map_values m) -> gcm_fits (value_bytes v) /\ gcm_fits (path_text ks)) ->
    exists em n', encrypt_map re tp saved key pc m n = Ok (em, n').
  Proof.
    intros saved key pc m n H. rewrite encrypt_map_run.
    destruct (smapM_total (enc_step saved key pc) (map_values m)) with (s := n) as ([ls n1] & R).
    { intros [ks v] s I. destruct (H ks v I) as [A B]. unfold enc_step, encrypt_leaf. cbn [fst snd]. destruct (escapes _); eauto.
      destruct (match saved with Some s => saved_get (path_text ks) v s | None => None end) as [nonce|].
      - destruct (encrypt_value_total v nonce key _ A B) as (e & ->). cbn. eauto.
      - destruct (encrypt_value_total v (draw_nonce tp s) key _ A B) as (e & ->). cbn. eauto. }
    rewrite R. cbn [bind fst snd]. apply smapM_run, run_length in R.
    destruct (refill_map m ls R) as (m' & -> & _). eauto.
  Qed.

  (** What one step of encryption does. *)
  Lemma enc_step_ok : forall saved key pc ks v n l n', enc_step saved key pc (ks, v) n = Ok (l, n') ->
    (escapes (scope_at re (last_piece ":") pc ks) = true /\ l = Escaped v /\ n' = n)
    \/ (escapes (scope_at re (last_piece ":") pc ks) = false /\ exists e nonce, l = Encrypted e
        /\ encrypt_value v nonce key (path_text ks) = Ok e /\ ev_nonce e = nonce
        /\ ((n' = n /\ exists s, saved = Some s /\ saved_get (path_text ks) v s = Some nonce)
            \/ (n' = S n /\ nonce = draw_nonce tp n /\ (forall s, saved = Some s -> saved_get (path_text ks) v s = None)))).
  Proof.
    intros saved key pc ks v n l n'. unfold enc_step, encrypt_leaf. cbn [fst snd].
    destruct (escapes (scope_at re (last_piece ":") pc ks)) eqn:E.
    - intro H. inversion H. subst. left. auto.
    - intro H. right. split; auto.
      destruct (match saved with Some s => saved_get (path_text ks) v s | None => None end) as [nonce|] eqn:F;
        apply bind_ok in H; destruct H as (e & X & H); injection H as <- <-; exists e; eexists; (split; [reflexivity|]); (split; [exact X|]);
        (split; [apply encrypt_value_ok in X; destruct X as (_ & _ & ->); reflexivity|]).
      + left. split; auto. destruct saved as [s|]; [|discriminate]. eauto.
      + right. split; auto. split; auto. intros s ->. exact F.
  Qed.

  Lemma dec_step_ok : forall key ks l s v s', dec_step key (ks, l) s = Ok (v, s') <->
    (l = Escaped v /\ s' = s) \/ (exists e, l = Encrypted e /\ decrypt_value e key (path_text ks) = Ok v /\ s' = ((path_text ks, v), ev_nonce e) :: s).
  Proof.
    intros key ks l s v s'. unfold dec_step. cbn [fst snd]. destruct l as [e|w]; cbn [decrypt_leaf].
    - split.
      + intro H. apply bind_ok in H. destruct H as (v' & D & H). injection H as <- <-. right. exists e. auto.
      + intros [[H _]|(e' & H & D & ->)]; [discriminate|]. injection H as <-. rewrite D. reflexivity.
    - split.
      + intro H. inversion H. subst. auto.
      + intros [[H ->]|(e' & H & _)]; [|discriminate]. now inversion H.
  Qed.

  Definition decrypts (key : bytes) (ks : list bytes) (l : eleaf) (v : value) : Prop :=
    match l with Escaped w => v = w | Encrypted e => decrypt_value e key (path_text ks) = Ok v end.

  Definition nonces_saved (ems : list (list bytes * eleaf)) (vs : list value) : saved_nonces :=
    rev (flat_map (fun x => match snd (fst x) with Encrypted e => [((path_text (fst (fst x)), snd x), ev_nonce e)] | Escaped _ => [] end) (combine ems vs)).

  Lemma run_dec : forall key ems vs s s', run (dec_step key) ems s vs s' <->
    Forall2 (fun x v => decrypts key (fst x) (snd x) v) ems vs /\ s' = nonces_saved ems vs ++ s.
  Proof.
    intros key ems. induction ems as [|[ks l] ems IH]; intros vs s s'.
    - split.
      + intro H. inversion H. subst. split; auto.
      + intros [H ->]. inversion H. constructor.
    - split.
      + intro H. inversion H as [|? v ? vs' ? s1 ? D R]. subst. apply IH in R. destruct R as [F ->].
        apply dec_step_ok in D. destruct D as [(-> & ->)|(e & -> & D & ->)].
        * split. constructor; auto. reflexivity. reflexivity.
        * split. constructor; auto. unfold nonces_saved. cbn [combine flat_map rev app fst snd]. rewrite <- app_assoc. reflexivity.
      + intros [F ->]. inversion F as [|? v ? vs' D F']. subst. cbn [fst snd] in D. destruct l as [e|w].
        * econstructor. { apply dec_step_ok. right. exists e. split; [reflexivity|]. split; [exact D|reflexivity]. }
          apply IH. split; auto. unfold nonces_saved. cbn [combine flat_map rev app fst snd]. rewrite <- app_assoc. reflexivity.
        * simpl in D. subst. econstructor. { apply dec_step_ok. left. split; reflexivity. } apply IH. split; auto.
  Qed.

  Lemma Forall2_map_r : forall {A B C} (R : A -> C -> Prop) (g : B -> C) l l', Forall2 R l (map g l') <-> Forall2 (fun a b => R a (g b)) l l'.
  Proof.
    intros A B C R g. induction l as [|a l IH]; intros [|b l']; split; intro H; inversion H; subst; constructor; auto; now apply IH.
  Qed.

  (** Decryption of a map, as a statement about its values. *)
  Definition dec_rel (key : bytes) (x : list bytes * eleaf) (y : list bytes * value) : Prop :=
    fst y = fst x /\ decrypts key (fst x) (snd x) (snd y).

  Lemma dec_rel_split : forall key l l', Forall2 (dec_rel key) l l' <->
    map fst l' = map fst l /\ Forall2 (fun x y => decrypts key (fst x) (snd x) (snd y)) l l'.
  Proof.
    intros key l. unfold dec_rel. induction l as [|x l IH]; intros [|y l']; split; intro H.
    - auto. - constructor. - inversion H. - destruct H as [_ H]. inversion H. - inversion H. - destruct H as [_ H]. inversion H.
    - inversion H as [|? ? ? ? [E D] F]. subst. apply IH in F. destruct F as [F1 F2]. split. simpl. congruence. constructor; auto.
    - destruct H as [E F]. inversion F. subst. injection E as E1 E2. constructor; auto. apply IH. auto.
  Qed.

  Lemma decrypt_save_iff : forall key em m s, decrypt_map_save key em = Ok (m, s) <->
    map_skeleton m = map_skeleton em /\ Forall2 (dec_rel key) (map_values em) (map_values m)
    /\ s = nonces_saved (map_values em) (map snd (map_values m)).
  Proof.
    intros key em m s. rewrite decrypt_save_ok, run_dec, app_nil_r, dec_rel_split, Forall2_map_r. tauto.
  Qed.

  Lemma decrypt_map_iff : forall key em m, decrypt_map key em = Ok m <->
    map_skeleton m = map_skeleton em /\ Forall2 (dec_rel key) (map_values em) (map_values m).
  Proof.
    intros key em m. unfold decrypt_map. split.
    - intro H. destruct (decrypt_map_save key em) as [[m' s]| |] eqn:E; try discriminate. injection H as <-.
      apply decrypt_save_iff in E. tauto.
    - intros [A B]. assert (decrypt_map_save key em = Ok (m, nonces_saved (map_values em) (map snd (map_values m)))) as ->; auto.
      apply decrypt_save_iff. auto.
  Qed.

  (** One encrypted value as a function of its nonce. *)
  Definition enc_rel (key : bytes) (pc : option partial) (x : list bytes * value) (y : list bytes * eleaf) : Prop :=
    fst y = fst x /\
    if escapes (scope_at re (last_piece ":") pc (fst x)) then snd y = Escaped (snd x)
    else exists e nonce, snd y = Encrypted e /\ encrypt_value (snd x) nonce key (path_text (fst x)) = Ok e.

  Lemma encrypt_map_rel : forall saved key pc m n em n', encrypt_map re tp saved key pc m n = Ok (em, n') ->
    map_skeleton em = map_skeleton m /\ Forall2 (enc_rel key pc) (map_values m) (map_values em).
  Proof.
    intros saved key pc m n em n' H. apply encrypt_map_ok in H. destruct H as (Sk & Ks & R). split; auto.
    revert Ks R. generalize (map_values m) (map_values em). clear Sk. intros l. revert n.
    induction l as [|[ks v] l IH]; intros n [|[ks' x] l'] Ks R; try discriminate; constructor.
    - injection Ks as -> Ks. inversion R as [|? ? ? ? ? s1 ? E R']. subst. apply enc_step_ok in E.
      split; auto. cbn [fst snd]. destruct E as [(-> & -> & _)|(-> & e & nonce & -> & E & _)]; auto. exists e, nonce. auto.
    - injection Ks as _ Ks. inversion R as [|? ? ? ? ? s1 ? E R']. subst. eapply IH; eauto.
  Qed.

  Lemma enc_dec_rel : forall key pc x y, rust_value (snd x) -> enc_rel key pc x y -> dec_rel key y x.
  Proof.
    intros key pc [ks v] [ks' l] RV [E H]. cbn [fst snd] in *. subst. split; auto. cbn [fst snd].
    destruct (escapes _). { now subst. } destruct H as (e & nonce & -> & H). cbn [decrypts]. eapply decrypt_encrypt_value; eauto.
  Qed.

  Lemma decrypt_encrypt_map : forall saved key pc m n em n',
    (forall ks v, In (ks, v) (map_values m) -> rust_value v) ->
    encrypt_map re tp saved key pc m n = Ok (em, n') -> decrypt_map key em = Ok m.
  Proof.
    intros saved key pc m n em n' RV H. apply encrypt_map_rel in H. destruct H as [Sk F].
    apply decrypt_map_iff. split; auto. revert RV F. generalize (map_values m) (map_values em). intros l l' RV F.
    induction F as [|[ks v] y l l' H F IH]; constructor.
    - eapply enc_dec_rel; eauto. apply (RV ks). now left.
    - apply IH. intros ks' v' I. apply (RV ks'). now right.
  Qed.
End Main.

(** Rules that do not depend on the part of a key before a colon. *)
Lemma has_suffix_last : forall s k, ~ In ":"%byte s -> (has_suffix s (last_piece ":" k) <-> has_suffix s k).
Proof.
  intros s k N. destruct (last_piece_segment k) as [Nk [E|(a & E)]].
  - now rewrite <- E.
  - remember (last_piece ":" k) as l eqn:El. clear El. subst k. unfold has_suffix. split.
    + intros (b & ->). exists (a ++ ":"%byte :: b). now rewrite <- app_assoc.
    + intros (b & H). apply app_eq_app in H. destruct H as (l0 & [[_ H]|[_ H]]).
      * exfalso. apply N. rewrite H. apply in_app_iff. right. now left.
      * destruct l0 as [|c l0]; cbn [app] in H.
        -- exfalso. apply N. rewrite <- H. now left.
        -- injection H as _ ->. exists l0. reflexivity.
Qed.

Lemma in_scope_last : forall re rule ks,
  (Forall no_colon ks \/ match rule with None => True | Some (EncryptedSuffix s) | Some (UnencryptedSuffix s) => no_colon s | _ => False end) ->
  (in_scope re rule (map (last_piece ":") ks) <-> in_scope re rule ks).
Proof.
  intros re rule ks [H|H].
  - assert (map (last_piece ":") ks = ks) as ->; [|tauto]. induction H as [|k ks Hk _ IH]; simpl; auto. rewrite IH, last_piece_nosep; auto.
  - assert (X : forall s, no_colon s -> (exists k, In k (map (last_piece ":") ks) /\ has_suffix s k) <-> exists k, In k ks /\ has_suffix s k).
    { intros s N. split.
      - intros (k & I & S). apply in_map_iff in I. destruct I as (k' & <- & I). exists k'. split; auto. now apply has_suffix_last.
      - intros (k & I & S). exists (last_piece ":" k). split. now apply in_map. now apply has_suffix_last. }
    destruct rule as [[s|p|s|p]|]; cbn [in_scope]; try contradiction; try tauto; rewrite X; tauto.
Qed.

Lemma last_segments : forall ks ss, Forall2 last_segment ks ss <-> ss = map (last_piece ":") ks.
Proof.
  induction ks as [|k ks IH]; intro ss; split; intro H.
  - inversion H. reflexivity.
  - subst. constructor.
  - inversion H. subst. simpl. f_equal. now apply last_segment_unique. now apply IH.
  - subst. constructor. now apply last_segment_unique. now apply IH.
Qed.
