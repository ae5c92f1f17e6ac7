(** Generic facts about trees: induction, traversal as a list computation. *)
From Verif.Model Require Import Tree.
From Verif.Proofs Require Import BytesFacts ValueFacts.
From Verif.Spec Require Import SpecMap.

Section TreeInd.
  Context {L : Type} (P : tree L -> Prop)
    (HS : forall l, Forall P l -> P (Seq l))
    (HM : forall m, Forall (fun kt => P (snd kt)) m -> P (Map m))
    (HN : P Null) (HL : forall v, P (Leaf v)).
  Fixpoint tree_ind' (t : tree L) : P t :=
    match t with
    | Seq l => HS l ((fix go l : Forall P l := match l with [] => Forall_nil _ | x :: l' => Forall_cons _ (tree_ind' x) (go l') end) l)
    | Map m => HM m ((fix go m : Forall (fun kt => P (snd kt)) m :=
                        match m with [] => Forall_nil _ | kt :: m' => Forall_cons _ (tree_ind' (snd kt)) (go m') end) m)
    | Null => HN
    | Leaf v => HL v
    end.
End TreeInd.

(** ** Contexts: a value computed from the enclosing keys *)
Section Leaves.
  Context {C : Type} (down : C -> bytes -> C).

  Fixpoint leaves {L} (c : C) (t : tree L) : list (C * L) :=
    match t with
    | Seq l => flat_map (leaves c) l
    | Map m => flat_map (fun kt => leaves (down c (fst kt)) (snd kt)) m
    | Null => []
    | Leaf v => [(c, v)]
    end.
End Leaves.

Lemma flat_map_ext_Forall : forall {A B} (f g : A -> list B) l, Forall (fun x => f x = g x) l -> flat_map f l = flat_map g l.
Proof. induction 1 as [|x l H _ IH]; simpl; congruence. Qed.

Lemma map_flat_map : forall {A B C} (f : B -> C) (g : A -> list B) l, map f (flat_map g l) = flat_map (fun x => map f (g x)) l.
Proof. induction l as [|x l IH]; simpl; auto. now rewrite map_app, IH. Qed.

(** A context that is a function of another one. *)
Lemma leaves_context : forall {C D L} (down : C -> bytes -> C) (down' : D -> bytes -> D) (h : C -> D),
  (forall c k, h (down c k) = down' (h c) k) ->
  forall (t : tree L) c, leaves down' (h c) t = map (fun x => (h (fst x), snd x)) (leaves down c t).
Proof.
  intros C D L down down' h Hh. induction t as [l IH|m IH| |v] using tree_ind'; intro c; cbn [leaves]; auto.
  - rewrite map_flat_map. apply flat_map_ext_Forall. eapply Forall_impl; [|exact IH]. intros a H. apply H.
  - rewrite map_flat_map. apply flat_map_ext_Forall. eapply Forall_impl; [|exact IH]. intros a H. rewrite <- Hh. apply H.
Qed.

Lemma leaves_values : forall {L} (t : tree L) ks, leaves (fun ks k => ks ++ [k]) ks t = values_under ks t.
Proof.
  reflexivity.
Qed.

(** Any context as a fold over the enclosing keys. *)
Lemma leaves_fold : forall {C L} (down : C -> bytes -> C) (t : tree L) c ks,
  leaves down (fold_left down ks c) t = map (fun x => (fold_left down (fst x) c, snd x)) (values_under ks t).
Proof.
  intros C L down t c ks. rewrite <- leaves_values.
  apply (leaves_context (fun ks k => ks ++ [k]) down (fun ks => fold_left down ks c)).
  intros ks' k. now rewrite fold_left_app.
Qed.

Lemma leaves_fold0 : forall {C L} (down : C -> bytes -> C) (t : tree L) c,
  leaves down c t = map (fun x => (fold_left down (fst x) c, snd x)) (values_under [] t).
Proof. intros. apply (leaves_fold down t c []). Qed.

(** ** Refilling a tree with new leaves *)

Fixpoint refill {A B} (t : tree A) (bs : list B) : tree B * list B :=
  match t with
  | Seq l =>
      let fix go l bs :=
        match l with
        | [] => ([], bs)
        | x :: l' => let '(x', bs1) := refill x bs in let '(l'', bs2) := go l' bs1 in (x' :: l'', bs2)
        end in
      let '(l', bs') := go l bs in (Seq l', bs')
  | Map m =>
      let fix go m bs :=
        match m with
        | [] => ([], bs)
        | (k, x) :: m' => let '(x', bs1) := refill x bs in let '(m'', bs2) := go m' bs1 in ((k, x') :: m'', bs2)
        end in
      let '(m', bs') := go m bs in (Map m', bs')
  | Null => (Null, bs)
  | Leaf _ => match bs with b :: bs' => (Leaf b, bs') | [] => (Null, []) end
  end.

(** ** Stateful traversal *)
Section Traverse.
  Context {C A B S : Type} (down : C -> bytes -> C) (f : C -> A -> S -> outcome (B * S)).

  Fixpoint traverse (c : C) (t : tree A) (s : S) : outcome (tree B * S) :=
    match t with
    | Seq l => let* x := smapM (traverse c) l s in Ok (Seq (fst x), snd x)
    | Map m =>
        let* x := smapM (fun kt s => let* y := traverse (down c (fst kt)) (snd kt) s in Ok ((fst kt, fst y), snd y)) m s in
        Ok (Map (fst x), snd x)
    | Null => Ok (Null, s)
    | Leaf v => let* x := f c v s in Ok (Leaf (fst x), snd x)
    end.

  Definition leaf_run (l : list (C * A)) (s : S) : outcome (list B * S) := smapM (fun cl s => f (fst cl) (snd cl) s) l s.

  Lemma smapM_app : forall {X Y} (g : X -> S -> outcome (Y * S)) l1 l2 s,
    smapM g (l1 ++ l2) s = let* x := smapM g l1 s in let* y := smapM g l2 (snd x) in Ok (fst x ++ fst y, snd y).
  Proof.
    induction l1 as [|a l1 IH]; intros l2 s; simpl.
    - destruct (smapM g l2 s) as [[y s']| |]; reflexivity.
    - destruct (g a s) as [[b s1]| |]; simpl; auto. rewrite IH.
      destruct (smapM g l1 s1) as [[y s']| |]; simpl; auto.
      destruct (smapM g l2 s') as [[z s'']| |]; simpl; auto.
  Qed.

  Lemma refill_app_gen : forall (t : tree A) c, forall s o, leaf_run (leaves down c t) s = o ->
    match o with
    | Ok (bs, s') => exists t', (forall rest, refill t (bs ++ rest) = (t', rest)) /\ traverse c t s = Ok (t', s')
    | Err e => traverse c t s = Err e
    | Panic => traverse c t s = Panic
    end.
  Proof.
    induction t as [l IH|m IH| |v] using tree_ind'; intros c s o <-; cbn [leaves traverse].
    - (* Seq *)
      assert (G : match leaf_run (flat_map (leaves down c) l) s with
                  | Ok (bs, s') => exists l', (forall rest, (fix go l bs := match l with [] => ([], bs)
                        | x :: l' => let '(x', bs1) := refill x bs in let '(l'', bs2) := go l' bs1 in (x' :: l'', bs2) end) l (bs ++ rest) = (l', rest))
                      /\ smapM (traverse c) l s = Ok (l', s')
                  | Err e => smapM (traverse c) l s = Err e
                  | Panic => smapM (traverse c) l s = Panic
                  end).
      { clear - IH. revert s. induction IH as [|x l Hx _ IHl]; intro s.
        - simpl. exists []. split; auto.
        - cbn [flat_map smapM]. unfold leaf_run. rewrite smapM_app.
          specialize (Hx c s _ eq_refl). unfold leaf_run in Hx.
          destruct (smapM _ (leaves down c x) s) as [[bs1 s1]|e|]; cbn [bind fst snd].
          + destruct Hx as (t' & R & ->). cbn [bind fst snd].
            specialize (IHl s1). unfold leaf_run in IHl. destruct (smapM _ (flat_map (leaves down c) l) s1) as [[bs2 s2]|e|]; cbn [bind fst snd].
            * destruct IHl as (l' & Rl & ->). exists (t' :: l'). split; auto. intro rest.
              rewrite <- app_assoc, R, Rl. reflexivity.
            * now rewrite IHl.
            * now rewrite IHl.
          + now rewrite Hx.
          + now rewrite Hx. }
      destruct (leaf_run (flat_map (leaves down c) l) s) as [[bs s']|e|].
      + destruct G as (l' & R & ->). exists (Seq l'). split; auto. intro rest. cbn [refill]. now rewrite R.
      + now rewrite G.
      + now rewrite G.
    - (* Map *)
      assert (G : match leaf_run (flat_map (fun kt => leaves down (down c (fst kt)) (snd kt)) m) s with
                  | Ok (bs, s') => exists m', (forall rest, (fix go m bs := match m with [] => ([], bs)
                        | (k, x) :: m' => let '(x', bs1) := refill x bs in let '(m'', bs2) := go m' bs1 in ((k, x') :: m'', bs2) end) m (bs ++ rest) = (m', rest))
                      /\ smapM (fun kt s => let* y := traverse (down c (fst kt)) (snd kt) s in Ok ((fst kt, fst y), snd y)) m s = Ok (m', s')
                  | Err e => smapM (fun kt s => let* y := traverse (down c (fst kt)) (snd kt) s in Ok ((fst kt, fst y), snd y)) m s = Err e
                  | Panic => smapM (fun kt s => let* y := traverse (down c (fst kt)) (snd kt) s in Ok ((fst kt, fst y), snd y)) m s = Panic
                  end).
      { clear - IH. revert s. induction IH as [|[k x] m Hx _ IHl]; intro s.
        - simpl. exists []. split; auto.
        - cbn [flat_map smapM fst snd]. cbn [snd] in Hx. unfold leaf_run. rewrite smapM_app.
          specialize (Hx (down c k) s _ eq_refl). unfold leaf_run in Hx.
          destruct (smapM _ (leaves down (down c k) x) s) as [[bs1 s1]|e|]; cbn [bind fst snd].
          + destruct Hx as (t' & R & ->). cbn [bind fst snd].
            specialize (IHl s1). unfold leaf_run in IHl.
            destruct (smapM _ (flat_map (fun kt => leaves down (down c (fst kt)) (snd kt)) m) s1) as [[bs2 s2]|e|]; cbn [bind fst snd].
            * destruct IHl as (l' & Rl & ->). exists ((k, t') :: l'). split; auto. intro rest.
              rewrite <- app_assoc, R, Rl. reflexivity.
            * now rewrite IHl.
            * now rewrite IHl.
          + now rewrite Hx.
          + now rewrite Hx. }
      destruct (leaf_run (flat_map (fun kt => leaves down (down c (fst kt)) (snd kt)) m) s) as [[bs s']|e|].
      + destruct G as (m' & R & ->). exists (Map m'). split; auto. intro rest. cbn [refill]. now rewrite R.
      + now rewrite G.
      + now rewrite G.
    - exists Null. split; auto.
    - unfold leaf_run. cbn [smapM fst snd]. destruct (f c v s) as [[b s']|e|]; cbn [bind fst snd smapM]; auto.
      exists (Leaf b). split; auto.
  Qed.

  Lemma traverse_leaves : forall t c s,
    traverse c t s = let* x := leaf_run (leaves down c t) s in Ok (fst (refill t (fst x)), snd x).
  Proof.
    intros t c s. pose proof (refill_app_gen t c s _ eq_refl) as H.
    destruct (leaf_run (leaves down c t) s) as [[bs s']|e|]; cbn [bind fst snd]; auto.
    destruct H as (t' & R & ->). specialize (R []). rewrite app_nil_r in R. now rewrite R.
  Qed.
End Traverse.

(** ** Structure and leaves of a refilled tree *)

Lemma refill_spec : forall {A B C} (down : C -> bytes -> C) (t : tree A) c (bs rest : list B),
  length bs = length (leaves down c t) ->
  exists t', refill t (bs ++ rest) = (t', rest) /\ skeleton t' = skeleton t
    /\ (forall D (down' : D -> bytes -> D) d, leaves down' d t' = combine (map fst (leaves down' d t)) bs).
Proof.
  intros A B C down. induction t as [l IH|m IH| |v] using tree_ind'; intros c bs rest Hl; cbn [leaves refill skeleton] in *.
  - assert (G : forall bs : list B, length bs = length (flat_map (leaves down c) l) -> forall rest : list B, exists l' : list (tree B),
       (fix go l bs := match l with [] => ([], bs)
          | x :: l' => let '(x', bs1) := refill x bs in let '(l'', bs2) := go l' bs1 in (x' :: l'', bs2) end) l (bs ++ rest) = (l', rest)
       /\ map skeleton l' = map skeleton l
       /\ (forall D (down' : D -> bytes -> D) d, flat_map (leaves down' d) l' = combine (map fst (flat_map (leaves down' d) l)) bs)).
    { clear - IH. induction IH as [|x l Hx _ IHl]; intros bs Hl rest; cbn [flat_map] in *.
      - destruct bs; [|discriminate]. exists []. auto.
      - rewrite app_length in Hl. set (n := length (leaves down c x)) in *.
        rewrite <- (firstn_skipn n bs). rewrite <- app_assoc.
        destruct (Hx c (firstn n bs) (skipn n bs ++ rest)) as (x' & R & Sk & Lv). { rewrite firstn_length. lia. }
        destruct (IHl (skipn n bs)) with (rest := rest) as (l' & Rl & Skl & Lvl). { rewrite skipn_length. lia. }
        exists (x' :: l'). rewrite R, Rl. split; auto. split. { simpl. congruence. }
        intros D down' d. cbn [flat_map]. rewrite Lv, Lvl, map_app.
        assert (Ln : length (map fst (leaves down' d x)) = length (firstn n bs)).
        { rewrite map_length, firstn_length. assert (length (leaves down' d x) = n); [|lia].
          unfold n. rewrite (leaves_fold0 down'), (leaves_fold0 down), !map_length. reflexivity. }
        revert Ln. generalize (map fst (leaves down' d x)) (firstn n bs). clear.
        induction l0 as [|y ys IH]; intros [|z zs] Hz; try discriminate; simpl; auto. f_equal. auto. }
    destruct (G bs Hl rest) as (l' & R & Sk & Lv). exists (Seq l'). rewrite R. split; auto. split. { simpl. congruence. } exact Lv.
  - assert (G : forall bs : list B, length bs = length (flat_map (fun kt => leaves down (down c (fst kt)) (snd kt)) m) -> forall rest : list B, exists m' : list (bytes * tree B),
       (fix go m bs := match m with [] => ([], bs)
          | (k, x) :: m' => let '(x', bs1) := refill x bs in let '(m'', bs2) := go m' bs1 in ((k, x') :: m'', bs2) end) m (bs ++ rest) = (m', rest)
       /\ map (fun kt => (fst kt, skeleton (snd kt))) m' = map (fun kt => (fst kt, skeleton (snd kt))) m
       /\ (forall D (down' : D -> bytes -> D) d, flat_map (fun kt => leaves down' (down' d (fst kt)) (snd kt)) m'
             = combine (map fst (flat_map (fun kt => leaves down' (down' d (fst kt)) (snd kt)) m)) bs)).
    { clear - IH. induction IH as [|[k x] m Hx _ IHl]; intros bs Hl rest; cbn [flat_map fst snd] in *.
      - destruct bs; [|discriminate]. exists []. auto.
      - rewrite app_length in Hl. set (n := length (leaves down (down c k) x)) in *.
        rewrite <- (firstn_skipn n bs). rewrite <- app_assoc.
        destruct (Hx (down c k) (firstn n bs) (skipn n bs ++ rest)) as (x' & R & Sk & Lv). { rewrite firstn_length. lia. }
        destruct (IHl (skipn n bs)) with (rest := rest) as (l' & Rl & Skl & Lvl). { rewrite skipn_length. lia. }
        exists ((k, x') :: l'). rewrite R, Rl. split; auto. split. { simpl. congruence. }
        intros D down' d. cbn [flat_map fst snd]. rewrite Lv, Lvl, map_app.
        assert (Ln : length (map fst (leaves down' (down' d k) x)) = length (firstn n bs)).
        { rewrite map_length, firstn_length. assert (length (leaves down' (down' d k) x) = n); [|lia].
          unfold n. rewrite (leaves_fold0 down'), (leaves_fold0 down), !map_length. reflexivity. }
        revert Ln. generalize (map fst (leaves down' (down' d k) x)) (firstn n bs). clear.
        induction l as [|y ys IH]; intros [|z zs] Hz; try discriminate; simpl; auto. f_equal. auto. }
    destruct (G bs Hl rest) as (m' & R & Sk & Lv). exists (Map m'). rewrite R. split; auto. split. { simpl. congruence. } exact Lv.
  - destruct bs; [|discriminate]. exists Null. auto.
  - destruct bs as [|b [|? ?]]; try discriminate. exists (Leaf b). auto.
Qed.

Lemma refill_skeleton : forall {A B} (t : tree A) (bs : list B), length bs = length (values_under [] t) -> skeleton (fst (refill t bs)) = skeleton t.
Proof.
  intros A B t bs H. rewrite <- leaves_values in H.
  destruct (refill_spec _ t [] bs [] H) as (t' & R & Sk & _). rewrite app_nil_r in R. now rewrite R.
Qed.

Lemma refill_values : forall {A B} (t : tree A) (bs : list B), length bs = length (values_under [] t) ->
  values_under [] (fst (refill t bs)) = combine (map fst (values_under [] t)) bs.
Proof.
  intros A B t bs H. rewrite <- !leaves_values in *.
  destruct (refill_spec _ t [] bs [] H) as (t' & R & _ & Lv). rewrite app_nil_r in R. rewrite R. cbn [fst].
  now rewrite Lv.
Qed.

(** A tree is its structure together with its values. *)
Lemma skeleton_values_ext : forall {A} (t t' : tree A) ks ks', skeleton t = skeleton t' ->
  map snd (values_under ks t) = map snd (values_under ks' t') -> t = t'.
Proof.
  intros A. assert (Len : forall (t t' : tree A) ks ks', skeleton t = skeleton t' -> length (values_under ks t) = length (values_under ks' t')).
  { induction t as [l IH|m IH| |v] using tree_ind'; intros [l'|m'| |v'] ks ks' Sk; try discriminate; auto; cbn [skeleton values_under] in *.
    - injection Sk as Sk. revert l' Sk. induction IH as [|x l Hx _ IHl]; intros [|y l'] Sk; try discriminate; auto.
      injection Sk as S1 S2. cbn [flat_map]. rewrite !app_length. erewrite Hx by eauto. now rewrite (IHl l').
    - injection Sk as Sk. revert m' Sk. induction IH as [|[k x] l Hx _ IHl]; intros [|[k' y] l'] Sk; try discriminate; auto.
      injection Sk as K S1 S2. cbn [flat_map fst snd] in *. rewrite !app_length. erewrite Hx by eauto. now rewrite (IHl l'). }
  assert (App : forall (B : Type) (a b a' b' : list B), length a = length a' -> a ++ b = a' ++ b' -> a = a' /\ b = b').
  { induction a as [|x a IHa]; intros b [|x' a'] b' L E; try discriminate; auto. injection E as -> E. injection L as L.
    destruct (IHa b a' b' L E) as [-> ->]. auto. }
  induction t as [l IH|m IH| |v] using tree_ind'; intros [l'|m'| |v'] ks ks' Sk V; try discriminate; auto; cbn [skeleton values_under] in *.
  - injection Sk as Sk. f_equal. revert l' Sk V. induction IH as [|x l Hx _ IHl]; intros [|y l'] Sk V; try discriminate; auto.
    injection Sk as S1 S2. cbn [flat_map] in V. rewrite !map_app in V. apply App in V.
    + destruct V as [V1 V2]. f_equal; eauto.
    + rewrite !map_length. now apply Len.
  - injection Sk as Sk. f_equal. revert m' Sk V. induction IH as [|[k x] l Hx _ IHl]; intros [|[k' y] l'] Sk V; try discriminate; auto.
    injection Sk as -> S1 S2. cbn [flat_map fst snd] in *. rewrite !map_app in V. apply App in V.
    + destruct V as [V1 V2]. f_equal; eauto. f_equal. eauto.
    + rewrite !map_length. now apply Len.
  - simpl in V. congruence.
Qed.
