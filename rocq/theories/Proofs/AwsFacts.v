(** Facts about AWS key texts. *)
From Verif.Model Require Import Bytes Aws.
From Verif.Proofs Require Import BytesFacts ValueFacts.
From Verif.Spec Require Import SpecAws.
Open Scope byte_scope.

Lemma in_range_iff : forall lo hi b, in_range lo hi b = true <-> (Byte.to_N lo <= Byte.to_N b <= Byte.to_N hi)%N.
Proof. intros. unfold in_range. rewrite andb_true_iff, !N.leb_le. reflexivity. Qed.

Lemma valid_identifier_iff : forall s, valid_identifier s = true <-> arn_component s.
Proof.
  intro s. unfold valid_identifier, arn_component. rewrite andb_true_iff, negb_true_iff, bytes_eqb_neq, forallb_forall.
  apply and_iff_compat_l. split; intros H b I; specialize (H b I); unfold id_char in *.
  - rewrite !andb_true_iff, !negb_true_iff, !beqb_neq, in_range_iff in H. cbn in H. tauto.
  - rewrite !andb_true_iff, !negb_true_iff, !beqb_neq, in_range_iff. cbn. tauto.
Qed.

Lemma component_no_colon : forall s, arn_component s -> ~ In ":" s.
Proof. intros s [_ H] I. now destruct (H _ I) as (_ & _ & N). Qed.
Lemma component_no_slash : forall s, arn_component s -> ~ In "/" s.
Proof. intros s [_ H] I. now destruct (H _ I) as (_ & N & _). Qed.

Lemma checked_ok : forall p s r, checked p s = Ok r <-> p s = true /\ r = s.
Proof. intros p s r. unfold checked. destruct (p s); split; intro H; try discriminate; [inversion H; auto| destruct H as [_ ->]; auto | destruct H; discriminate]. Qed.

Lemma checked_opt_ok : forall p s o, checked_opt p s = Ok o -> (o = None /\ s = []) \/ (o = Some s /\ p s = true /\ s <> []).
Proof.
  intros p s o. unfold checked_opt. destruct (bytes_eqb s []) eqn:E; intro H.
  - apply bytes_eqb_eq in E. inversion H. auto.
  - apply bytes_eqb_neq in E. unfold checked in H. destruct (p s) eqn:P; inversion H. auto.
Qed.

Lemma checked_opt_some : forall p s, p s = true -> s <> [] -> checked_opt p s = Ok (Some s).
Proof. intros p s P N. unfold checked_opt, checked. apply bytes_eqb_neq in N. now rewrite N, P. Qed.

Definition opt_ok (P : bytes -> Prop) (o : option bytes) : Prop := match o with Some s => P s | None => True end.
Definition wf_arn (a : aws_arn) : Prop :=
  opt_ok arn_component (arn_partition a) /\ arn_component (arn_service a) /\ arn_component (arn_region a)
  /\ opt_ok (fun s => valid_account s = true) (arn_account a)
  /\ opt_ok (fun s => valid_resource s = true) (arn_parent a) /\ arn_component (arn_key a).

Lemma expect_ok_ok : forall A (o : outcome A) x, expect_ok o = Ok x -> o = Ok x.
Proof. intros A [x'| |] x H; simpl in H; congruence. Qed.

Lemma valid_account_facts : forall s, valid_account s = true -> s <> [] /\ ~ In ":" s.
Proof.
  intros s H. unfold valid_account in H. apply orb_true_iff in H. destruct H as [H|H].
  - apply andb_true_iff in H. destruct H as [L D]. split.
    + intros ->. discriminate.
    + intro I. rewrite forallb_forall in D. specialize (D _ I). discriminate.
  - apply bytes_eqb_eq in H. subst. split. discriminate. intro I. cbn in I. repeat (destruct I as [I|I]; [discriminate|]). destruct I.
Qed.

Lemma parse_resource_name_ok : forall s rn, parse_resource_name s = Ok rn ->
  exists p sv rg a, s = join_with ":" [lit "arn"; p; sv; rg; a; rn_resource rn]
  /\ ((rn_partition rn = None /\ p = []) \/ (rn_partition rn = Some p /\ arn_component p))
  /\ rn_service rn = sv /\ arn_component sv
  /\ ((rn_region rn = None /\ rg = []) \/ (rn_region rn = Some rg /\ arn_component rg))
  /\ ((rn_account rn = None /\ a = []) \/ (rn_account rn = Some a /\ valid_account a = true))
  /\ valid_resource (rn_resource rn) = true.
Proof.
  intros s rn. unfold parse_resource_name.
  pose proof (join_split ":" s) as J.
  destruct (split_on ":" s) as [|x0 [|p [|sv [|rg [|a [|r rest]]]]]] eqn:E; try discriminate.
  destruct (bytes_eqb x0 (lit "arn")) eqn:Ex; try discriminate. apply bytes_eqb_eq in Ex. subst x0.
  intro H. apply bind_ok in H. destruct H as (p' & Hp & H). apply bind_ok in H. destruct H as (sv' & Hs & H).
  apply bind_ok in H. destruct H as (rg' & Hr & H). apply bind_ok in H. destruct H as (a' & Ha & H).
  apply bind_ok in H. destruct H as (res & Hres & H). injection H as <-.
  apply checked_ok in Hs. destruct Hs as [Vs ->]. apply checked_ok in Hres. destruct Hres as [Vr ->].
  apply checked_opt_ok in Hp, Hr, Ha.
  exists p, sv, rg, a. cbn [rn_resource rn_partition rn_service rn_region rn_account].
  repeat match goal with |- _ /\ _ => split end; auto.
  - destruct Hp as [[-> ->]|(-> & V & _)]; auto. right. split; auto. now apply valid_identifier_iff.
  - now apply valid_identifier_iff.
  - destruct Hr as [[-> ->]|(-> & V & _)]; auto. right. split; auto. now apply valid_identifier_iff.
  - destruct Ha as [[-> ->]|(-> & V & _)]; auto.
Qed.

Lemma arn_of_resource_ok : forall rn a, arn_of_resource rn = Ok a ->
  exists rg, rn_region rn = Some rg /\ arn_partition a = rn_partition rn /\ arn_service a = rn_service rn /\ arn_region a = rg
  /\ arn_account a = rn_account rn
  /\ arn_component (arn_key a)
  /\ match arn_parent a with
     | Some p => rn_resource rn = p ++ "/" :: arn_key a /\ valid_resource p = true
     | None => rn_resource rn = arn_key a
     end.
Proof.
  intros rn a H. unfold arn_of_resource in H. apply bind_ok in H. destruct H as (pk & Hpk & H).
  destruct (rn_region rn) as [rg|]; try discriminate. injection H as <-. cbn.
  exists rg. repeat (split; [reflexivity|]).
  destruct (rsplit_once "/" (rn_resource rn)) as [[parent key]|] eqn:E.
  - apply rsplit_once_some in E. destruct E as [E _].
    apply bind_ok in Hpk. destruct Hpk as (p & Hp & Hpk). apply bind_ok in Hpk. destruct Hpk as (k & Hk & Hpk).
    injection Hpk as <-. apply expect_ok_ok, checked_ok in Hp, Hk. destruct Hp as [Vp ->], Hk as [Vk ->]. cbn.
    apply valid_identifier_iff in Vk. auto.
  - apply bind_ok in Hpk. destruct Hpk as (k & Hk & Hpk). injection Hpk as <-.
    apply expect_ok_ok, checked_ok in Hk. destruct Hk as [Vk ->]. cbn. apply valid_identifier_iff in Vk. auto.
Qed.

Lemma parse_arn_wf : forall s a, parse_arn s = Ok a -> wf_arn a.
Proof.
  intros s a H. unfold parse_arn in H. apply bind_ok in H. destruct H as (rn & Hrn & H).
  apply parse_resource_name_ok in Hrn. destruct Hrn as (p & sv & rg & ac & _ & Hp & Es & Hs & Hr & Ha & _).
  apply arn_of_resource_ok in H. destruct H as (rg' & Er & E1 & E2 & E3 & E4 & K & R).
  unfold wf_arn. rewrite E1, E2, E3, E4, Es. repeat match goal with |- _ /\ _ => split end; auto.
  - destruct Hp as [[-> _]|[-> C]]; cbn; auto.
  - destruct Hr as [[N _]|[N C]]; congruence.
  - destruct Ha as [[-> _]|[-> C]]; cbn; auto.
  - destruct (arn_parent a); cbn; tauto.
Qed.

Definition resource_text (a : aws_arn) : bytes :=
  match arn_parent a with Some p => p ++ ["/"] | None => [] end ++ arn_key a.

Lemma arn_of_resource_text : forall a, wf_arn a ->
  arn_of_resource {| rn_partition := arn_partition a; rn_service := arn_service a; rn_region := Some (arn_region a);
                     rn_account := arn_account a; rn_resource := resource_text a |} = Ok a.
Proof.
  intros [p sv rg ac par key] (Hp & Hs & Hr & Ha & Hpar & Hk). cbn in *. unfold arn_of_resource, resource_text. cbn [rn_resource arn_parent arn_key].
  assert (V : checked valid_identifier key = Ok key) by (apply checked_ok; split; auto; now apply valid_identifier_iff).
  destruct par as [par|].
  - rewrite <- app_assoc. assert (E : rsplit_once "/" (par ++ ["/"] ++ key) = Some (par, key)).
    { apply rsplit_once_some. split; auto. now apply component_no_slash. }
    rewrite E. assert (V' : checked valid_resource par = Ok par) by (apply checked_ok; auto). rewrite V', V. reflexivity.
  - cbn [app]. assert (E : rsplit_once "/" key = None) by (apply rsplit_once_none; now apply component_no_slash).
    rewrite E, V. reflexivity.
Qed.

Lemma valid_resource_text : forall a, wf_arn a -> valid_resource (resource_text a) = true.
Proof.
  intros [p sv rg ac par key] (_ & _ & _ & _ & Hpar & [Hn Hk]). cbn in *. unfold resource_text, valid_resource. cbn [arn_parent arn_key].
  apply andb_true_iff. split.
  - apply negb_true_iff, bytes_eqb_neq. intro E. apply app_eq_nil in E. destruct E. contradiction.
  - rewrite forallb_app. apply andb_true_iff. split.
    + destruct par as [par|]; auto. unfold valid_resource in Hpar. cbn in Hpar. apply andb_true_iff in Hpar. destruct Hpar as [_ Hpar].
      rewrite forallb_app, Hpar. reflexivity.
    + apply forallb_forall. intros b I. apply in_range_iff. cbn. destruct (Hk b I). lia.
Qed.

Lemma join_five : forall x0 x1 x2 x3 x4 r, join_with ":" [x0; x1; x2; x3; x4; r] = x0 ++ ":" :: x1 ++ ":" :: x2 ++ ":" :: x3 ++ ":" :: x4 ++ ":" :: r.
Proof. reflexivity. Qed.

Lemma split_six : forall x0 x1 x2 x3 x4 r, ~ In ":" x0 -> ~ In ":" x1 -> ~ In ":" x2 -> ~ In ":" x3 -> ~ In ":" x4 ->
  split_on ":" (join_with ":" [x0; x1; x2; x3; x4; r]) = x0 :: x1 :: x2 :: x3 :: x4 :: split_on ":" r.
Proof. intros. rewrite join_five. rewrite !split_on_app; auto. Qed.

Lemma arn_no_colon : ~ In ":" (lit "arn").
Proof. intro I. cbn in I. repeat (destruct I as [I|I]; [discriminate|]). destruct I. Qed.

Lemma checked_opt_component : forall s, arn_component s -> checked_opt valid_identifier s = Ok (Some s).
Proof. intros s H. apply checked_opt_some. now apply valid_identifier_iff. apply H. Qed.

(** Written with partition and account, an ARN reads back. *)
Lemma arn_round_trip : forall a p c, wf_arn a -> arn_partition a = Some p -> arn_account a = Some c -> parse_arn (arn_text a) = Ok a.
Proof.
  intros a p c W Ep Ec. pose proof (valid_resource_text a W) as VR. pose proof (arn_of_resource_text a W) as AR.
  destruct W as (Hp & Hs & Hr & Ha & Hpar & Hk). rewrite Ep in Hp. rewrite Ec in Ha. cbn in Hp, Ha.
  destruct (valid_account_facts _ Ha) as [Nc Cc].
  assert (T : arn_text a = join_with ":" [lit "arn"; p; arn_service a; arn_region a; c; resource_text a]).
  { unfold arn_text, resource_text, push_opt_id, push_id. rewrite Ep, Ec, join_five. rewrite <- !app_assoc. reflexivity. }
  unfold parse_arn, parse_resource_name. rewrite T, split_six; auto using component_no_colon, arn_no_colon.
  destruct (split_on ":" (resource_text a)) as [|r rest] eqn:E. { now apply split_on_nonempty in E. }
  rewrite <- E, join_split. rewrite bytes_eqb_refl, checked_opt_component, !checked_opt_component; auto.
  assert (V1 : checked valid_identifier (arn_service a) = Ok (arn_service a)) by (apply checked_ok; split; auto; now apply valid_identifier_iff).
  assert (V2 : checked valid_resource (resource_text a) = Ok (resource_text a)) by (apply checked_ok; auto).
  cbn [bind]. rewrite V1. cbn [bind]. rewrite checked_opt_some; auto. cbn [bind]. rewrite V2. cbn [bind].
  rewrite <- AR, Ep, Ec. reflexivity.
Qed.

(** Without partition or account it never reads back to the same ARN. *)
Lemma arn_lossy : forall a, wf_arn a -> arn_partition a = None \/ arn_account a = None -> parse_arn (arn_text a) <> Ok a.
Proof.
  intros a W H P. pose proof W as (Hp & Hs & Hr & Ha & Hpar & Hk).
  unfold parse_arn in P. apply bind_ok in P. destruct P as (rn & Prn & P).
  apply parse_resource_name_ok in Prn. destruct Prn as (p & sv & rg & ac & T & Hp' & Es & Hs' & Hr' & Ha' & _).
  apply arn_of_resource_ok in P. destruct P as (rg' & Er & E1 & E2 & E3 & E4 & K & R).
  assert (RT : rn_resource rn = resource_text a).
  { unfold resource_text. destruct (arn_parent a); [rewrite <- app_assoc|]; tauto. }
  rewrite RT in T. rewrite join_five in T. unfold arn_text in T.
  change (lit "arn:") with (lit "arn" ++ [":"]) in T. rewrite <- !app_assoc in T. apply app_inv_head in T. cbn [app] in T. injection T as T.
  fold (resource_text a) in T.
  unfold push_opt_id, push_id in T. rewrite <- !app_assoc in T. cbn [app] in T.
  assert (L := f_equal (@List.length _) T). repeat rewrite ?app_length in L. cbn [List.length] in L.
  replace (rg = arn_region a) with (rg = arn_region a) in * by auto.
  rewrite Er in Hr'. destruct Hr' as [[N _]|[N Crg]]; [discriminate|]. injection N as ->. rewrite E3 in L.
  rewrite <- E1 in Hp'. rewrite <- E4 in Ha'. rewrite <- Es, <- E2 in L.
  destruct (arn_partition a) as [q|], (arn_account a) as [r|];
    destruct Hp' as [[N1 ->]|[N1 _]], Ha' as [[N2 ->]|[N2 _]]; try discriminate; try (injection N1 as <-); try (injection N2 as <-);
    cbn [app] in L; repeat ((rewrite app_length in L) || (progress cbn [List.length] in L));
    try (destruct H; discriminate); lia.
Qed.

Lemma aws_key_round_trip : forall s k, parse_aws_key s = Ok k ->
  (parse_aws_key (aws_key_text k) = Ok k <-> arn_partition (ak_arn k) <> None /\ arn_account (ak_arn k) <> None).
Proof.
  intros s k H. unfold parse_aws_key in H. destruct (split_once "." s) as [[pr ar]|] eqn:E; try discriminate.
  apply split_once_some in E. destruct E as [_ ND]. apply bind_ok in H. destruct H as (a & Ha & H). injection H as <-.
  apply parse_arn_wf in Ha. unfold parse_aws_key, aws_key_text. cbn [ak_profile ak_arn]. rewrite split_once_app by auto.
  split.
  - intro P. apply bind_ok in P. destruct P as (a' & P & E). injection E as ->.
    split; intro N; now apply (arn_lossy a Ha); auto.
  - intros [N1 N2]. destruct (arn_partition a) as [p|] eqn:Ep; try congruence. destruct (arn_account a) as [c|] eqn:Ec; try congruence.
    now rewrite (arn_round_trip a p c).
Qed.

Lemma splittable_dec : forall r, valid_resource r = true ->
  (exists rn, rn_resource rn = r /\ arn_of_resource rn = Panic) -> ~ splittable r.
Proof.
  intros r V (rn & Er & P) S. unfold arn_of_resource in P. rewrite Er in P.
  destruct (rsplit_once "/" r) as [[par key]|] eqn:E.
  - apply rsplit_once_some in E. destruct E as [E N].
    destruct S as [S|(par' & key' & E' & Np & C)].
    + apply (component_no_slash _ S). rewrite E. apply in_or_app. right. now left.
    + assert (R : rsplit_once "/" r = Some (par', key')) by (apply rsplit_once_some; split; auto; now apply component_no_slash).
      assert (R' : rsplit_once "/" r = Some (par, key)) by (apply rsplit_once_some; auto).
      rewrite R in R'. injection R' as <- <-.
      assert (Vk : checked valid_identifier key' = Ok key') by (apply checked_ok; split; auto; now apply valid_identifier_iff).
      assert (Vp : checked valid_resource par' = Ok par').
      { apply checked_ok; split; auto. unfold valid_resource in *. apply andb_true_iff in V. destruct V as [_ V]. rewrite E', forallb_app in V.
        apply andb_true_iff in V. destruct V as [V _]. rewrite V. apply bytes_eqb_neq in Np. now rewrite Np. }
      rewrite Vk, Vp in P. cbn in P. destruct (rn_region rn); discriminate.
  - apply rsplit_once_none in E. destruct S as [S|(par' & key' & E' & _)].
    + assert (Vk : checked valid_identifier r = Ok r) by (apply checked_ok; split; auto; now apply valid_identifier_iff).
      rewrite Vk in P. cbn in P. destruct (rn_region rn); discriminate.
    + apply E. rewrite E'. apply in_or_app. right. now left.
Qed.

Lemma checked_no_panic : forall p s, checked p s <> Panic.
Proof. intros. unfold checked. destruct (p s); discriminate. Qed.
Lemma checked_opt_no_panic : forall p s, checked_opt p s <> Panic.
Proof. intros. unfold checked_opt, checked. destruct (bytes_eqb s []), (p s); discriminate. Qed.

Lemma parse_resource_name_no_panic : forall s, parse_resource_name s <> Panic.
Proof.
  intros s H. unfold parse_resource_name in H. destruct (split_on ":" s) as [|x0 [|p [|sv [|rg [|a [|r rest]]]]]]; try discriminate.
  destruct (bytes_eqb x0 (lit "arn")); try discriminate.
  apply bind_panic in H. destruct H as [H|(p' & _ & H)]; [now apply checked_opt_no_panic in H|].
  apply bind_panic in H. destruct H as [H|(p'' & _ & H)]; [now apply checked_no_panic in H|].
  apply bind_panic in H. destruct H as [H|(p3 & _ & H)]; [now apply checked_opt_no_panic in H|].
  apply bind_panic in H. destruct H as [H|(p4 & _ & H)]; [now apply checked_opt_no_panic in H|].
  apply bind_panic in H. destruct H as [H|(p5 & _ & H)]; [now apply checked_no_panic in H|]. discriminate.
Qed.

(** Parsing aborts only on ARNs whose resource part cannot be split. *)
Lemma parse_arn_panic : forall s, parse_arn s = Panic ->
  exists p sv rg a res, s = join_with ":" [lit "arn"; p; sv; rg; a; res] /\ ~ splittable res.
Proof.
  intros s H. unfold parse_arn in H. apply bind_panic in H. destruct H as [H|(rn & Hrn & H)].
  - now apply parse_resource_name_no_panic in H.
  - apply parse_resource_name_ok in Hrn. destruct Hrn as (p & sv & rg & a & E & _ & _ & _ & _ & _ & V).
    exists p, sv, rg, a, (rn_resource rn). split; auto. apply splittable_dec; eauto.
Qed.

Lemma splittable_no_panic : forall rn, valid_resource (rn_resource rn) = true -> ~ splittable (rn_resource rn) -> arn_of_resource rn = Panic.
Proof.
  intros rn V N. unfold arn_of_resource. destruct (rsplit_once "/" (rn_resource rn)) as [[par key]|] eqn:E.
  - apply rsplit_once_some in E. destruct E as [E S]. unfold checked.
    destruct (valid_resource par) eqn:Vp; cbn; auto. destruct (valid_identifier key) eqn:Vk; cbn; auto.
    exfalso. apply N. right. exists par, key. split; auto. split. intros ->. discriminate. now apply valid_identifier_iff.
  - unfold checked. destruct (valid_identifier (rn_resource rn)) eqn:Vk; cbn; auto.
    exfalso. apply N. left. now apply valid_identifier_iff.
Qed.

Lemma parse_key_panic : forall s, parse_aws_key s = Panic ->
  exists profile p sv rg a res, s = profile ++ "." :: join_with ":" [lit "arn"; p; sv; rg; a; res] /\ ~ splittable res.
Proof.
  intros s H. unfold parse_aws_key in H. destruct (split_once "." s) as [[pr ar]|] eqn:E; try discriminate.
  apply split_once_some in E. destruct E as [E _]. apply bind_panic in H. destruct H as [H|(a & _ & H)]; [|discriminate].
  apply parse_arn_panic in H. destruct H as (p & sv & rg & a & res & Ea & N). subst ar. exists pr, p, sv, rg, a, res. auto.
Qed.

(** The converse: a complete ARN whose resource part is printable but cannot be split aborts. *)
Lemma parse_key_aborts : forall profile p sv rg a res, ~ In "." profile -> arn_component p -> arn_component sv -> arn_component rg -> valid_account a = true ->
  res <> [] -> (forall b, In b res -> (32 <= Byte.to_N b <= 126)%N) -> ~ splittable res ->
  parse_aws_key (profile ++ "." :: join_with ":" [lit "arn"; p; sv; rg; a; res]) = Panic.
Proof.
  intros profile p sv rg a res ND Hp Hs Hr Ha Nr Pr N. unfold parse_aws_key. rewrite split_once_app by auto.
  destruct (valid_account_facts _ Ha) as [Na Ca].
  assert (V : valid_resource res = true).
  { unfold valid_resource. apply bytes_eqb_neq in Nr. rewrite Nr. apply forallb_forall. intros b I. apply in_range_iff. exact (Pr b I). }
  unfold parse_arn, parse_resource_name. rewrite split_six; auto using component_no_colon, arn_no_colon.
  destruct (split_on ":" res) as [|r rest] eqn:E. { now apply split_on_nonempty in E. }
  rewrite <- E, join_split. rewrite bytes_eqb_refl, !checked_opt_component; auto.
  assert (V1 : checked valid_identifier sv = Ok sv) by (apply checked_ok; split; auto; now apply valid_identifier_iff).
  assert (V2 : checked valid_resource res = Ok res) by (apply checked_ok; auto).
  cbn [bind]. rewrite V1. cbn [bind]. rewrite checked_opt_some; auto. cbn [bind]. rewrite V2. cbn [bind].
  rewrite splittable_no_panic; auto.
Qed.

Lemma aws_secret_exact : forall p i x, ~ In "." p -> ~ In "." i -> ~ In "." x ->
  parse_aws_secret (p ++ "." :: i ++ "." :: x) = Ok {| as_profile := p; as_id := i; as_secret := x |}.
Proof. intros. unfold parse_aws_secret. rewrite !split_on_app, split_on_nosep; auto. Qed.

Lemma aws_secret_few : forall s, (count_occ Byte.byte_eq_dec s "." < 2)%nat -> exists e, parse_aws_secret s = Err e.
Proof.
  intros s H. assert (L : forall s, List.length (split_on "." s) = S (count_occ Byte.byte_eq_dec s ".")).
  { clear. induction s as [|b s IH]; auto. cbn [split_on count_occ]. destruct (Byte.byte_eq_dec b ".") as [->|N].
    - change (beqb "." ".") with true. cbn [List.length]. now rewrite IH.
    - assert (E : beqb b "." = false) by now apply beqb_neq. rewrite E. destruct (split_on "." s); cbn in *; lia. }
  unfold parse_aws_secret. specialize (L s). destruct (split_on "." s) as [|a [|b [|c r]]]; cbn in L; try lia; eauto.
Qed.

Lemma aws_secret_round_trip : forall s k, parse_aws_secret s = Ok k -> parse_aws_secret (aws_secret_text k) = Ok k.
Proof.
  intros s k H. unfold parse_aws_secret in H. pose proof (split_on_pieces "." s) as P.
  destruct (split_on "." s) as [|a [|b [|c r]]]; try discriminate. injection H as <-.
  unfold aws_secret_text. cbn. apply aws_secret_exact; apply P; cbn; auto.
Qed.
