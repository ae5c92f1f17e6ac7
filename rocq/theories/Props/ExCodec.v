(** A concrete codec and a concrete reader of timestamps that obey the laws of Spec/SpecDocument.v: the theorems that assume those
    laws are not vacuous.  The text it writes is a simple notation, not YAML, JSON or TOML. *)
From Coq Require Import ZifyBool ZifyN.
From Verif.Model Require Import Document.
From Verif.Spec Require Import SpecDocument.
From Verif.Proofs Require Import BytesFacts IntFacts FloatFacts ValueFacts FormatFacts TimestampFacts DocumentFacts.
Open Scope byte_scope.

(** ** Writing *)
(** A scalar: its kind, two letters for every byte of its text, and an end mark. *)
Definition high (b : byte) : byte := byte_of_N (97 + Byte.to_N b / 16).
Definition low (b : byte) : byte := byte_of_N (97 + Byte.to_N b mod 16).
Definition toy_text (kind : byte) (s : bytes) : bytes := kind :: flat_map (fun b => [high b; low b]) s ++ ["."].
Fixpoint toy_value (v : fvalue) : bytes :=
  match v with
  | FMap m => "[" :: flat_map (fun kv => toy_value (fst kv) ++ toy_value (snd kv)) m ++ ["}"]
  | FSeq l => "[" :: flat_map toy_value l ++ ["]"]
  | FStr s => toy_text "s" s
  | FBool b => toy_text (if b then "t" else "f") []
  | FNum (NInt z) => toy_text "i" (int_text z)
  | FNum (NFlt x) => toy_text "x" (f64_text x)
  | FNull => toy_text "n" []
  | FTagged _ _ | FDate _ => toy_text "n" []
  end.

(** ** Reading: a machine with a stack of open brackets *)
Inductive toy_mode := Idle | Text (kind : byte) (acc : bytes) | Half (kind : byte) (acc : bytes) (h : byte).
Definition toy_state := (toy_mode * list (list fvalue))%type.
Definition toy_push (v : fvalue) (st : list (list fvalue)) : list (list fvalue) :=
  match st with fr :: st' => (v :: fr) :: st' | [] => [[v]] end.
Definition toy_scalar (kind : byte) (s : bytes) : fvalue :=
  if beqb kind "s" then FStr s
  else if beqb kind "t" then FBool true
  else if beqb kind "f" then FBool false
  else if beqb kind "i" then match parse_i64 s with Some z => FNum (NInt z) | None => FNull end
  else if beqb kind "x" then match parse_f64 s with Some x => FNum (NFlt x) | None => FNull end
  else FNull.
(** The last value pushed is the value of the last entry. *)
Fixpoint toy_pairs (l : list fvalue) : fmap :=
  match l with v :: k :: l' => toy_pairs l' ++ [(k, v)] | _ => [] end.
Definition toy_close (v : list fvalue -> fvalue) (st : list (list fvalue)) : toy_state :=
  match st with fr :: st' => (Idle, toy_push (v fr) st') | [] => (Idle, []) end.
Definition toy_step (s : toy_state) (b : byte) : toy_state :=
  let '(mode, st) := s in
  match mode with
  | Idle =>
      if beqb b "[" then (Idle, [] :: st)
      else if beqb b "]" then toy_close (fun fr => FSeq (rev fr)) st
      else if beqb b "}" then toy_close (fun fr => FMap (toy_pairs fr)) st
      else (Text b [], st)
  | Text k acc => if beqb b "." then (Idle, toy_push (toy_scalar k (rev acc)) st) else (Half k acc b, st)
  | Half k acc h => (Text k (byte_of_N ((Byte.to_N h - 97) * 16 + (Byte.to_N b - 97)) :: acc), st)
  end.
Definition toy_run (s : bytes) (st : toy_state) : toy_state := fold_left toy_step s st.

Lemma toy_run_app : forall a b st, toy_run (a ++ b) st = toy_run b (toy_run a st).
Proof. intros. apply fold_left_app. Qed.
Lemma toy_run_cons : forall b s st, toy_run (b :: s) st = toy_run s (toy_step st b).
Proof. reflexivity. Qed.
Lemma toy_step_byte : forall b k acc st, toy_step (toy_step (Text k acc, st) (high b)) (low b) = (Text k (b :: acc), st).
Proof. intros b k acc st. now destruct b. Qed.
Lemma toy_run_text : forall k s st, k <> "[" -> k <> "]" -> k <> "}" -> toy_run (toy_text k s) (Idle, st) = (Idle, toy_push (toy_scalar k s) st).
Proof.
  intros k s st N1 N2 N3. unfold toy_text. rewrite toy_run_cons. assert (E : toy_step (Idle, st) k = (Text k [], st)).
  { unfold toy_step. rewrite (proj2 (beqb_neq k "[")), (proj2 (beqb_neq k "]")), (proj2 (beqb_neq k "}")) by assumption. reflexivity. }
  rewrite E.
  assert (G : forall s acc, toy_run (flat_map (fun b => [high b; low b]) s ++ ["."]) (Text k acc, st) = (Idle, toy_push (toy_scalar k (rev acc ++ s)) st)).
  { clear. induction s as [|b s IH]; intro acc.
    - cbn [flat_map app]. rewrite app_nil_r. reflexivity.
    - cbn [flat_map app]. rewrite !toy_run_cons. rewrite toy_step_byte, IH. cbn [rev]. now rewrite <- app_assoc. }
  exact (G s []).
Qed.

(** What is written is read; tags and dates aside, and with numbers that have a text. *)
Fixpoint toy_fits (v : fvalue) : Prop :=
  match v with
  | FMap m => each (fun kv => (exists s, fst kv = FStr s) /\ toy_fits (snd kv)) m
  | FSeq l => each toy_fits l
  | FNum (NInt z) => in_i64 z = true
  | FNum (NFlt x) => f64_canonical x = true
  | FTagged _ _ | FDate _ => False
  | _ => True
  end.
Lemma toy_pairs_rev : forall m, toy_pairs (rev (flat_map (fun kv : fvalue * fvalue => [fst kv; snd kv]) m)) = m.
Proof.
  intro m. rewrite <- (rev_involutive m). induction (rev m) as [|[k v] l IH]; auto. cbn [rev]. rewrite flat_map_app, rev_app_distr. cbn [flat_map app rev fst snd toy_pairs]. now rewrite IH.
Qed.
Lemma toy_run_value : forall v st, toy_fits v -> toy_run (toy_value v) (Idle, st) = (Idle, toy_push v st).
Proof.
  assert (F : forall fr st v, toy_push v (fr :: st) = (v :: fr) :: st) by reflexivity.
  induction v as [m IH|l IH|s|b|n| |tg v IH|s] using fvalue_ind'; intros st H; cbn [toy_value toy_fits] in *; try contradiction.
  - rewrite toy_run_cons. change (toy_step (Idle, st) "[") with (Idle, [] :: st). rewrite toy_run_app. rewrite each_Forall in H.
    assert (G : forall fr, toy_run (flat_map (fun kv => toy_value (fst kv) ++ toy_value (snd kv)) m) (Idle, fr :: st) = (Idle, (rev (flat_map (fun kv => [fst kv; snd kv]) m) ++ fr) :: st)).
    { induction m as [|[k v] m IHm]; intro fr; [reflexivity|]. apply Forall_cons_iff in IH as [I1 I2]. apply Forall_cons_iff in H as [H1 H2]. cbn [flat_map fst snd] in *. destruct H1 as [(s & ->) H3].
      rewrite !toy_run_app. cbn [toy_value]. rewrite toy_run_text by discriminate. change (toy_scalar "s" s) with (FStr s). rewrite F, I1, F, IHm by auto. cbn [app rev]. now rewrite <- !app_assoc. }
    rewrite G, app_nil_r. match goal with |- toy_run _ (Idle, ?fr :: _) = _ => change (toy_run ["}"] (Idle, fr :: st)) with (Idle, toy_push (FMap (toy_pairs fr)) st) end. now rewrite toy_pairs_rev.
  - rewrite toy_run_cons. change (toy_step (Idle, st) "[") with (Idle, [] :: st). rewrite toy_run_app. rewrite each_Forall in H.
    assert (G : forall fr, toy_run (flat_map toy_value l) (Idle, fr :: st) = (Idle, (rev l ++ fr) :: st)).
    { induction l as [|v l IHl]; intro fr; [reflexivity|]. apply Forall_cons_iff in IH as [I1 I2]. apply Forall_cons_iff in H as [H1 H2]. cbn [flat_map].
      rewrite toy_run_app, I1, F, IHl by auto. cbn [rev]. now rewrite <- app_assoc. }
    rewrite G, app_nil_r. change (toy_run ["]"] (Idle, rev l :: st)) with (Idle, toy_push (FSeq (rev (rev l))) st). now rewrite rev_involutive.
  - now rewrite toy_run_text by discriminate.
  - destruct b; now rewrite toy_run_text by discriminate.
  - destruct n as [z|x]; rewrite toy_run_text by discriminate.
    + change (toy_scalar "i" (int_text z)) with (match parse_i64 (int_text z) with Some z => FNum (NInt z) | None => FNull end). now rewrite parse_int_text.
    + change (toy_scalar "x" (f64_text x)) with (match parse_f64 (f64_text x) with Some x => FNum (NFlt x) | None => FNull end). now rewrite parse_f64_text.
  - now rewrite toy_run_text by discriminate.
Qed.

(** ** Timestamps *)
Definition val2 (a b : byte) : N := ((Byte.to_N a - 48) * 10 + (Byte.to_N b - 48))%N.
Definition val3 (a b c : byte) : N := ((Byte.to_N a - 48) * 100 + val2 b c)%N.
Definition read_digits (s : bytes) : option N :=
  match s with [a; b; c; d] => Some (val2 a b * 100 + val2 c d)%N | _ => text_N s end.
Definition read_year (s : bytes) : option Z :=
  match s with
  | c :: r => if beqb c "-" then option_map (fun n => (- Z.of_N n)%Z) (read_digits r)
              else if beqb c "+" then option_map Z.of_N (read_digits r) else option_map Z.of_N (read_digits s)
  | [] => None
  end.
(** After the seconds: "Z", or a point, three, six or nine digits, and "Z". *)
Definition read_fraction (s : bytes) : N :=
  match s with
  | [_; a; b; c; _] => (val3 a b c * 1000000)%N
  | [_; a; b; c; d; e; f; _] => (val3 a b c * 1000000 + val3 d e f * 1000)%N
  | [_; a; b; c; d; e; f; g; h; i; _] => (val3 a b c * 1000000 + val3 d e f * 1000 + val3 g h i)%N
  | _ => 0%N
  end.
Definition toy_time (s : bytes) : option timestamp :=
  match split_once "T" s with
  | Some (d, t) =>
      match rev d, t with
      | d2 :: d1 :: _ :: m2 :: m1 :: _ :: y, h1 :: h2 :: _ :: n1 :: n2 :: _ :: s1 :: s2 :: fr =>
          match read_year (rev y) with
          | Some year =>
              let sec := val2 s1 s2 in
              Some {| t_year := year; t_month := val2 m1 m2; t_day := val2 d1 d2; t_hour := val2 h1 h2; t_min := val2 n1 n2;
                      t_sec := (if sec =? 60 then 59 else sec)%N; t_nano := (if sec =? 60 then read_fraction fr + 1000000000 else read_fraction fr)%N |}
          | None => None
          end
      | _, _ => None
      end
  | None => None
  end.

Lemma val2_pad : forall n, (n < 100)%N -> val2 (digit (n / 10)) (digit (n mod 10)) = n.
Proof. intros n H. apply N.eqb_eq. revert n H. apply (below_all 100 (fun n => val2 (digit (n / 10)) (digit (n mod 10)) =? n)%N). vm_compute. reflexivity. Qed.
Lemma val3_pad : forall n, (n < 1000)%N -> val3 (digit (n / 100)) (digit (n mod 100 / 10)) (digit ((n mod 100) mod 10)) = n.
Proof.
  intros n H. apply N.eqb_eq. revert n H.
  apply (below_all 1000 (fun n => val3 (digit (n / 100)) (digit (n mod 100 / 10)) (digit ((n mod 100) mod 10)) =? n)%N). vm_compute. reflexivity.
Qed.
Lemma pad_digits : forall n, (n < 100)%N -> exists a b, pad2 n = [a; b] /\ is_digit a = true /\ is_digit b = true /\ val2 a b = n.
Proof.
  intros n H. exists (digit (n / 10)), (digit (n mod 10)). split; [reflexivity|].
  assert (Q : (is_digit (digit (n / 10)) && is_digit (digit (n mod 10)))%bool = true).
  { revert n H. apply (below_all 100 (fun n => is_digit (digit (n / 10)) && is_digit (digit (n mod 10)))%bool). vm_compute. reflexivity. }
  apply andb_true_iff in Q as [Q1 Q2]. auto using val2_pad.
Qed.
Lemma year_digits_back : forall n, read_digits (year_digits n) = Some n /\ forall c, In c (year_digits n) -> is_digit c = true.
Proof.
  intro n. unfold year_digits. destruct (n <=? 9999)%N eqn:L.
  - destruct (pad_digits (n / 100)%N) as (a & b & E1 & A & B & V1); [apply N.div_lt_upper_bound; lia|]. destruct (pad_digits (n mod 100)%N) as (c & d & E2 & C & D & V2); [apply N.mod_lt; lia|].
    unfold pad4. rewrite E1, E2. cbn [app read_digits]. rewrite V1, V2. split.
    + f_equal. pose proof (N.div_mod n 100). lia.
    + cbn [In]. intros x I. intuition (subst; auto).
  - split; [|apply N_text_digits]. pose proof (text_N_text n) as T. pose proof (N_text_bound n) as B. unfold read_digits. destruct (N_text n) as [|a [|b [|c [|d [|e r]]]]]; try exact T. exfalso. cbn in B. lia.
Qed.
Lemma year_back : forall y, read_year (year_text y) = Some y /\ ~ In "T" (year_text y).
Proof.
  intro y. unfold year_text. destruct ((0 <=? y) && (y <=? 9999))%Z eqn:R.
  - destruct (year_digits_back (Z.to_N y)) as [V D]. unfold year_digits in V, D. replace (Z.to_N y <=? 9999)%N with true in V, D by lia. unfold pad4 in V, D. split.
    + destruct (pad_digits (Z.to_N y / 100)%N) as (a & b & E1 & A & _). { apply N.div_lt_upper_bound; lia. }
      rewrite E1 in *. cbn [app] in *. unfold read_year. replace (beqb a "-") with false by (destruct a; try reflexivity; discriminate A). replace (beqb a "+") with false by (destruct a; try reflexivity; discriminate A). rewrite V. cbn [option_map]. rewrite Z2N.id by lia. reflexivity.
    + intro I. apply D in I. discriminate.
  - cbv zeta. change (pad2 (Z.to_N (Z.abs y) / 100) ++ pad2 (Z.to_N (Z.abs y) mod 100)) with (pad4 (Z.to_N (Z.abs y))).
    destruct (year_digits_back (Z.to_N (Z.abs y))) as [V D]. unfold year_digits in V, D. split.
    + destruct (y <? 0)%Z eqn:S; unfold read_year; (etransitivity; [exact (f_equal (option_map _) V)|]); cbn [option_map]; f_equal; lia.
    + intros [I|I]; [destruct (y <? 0)%Z; discriminate|]. apply D in I. discriminate.
Qed.
Lemma fraction_back : forall n, (n < 1000000000)%N -> read_fraction (fraction_text n ++ ["Z"]) = n.
Proof.
  intros n H. unfold fraction_text, pad3, pad2.
  assert (A : (n / 1000000 < 1000)%N) by (apply N.div_lt_upper_bound; lia).
  assert (B : (n / 1000 mod 1000 < 1000)%N) by (apply N.mod_lt; lia). assert (C : (n mod 1000 < 1000)%N) by (apply N.mod_lt; lia).
  assert (D : (n = n / 1000000 * 1000000 + n / 1000 mod 1000 * 1000 + n mod 1000)%N).
  { pose proof (N.div_mod n 1000). pose proof (N.div_mod (n / 1000) 1000). rewrite N.div_div in H1 by lia. change (1000 * 1000)%N with 1000000%N in H1. lia. }
  destruct (n =? 0)%N eqn:Z; [cbn; lia|]. destruct (n mod 1000000 =? 0)%N eqn:M6; [|destruct (n mod 1000 =? 0)%N eqn:M3]; cbn [app read_fraction]; rewrite !val3_pad by assumption.
  - apply N.eqb_eq in M6. pose proof (N.div_mod n 1000000). lia.
  - apply N.eqb_eq in M3. lia.
  - lia.
Qed.
Lemma split_T : forall d t, ~ In "T" d -> split_once "T" (d ++ "T" :: t) = Some (d, t).
Proof.
  induction d as [|b d IH]; intros t N; cbn [app split_once]; [reflexivity|]. destruct (beqb b "T") eqn:E.
  - apply beqb_eq in E. subst. exfalso. apply N. now left.
  - rewrite IH; auto. intro I. apply N. now right.
Qed.
Lemma pad_T : forall n, (n < 100)%N -> ~ In "T" (pad2 n).
Proof.
  intros n H I. assert (Q : negb (existsb (Byte.eqb "T") (pad2 n)) = true) by (revert n H I; intros n H _; revert n H; apply (below_all 100 (fun n => negb (existsb (Byte.eqb "T") (pad2 n)))); vm_compute; reflexivity).
  apply negb_true_iff in Q. rewrite (proj2 (existsb_exists _ _)) in Q; [discriminate|]. exists "T". split; [exact I|reflexivity].
Qed.
Theorem toy_time_back : forall t, real_time t -> toy_time (time_text t) = Some t.
Proof.
  intros t [V _]. unfold valid_timestamp in V. rewrite !andb_true_iff in V. destruct V as [[[[[[[[Y1 Y2] [M1 M2]] [D1 D2]] HH] MM] SS] NN] LL].
  destruct (year_back (t_year t)) as [YB YT].
  assert (SH : (shown_sec t < 100)%N) by (unfold shown_sec; destruct (1000000000 <=? t_nano t)%N; lia).
  assert (E : time_text t = (year_text (t_year t) ++ "-" :: pad2 (t_month t) ++ "-" :: pad2 (t_day t)) ++ "T" :: (pad2 (t_hour t) ++ ":" :: pad2 (t_min t) ++ ":" :: pad2 (shown_sec t) ++ fraction_text (t_nano t mod 1000000000) ++ ["Z"])).
  { unfold time_text. cbn [app]. rewrite <- !app_assoc. cbn [app]. reflexivity. }
  rewrite E. unfold toy_time. rewrite split_T.
  - rewrite rev_app_distr. unfold pad2. cbn [app rev]. rewrite rev_involutive, YB. rewrite !val2_pad by (assumption || lia). rewrite fraction_back by (apply N.mod_lt; lia).
    f_equal. destruct t as [y mo d h mi s n]. cbn [t_year t_month t_day t_hour t_min t_sec t_nano shown_sec] in *. unfold shown_sec in *. cbn [t_sec t_nano] in *.
    destruct (1000000000 <=? n)%N eqn:L.
    + assert (s = 59)%N by lia. subst s. change (59 + 1 =? 60)%N with true. cbv iota. f_equal. assert (Q : (n mod 1000000000 = n - 1000000000)%N) by (symmetry; apply N.mod_unique with (q := 1%N); lia). rewrite Q. lia.
    + replace (s =? 60)%N with false by lia. f_equal. apply N.mod_small. lia.
  - intro I. apply in_app_or in I as [I|I]; [exact (YT I)|]. destruct I as [I|I]; [discriminate|]. apply in_app_or in I as [I|I]; [revert I; apply pad_T; lia|]. destruct I as [I|I]; [discriminate|]. revert I. apply pad_T. lia.
Qed.

(** ** The codec *)
Lemma storable_fits : forall f v, storable f v -> toy_fits v.
Proof.
  intro f. induction v as [m IH|l IH|s|b|n| |tg v IH|s] using fvalue_ind'; cbn [storable toy_fits]; intro H; auto.
  - destruct H as [_ H]. rewrite each_Forall in *. rewrite Forall_forall in *. intros kv I. destruct (H kv I) as [(s & E & _) S]. split; [eauto|exact (IH kv I S)].
  - rewrite each_Forall in *. rewrite Forall_forall in *. auto.
  - destruct n as [z|x]; [|exact (proj1 H)]. unfold in_i64, i64_min, i64_max. lia.
Qed.
Lemma floats_fit : forall g, (forall x, f64_canonical x = true -> f64_canonical (g x) = true) -> forall v, toy_fits v -> toy_fits (map_floats g v).
Proof.
  intros g G. induction v as [m IH|l IH|s|b|n| |tg v IH|s] using fvalue_ind'; cbn [map_floats toy_fits]; intro H; auto.
  - rewrite each_Forall in *. rewrite Forall_map. rewrite Forall_forall in *. intros kv I. cbn [fst snd]. split; [apply H; exact I|]. apply IH; [exact I|apply H; exact I].
  - rewrite each_Forall in *. rewrite Forall_map. rewrite Forall_forall in *. auto.
  - destruct n; auto. cbn. auto.
Qed.
Lemma order_fits : forall v, toy_fits v -> toy_fits (toml_order v).
Proof.
  induction v as [m IH|l IH|s|b|n| |tg v IH|s] using fvalue_ind'; cbn [toml_order toy_fits]; intro H; auto.
  - rewrite each_Forall in *. rewrite Forall_forall in *. intros kv I.
    assert (J : In kv (map (fun kv => (fst kv, toml_order (snd kv))) m)) by (apply in_app_or in I as [I|I]; apply filter_In in I; apply I).
    apply in_map_iff in J as (kv' & <- & J). cbn [fst snd]. split; [apply H; exact J|]. apply IH; [exact J|apply H; exact J].
  - destruct (table_like (FSeq l)); cbn [toy_fits]; auto. rewrite each_Forall in *. rewrite Forall_map. rewrite Forall_forall in *. auto.
Qed.
Lemma put_in : forall k v m x, In x (put k v m) -> In (fst x) (k :: map fst m) /\ In (snd x) (v :: map snd m).
Proof.
  intros k v. induction m as [|[k' v'] m IH]; intros x I; cbn [put] in I.
  - destruct I as [<-|[]]. split; now left.
  - destruct (fvalue_eqb Json k' k); destruct I as [<-|I]; cbn [map fst snd].
    + split; [right; now left|now left].
    + split; right; right; now apply in_map.
    + split; right; now left.
    + apply IH in I as [I1 I2]. cbn [In] in *. tauto.
Qed.
Lemma once_fits : forall es, (forall k v, In (k, v) es -> (exists s, k = FStr s) /\ toy_fits v) -> toy_fits (FMap (once es)).
Proof.
  intros es H. unfold once. cbn [toy_fits]. rewrite each_Forall.
  assert (G : forall es m, (forall k v, In (k, v) es -> (exists s, k = FStr s) /\ toy_fits v) -> Forall (fun kv : fvalue * fvalue => (exists s, fst kv = FStr s) /\ toy_fits (snd kv)) m
            -> Forall (fun kv : fvalue * fvalue => (exists s, fst kv = FStr s) /\ toy_fits (snd kv)) (fold_left (fun m kv => put (fst kv) (snd kv) m) es m)).
  { clear. induction es as [|[k v] es IH]; intros m H F; cbn [fold_left]; auto. apply IH. { intros k' v' I. apply H. now right. }
    rewrite Forall_forall in *. intros x I. apply put_in in I as [I1 I2]. destruct (H k v (or_introl eq_refl)) as [K V]. split.
    - destruct I1 as [<-|I1]; auto. apply in_map_iff in I1 as (y & <- & J). apply F in J. apply J.
    - destruct I2 as [<-|I2]; auto. apply in_map_iff in I2 as (y & <- & J). apply F in J. apply J. }
  apply G; auto.
Qed.

Definition toy_codec (g : f64 -> f64) : codec := {|
  cd_write := fun f es => Ok (toy_value (FMap (layout g f es)));
  cd_read := fun f s => match toy_run s (Idle, [[]]) with (Idle, [[FMap m]]) => Ok m | _ => Err EInvalidField end;
  cd_time := toy_time |}.
Theorem toy_codec_law : forall g, (forall x, f64_canonical x = true -> f64_canonical (g x) = true) -> forall f, codec_law (toy_codec g) g f.
Proof.
  intros g G f es [H _]. exists (toy_value (FMap (layout g f es))). split; [reflexivity|]. cbn [toy_codec cd_read].
  assert (F : forall k v, In (k, v) es -> (exists s, k = FStr s) /\ toy_fits v).
  { intros k v I. destruct (H k v I) as [(s & E & _) S]. split; eauto using storable_fits. }
  assert (FM : toy_fits (FMap es)). { cbn [toy_fits]. rewrite each_Forall, Forall_forall. intros [k v] I. now apply F. }
  assert (T : toy_fits (FMap (layout g f es))).
  { destruct f; cbn [layout].
    - exact FM.
    - exact (floats_fit g G (FMap es) FM).
    - exact (order_fits _ (once_fits es F)). }
  now rewrite toy_run_value by exact T.
Qed.
Theorem toy_time_law : forall g, time_law (toy_codec g).
Proof. intros g t. apply toy_time_back. Qed.

(** What it writes is text. *)
Lemma toy_text_ascii : forall k s, ascii k = true -> all_ascii (toy_text k s) = true.
Proof.
  intros k s K. unfold all_ascii, toy_text. cbn [forallb]. rewrite K, forallb_app. cbn [forallb andb]. rewrite andb_true_r. induction s as [|b s IH]; auto. cbn [flat_map app forallb]. rewrite IH. now destruct b.
Qed.
Lemma bracketed_ascii : forall c s, ascii c = true -> all_ascii s = true -> all_ascii ("[" :: s ++ [c]) = true.
Proof. intros c s C S. unfold all_ascii in *. cbn [forallb]. rewrite forallb_app, S. cbn [forallb]. now rewrite C. Qed.
Lemma toy_value_ascii : forall v, all_ascii (toy_value v) = true.
Proof.
  fix IH 1. intros [m|l|s|b|[z|x]| |tg v|s]; try (apply toy_text_ascii; reflexivity).
  - apply bracketed_ascii; [reflexivity|]. induction m as [|[k v] m IHm]; [reflexivity|]. cbn [flat_map fst snd]. unfold all_ascii. rewrite !forallb_app. apply andb_true_iff. split; [|exact IHm].
    apply andb_true_iff. split; [exact (IH k)|exact (IH v)].
  - apply bracketed_ascii; [reflexivity|]. induction l as [|v l IHl]; [reflexivity|]. cbn [flat_map]. unfold all_ascii. rewrite forallb_app. apply andb_true_iff. split; [exact (IH v)|exact IHl].
  - destruct b; now apply toy_text_ascii.
Qed.
Theorem toy_text_law : forall g f, text_law (toy_codec g) f.
Proof. intros g f es s H. injection H as <-. apply ascii_text, (toy_value_ascii (FMap (layout g f es))). Qed.
