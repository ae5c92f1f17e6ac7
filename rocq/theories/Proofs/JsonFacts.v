(** Reading the JSON text that was written. *)
From Coq Require Import Lia.
From Verif.Model Require Import Json.
From Verif.Spec Require Import SpecDocument.
From Verif.Proofs Require Import BytesFacts IntFacts FloatFacts Utf8Facts FormatFacts DocumentFacts JsonFloat JsonScale JsonExact.
Open Scope byte_scope.

(** * Characters *)

Lemma read_escape : forall b f r, read_string (S f) (json_escape b ++ r) = let* x := read_string f r in Ok (b :: fst x, snd x).
Proof. intros b f r. destruct b; reflexivity. Qed.
Lemma read_escapes : forall s fuel rest, length s < fuel -> read_string fuel (flat_map json_escape s ++ x22 :: rest) = Ok (s, rest).
Proof.
  induction s as [|b s IH]; intros [|f] rest L; cbn [length] in L; try lia; cbn [flat_map app].
  - reflexivity.
  - rewrite <- app_assoc, read_escape, IH by lia. reflexivity.
Qed.
Lemma escape_length : forall s, length s <= length (flat_map json_escape s).
Proof.
  induction s as [|b s IH]; auto. cbn [flat_map length]. rewrite app_length. assert (1 <= length (json_escape b)) by (destruct b; cbn; lia). lia.
Qed.
Lemma read_json_string : forall s rest, read_string (length (flat_map json_escape s ++ x22 :: rest)) (flat_map json_escape s ++ x22 :: rest) = Ok (s, rest).
Proof. intros. apply read_escapes. rewrite app_length. cbn [length]. pose proof (escape_length s). lia. Qed.

Lemma escape_ascii : forall b, ascii b = true -> all_ascii (json_escape b) = true.
Proof. intros b H. destruct b; try discriminate H; reflexivity. Qed.
Lemma escape_other : forall b, ascii b = false -> json_escape b = [b].
Proof. intros b H. destruct b; try discriminate H; reflexivity. Qed.
Lemma text_app : forall a b, utf8_text a -> utf8_text b -> utf8_text (a ++ b).
Proof. intros a b (cs & F & ->) (cs' & F' & ->). exists (cs ++ cs'). split; [now apply Forall_app|]. now rewrite flat_map_app. Qed.
Lemma text_cons : forall c s, ascii c = true -> utf8_text s -> utf8_text (c :: s).
Proof. intros c s C S. change (c :: s) with ([c] ++ s). apply text_app; auto. apply ascii_text. cbn. now rewrite C. Qed.

Lemma encode_one : forall c, scalar c -> utf8_text (flat_map json_escape (utf8_encode c)).
Proof.
  intros c S. unfold utf8_encode. destruct (N.ltb_spec c 0x80).
  - cbn [flat_map]. rewrite app_nil_r. apply ascii_text, escape_ascii. unfold ascii. rewrite ?in_range_bN by lia. unfold in_range. rewrite ?bN_to_N by lia. try (apply N.ltb_lt; lia).
    all: try (apply andb_true_iff; rewrite !N.leb_le; cbn; lia).
  - assert (N : forall n, (128 <= n < 256)%N -> json_escape (bN n) = [bN n]).
    { intros n L. apply escape_other. destruct (ascii (bN n)) eqn:E; auto. exfalso. revert E. unfold ascii, in_range. rewrite bN_to_N by lia. first [rewrite N.ltb_lt|rewrite andb_true_iff, !N.leb_le; cbn]; lia. }
    assert (O : forall a b, (128 <= a)%N -> (a + b < 256)%N -> json_escape (bN (a + b)) = [bN (a + b)]) by (intros; apply N; lia).
    assert (M : forall x, (x mod 64 < 64)%N) by (intro; apply N.mod_lt; discriminate).
    assert (SC : exists d, scalar d /\ utf8_encode c = utf8_encode d) by (exists c; auto).
    assert (G : utf8_text (utf8_encode c)) by (exists [c]; split; [constructor; auto|cbn; now rewrite app_nil_r]).
    revert G. unfold utf8_encode. destruct (N.ltb_spec c 0x80); [lia|]. unfold scalar in S. pose proof (M c). pose proof (M (c / 64)%N). pose proof (M (c / 4096)%N).
    destruct (N.ltb_spec c 0x800); [|destruct (N.ltb_spec c 0x10000)]; cbn [flat_map app]; intro G.
    + assert (c / 64 < 32)%N by (apply N.div_lt_upper_bound; lia). rewrite !O by lia. exact G.
    + assert (c / 4096 < 16)%N by (apply N.div_lt_upper_bound; lia). rewrite !O by lia. exact G.
    + assert (c / 262144 < 5)%N by (apply N.div_lt_upper_bound; lia). rewrite !O by lia. exact G.
Qed.
Lemma string_text : forall s, utf8_text s -> utf8_text (json_string s).
Proof.
  intros s (cs & F & ->). unfold json_string. apply text_cons; [reflexivity|]. apply text_app; [|apply ascii_text; reflexivity].
  induction F as [|c cs S _ IH]; [exists []; auto|]. cbn [flat_map]. rewrite flat_map_app. apply text_app; auto. now apply encode_one.
Qed.

(** * White space *)

Definition starts (s : bytes) : Prop := match s with [] => False | b :: _ => json_space b = false /\ beqb b "]" = false /\ beqb b "}" = false end.
Lemma skip_newline : forall n s, skip_space (newline n ++ s) = skip_space s.
Proof. intros n s. unfold newline. cbn [app skip_space]. change (json_space x0a) with true. cbv iota. induction (2 * n)%nat as [|k IH]; [reflexivity|exact IH]. Qed.
Lemma skip_starts : forall s r, starts s -> skip_space (s ++ r) = s ++ r.
Proof. intros [|b s] r H; [destruct H|]. destruct H as [H _]. cbn [app skip_space]. now rewrite H. Qed.
Lemma newline_ends : forall n s, number_ends (newline n ++ s).
Proof. intros. cbn. auto. Qed.
Lemma newline_text : forall n, utf8_text (newline n).
Proof. intro n. apply ascii_text. unfold newline. rewrite all_ascii_cons. change (ascii x0a) with true. cbn [andb]. induction (2 * n)%nat; auto. Qed.

(** * Arrays and maps *)

Lemma separated_length : forall pre items, pre <> [] -> length items <= length (comma_separated (map (fun x : bytes => pre ++ x) items)).
Proof.
  intros pre items P. induction items as [|x l IH]; auto. cbn [map]. destruct l as [|y l].
  - cbn [map comma_separated]. rewrite app_length. destruct pre; [congruence|]. cbn. lia.
  - change (comma_separated ((pre ++ x) :: map (fun x => pre ++ x) (y :: l))) with ((pre ++ x) ++ "," :: comma_separated (map (fun x => pre ++ x) (y :: l))). rewrite app_length. cbn [length] in *. unfold bytes in *. lia.
Qed.
Lemma separated_text : forall items, Forall utf8_text items -> utf8_text (comma_separated items).
Proof.
  induction 1 as [|x l X F IH]; [exists []; auto|]. destruct l as [|y l]; auto. change (comma_separated (x :: y :: l)) with (x ++ "," :: comma_separated (y :: l)). apply text_app; auto. now apply text_cons.
Qed.

Section Containers.
  Context (value : bytes -> outcome (fvalue * bytes)) (lv : nat).

  Definition element_ok (t : bytes) (v : fvalue) : Prop := starts t /\ forall rest, number_ends rest -> value (t ++ rest) = Ok (v, rest).
  Definition entry_ok (t : bytes) (kv : fvalue * fvalue) : Prop := starts t /\ forall rest, number_ends rest -> read_entry value (t ++ rest) = Ok (kv, rest).

  Lemma elements_back : forall items vs, Forall2 element_ok items vs -> items <> [] -> forall fuel rest, length items <= fuel ->
    read_elements value fuel (skip_space (comma_separated (map (fun x => newline (S lv) ++ x) items) ++ newline lv ++ "]" :: rest)) = Ok (vs, rest).
  Proof.
    induction 1 as [|t v items vs [S R] F IH]; intros NE fuel rest L; [congruence|]. cbn [length] in L. destruct fuel as [|fuel]; [lia|]. cbn [map].
    destruct F as [|t2 v2 items vs T2 F].
    - cbn [map comma_separated]. rewrite <- app_assoc, skip_newline, skip_starts by auto. cbn [read_elements]. rewrite R by apply newline_ends. cbn [bind fst snd]. rewrite skip_newline. reflexivity.
    - set (l := map (fun x => newline (Datatypes.S lv) ++ x) (t2 :: items)) in *. change (comma_separated ((newline (Datatypes.S lv) ++ t) :: l)) with ((newline (Datatypes.S lv) ++ t) ++ "," :: comma_separated l).
      rewrite <- !app_assoc, skip_newline, skip_starts by auto. cbn [read_elements app]. rewrite R by (cbn; auto). cbn [bind fst snd]. cbn [skip_space]. change (json_space ",") with false. cbv iota. change (beqb "," ",") with true. cbv iota.
      rewrite IH by (auto; try discriminate; cbn [length] in *; lia). reflexivity.
  Qed.
  Lemma entries_back : forall items vs, Forall2 entry_ok items vs -> items <> [] -> forall fuel rest, length items <= fuel ->
    read_entries value fuel (skip_space (comma_separated (map (fun x => newline (S lv) ++ x) items) ++ newline lv ++ "}" :: rest)) = Ok (vs, rest).
  Proof.
    induction 1 as [|t v items vs [S R] F IH]; intros NE fuel rest L; [congruence|]. cbn [length] in L. destruct fuel as [|fuel]; [lia|]. cbn [map].
    destruct F as [|t2 v2 items vs T2 F].
    - cbn [map comma_separated]. rewrite <- app_assoc, skip_newline, skip_starts by auto. cbn [read_entries]. rewrite R by apply newline_ends. cbn [bind fst snd]. rewrite skip_newline. reflexivity.
    - set (l := map (fun x => newline (Datatypes.S lv) ++ x) (t2 :: items)) in *. change (comma_separated ((newline (Datatypes.S lv) ++ t) :: l)) with ((newline (Datatypes.S lv) ++ t) ++ "," :: comma_separated l).
      rewrite <- !app_assoc, skip_newline, skip_starts by auto. cbn [read_entries app]. rewrite R by (cbn; auto). cbn [bind fst snd]. cbn [skip_space]. change (json_space ",") with false. cbv iota. change (beqb "," ",") with true. cbv iota.
      rewrite IH by (auto; try discriminate; cbn [length] in *; lia). reflexivity.
  Qed.

  Lemma first_starts : forall t items r, starts t -> exists b s, skip_space (comma_separated (map (fun x => newline (S lv) ++ x) (t :: items)) ++ r) = b :: s /\ beqb b "]" = false /\ beqb b "}" = false.
  Proof.
    intros t items r T. assert (E : exists r', skip_space (comma_separated (map (fun x => newline (S lv) ++ x) (t :: items)) ++ r) = t ++ r').
    { destruct items as [|t2 l]; cbn [map].
      - cbn [map comma_separated]. rewrite <- app_assoc, skip_newline, skip_starts by auto. eauto.
      - change (comma_separated ((newline (S lv) ++ t) :: (newline (S lv) ++ t2) :: map (fun x => newline (S lv) ++ x) l)) with ((newline (S lv) ++ t) ++ "," :: comma_separated ((newline (S lv) ++ t2) :: map (fun x => newline (S lv) ++ x) l)).
        rewrite <- !app_assoc, skip_newline, skip_starts by auto. eauto. }
    destruct E as [r' E]. destruct t as [|b t]; [destruct T|]. exists b, (t ++ r'). destruct T as (_ & A & B). auto.
  Qed.
  Lemma array_back : forall items vs rest, Forall2 element_ok items vs -> exists body, json_block "[" "]" lv items = "[" :: body /\ read_array value (body ++ rest) = Ok (vs, rest).
  Proof.
    intros items vs rest F. destruct F as [|t v items vs [T R] F]; [exists ["]"]; auto|]. eexists. split; [reflexivity|]. unfold read_array. rewrite <- !app_assoc. cbn [app].
    pose proof (elements_back (t :: items) (v :: vs) ltac:(constructor; [split|]; auto) ltac:(discriminate)) as E.
    destruct (first_starts t items (newline lv ++ "]" :: rest) T) as (b & s & X & B & _). specialize (fun fuel => E fuel rest). rewrite X in *. rewrite B. apply E.
    rewrite app_length. pose proof (separated_length (newline (S lv)) (t :: items) ltac:(discriminate)). unfold bytes in *. lia.
  Qed.
  Lemma object_back : forall items vs rest, Forall2 entry_ok items vs -> exists body, json_block "{" "}" lv items = "{" :: body /\ read_object value (body ++ rest) = Ok (vs, rest).
  Proof.
    intros items vs rest F. destruct F as [|t v items vs [T R] F]; [exists ["}"]; auto|]. eexists. split; [reflexivity|]. unfold read_object. rewrite <- !app_assoc. cbn [app].
    pose proof (entries_back (t :: items) (v :: vs) ltac:(constructor; [split|]; auto) ltac:(discriminate)) as E.
    destruct (first_starts t items (newline lv ++ "}" :: rest) T) as (b & s & X & _ & B). specialize (fun fuel => E fuel rest). rewrite X in *. rewrite B. apply E.
    rewrite app_length. pose proof (separated_length (newline (S lv)) (t :: items) ltac:(discriminate)). unfold bytes in *. lia.
  Qed.
  Lemma block_text : forall a b items, ascii a = true -> ascii b = true -> Forall utf8_text items -> utf8_text (json_block a b lv items).
  Proof.
    intros a b items A B F. destruct items as [|t items]; [apply text_cons; auto; apply text_cons; auto; exists []; auto|]. unfold json_block. apply text_cons; auto. apply text_app.
    - apply separated_text. rewrite Forall_forall in *. intros x I. apply in_map_iff in I. destruct I as (y & <- & I). apply text_app; auto. apply newline_text.
    - apply text_app; [apply newline_text|]. apply text_cons; auto. exists []; auto.
  Qed.
End Containers.

Lemma read_value_map : forall d s, read_value (S (S d)) ("{" :: s) = let* r := read_object (read_value (S d)) s in Ok (FMap (fst r), snd r).
Proof. reflexivity. Qed.
Lemma read_value_array : forall d s, read_value (S (S d)) ("[" :: s) = let* r := read_array (read_value (S d)) s in Ok (FSeq (fst r), snd r).
Proof. reflexivity. Qed.

(** * Numbers as values *)

Lemma number_back : forall t y, reads_as t y -> starts t /\ forall dep rest, number_ends rest -> read_value dep (t ++ rest) = Ok (FNum y, rest).
Proof.
  intros t y R. assert (G : t <> [] /\ forall rest, number_ends rest -> starts (t ++ rest) /\ forall dep, read_value dep (t ++ rest) = Ok (FNum y, rest)).
  { split.
    - intros ->. pose proof (R ["e"]) as X. pose proof (R []) as Y. exact (Y I).
    - intros rest E. specialize (R rest E). destruct (t ++ rest) as [|b s]; [destruct R|]. destruct (beqb b "-") eqn:B.
      + apply beqb_eq in B. subst b. split; [cbn; auto|]. intro dep. destruct dep; cbn [read_value]; change (beqb "-" "n") with false; change (beqb "-" "t") with false; change (beqb "-" "f") with false; change (beqb "-" "-") with true; cbv iota; now rewrite R.
      + destruct R as [D R]. split.
        * cbn. unfold json_space. rewrite !(digit_not b) by auto. auto.
        * intro dep. destruct dep; cbn [read_value]; rewrite !(digit_not b) by auto; rewrite D, R; reflexivity. }
  destruct G as [NE G]. split; [|intros; now apply G]. destruct t as [|b t]; [congruence|]. destruct (G [] I) as [S _]. exact S.
Qed.

Lemma json_float_is : forall neg m e y, reads_as (ryu_text neg m e) (NFlt y) -> json_float (FFin neg m e) = y.
Proof.
  intros neg m e y R. destruct (number_back _ _ R) as [S V]. unfold json_float, json_number, json_read.
  assert (E : read_value 128 (skip_space (lit "{""x"":" ++ ryu_text neg m e ++ lit "}")) = Ok (FMap [(FStr (lit "x"), FNum (NFlt y))], [])); [|now rewrite E].
  change (skip_space (lit "{""x"":" ++ ryu_text neg m e ++ lit "}")) with ("{" :: [x22; "x"; x22; ":"] ++ ryu_text neg m e ++ ["}"]).
  set (w := ryu_text neg m e ++ ["}"]). rewrite read_value_map. generalize 126%nat as dep. intro dep.
  unfold read_object. cbn [app skip_space]. change (json_space x22) with false. cbv iota. change (beqb x22 "}") with false. cbv iota. cbn [length read_entries].
  unfold read_entry at 1. change (beqb x22 x22) with true. cbv iota. cbn [length].
  match goal with |- context [read_string ?f ?s] => assert (K : read_string f s = Ok (lit "x", ":" :: w)) by reflexivity; rewrite K end. cbn [bind fst snd skip_space]. change (json_space ":") with false. cbv iota. change (beqb ":" ":") with true. cbv iota.
  unfold w. rewrite skip_starts, V by (auto; cbn; auto). cbn [bind fst snd skip_space]. reflexivity.
Qed.

Lemma json_float_back : forall x, f64_canonical x = true -> f64_finite x = true -> f64_canonical (json_float x) = true /\ f64_finite (json_float x) = true /\ reads_as (json_number (NFlt x)) (NFlt (json_float x)).
Proof.
  intros [| |neg m e] C F; try discriminate F. destruct (read_float neg m e C) as (m' & e' & C' & R). rewrite (json_float_is _ _ _ _ R). auto.
Qed.

Lemma number_text : forall n, all_ascii (json_number n) = true.
Proof.
  assert (D : forall s, all_digits s -> all_ascii s = true). { intros s A. unfold all_ascii. apply forallb_forall. intros c I. apply A in I. destruct c; try discriminate I; reflexivity. }
  assert (Z : forall n, all_ascii (repeat "0" n) = true). { induction n; auto. }
  assert (I : forall z, all_ascii (int_text z) = true). { intro z. unfold all_ascii. apply forallb_forall. apply int_text_ascii. }
  assert (P : forall n s, all_ascii s = true -> all_ascii (firstn n s) = true /\ all_ascii (skipn n s) = true). { intros n s H. rewrite <- (firstn_skipn n s), all_ascii_app in H. now apply andb_true_iff in H. }
  assert (R : forall d k, all_ascii (ryu_digits d k) = true).
  { intros d k. pose proof (D _ (N_text_all d)) as T. unfold ryu_digits. repeat match goal with |- context [if ?b then _ else _] => destruct b end;
      repeat rewrite ?all_ascii_app, ?all_ascii_cons, ?T, ?Z, ?I, ?(proj1 (P _ _ T)), ?(proj2 (P _ _ T)); reflexivity. }
  intros [z|[| |neg m e]]; try reflexivity; [apply I|]. unfold json_number, ryu_text. destruct (m =? 0)%N; [destruct neg; reflexivity|]. destruct (shortest _ _ _ _ _) as [d k]. destruct neg; auto. rewrite all_ascii_cons. now rewrite R.
Qed.

(** * Values *)

Definition value_back (level : nat) (v : fvalue) : Prop :=
  exists s, json_value level v = Ok s /\ utf8_text s /\ starts s /\ forall dep rest, depth v < dep -> number_ends rest -> read_value dep (s ++ rest) = Ok (map_floats json_float v, rest).

Lemma mapM_exists : forall {A B} (f : A -> outcome B) (P : A -> B -> Prop) l, Forall (fun x => exists y, f x = Ok y /\ P x y) l -> exists l', mapM f l = Ok l' /\ Forall2 P l l'.
Proof.
  intros A B f P l F. induction F as [|x l (y & E & X) _ (l' & E' & F')]; [exists []; auto|]. exists (y :: l'). cbn [mapM]. rewrite E, E'. auto.
Qed.

Lemma word_back : forall w v dep rest, read_value dep (lit w ++ rest) = read_word w v (lit w ++ rest) -> read_value dep (lit w ++ rest) = Ok (v, rest).
Proof. intros w v dep rest ->. unfold read_word. now rewrite strip_prefix_app. Qed.

Lemma entry_text : forall k t v lv value, utf8_text k -> starts t -> (forall rest, number_ends rest -> value (t ++ rest) = Ok (v, rest)) ->
  entry_ok value (json_string k ++ lit ": " ++ t) (FStr k, v) /\ (utf8_text t -> utf8_text (newline lv ++ json_string k ++ lit ": " ++ t)).
Proof.
  intros k t v lv value K S V. split.
  - split; [cbn; auto|]. intros rest R. unfold json_string. cbn [app]. rewrite <- !app_assoc. cbn [app read_entry]. change (beqb x22 x22) with true. cbv iota. rewrite read_json_string. cbn [bind fst snd].
    change (lit ": " ++ t ++ rest) with (":" :: " " :: t ++ rest). cbn [skip_space]. change (json_space ":") with false. cbv iota. change (beqb ":" ":") with true. cbv iota.
    change (skip_space (" " :: t ++ rest)) with (skip_space (t ++ rest)). rewrite skip_starts, V by auto. reflexivity.
  - intro T. apply text_app; [apply newline_text|]. apply text_app; [now apply string_text|]. apply text_app; auto. apply ascii_text. reflexivity.
Qed.

Theorem json_value_back : forall v, storable Json v -> forall level, value_back level v.
Proof.
  induction v as [m IH|l IH|s|b|n| |tg v IH|s] using fvalue_ind'; intros W level; cbn [storable] in W; try contradiction; unfold value_back.
  - destruct W as [_ W]. apply each_Forall in W. revert W. assert (G : Forall (fun kv => storable Json (snd kv) -> forall level, value_back level (snd kv)) m) by exact IH. clear IH. intro W.
    assert (X : exists l, mapM (fun kv => let* k := json_key (fst kv) in let* x := json_value (S level) (snd kv) in Ok (k ++ lit ": " ++ x)) m = Ok l
      /\ Forall2 (fun kv t => utf8_text t /\ starts t /\ forall dep, depth (snd kv) < dep -> entry_ok (read_value dep) t (fst kv, map_floats json_float (snd kv))) m l).
    { apply mapM_exists. rewrite Forall_forall in *. intros [k v] I. destruct (W _ I) as [(s & K & T) SV]. cbn [fst snd] in *. subst k. destruct (G _ I SV (S level)) as (t & E & TT & ST & B). cbn [snd] in *.
      eexists. cbn [json_key bind]. rewrite E. cbn [bind]. split; [reflexivity|]. split; [apply text_app; [now apply string_text|]; apply text_app; auto; apply ascii_text; reflexivity|]. split; [cbn; auto|].
      intros dep D. apply (entry_text s t _ 0 (read_value dep)); auto. }
    destruct X as (l & E & F). exists (json_block "{" "}" level l). split; [cbn [json_value]; now rewrite E|]. split.
    { apply block_text; auto. clear -F. induction F as [|kv t m l (T & _) _ IHl]; constructor; auto. }
    split; [destruct l; cbn; auto|]. intros dep rest D R. cbn [depth] in D.
    assert (FE : forall dep', fold_right (fun kv n => Nat.max (depth (snd kv)) n) 0 m < dep' -> Forall2 (entry_ok (read_value dep')) l (map (fun kv => (fst kv, map_floats json_float (snd kv))) m)).
    { clear -F. intro dep'. induction F as [|kv t m l (_ & _ & T) _ IHl]; cbn [fold_right map]; intro L; constructor; [apply T; lia|apply IHl; lia]. }
    destruct dep as [|[|dep]]; try lia. destruct (object_back (read_value (S dep)) level l _ rest (FE (S dep) ltac:(lia))) as (body & -> & B). cbn [app].
    rewrite read_value_map, B. reflexivity.
  - apply each_Forall in W. assert (G : Forall (fun v => storable Json v -> forall level, value_back level v) l) by exact IH. clear IH.
    assert (X : exists ts, mapM (json_value (S level)) l = Ok ts /\ Forall2 (fun v t => utf8_text t /\ forall dep, depth v < dep -> element_ok (read_value dep) t (map_floats json_float v)) l ts).
    { apply mapM_exists. rewrite Forall_forall in *. intros v I. destruct (G _ I (W _ I) (S level)) as (t & E & TT & ST & B). exists t. split; auto. split; auto. intros dep D. split; auto. }
    destruct X as (ts & E & F). exists (json_block "[" "]" level ts). split; [cbn [json_value]; now rewrite E|]. split.
    { apply block_text; auto. clear -F. induction F as [|v t l ts (T & _) _ IHl]; constructor; auto. }
    split; [destruct ts; cbn; auto|]. intros dep rest D R. cbn [depth] in D.
    assert (FE : forall dep', fold_right (fun x n => Nat.max (depth x) n) 0 l < dep' -> Forall2 (element_ok (read_value dep')) ts (map (map_floats json_float) l)).
    { clear -F. intro dep'. induction F as [|v t l ts (_ & T) _ IHl]; cbn [fold_right map]; intro L; constructor; [apply T; lia|apply IHl; lia]. }
    destruct dep as [|[|dep]]; try lia. destruct (array_back (read_value (S dep)) level ts _ rest (FE (S dep) ltac:(lia))) as (body & -> & B). cbn [app].
    rewrite read_value_array, B. reflexivity.
  - exists (json_string s). split; [reflexivity|]. split; [now apply string_text|]. split; [cbn; auto|]. intros dep rest _ _. unfold json_string. cbn [app]. rewrite <- app_assoc. cbn [app].
    transitivity (let* r := read_string (length (flat_map json_escape s ++ x22 :: rest)) (flat_map json_escape s ++ x22 :: rest) in Ok (FStr (fst r), snd r)); [destruct dep; reflexivity|]. rewrite read_json_string. reflexivity.
  - destruct b; eexists; (split; [reflexivity|]); (split; [apply ascii_text; reflexivity|]); (split; [cbn; auto|]); intros dep rest _ _; apply word_back; destruct dep; reflexivity.
  - exists (json_number n). split; [reflexivity|]. split; [apply ascii_text, number_text|].
    assert (R : reads_as (json_number n) match n with NInt z => NInt z | NFlt x => NFlt (json_float x) end).
    { destruct n as [z|x]; [intros rest E; apply read_int; auto|]. destruct W as [C F]. now apply json_float_back; auto. }
    destruct (number_back _ _ R) as [S B]. split; auto. intros dep rest _ E. rewrite B by auto. destruct n; reflexivity.
  - eexists. split; [reflexivity|]. split; [apply ascii_text; reflexivity|]. split; [cbn; auto|]. intros dep rest _ _. apply (word_back "null" FNull). destruct dep; reflexivity.
Qed.

(** * Documents *)

Theorem json_document_back : forall es, printable Json es -> exists s, json_write es = Ok s /\ utf8_text s /\ json_read s = Ok (doc_of (map_floats json_float (FMap es))).
Proof.
  intros es [P D].
  (* keys of the document itself may repeat *)
  assert (X : exists l, mapM (fun kv => let* k := json_key (fst kv) in let* x := json_value 1 (snd kv) in Ok (k ++ lit ": " ++ x)) es = Ok l
      /\ Forall2 (fun kv t => utf8_text t /\ forall dep, depth (snd kv) < dep -> entry_ok (read_value dep) t (fst kv, map_floats json_float (snd kv))) es l).
  { apply mapM_exists. rewrite Forall_forall. intros [k v] I. destruct (P _ _ I) as [(s & K & T) SV]. cbn [fst snd]. subst k. destruct (json_value_back v SV 1) as (t & E & TT & ST & B).
    eexists. cbn [json_key bind]. rewrite E. cbn [bind]. split; [reflexivity|]. split; [apply text_app; [now apply string_text|]; apply text_app; auto; apply ascii_text; reflexivity|].
    intros dep L. apply (entry_text s t _ 0 (read_value dep)); auto. }
  destruct X as (l & E & F). exists (json_block "{" "}" 0 l).
  assert (T : utf8_text (json_block "{" "}" 0 l)). { apply block_text; auto. clear -F. induction F as [|kv t m l (T & _) _ IHl]; constructor; auto. }
  split.
  - unfold json_write. cbn [json_value]. rewrite E. cbn [bind]. apply utf8_valid_iff in T. now rewrite T.
  - split; auto. cbn [depth] in D. unfold max_depth in D.
    assert (FE : Forall2 (entry_ok (read_value 127)) l (map (fun kv => (fst kv, map_floats json_float (snd kv))) es)).
    { assert (L : fold_right (fun kv n => Nat.max (depth (snd kv)) n) 0 es < 127) by lia. clear -F L. induction F as [|kv t m l (_ & T) _ IHl]; cbn [fold_right map] in *; constructor; [apply T; lia|apply IHl; lia]. }
    destruct (object_back (read_value 127) 0 l _ [] FE) as (body & EB & B). rewrite EB. unfold json_read. rewrite app_nil_r in B.
    change (skip_space ("{" :: body)) with ("{" :: body). rewrite read_value_map, B. reflexivity.
Qed.

Theorem with_json_law : forall cd, codec_law (with_json cd) json_float Json.
Proof.
  intros cd es P. destruct (json_document_back es P) as (s & W & _ & R). exists s. auto.
Qed.
Theorem with_json_time : forall cd, time_law cd -> time_law (with_json cd).
Proof. intros cd L. exact L. Qed.
Theorem with_json_text : forall cd, text_law (with_json cd) Json.
Proof.
  intros cd es s H. cbn [with_json cd_write] in H. unfold json_write in H. destruct (json_value 0 (FMap es)) as [t| |]; try discriminate H. cbn [bind] in H.
  destruct (utf8_valid t) eqn:U; [|discriminate H]. injection H as <-. now apply utf8_valid_iff.
Qed.
