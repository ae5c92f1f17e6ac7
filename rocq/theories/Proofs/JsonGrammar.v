(** JSON text is read as RFC 8259 says. *)
From Coq Require Import Lia QArith Qpower Lqa.
From Verif.Model Require Import Json.
From Verif.Proofs Require Import BytesFacts Base64Facts ValueFacts IntFacts FloatFacts Utf8Facts FormatFacts DocumentFacts RoundFacts ShortestFacts JsonFloat JsonScale JsonExact JsonError JsonNumber JsonFacts.
From Verif.Spec Require Import SpecJsonText.
Close Scope Q_scope.
Open Scope byte_scope.

(** * White space *)
Lemma blank_space : forall b, In b [" "; x09; x0a; x0d] <-> json_space b = true.
Proof. intro b. split; [intros [<-|[<-|[<-|[<-|[]]]]]; reflexivity|]. unfold json_space. rewrite !orb_true_iff, !beqb_eq. cbn. intuition. Qed.
Lemma skip_is : forall s, exists w, blank w /\ s = w ++ skip_space s /\ match skip_space s with [] => True | b :: _ => json_space b = false end.
Proof.
  induction s as [|b s IH]; [exists []; repeat split; constructor|]. cbn [skip_space]. destruct (json_space b) eqn:J.
  - destruct IH as (w & B & E & N). exists (b :: w). split; [constructor; auto; now apply blank_space|]. split; auto. cbn [app]. now rewrite <- E.
  - exists []. split; [constructor|]. auto.
Qed.
Lemma skip_blank : forall w s, blank w -> skip_space (w ++ s) = skip_space s.
Proof. intros w s B. induction B as [|b w I B IH]; auto. cbn [app skip_space]. apply blank_space in I. now rewrite I. Qed.
Lemma blank_app : forall a b, blank a -> blank b -> blank (a ++ b).
Proof. intros. now apply Forall_app. Qed.
Lemma blank_ends : forall w c s, blank w -> number_ends (c :: s) -> number_ends (w ++ c :: s).
Proof. intros w c s B N. destruct B as [|b w I B]; auto. cbn [app]. cbn in I. repeat (destruct I as [<-|I]; [cbn; auto|]). destruct I. Qed.
Lemma blank_end : forall w, blank w -> number_ends w.
Proof. intros w B. destruct B as [|b w I B]; [exact I|]. cbn in I. repeat (destruct I as [<-|I]; [cbn; auto|]). destruct I. Qed.

(** * Strings *)
Lemma hex_digit_in : forall b x, In (b, x) hex_digits <-> hex_val b = Some x.
Proof.
  intros b x. split.
  - intro H. cbn in H. repeat (destruct H as [H|H]; [injection H as <- <-; reflexivity|]). destruct H.
  - destruct b; intro H; try discriminate H; injection H as <-; cbn; tauto.
Qed.
Lemma hex4_is : forall s n s', hex4 s = Some (n, s') -> exists h, code_unit h n /\ s = h ++ s'.
Proof.
  intros s n s' H. unfold hex4 in H. destruct s as [|a [|b [|c [|d s]]]]; try discriminate H. destruct (hex_val a) as [x|] eqn:A; [|discriminate H]. destruct (hex_val b) as [y|] eqn:B; [|discriminate H]. destruct (hex_val c) as [z|] eqn:C; [|discriminate H]. destruct (hex_val d) as [w|] eqn:D; [|discriminate H].
  assert (E : n = (((x * 16 + y) * 16 + z) * 16 + w)%N /\ s = s') by (split; congruence). destruct E as [-> ->]. exists [a; b; c; d]. split; auto. replace (((x * 16 + y) * 16 + z) * 16 + w)%N with (x * 4096 + y * 256 + z * 16 + w)%N by lia. apply code_unit_is; now apply hex_digit_in.
Qed.
Lemma hex4_some : forall h n s, code_unit h n -> hex4 (h ++ s) = Some (n, s).
Proof.
  intros h n s H. destruct H as [a b c d x y z w A B C D]. apply hex_digit_in in A, B, C, D. unfold hex4. cbn [app]. rewrite A, B, C, D. do 2 f_equal. lia.
Qed.
Lemma code_unit_bound : forall h n, code_unit h n -> (n < 65536)%N.
Proof. intros h n [a b c d x y z w A B C D]. apply hex_digit_in, hex_val_bound in A. apply hex_digit_in, hex_val_bound in B. apply hex_digit_in, hex_val_bound in C. apply hex_digit_in, hex_val_bound in D. lia. Qed.
Lemma code_unit_length : forall h n, code_unit h n -> length h = 4.
Proof. intros h n []. reflexivity. Qed.
Lemma byte_same : forall n, (n < 256)%N -> byte_of_N n = bN n.
Proof. intros n H. unfold byte_of_N, bN. now rewrite N.mod_small. Qed.
Lemma encode_same : forall n, (n < 0x110000)%N -> encode_char n = utf8_encode n.
Proof.
  intros n H. unfold encode_char, utf8_encode. change 0x80%N with 128%N. change 0x800%N with 2048%N. change 0x10000%N with 65536%N.
  assert (M : (n mod 64 < 64)%N) by (apply N.mod_lt; discriminate). assert (M1 : (n / 64 mod 64 < 64)%N) by (apply N.mod_lt; discriminate). assert (M2 : (n / 4096 mod 64 < 64)%N) by (apply N.mod_lt; discriminate).
  destruct (N.ltb_spec n 128); [rewrite byte_same by lia; reflexivity|]. destruct (N.ltb_spec n 2048).
  - assert (n / 64 < 32)%N by (apply N.div_lt_upper_bound; lia). rewrite !byte_same by lia. reflexivity.
  - destruct (N.ltb_spec n 65536).
    + assert (n / 4096 < 16)%N by (apply N.div_lt_upper_bound; lia). rewrite !byte_same by lia. reflexivity.
    + assert (n / 262144 < 5)%N by (apply N.div_lt_upper_bound; lia). rewrite !byte_same by lia. reflexivity.
Qed.
Lemma escape_in : forall c x, In (c, x) short_escapes <-> simple_escape c = Some x.
Proof.
  intros c x. split.
  - intro H. cbn in H. repeat (destruct H as [H|H]; [injection H as <- <-; reflexivity|]). destruct H.
  - unfold simple_escape. intro H. repeat (match type of H with (if beqb c ?k then _ else _) = _ => destruct (beqb c k) eqn:E; [apply beqb_eq in E; subst c; injection H as <-; cbn; tauto|clear E] end). discriminate H.
Qed.
Lemma control : forall b, in_range x00 x1f b = false <-> (32 <= Byte.to_N b)%N.
Proof. intro b. split; [destruct b; intro H; try discriminate H; vm_compute; discriminate|]. intro H. destruct b; try reflexivity; exfalso; vm_compute in H; now apply H. Qed.
Lemma unicode_is : forall s u s', unicode_escape s = Ok (u, s') -> exists t, s = t ++ s' /\ forall r x, chars r x -> chars ("\" :: "u" :: t ++ r) (u ++ x).
Proof.
  intros s u s' H. unfold unicode_escape in H. destruct (hex4 s) as [[n s1]|] eqn:X; [|discriminate H]. apply hex4_is in X. destruct X as (h & CU & ->). pose proof (code_unit_bound h n CU) as NB.
  destruct ((56320 <=? n) && (n <=? 57343))%N eqn:T; [discriminate H|]. destruct ((55296 <=? n) && (n <=? 56319))%N eqn:LD.
  - destruct (strip_prefix (lit "\u") s1) as [s2|] eqn:SP; [|discriminate H]. apply strip_prefix_some in SP. subst s1. destruct (hex4 s2) as [[n2 s3]|] eqn:X2; [|discriminate H]. apply hex4_is in X2. destruct X2 as (h2 & CU2 & ->). destruct ((56320 <=? n2) && (n2 <=? 57343))%N eqn:T2; [|discriminate H].
    apply andb_true_iff in LD, T2. rewrite !N.leb_le in LD, T2. assert (E : u = encode_char (65536 + (n - 55296) * 1024 + (n2 - 56320)) /\ s3 = s') by (split; congruence). destruct E as [-> ->]. rewrite encode_same by lia.
    exists (h ++ "\" :: "u" :: h2). split; [rewrite <- app_assoc; reflexivity|]. intros r x C. rewrite <- app_assoc. cbn [app].
    apply (ch_pair h h2 (n - 55296) (n2 - 56320)); auto; try lia; [replace (0xD800 + (n - 55296))%N with n by lia; auto|replace (0xDC00 + (n2 - 56320))%N with n2 by lia; auto].
  - assert (E : u = encode_char n /\ s1 = s') by (split; congruence). destruct E as [-> ->]. rewrite encode_same by lia. exists h. split; auto. intros r x C. apply ch_code; auto. unfold scalar. apply andb_false_iff in T, LD. rewrite !N.leb_gt in T, LD. lia.
Qed.
Lemma string_meant : forall fuel s x rest, read_string fuel s = Ok (x, rest) -> exists t, s = t ++ x22 :: rest /\ chars t x.
Proof.
  induction fuel as [|fuel IH]; intros s x rest H; [discriminate H|]. destruct s as [|b s']; [discriminate H|]. cbn [read_string] in H. destruct (beqb b x22) eqn:Q.
  - apply beqb_eq in Q. subst b. assert (x = [] /\ s' = rest) as [-> ->] by (split; congruence). exists []. split; auto. constructor.
  - destruct (beqb b "\") eqn:BS.
    + apply beqb_eq in BS. subst b. destruct s' as [|c s'']; [discriminate H|]. destruct (simple_escape c) as [y|] eqn:SE.
      * apply bind_ok in H. destruct H as ([a r] & H & E). cbn [fst snd] in E. assert (x = y :: a /\ r = rest) as [-> ->] by (split; congruence). destruct (IH _ _ _ H) as (t & -> & C). exists ("\" :: c :: t). split; auto. apply ch_short; auto. now apply escape_in.
      * destruct (beqb c "u") eqn:U; [|discriminate H]. apply beqb_eq in U. subst c. apply bind_ok in H. destruct H as ([u s1] & UE & H). cbn [fst snd] in H. apply bind_ok in H. destruct H as ([a r] & H & E). cbn [fst snd] in E. assert (x = u ++ a /\ r = rest) as [-> ->] by (split; congruence).
        destruct (IH _ _ _ H) as (t & -> & C). destruct (unicode_is _ _ _ UE) as (t0 & -> & F). exists ("\" :: "u" :: t0 ++ t). split; [cbn [app]; now rewrite <- app_assoc|]. now apply F.
    + destruct (in_range x00 x1f b) eqn:CT; [discriminate H|]. apply bind_ok in H. destruct H as ([a r] & H & E). cbn [fst snd] in E. assert (x = b :: a /\ r = rest) as [-> ->] by (split; congruence). destruct (IH _ _ _ H) as (t & -> & C). exists (b :: t). split; auto. apply ch_plain; auto; [now apply control|apply beqb_neq; auto|apply beqb_neq; auto].
Qed.
Lemma unicode_code : forall h n s, code_unit h n -> scalar n -> unicode_escape (h ++ s) = Ok (utf8_encode n, s).
Proof.
  intros h n s CU SC. unfold unicode_escape. rewrite (hex4_some h n s CU). pose proof (code_unit_bound h n CU). unfold scalar in SC.
  assert (A : ((56320 <=? n) && (n <=? 57343))%N = false) by (apply andb_false_iff; rewrite !N.leb_gt; lia). assert (B : ((55296 <=? n) && (n <=? 56319))%N = false) by (apply andb_false_iff; rewrite !N.leb_gt; lia). rewrite A, B, encode_same by lia. reflexivity.
Qed.
Lemma unicode_pair : forall h1 h2 i j s, code_unit h1 (0xD800 + i) -> (i < 0x400)%N -> code_unit h2 (0xDC00 + j) -> (j < 0x400)%N ->
  unicode_escape (h1 ++ "\" :: "u" :: h2 ++ s) = Ok (utf8_encode (0x10000 + i * 0x400 + j), s).
Proof.
  intros h1 h2 i j s C1 I C2 J. unfold unicode_escape. rewrite (hex4_some h1 _ _ C1).
  assert (A : ((56320 <=? 0xD800 + i) && (0xD800 + i <=? 57343))%N = false) by (apply andb_false_iff; rewrite !N.leb_gt; lia). assert (B : ((55296 <=? 0xD800 + i) && (0xD800 + i <=? 56319))%N = true) by (apply andb_true_iff; rewrite !N.leb_le; lia). rewrite A, B.
  change (strip_prefix (lit "\u") ("\" :: "u" :: h2 ++ s)) with (Some (h2 ++ s)). cbv iota. rewrite (hex4_some h2 _ _ C2). assert (D : ((56320 <=? 0xDC00 + j) && (0xDC00 + j <=? 57343))%N = true) by (apply andb_true_iff; rewrite !N.leb_le; lia). rewrite D, encode_same by lia. do 3 f_equal. lia.
Qed.
Lemma string_reads : forall t x, chars t x -> forall fuel rest, length t < fuel -> read_string fuel (t ++ x22 :: rest) = Ok (x, rest).
Proof.
  intros t x C. induction C as [|b t s B Q BS C IH|c x t s I C IH|h n t s CU SC C IH|h1 h2 i j t s C1 I C2 J C IH]; intros fuel rest L; (destruct fuel as [|fuel]; [lia|]).
  - reflexivity.
  - cbn [app read_string]. rewrite (proj2 (beqb_neq _ _) Q), (proj2 (beqb_neq _ _) BS), (proj2 (control b) B), IH by (cbn [length] in L; lia). reflexivity.
  - cbn [app read_string]. change (beqb "\" x22) with false. change (beqb "\" "\") with true. cbv iota. rewrite (proj1 (escape_in c x) I), IH by (cbn [length] in L; lia). reflexivity.
  - cbn [app read_string]. change (beqb "\" x22) with false. change (beqb "\" "\") with true. cbv iota. change (simple_escape "u") with (@None byte). change (beqb "u" "u") with true. cbv iota. rewrite <- app_assoc, (unicode_code h n _ CU SC). cbn [bind fst snd]. rewrite IH by (cbn [length] in L; rewrite app_length in L; lia). reflexivity.
  - cbn [app read_string]. change (beqb "\" x22) with false. change (beqb "\" "\") with true. cbv iota. change (simple_escape "u") with (@None byte). change (beqb "u" "u") with true. cbv iota. rewrite <- app_assoc. cbn [app]. rewrite <- app_assoc. rewrite (unicode_pair h1 h2 i j _ C1 I C2 J). cbn [bind fst snd]. rewrite IH by (cbn [length] in L; rewrite !app_length in L; cbn [length] in L; rewrite app_length in L; lia). reflexivity.
Qed.

(** * What is read is what the text says *)
Definition shorter (s : bytes) : Prop := (Z.of_nat (length s) < 2 ^ 30)%Z.
Lemma shorter_app : forall a b, shorter (a ++ b) -> shorter a /\ shorter b.
Proof. intros a b H. unfold shorter in *. rewrite app_length in H. lia. Qed.
Lemma shorter_cons : forall a b, shorter (a :: b) -> shorter b.
Proof. intros a b H. unfold shorter in *. cbn [length] in H. lia. Qed.
Lemma items_blank : forall w t l, blank w -> items_say t l -> items_say (w ++ t) l.
Proof. intros w t l B H. destruct H as [w0 t v w' B0 V B'|w0 t v w' r l B0 V B' R]; rewrite app_assoc; constructor; auto; now apply blank_app. Qed.
Lemma members_blank : forall w t l, blank w -> members_say t l -> members_say (w ++ t) l.
Proof. intros w t l B H. destruct H as [w0 k s w1 w2 t v w' B0 K B1 B2 V B'|w0 k s w1 w2 t v w' r m B0 K B1 B2 V B' R]; rewrite app_assoc; constructor; auto; now apply blank_app. Qed.

Lemma max_cons : forall d x l, x <= d -> list_max l <= d -> list_max (x :: l) <= d.
Proof. intros d x l A B. change (list_max (x :: l)) with (Nat.max x (list_max l)). lia. Qed.
Section Meant.
  Context (value : bytes -> outcome (fvalue * bytes)) (d : nat)
    (value_meant : forall s v rest, shorter s -> value s = Ok (v, rest) -> exists t, s = t ++ rest /\ value_says t v /\ nesting v <= d).

  Lemma elements_meant : forall fuel s l rest, shorter s -> read_elements value fuel s = Ok (l, rest) ->
    exists t, s = t ++ "]" :: rest /\ items_say t l /\ list_max (map nesting l) <= d.
  Proof.
    induction fuel as [|fuel IH]; intros s l rest SH H; [discriminate H|]. cbn [read_elements] in H. apply bind_ok in H. destruct H as ([v s1] & V & H). cbn [fst snd] in H. destruct (value_meant _ _ _ SH V) as (t & -> & VS & DV). apply shorter_app in SH. destruct SH as [_ SH].
    destruct (skip_is s1) as (w & B & E & _). destruct (skip_space s1) as [|b s']; [discriminate H|]. rewrite E in SH |- *. apply shorter_app in SH. destruct SH as [_ SH]. apply shorter_cons in SH. destruct (beqb b ",") eqn:CM.
    - apply beqb_eq in CM. subst b. apply bind_ok in H. destruct H as ([l' r] & H & X). cbn [fst snd] in X. assert (l = v :: l' /\ r = rest) as [-> ->] by (split; congruence). destruct (skip_is s') as (w' & B' & E' & _). rewrite E' in SH. apply shorter_app in SH. destruct SH as [_ SH]. destruct (IH _ _ _ SH H) as (t' & E2 & IS & DL). rewrite E2 in E'.
      exists (t ++ w ++ "," :: w' ++ t'). split; [rewrite E', <- !app_assoc; cbn [app]; now rewrite <- !app_assoc|]. split; [|cbn [map]; apply max_cons; auto; apply Nat.le_0_l]. change (t ++ w ++ "," :: w' ++ t') with ([] ++ t ++ w ++ "," :: w' ++ t'). apply is_more; auto; [constructor|now apply items_blank].
    - destruct (beqb b "]") eqn:CB; [|discriminate H]. apply beqb_eq in CB. subst b. assert (l = [v] /\ s' = rest) as [-> ->] by (split; congruence). exists (t ++ w). split; [now rewrite <- app_assoc|]. split; [|cbn [map]; apply max_cons; auto; apply Nat.le_0_l]. change (t ++ w) with ([] ++ t ++ w). apply is_one; auto. constructor.
  Qed.
  Lemma array_meant : forall s l rest, shorter s -> read_array value s = Ok (l, rest) -> exists t, s = t ++ rest /\ value_says ("[" :: t) (FSeq l) /\ nesting (FSeq l) <= S d.
  Proof.
    intros s l rest SH H. unfold read_array in H. destruct (skip_is s) as (w & B & E & _). destruct (skip_space s) as [|b s']; [discriminate H|]. destruct (beqb b "]") eqn:CB.
    - apply beqb_eq in CB. subst b. assert (l = [] /\ s' = rest) as [-> ->] by (split; congruence). exists (w ++ ["]"]). split; [rewrite E, <- app_assoc; reflexivity|]. split; [now apply vs_no_items|cbn; lia].
    - rewrite E in SH. apply shorter_app in SH. destruct SH as [_ SH]. destruct (elements_meant _ _ _ _ SH H) as (t & E' & IS & DL). exists ((w ++ t) ++ ["]"]). split; [rewrite E, E', <- !app_assoc; reflexivity|]. split; [apply vs_items; now apply items_blank|]. cbn [nesting]. lia.
  Qed.
  Lemma entry_meant : forall s kv rest, shorter s -> read_entry value s = Ok (kv, rest) ->
    exists k key w1 w2 t v, s = (x22 :: k ++ x22 :: w1 ++ ":" :: w2 ++ t) ++ rest /\ kv = (FStr key, v) /\ chars k key /\ blank w1 /\ blank w2 /\ value_says t v /\ nesting v <= d.
  Proof.
    intros s kv rest SH H. unfold read_entry in H. destruct s as [|b s1]; [discriminate H|]. destruct (beqb b x22) eqn:Q; [|discriminate H]. apply beqb_eq in Q. subst b. apply bind_ok in H. destruct H as ([key s2] & K & H). cbn [fst snd] in H. destruct (string_meant _ _ _ _ K) as (k & -> & CH).
    destruct (skip_is s2) as (w1 & B1 & E1 & _). destruct (skip_space s2) as [|c s3]; [discriminate H|]. destruct (beqb c ":") eqn:CL; [|discriminate H]. apply beqb_eq in CL. subst c. apply bind_ok in H. destruct H as ([v s4] & V & H). cbn [fst snd] in H. assert (kv = (FStr key, v) /\ s4 = rest) as [-> ->] by (split; congruence).
    destruct (skip_is s3) as (w2 & B2 & E2 & _). rewrite E1 in SH. apply shorter_cons, shorter_app in SH. destruct SH as [_ SH]. apply shorter_cons, shorter_app in SH. destruct SH as [_ SH]. apply shorter_cons in SH. rewrite E2 in SH. apply shorter_app in SH. destruct SH as [_ SH]. destruct (value_meant _ _ _ SH V) as (t & E3 & VS & DV).
    exists k, key, w1, w2, t, v. rewrite E3 in E2. rewrite E1, E2. cbn [app]. split; [|auto 9]. f_equal. rewrite <- app_assoc. cbn [app]. do 2 f_equal. rewrite <- app_assoc. cbn [app]. now rewrite <- app_assoc.
  Qed.
  Lemma entries_meant : forall fuel s m rest, shorter s -> read_entries value fuel s = Ok (m, rest) ->
    exists t, s = t ++ "}" :: rest /\ members_say t m /\ list_max (map (fun kv => nesting (snd kv)) m) <= d.
  Proof.
    induction fuel as [|fuel IH]; intros s m rest SH H; [discriminate H|]. cbn [read_entries] in H. apply bind_ok in H. destruct H as ([kv s1] & V & H). cbn [fst snd] in H. destruct (entry_meant _ _ _ SH V) as (k & key & w1 & w2 & t & v & -> & -> & CH & B1 & B2 & VS & DV). apply shorter_app in SH. destruct SH as [_ SH].
    destruct (skip_is s1) as (w & B & E & _). destruct (skip_space s1) as [|b s']; [discriminate H|]. rewrite E in SH |- *. apply shorter_app in SH. destruct SH as [_ SH]. apply shorter_cons in SH. destruct (beqb b ",") eqn:CM.
    - apply beqb_eq in CM. subst b. apply bind_ok in H. destruct H as ([l' r] & H & X). cbn [fst snd] in X. assert (m = (FStr key, v) :: l' /\ r = rest) as [-> ->] by (split; congruence). destruct (skip_is s') as (w' & B' & E' & _). rewrite E' in SH. apply shorter_app in SH. destruct SH as [_ SH]. destruct (IH _ _ _ SH H) as (t' & E2 & IS & DL). rewrite E2 in E'.
      exists ([] ++ x22 :: k ++ x22 :: w1 ++ ":" :: w2 ++ t ++ w ++ "," :: w' ++ t'). split; [rewrite E'; cbn [app]; f_equal; repeat (rewrite <- app_assoc; cbn [app]); reflexivity|]. split; [|cbn [map snd]; apply max_cons; auto]. apply ms_more; auto; [constructor|now apply members_blank].
    - destruct (beqb b "}") eqn:CB; [|discriminate H]. apply beqb_eq in CB. subst b. assert (m = [(FStr key, v)] /\ s' = rest) as [-> ->] by (split; congruence). exists ([] ++ x22 :: k ++ x22 :: w1 ++ ":" :: w2 ++ t ++ w). split; [cbn [app]; f_equal; repeat (rewrite <- app_assoc; cbn [app]); reflexivity|]. split; [|cbn [map snd]; apply max_cons; auto; apply Nat.le_0_l]. apply ms_one; auto. constructor.
  Qed.
  Lemma object_meant : forall s m rest, shorter s -> read_object value s = Ok (m, rest) -> exists t, s = t ++ rest /\ value_says ("{" :: t) (FMap m) /\ nesting (FMap m) <= S d.
  Proof.
    intros s m rest SH H. unfold read_object in H. destruct (skip_is s) as (w & B & E & _). destruct (skip_space s) as [|b s']; [discriminate H|]. destruct (beqb b "}") eqn:CB.
    - apply beqb_eq in CB. subst b. assert (m = [] /\ s' = rest) as [-> ->] by (split; congruence). exists (w ++ ["}"]). split; [rewrite E, <- app_assoc; reflexivity|]. split; [now apply vs_no_members|cbn; lia].
    - rewrite E in SH. apply shorter_app in SH. destruct SH as [_ SH]. destruct (entries_meant _ _ _ _ SH H) as (t & E' & IS & DL). exists ((w ++ t) ++ ["}"]). split; [rewrite E, E', <- !app_assoc; reflexivity|]. split; [apply vs_members; now apply members_blank|]. cbn [nesting]. lia.
  Qed.
End Meant.

Lemma word_meant : forall w v s v' rest, read_word w v s = Ok (v', rest) -> s = lit w ++ rest /\ v' = v.
Proof. intros w v s v' rest H. unfold read_word in H. destruct (strip_prefix (lit w) s) as [s'|] eqn:S; [|discriminate H]. apply strip_prefix_some in S. split; congruence. Qed.
Lemma value_meant : forall d s v rest, shorter s -> read_value d s = Ok (v, rest) -> exists t, s = t ++ rest /\ value_says t v /\ nesting v <= d - 1.
Proof.
  induction d as [|d IH]; intros s v rest SH H; (destruct s as [|b s']; [discriminate H|]); cbn [read_value] in H.
  all: destruct (beqb b "n"); [apply word_meant in H; destruct H as [-> ->]; exists (lit "null"); split; [reflexivity|]; split; [apply vs_null|cbn; lia]|].
  all: destruct (beqb b "t"); [apply word_meant in H; destruct H as [-> ->]; exists (lit "true"); split; [reflexivity|]; split; [apply vs_true|cbn; lia]|].
  all: destruct (beqb b "f"); [apply word_meant in H; destruct H as [-> ->]; exists (lit "false"); split; [reflexivity|]; split; [apply vs_false|cbn; lia]|].
  all: destruct (beqb b "-") eqn:MN; [apply beqb_eq in MN; subst b; apply bind_ok in H; destruct H as ([n r] & H & E); cbn [fst snd] in E; assert (v = FNum n /\ r = rest) as [-> ->] by (split; congruence); destruct (number_meant _ _ _ _ (shorter_cons _ _ SH) H) as (t & -> & NS & _); exists ("-" :: t); split; [reflexivity|]; split; [apply vs_number, NS|cbn; lia]|].
  all: destruct (is_digit b); [apply bind_ok in H; destruct H as ([n r] & H & E); cbn [fst snd] in E; assert (v = FNum n /\ r = rest) as [-> ->] by (split; congruence); destruct (number_meant _ _ _ _ SH H) as (t & -> & NS & _); exists t; split; [reflexivity|]; split; [apply vs_number, NS|cbn; lia]|].
  all: destruct (beqb b x22) eqn:QT; [apply beqb_eq in QT; subst b; apply bind_ok in H; destruct H as ([x r] & H & E); cbn [fst snd] in E; assert (v = FStr x /\ r = rest) as [-> ->] by (split; congruence); destruct (string_meant _ _ _ _ H) as (t & -> & CH); exists (x22 :: t ++ [x22]); split; [cbn [app]; rewrite <- app_assoc; reflexivity|]; split; [now apply vs_string|cbn; lia]|].
  - discriminate H.
  - destruct d as [|d]; [discriminate H|]. pose proof (shorter_cons _ _ SH) as SH'. destruct (beqb b "[") eqn:OB.
    + apply beqb_eq in OB. subst b. apply bind_ok in H. destruct H as ([l r] & H & E). cbn [fst snd] in E. assert (v = FSeq l /\ r = rest) as [-> ->] by (split; congruence). destruct (array_meant _ (S d - 1) IH _ _ _ SH' H) as (t & -> & VS & DV). exists ("[" :: t). split; auto. split; auto. lia.
    + destruct (beqb b "{") eqn:OC; [|discriminate H]. apply beqb_eq in OC. subst b. apply bind_ok in H. destruct H as ([l r] & H & E). cbn [fst snd] in E. assert (v = FMap l /\ r = rest) as [-> ->] by (split; congruence). destruct (object_meant _ (S d - 1) IH _ _ _ SH' H) as (t & -> & VS & DV). exists ("{" :: t). split; auto. split; auto. lia.
Qed.
Lemma document_at_meant : forall d s m, shorter s ->
  (let* r := read_value d (skip_space s) in match fst r, skip_space (snd r) with FMap m, [] => Ok m | _, _ => json_fail end) = Ok m -> json_says s m /\ nesting (FMap m) <= d - 1.
Proof.
  intros d s m SH H. apply bind_ok in H. destruct H as ([v r] & V & H). cbn [fst snd] in H. destruct (skip_is s) as (w & B & E & _). destruct (skip_is r) as (w' & B' & E' & _). destruct v as [m0| | | | | | |]; try discriminate H. destruct (skip_space r) as [|c r']; [|discriminate H]. assert (m0 = m) as -> by congruence.
  rewrite E in SH. apply shorter_app in SH. destruct SH as [_ SH]. destruct (value_meant _ _ _ _ SH V) as (t & E2 & VS & DV). rewrite app_nil_r in E'. subst w'. split; [|exact DV]. exists w, t, r. rewrite E2 in E. auto.
Qed.
Theorem document_meant : forall s m, shorter s -> json_read s = Ok m -> json_says s m /\ nesting (FMap m) <= 127.
Proof. unfold json_read. intros s m SH H. exact (document_at_meant 128 s m SH H). Qed.

(** * What the text says is read *)
Lemma plain_whole : forall t neg d k, number_text t neg d k true -> k = 0%Z.
Proof. intros t neg d k H. remember true as p eqn:P. destruct H as [neg ip ft fp et x W F X]. destruct F; [|discriminate P]. destruct X; [reflexivity|discriminate P]. Qed.
Lemma ten_is : forall k, Qpower (10 # 1) k = ten k.
Proof. reflexivity. Qed.
Lemma integer_in_range : forall neg d z, is_integer neg d z -> (decimal d 0 <= (1797 # 1) * ten 305)%Q.
Proof.
  intros neg d z H. assert (L : (d <= 2 ^ 64)%N) by (destruct neg, H; change (2 ^ 63)%N with 9223372036854775808%N in *; change (2 ^ 64)%N with 18446744073709551616%N in *; lia).
  unfold decimal. change (Qpower (10 # 1) 0) with 1%Q. apply nq_le in L. unfold nq in L. rewrite Qmult_1_r. eapply Qle_trans; [exact L|]. vm_compute. discriminate.
Qed.
Lemma float_in_range : forall neg d k x, approximates neg d k x -> in_reach x -> (decimal d k <= (1797 # 1) * ten 305)%Q.
Proof.
  intros neg d k x (m & e & -> & C & [_ U] & _) R. unfold in_reach in R. assert (E : (e <= 971)%Z). { assert (C' : f64_canonical (FFin false m e) = true) by exact C. destruct (canonical_cases _ _ _ C') as [[-> _]|[Y _]]; lia. }
  pose proof (two_le e 971 E) as T. change (two e) with (Qpower (2 # 1) e) in T. change (two 971) with (Qpower (2 # 1) 971) in T. change (Qpower (10 # 1) 305) with (ten 305) in R.
  assert (X : ((1796 # 1) * ten 305 + (8 # 1) * Qpower (2 # 1) 971 <= (1797 # 1) * ten 305)%Q) by (vm_compute; discriminate).
  set (a := ((1796 # 1) * ten 305)%Q) in *. set (b := ((1797 # 1) * ten 305)%Q) in *. set (c := Qpower (2 # 1) 971) in *. set (p := Qpower (2 # 1) e) in *. set (q := decimal d k) in *. set (r := magnitude m e) in *. clearbody a b c p q r. lra.
Qed.
Lemma integer_one : forall neg d z z', is_integer neg d z -> is_integer neg d z' -> z = z'.
Proof. intros [|] d z z' [_ ->] [_ ->]; reflexivity. Qed.
Lemma value_number : forall c s d, is_digit c = true -> read_value d (c :: s) = let* r := read_number true (c :: s) in Ok (FNum (fst r), snd r).
Proof. intros c s d D. destruct c; try discriminate D; destruct d; reflexivity. Qed.
Lemma value_minus : forall s d, read_value d ("-" :: s) = let* r := read_number false s in Ok (FNum (fst r), snd r).
Proof. intros s d. destruct d; reflexivity. Qed.
Lemma value_quote : forall s d, read_value d (x22 :: s) = let* r := read_string (length s) s in Ok (FStr (fst r), snd r).
Proof. intros s d. destruct d; reflexivity. Qed.
Lemma number_value : forall t n d rest, number_says t n -> shorter t -> floats_in_reach (FNum n) -> number_ends rest -> exists v, read_value d (t ++ rest) = Ok (v, rest) /\ alike (FNum n) v.
Proof.
  intros t n d rest H SH FR NE.
  assert (G : forall t neg de k plain, number_text t neg de k plain -> (decimal de k <= (1797 # 1) * ten 305)%Q -> shorter t ->
     exists n, read_value d (t ++ rest) = Ok (FNum n, rest) /\ match n with NInt z => plain = true /\ is_integer neg de z | NFlt y => (plain = true -> forall z, ~ is_integer neg de z) /\ approximates neg de k y end).
  { clear - NE. intros t neg de k plain NT L SH. destruct (number_reads _ _ _ _ _ rest NT L SH NE) as (t' & c & t'' & n & -> & -> & D & R & S). exists n. split; auto. unfold plus_sign. rewrite negb_involutive. destruct neg; cbn [app negb] in *.
    - rewrite value_minus, R. reflexivity.
    - rewrite value_number, R by auto. reflexivity. }
  destruct H as [t neg de k z NT I|t neg de k plain x NT NI AP].
  - assert (k = 0%Z) as -> by (eapply plain_whole; eauto). destruct (G _ _ _ _ _ NT (integer_in_range _ _ _ I) SH) as (n & R & S). exists (FNum n). split; auto. destruct n as [z'|y].
    + destruct S as [_ S]. rewrite (integer_one _ _ _ _ I S). apply al_same.
    + destruct S as [S _]. now destruct (S eq_refl z).
  - destruct (G _ _ _ _ _ NT (float_in_range _ _ _ _ AP FR) SH) as (n & R & S). exists (FNum n). split; auto. destruct n as [z'|y].
    + destruct S as [-> S]. now destruct (NI eq_refl z').
    + destruct S as [_ S]. apply (al_float neg de k); auto.
Qed.

Lemma value_starts : forall t v, value_says t v -> starts t.
Proof.
  intros t v H. destruct H as [| | |t n H|t s C|w B|t l I|w B|t m M]; try (cbn; auto; fail).
  assert (G : forall t neg d k p, number_text t neg d k p -> starts t).
  { intros u neg d k p NT. destruct NT as [neg ip ft fp et x (D & NE & _) _ _]. destruct neg; [cbn; auto|]. destruct ip as [|c ip]; [congruence|]. apply digits_all in D. assert (DC : is_digit c = true) by (apply D; now left). cbn [app starts]. destruct c; try discriminate DC; auto. }
  destruct H; eauto.
Qed.
Lemma items_begin : forall t l r, items_say t l -> exists b s, skip_space (t ++ r) = b :: s /\ beqb b "]" = false.
Proof.
  intros t l r H. assert (G : forall w t v r, blank w -> value_says t v -> exists b s, skip_space ((w ++ t) ++ r) = b :: s /\ beqb b "]" = false).
  { intros w u v r' B V. rewrite <- app_assoc, skip_blank by auto. apply value_starts in V. rewrite skip_starts by auto. destruct u as [|b s]; [destruct V|]. destruct V as (_ & X & _). exists b, (s ++ r'). auto. }
  destruct H as [w t v w' B V B'|w t v w' r0 l B V B' R].
  - rewrite app_assoc, <- app_assoc. eapply G; eauto.
  - rewrite (app_assoc w t), <- (app_assoc (w ++ t)). eapply G; eauto.
Qed.
Lemma members_begin : forall t m r, members_say t m -> exists s, skip_space (t ++ r) = x22 :: s.
Proof. intros t m r H. destruct H; rewrite <- app_assoc, skip_blank by auto; eexists; reflexivity. Qed.
Lemma read_seq : forall d s, read_value (S (S d)) ("[" :: s) = let* r := read_array (read_value (S d)) s in Ok (FSeq (fst r), snd r).
Proof. reflexivity. Qed.
Lemma read_map_value : forall d s, read_value (S (S d)) ("{" :: s) = let* r := read_object (read_value (S d)) s in Ok (FMap (fst r), snd r).
Proof. reflexivity. Qed.

Definition same_entry (a b : fvalue * fvalue) : Prop := fst a = fst b /\ alike (snd a) (snd b).
Lemma max_below : forall x l d, list_max (x :: l) < d -> x < d /\ list_max l < d.
Proof. intros x l d H. change (list_max (x :: l)) with (Nat.max x (list_max l)) in H. lia. Qed.
Lemma word_reads : forall w v d rest, In (w, v) [("null", FNull); ("true", FBool true); ("false", FBool false)]%string -> read_value d (lit w ++ rest) = Ok (v, rest).
Proof.
  intros w v d rest H. assert (G : read_word w v (lit w ++ rest) = Ok (v, rest)) by (unfold read_word; now rewrite strip_prefix_app).
  rewrite <- G. destruct H as [H|[H|[H|[]]]]; injection H as <- <-; destruct d; reflexivity.
Qed.
Lemma shorter_wrapped : forall c t e, shorter (c :: t ++ e) -> shorter t.
Proof. intros c t e H. apply shorter_cons, shorter_app in H. apply H. Qed.

Theorem value_reads :
  (forall t v, value_says t v -> forall d rest, shorter t -> nesting v < d -> floats_in_reach v -> number_ends rest -> exists v', read_value d (t ++ rest) = Ok (v', rest) /\ alike v v')
  /\ (forall t l, items_say t l -> forall d fuel rest, shorter t -> list_max (map nesting l) < d -> fold_right and True (map floats_in_reach l) -> length t < fuel ->
        exists l', read_elements (read_value d) fuel (skip_space (t ++ "]" :: rest)) = Ok (l', rest) /\ Forall2 alike l l')
  /\ (forall t m, members_say t m -> forall d fuel rest, shorter t -> list_max (map (fun kv => nesting (snd kv)) m) < d -> fold_right and True (map (fun kv => floats_in_reach (snd kv)) m) -> length t < fuel ->
        exists m', read_entries (read_value d) fuel (skip_space (t ++ "}" :: rest)) = Ok (m', rest) /\ Forall2 same_entry m m').
Proof.
  apply says_ind.
  - intros d rest _ _ _ _. exists FNull. split; [apply word_reads; cbn; auto|apply al_same].
  - intros d rest _ _ _ _. exists (FBool true). split; [apply word_reads; cbn; auto|apply al_same].
  - intros d rest _ _ _ _. exists (FBool false). split; [apply word_reads; cbn; auto|apply al_same].
  - intros t n H d rest SH _ FR NE. now apply number_value.
  - intros t s C d rest SH _ _ _. exists (FStr s). split; [|apply al_same]. change ((x22 :: t ++ [x22]) ++ rest) with (x22 :: (t ++ [x22]) ++ rest). rewrite <- app_assoc. cbn [app]. rewrite value_quote. rewrite (string_reads t s C) by (rewrite app_length; cbn [length]; lia). reflexivity.
  - intros w B d rest _ N _ _. exists (FSeq []). split; [|apply al_same]. destruct d as [|[|d]]; [lia|cbn in N; lia|]. change (("[" :: w ++ ["]"]) ++ rest) with ("[" :: (w ++ ["]"]) ++ rest). rewrite <- app_assoc, read_seq. unfold read_array. rewrite skip_blank by auto. reflexivity.
  - intros t l I IH d rest SH N FR NE. cbn [nesting floats_in_reach] in N, FR. destruct d as [|[|d]]; [lia|lia|]. change (("[" :: t ++ ["]"]) ++ rest) with ("[" :: (t ++ ["]"]) ++ rest). rewrite <- app_assoc. cbn [app]. rewrite read_seq. apply shorter_wrapped in SH.
    destruct (IH (S d) (length (t ++ "]" :: rest)) rest SH ltac:(lia) FR) as (l' & R & F). { rewrite app_length. cbn [length]. lia. }
    exists (FSeq l'). split; [|now apply al_seq]. unfold read_array. destruct (items_begin t l ("]" :: rest) I) as (b & s & E & X). rewrite E in R |- *. rewrite X, R. reflexivity.
  - intros w B d rest _ N _ _. exists (FMap []). split; [|apply al_same]. destruct d as [|[|d]]; [lia|cbn in N; lia|]. change (("{" :: w ++ ["}"]) ++ rest) with ("{" :: (w ++ ["}"]) ++ rest). rewrite <- app_assoc, read_map_value. unfold read_object. rewrite skip_blank by auto. reflexivity.
  - intros t m I IH d rest SH N FR NE. cbn [nesting floats_in_reach] in N, FR. destruct d as [|[|d]]; [lia|lia|]. change (("{" :: t ++ ["}"]) ++ rest) with ("{" :: (t ++ ["}"]) ++ rest). rewrite <- app_assoc. cbn [app]. rewrite read_map_value. apply shorter_wrapped in SH.
    destruct (IH (S d) (length (t ++ "}" :: rest)) rest SH ltac:(lia) FR) as (l' & R & F). { rewrite app_length. cbn [length]. lia. }
    exists (FMap l'). split; [|now apply al_map]. unfold read_object. destruct (members_begin t m ("}" :: rest) I) as (s & E). rewrite E in R |- *. change (beqb x22 "}") with false. cbv iota. rewrite R. reflexivity.
  - intros w t v w' B V IH B' d fuel rest SH N FR L. cbn [map fold_right] in N, FR. apply max_below in N. destruct N as [N _]. destruct FR as [FR _]. destruct fuel as [|fuel]; [lia|]. apply shorter_app in SH. destruct SH as [_ SH]. apply shorter_app in SH. destruct SH as [SH _].
    rewrite <- !app_assoc, skip_blank, skip_starts by (auto; now apply (value_starts t v)). destruct (IH d (w' ++ "]" :: rest) SH N FR) as (v' & R & A). { apply blank_ends; auto. cbn; auto. }
    exists [v']. split; [|auto]. cbn [read_elements]. rewrite R. cbn [bind snd]. rewrite skip_blank by auto. reflexivity.
  - intros w t v w' r l B V IH B' I IH2 d fuel rest SH N FR L. cbn [map fold_right] in N, FR. apply max_below in N. destruct N as [N N2]. destruct FR as [FR FR2]. destruct fuel as [|fuel]; [lia|]. rewrite !app_length in L. cbn [length] in L. apply shorter_app in SH. destruct SH as [_ SH]. apply shorter_app in SH. destruct SH as [SH SH2]. apply shorter_app in SH2. destruct SH2 as [_ SH2]. apply shorter_cons in SH2.
    rewrite <- !app_assoc, skip_blank, skip_starts by (auto; now apply (value_starts t v)). cbn [app]. destruct (IH d (w' ++ "," :: r ++ "]" :: rest) SH N FR) as (v' & R & A). { apply blank_ends; auto. cbn; auto. }
    destruct (IH2 d fuel rest SH2 N2 FR2 ltac:(lia)) as (l' & R2 & F). exists (v' :: l'). split; [|auto]. cbn [read_elements]. rewrite R. cbn [bind snd]. rewrite skip_blank by auto. change (skip_space ("," :: r ++ "]" :: rest)) with ("," :: r ++ "]" :: rest). cbv iota. change (beqb "," ",") with true. cbv iota. rewrite R2. reflexivity.
  - intros w k s w1 w2 t v w' B C B1 B2 V IH B' d fuel rest SH N FR L. cbn [map fold_right snd] in N, FR. apply max_below in N. destruct N as [N _]. destruct FR as [FR _]. destruct fuel as [|fuel]; [lia|].
    apply shorter_app in SH. destruct SH as [_ SH]. apply shorter_cons, shorter_app in SH. destruct SH as [_ SH]. apply shorter_cons, shorter_app in SH. destruct SH as [_ SH]. apply shorter_cons, shorter_app in SH. destruct SH as [_ SH]. apply shorter_app in SH. destruct SH as [SH _].
    destruct (IH d (w' ++ "}" :: rest) SH N FR) as (v' & R & A). { apply blank_ends; auto. cbn; auto. }
    exists [(FStr s, v')]. split; [|constructor; [split; auto|constructor]]. repeat (rewrite <- app_assoc; cbn [app]). rewrite skip_blank by auto. change (skip_space (x22 :: k ++ x22 :: w1 ++ ":" :: w2 ++ t ++ w' ++ "}" :: rest)) with (x22 :: k ++ x22 :: w1 ++ ":" :: w2 ++ t ++ w' ++ "}" :: rest).
    cbn [read_entries]. unfold read_entry. change (beqb x22 x22) with true. cbv iota. rewrite (string_reads k s C) by (rewrite app_length; cbn [length]; lia). cbn [bind fst snd]. rewrite skip_blank by auto. change (skip_space (":" :: w2 ++ t ++ w' ++ "}" :: rest)) with (":" :: w2 ++ t ++ w' ++ "}" :: rest). cbv iota. change (beqb ":" ":") with true. cbv iota.
    rewrite skip_blank, skip_starts by (auto; now apply (value_starts t v)). rewrite R. cbn [bind fst snd]. rewrite skip_blank by auto. reflexivity.
  - intros w k s w1 w2 t v w' r m B C B1 B2 V IH B' I IH2 d fuel rest SH N FR L. cbn [map fold_right snd] in N, FR. apply max_below in N. destruct N as [N N2]. destruct FR as [FR FR2]. destruct fuel as [|fuel]; [lia|].
    assert (L' : length r < fuel) by (repeat (rewrite ?app_length in L; cbn [length] in L); lia).
    apply shorter_app in SH. destruct SH as [_ SH]. apply shorter_cons, shorter_app in SH. destruct SH as [_ SH]. apply shorter_cons, shorter_app in SH. destruct SH as [_ SH]. apply shorter_cons, shorter_app in SH. destruct SH as [_ SH]. apply shorter_app in SH. destruct SH as [SH SH2]. apply shorter_app in SH2. destruct SH2 as [_ SH2]. apply shorter_cons in SH2.
    destruct (IH d (w' ++ "," :: r ++ "}" :: rest) SH N FR) as (v' & R & A). { apply blank_ends; auto. cbn; auto. }
    destruct (IH2 d fuel rest SH2 N2 FR2 L') as (m' & R2 & F).
    exists ((FStr s, v') :: m'). split; [|constructor; [split; auto|auto]]. repeat (rewrite <- app_assoc; cbn [app]). rewrite skip_blank by auto. change (skip_space (x22 :: k ++ x22 :: w1 ++ ":" :: w2 ++ t ++ w' ++ "," :: r ++ "}" :: rest)) with (x22 :: k ++ x22 :: w1 ++ ":" :: w2 ++ t ++ w' ++ "," :: r ++ "}" :: rest).
    cbn [read_entries]. unfold read_entry. change (beqb x22 x22) with true. cbv iota. rewrite (string_reads k s C) by (rewrite app_length; cbn [length]; lia). cbn [bind fst snd]. rewrite skip_blank by auto. change (skip_space (":" :: w2 ++ t ++ w' ++ "," :: r ++ "}" :: rest)) with (":" :: w2 ++ t ++ w' ++ "," :: r ++ "}" :: rest). cbv iota. change (beqb ":" ":") with true. cbv iota.
    rewrite skip_blank, skip_starts by (auto; now apply (value_starts t v)). rewrite R. cbn [bind fst snd]. rewrite skip_blank by auto. change (skip_space ("," :: r ++ "}" :: rest)) with ("," :: r ++ "}" :: rest). cbv iota. change (beqb "," ",") with true. cbv iota. rewrite R2. reflexivity.
Qed.
Lemma document_at_reads : forall d s m, shorter s -> json_says s m -> nesting (FMap m) < d -> floats_in_reach (FMap m) ->
  exists m', (let* r := read_value d (skip_space s) in match fst r, skip_space (snd r) with FMap m, [] => Ok m | _, _ => json_fail end) = Ok m' /\ Forall2 same_entry m m'.
Proof.
  intros d s m SH (w & t & w' & B & V & B' & ->) N FR. apply shorter_app in SH. destruct SH as [_ SH]. apply shorter_app in SH. destruct SH as [SH _]. rewrite skip_blank, skip_starts by (auto; now apply (value_starts t (FMap m))).
  destruct (proj1 value_reads t (FMap m) V d w' SH N FR (blank_end w' B')) as (v' & R & A). rewrite R. cbn [bind fst snd]. replace (skip_space w') with (@nil byte) by (rewrite <- (app_nil_r w'), skip_blank by auto; reflexivity).
  inversion A as [x E1 E2|neg d0 k x y A1 A2 E1 E2|l l' F E1 E2|m0 m' F E1 E2]; subst; [exists m; split; auto|exists m'; split; auto]. clear. induction m as [|kv m IH]; constructor; auto. split; auto. apply al_same.
Qed.
Theorem document_reads : forall s m, shorter s -> json_says s m -> nesting (FMap m) <= 127 -> floats_in_reach (FMap m) -> exists m', json_read s = Ok m' /\ Forall2 same_entry m m'.
Proof. unfold json_read. intros s m SH H N FR. exact (document_at_reads 128 s m SH H (le_n_S _ _ N) FR). Qed.
