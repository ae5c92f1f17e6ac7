(** Reading the beginning of a JSON text. *)
From Coq Require Import Lia.
From Verif.Model Require Import Json Chrono.
From Verif.Proofs Require Import BytesFacts.
Open Scope byte_scope.

(** * Texts that go on *)

Ltac binds H := match type of H with (let* _ := ?x in _) = _ => let E := fresh "E" in destruct x as [?|?|] eqn:E; cbn [bind] in H; try discriminate H end.

Lemma strip_more : forall p s r t, strip_prefix p s = Some r -> strip_prefix p (s ++ t) = Some (r ++ t).
Proof.
  induction p as [|x p IH]; intros s r t H; [injection H as <-; reflexivity|]. destruct s as [|y s]; [discriminate|]. cbn in H |- *. destruct (beqb x y); [auto|discriminate].
Qed.
Lemma hex4_more : forall s n r t, hex4 s = Some (n, r) -> hex4 (s ++ t) = Some (n, r ++ t).
Proof.
  intros [|a [|b [|c [|d s]]]] n r t H; try discriminate H. cbn [hex4 app] in H |- *.
  destruct (hex_val a), (hex_val b), (hex_val c), (hex_val d); try discriminate H. inversion H; subst. reflexivity.
Qed.
Lemma unicode_more : forall s u r t, unicode_escape s = Ok (u, r) -> unicode_escape (s ++ t) = Ok (u, r ++ t).
Proof.
  unfold unicode_escape. intros s u r t H. destruct (hex4 s) as [[n s1]|] eqn:E; [|discriminate]. rewrite (hex4_more _ _ _ t E).
  destruct ((56320 <=? n) && (n <=? 57343))%N; [discriminate|]. destruct ((55296 <=? n) && (n <=? 56319))%N; [|now inversion H; subst].
  destruct (strip_prefix (lit "\u") s1) as [s2|] eqn:F; [|discriminate]. rewrite (strip_more _ _ _ t F). destruct (hex4 s2) as [[n2 s3]|] eqn:G; [|discriminate].
  rewrite (hex4_more _ _ _ t G). destruct ((56320 <=? n2) && (n2 <=? 57343))%N; [now inversion H; subst|discriminate].
Qed.
Lemma string_more : forall fuel s x r t fuel', fuel <= fuel' -> read_string fuel s = Ok (x, r) -> read_string fuel' (s ++ t) = Ok (x, r ++ t).
Proof.
  induction fuel as [|fuel IH]; intros s x r t fuel' L H; [discriminate|]. destruct fuel' as [|fuel']; [lia|]. apply le_S_n in L. destruct s as [|b s]; [discriminate|].
  cbn [read_string app] in H |- *. destruct (beqb b x22); [inversion H; now subst|]. destruct (beqb b "\").
  - destruct s as [|c s]; [discriminate|]. cbn [app]. destruct (simple_escape c) as [y|].
    + binds H. destruct a as [a a']. rewrite (IH _ _ _ t _ L E). cbn [bind fst snd] in *. inversion H; now subst.
    + destruct (beqb c "u"); [|discriminate]. binds H. destruct a as [u s1]. rewrite (unicode_more _ _ _ t E). cbn [bind fst snd] in *. binds H.
      destruct a as [a a']. rewrite (IH _ _ _ t _ L E0). cbn [bind fst snd] in *. inversion H; now subst.
  - destruct (in_range x00 x1f b); [discriminate|]. binds H. destruct a as [a a']. rewrite (IH _ _ _ t _ L E). cbn [bind fst snd] in *. inversion H; now subst.
Qed.
Lemma span_more : forall s ds r t, span_digits s = (ds, r) -> r <> [] -> span_digits (s ++ t) = (ds, r ++ t).
Proof.
  induction s as [|c s IH]; intros ds r t H N; [inversion H; subst; destruct (N eq_refl)|]. cbn [span_digits app] in H |- *. destruct (is_digit c).
  - destruct (span_digits s) as [d r0]. inversion H; subst. now rewrite (IH _ _ t eq_refl N).
  - inversion H; now subst.
Qed.
Lemma signed_more : forall (pos : bool) (n : N) (e : Z) (plus : bool) s1 x r t,
  (let '(ds, rest) := span_digits s1 in
   match ds with
   | [] => json_fail
   | _ => if (i32_max <? digits_N ds)%N then if negb (n =? 0)%N && plus then json_fail else Ok (FFin (negb pos) 0 (-1074), rest)
          else let* y := float_from_parts pos n (clamp_i32 (if plus then e + Z.of_N (digits_N ds) else e - Z.of_N (digits_N ds))) in Ok (y, rest)
   end) = Ok (x, r) -> r <> [] ->
  (let '(ds, rest) := span_digits (s1 ++ t) in
   match ds with
   | [] => json_fail
   | _ => if (i32_max <? digits_N ds)%N then if negb (n =? 0)%N && plus then json_fail else Ok (FFin (negb pos) 0 (-1074), rest)
          else let* y := float_from_parts pos n (clamp_i32 (if plus then e + Z.of_N (digits_N ds) else e - Z.of_N (digits_N ds))) in Ok (y, rest)
   end) = Ok (x, r ++ t).
Proof.
  intros pos n e plus s1 x r t H N. destruct (span_digits s1) as [ds rest] eqn:D. destruct ds as [|d0 ds]; [discriminate|].
  assert (R : rest = r).
  { destruct (i32_max <? digits_N (d0 :: ds))%N.
    - destruct (negb (n =? 0)%N && plus); [discriminate|]. now inversion H.
    - binds H. now inversion H. }
  subst rest. rewrite (span_more _ _ _ t D N). destruct (i32_max <? digits_N (d0 :: ds))%N.
  - destruct (negb (n =? 0)%N && plus); [discriminate|]. now inversion H.
  - binds H. cbn [bind]. now inversion H.
Qed.
Lemma exponent_more : forall pos n e s x r t, read_exponent pos n e s = Ok (x, r) -> r <> [] -> read_exponent pos n e (s ++ t) = Ok (x, r ++ t).
Proof.
  intros pos n e [|b s] x r t H N; [discriminate|]. unfold read_exponent in *. cbn [app]. destruct (beqb b "+"); [exact (signed_more pos n e true s x r t H N)|].
  destruct (beqb b "-"); [exact (signed_more pos n e false s x r t H N)|]. exact (signed_more pos n e true (b :: s) x r t H N).
Qed.
Lemma finish_more : forall pos n e s x r t, finish_float pos n e s = Ok (x, r) -> r <> [] -> finish_float pos n e (s ++ t) = Ok (x, r ++ t).
Proof.
  unfold finish_float. intros pos n e s x r t H N. destruct s as [|b s]; cbn [at_exponent app] in *; [binds H; inversion H; subst; destruct (N eq_refl)|].
  destruct (beqb b "e" || beqb b "E"); [now apply exponent_more|]. binds H. inversion H; now subst.
Qed.
Lemma finish_rest : forall pos n e s x r, finish_float pos n e s = Ok (x, r) -> r <> [] -> s <> [].
Proof. unfold finish_float. intros pos n e s x r H N ->. cbn [at_exponent] in H. binds H. inversion H; subst. now destruct N. Qed.
Lemma decimals_more : forall pos n e s x r t, read_decimals pos n e s = Ok (x, r) -> r <> [] -> read_decimals pos n e (s ++ t) = Ok (x, r ++ t).
Proof.
  unfold read_decimals. intros pos n e s x r t H N. destruct (span_digits s) as [ds rest] eqn:D. destruct ds as [|d0 ds]; [discriminate|].
  destruct (take_decimals n e (d0 :: ds)) as [n' e'] eqn:T. rewrite (span_more _ _ _ t D (finish_rest _ _ _ _ _ _ H N)). rewrite T. now apply finish_more.
Qed.
Lemma ending_more : forall pos n e i s x r t, finish_number pos n e i s = Ok (x, r) -> r <> [] -> s <> [] /\ finish_number pos n e i (s ++ t) = Ok (x, r ++ t).
Proof.
  unfold finish_number. intros pos n e i s x r t H N. destruct s as [|b s].
  - exfalso. apply N. destruct i; [destruct pos; [now inversion H|]; destruct ((1 <=? n) && (n <=? 9223372036854775808))%N; now inversion H|]. binds H. now inversion H.
  - split; [discriminate|]. cbn [app]. destruct (beqb b ".").
    + binds H. destruct a as [y r0]. inversion H; subst. cbn [fst snd] in *. now rewrite (decimals_more _ _ _ _ _ _ t E N).
    + destruct (beqb b "e" || beqb b "E").
      * binds H. destruct a as [y r0]. inversion H; subst. cbn [fst snd] in *. now rewrite (exponent_more _ _ _ _ _ _ t E N).
      * destruct i; [destruct pos; [inversion H; now subst|]; destruct ((1 <=? n) && (n <=? 9223372036854775808))%N; inversion H; now subst|]. binds H. inversion H; now subst.
Qed.
Lemma number_more : forall pos s x r t, read_number pos s = Ok (x, r) -> r <> [] -> read_number pos (s ++ t) = Ok (x, r ++ t).
Proof.
  unfold read_number. intros pos s x r t H N. destruct (span_digits s) as [ds rest] eqn:D. destruct ds as [|b ds]; [discriminate|].
  destruct (beqb b "0" && negb (bytes_eqb ds [])) eqn:Z; [discriminate|]. destruct (take_integer 0 (b :: ds)) as [n more] eqn:T.
  destruct (ending_more _ _ _ _ _ _ _ t H N) as [R F]. rewrite (span_more _ _ _ t D R). rewrite Z, T. exact F.
Qed.

(** * Values *)

Lemma space_more : forall s b r t, skip_space s = b :: r -> skip_space (s ++ t) = b :: r ++ t.
Proof. induction s as [|c s IH]; intros b r t H; [discriminate|]. cbn [skip_space app] in H |- *. destruct (json_space c); [auto|]. inversion H; now subst. Qed.
Lemma space_none : forall s t, skip_space s = [] -> skip_space (s ++ t) = skip_space t.
Proof. induction s as [|c s IH]; intros t H; [reflexivity|]. cbn [skip_space app] in H |- *. destruct (json_space c); [auto|discriminate]. Qed.

Definition goes_on {A} (value : bytes -> outcome (A * bytes)) : Prop := forall s x r t, value s = Ok (x, r) -> r <> [] -> value (s ++ t) = Ok (x, r ++ t).
Lemma nonempty_space : forall r b s, skip_space r = b :: s -> r <> [].
Proof. intros [|c r] b s H; discriminate. Qed.

Section More.
  Context (value : bytes -> outcome (fvalue * bytes)) (V : goes_on value) (V0 : value [] = json_fail).
  Lemma elements_more : forall fuel s x r t fuel', fuel <= fuel' -> read_elements value fuel s = Ok (x, r) -> read_elements value fuel' (s ++ t) = Ok (x, r ++ t).
  Proof.
    induction fuel as [|fuel IH]; intros s x r t fuel' L H; [discriminate|]. destruct fuel' as [|fuel']; [lia|]. apply le_S_n in L. cbn [read_elements] in H |- *. binds H. destruct a as [v r0]. cbn [fst snd] in *.
    destruct (skip_space r0) as [|b s'] eqn:S; [discriminate|]. rewrite (V _ _ _ t E (nonempty_space _ _ _ S)). cbn [bind fst snd]. rewrite (space_more _ _ _ t S).
    destruct (beqb b ",").
    - binds H. destruct a as [l r1]. cbn [fst snd] in *. inversion H; subst. clear H. destruct (skip_space s') as [|c s2] eqn:S2.
      + destruct fuel; [discriminate|]. cbn [read_elements] in E0. rewrite V0 in E0. discriminate.
      + rewrite (space_more _ _ _ t S2). change (c :: s2 ++ t) with ((c :: s2) ++ t). now rewrite (IH _ _ _ t _ L E0).
    - destruct (beqb b "]"); [inversion H; now subst|discriminate].
  Qed.
  Lemma entry_more : goes_on (read_entry value).
  Proof.
    intros [|b s] x r t H N; [discriminate|]. cbn [read_entry app] in H |- *. destruct (beqb b x22); [|discriminate]. binds H. destruct a as [k r0]. cbn [fst snd] in *.
    rewrite (string_more (length s) s k r0 t (length (s ++ t))); [|rewrite app_length; lia|exact E]. cbn [bind fst snd].
    destruct (skip_space r0) as [|c s2] eqn:S; [discriminate|]. rewrite (space_more _ _ _ t S). destruct (beqb c ":"); [|discriminate]. binds H. destruct a as [v r1]. cbn [fst snd] in *.
    inversion H; subst. destruct (skip_space s2) as [|d s3] eqn:S2; [rewrite V0 in E0; discriminate|]. rewrite (space_more _ _ _ t S2).
    change (d :: s3 ++ t) with ((d :: s3) ++ t). now rewrite (V _ _ _ t E0 N).
  Qed.
  Lemma entries_more : forall fuel s x r t fuel', fuel <= fuel' -> read_entries value fuel s = Ok (x, r) -> read_entries value fuel' (s ++ t) = Ok (x, r ++ t).
  Proof.
    induction fuel as [|fuel IH]; intros s x r t fuel' L H; [discriminate|]. destruct fuel' as [|fuel']; [lia|]. apply le_S_n in L. cbn [read_entries] in H |- *. binds H. destruct a as [v r0]. cbn [fst snd] in *.
    destruct (skip_space r0) as [|b s'] eqn:S; [discriminate|]. rewrite (entry_more _ _ _ t E (nonempty_space _ _ _ S)). cbn [bind fst snd]. rewrite (space_more _ _ _ t S).
    destruct (beqb b ",").
    - binds H. destruct a as [l r1]. cbn [fst snd] in *. inversion H; subst. clear H. destruct (skip_space s') as [|c s2] eqn:S2.
      + destruct fuel; discriminate.
      + rewrite (space_more _ _ _ t S2). change (c :: s2 ++ t) with ((c :: s2) ++ t). now rewrite (IH _ _ _ t _ L E0).
    - destruct (beqb b "}"); [inversion H; now subst|discriminate].
  Qed.
  Lemma array_more : forall s x r t, read_array value s = Ok (x, r) -> read_array value (s ++ t) = Ok (x, r ++ t).
  Proof.
    unfold read_array. intros s x r t H. destruct (skip_space s) as [|b s'] eqn:S; [discriminate|]. rewrite (space_more _ _ _ t S). destruct (beqb b "]"); [inversion H; now subst|].
    change (b :: s' ++ t) with ((b :: s') ++ t). eapply elements_more; [|exact H]. rewrite app_length. lia.
  Qed.
  Lemma object_more : forall s x r t, read_object value s = Ok (x, r) -> read_object value (s ++ t) = Ok (x, r ++ t).
  Proof.
    unfold read_object. intros s x r t H. destruct (skip_space s) as [|b s'] eqn:S; [discriminate|]. rewrite (space_more _ _ _ t S). destruct (beqb b "}"); [inversion H; now subst|].
    change (b :: s' ++ t) with ((b :: s') ++ t). eapply entries_more; [|exact H]. rewrite app_length. lia.
  Qed.
End More.

Lemma read_value_nil : forall depth, read_value depth [] = json_fail.
Proof. intros [|d]; reflexivity. Qed.
Lemma word_more : forall w v s x r t, read_word w v s = Ok (x, r) -> read_word w v (s ++ t) = Ok (x, r ++ t).
Proof. unfold read_word. intros w v s x r t H. destruct (strip_prefix (lit w) s) as [s'|] eqn:E; [|discriminate]. rewrite (strip_more _ _ _ t E). inversion H; now subst. Qed.
(** A value goes on as it began, unless it is a number at the very end. *)
Lemma value_more : forall depth s x r t, read_value depth s = Ok (x, r) -> r <> [] \/ (exists m, x = FMap m) -> read_value depth (s ++ t) = Ok (x, r ++ t).
Proof.
  induction depth as [|depth IH]; intros [|b s] x r t H N; try (rewrite read_value_nil in H; discriminate).
  all: cbn [read_value app] in H |- *; destruct (beqb b "n"); [now apply (word_more "null" FNull (b :: s))|]; destruct (beqb b "t"); [now apply (word_more "true" (FBool true) (b :: s))|];
    destruct (beqb b "f"); [now apply (word_more "false" (FBool false) (b :: s))|]; destruct (beqb b "-");
    [binds H; destruct a as [y r0]; cbn [fst snd] in *; inversion H; subst; destruct N as [N|(m & N)]; [|discriminate]; now rewrite (number_more _ _ _ _ t E N)|];
    destruct (is_digit b);
    [binds H; destruct a as [y r0]; cbn [fst snd] in *; inversion H; subst; destruct N as [N|(m & N)]; [|discriminate]; change (b :: s ++ t) with ((b :: s) ++ t); now rewrite (number_more _ _ _ _ t E N)|];
    destruct (beqb b x22);
    [binds H; destruct a as [y r0]; cbn [fst snd] in *; inversion H; subst;
     rewrite (string_more (length s) s y r t (length (s ++ t))); [reflexivity|rewrite app_length; lia|exact E]|].
  - discriminate.
  - destruct depth as [|d]; [discriminate|]. assert (V : goes_on (read_value (S d))) by (intros s0 x0 r0 t0 H0 N0; apply IH; auto).
    destruct (beqb b "[").
    + binds H. destruct a as [y r0]. cbn [fst snd] in *. inversion H; subst. now rewrite (array_more _ V (read_value_nil _) _ _ _ t E).
    + destruct (beqb b "{"); [|discriminate]. binds H. destruct a as [y r0]. cbn [fst snd] in *. inversion H; subst. now rewrite (object_more _ V (read_value_nil _) _ _ _ t E).
Qed.

(** * Documents *)

(** A text that is read goes on with nothing but white space. *)
Theorem json_goes_on : forall s t m m', json_read s = Ok m -> json_read (s ++ t) = Ok m' -> m' = m /\ skip_space t = [].
Proof.
  unfold json_read. intros s t m m' H H'. destruct (skip_space s) as [|b s1] eqn:S; [rewrite read_value_nil in H; discriminate|]. rewrite (space_more _ _ _ t S) in H'.
  binds H. destruct a as [v r]. cbn [fst snd] in *. destruct v as [m0| | | | | | |]; try discriminate. destruct (skip_space r) eqn:R; [|discriminate]. inversion H; subst m0.
  change (b :: s1 ++ t) with ((b :: s1) ++ t) in H'. rewrite (value_more _ _ _ _ t E) in H' by eauto. cbn [bind fst snd] in H'. rewrite (space_none _ _ R) in H'.
  destruct (skip_space t); [|discriminate]. inversion H'; auto.
Qed.
(** What is written ends with a brace. *)
Lemma write_ends : forall es s, json_write es = Ok s -> exists s', s = s' ++ ["}"].
Proof.
  unfold json_write. intros es s H. binds H. destruct (utf8_valid a); [|discriminate]. inversion H; subst. cbn [json_value] in E. binds E. inversion E; subst.
  destruct a as [|x a]; cbn [json_block]; [now exists ["{"]|]. eexists. rewrite app_comm_cons, app_assoc. reflexivity.
Qed.
Lemma space_last : forall s b, json_space b = false -> skip_space (s ++ [b]) <> [].
Proof. induction s as [|c s IH]; intros b B; cbn [skip_space app]; [rewrite B; discriminate|]. destruct (json_space c); [auto|discriminate]. Qed.
(** A beginning of it that can be read is all of it. *)
Theorem json_beginning : forall es t m k b, json_write es = Ok t -> json_read t = Ok m -> json_read (firstn k t) = Ok b -> firstn k t = t.
Proof.
  intros es t m k b W R B. rewrite <- (firstn_skipn k t) in R. destruct (json_goes_on _ _ _ _ B R) as [_ S]. destruct (write_ends _ _ W) as (t' & ->).
  destruct (Nat.lt_ge_cases k (length (t' ++ ["}"]))) as [L|L]; [|now apply firstn_all2]. exfalso.
  rewrite skipn_app in S. assert (K : k - length t' = 0) by (rewrite app_length in L; cbn [length] in L; lia). rewrite K in S. cbn [skipn] in S. exact (space_last (skipn k t') "}" eq_refl S).
Qed.
