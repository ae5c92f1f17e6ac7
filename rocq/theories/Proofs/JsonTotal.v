(** Reading JSON gives a document or an error of its own kind, never anything else. *)
From Verif.Model Require Import Json.
Open Scope byte_scope.

Definition fine {A} (o : outcome A) : Prop := match o with Ok _ => True | Err e => e = ESerialization | Panic => False end.
Lemma fine_bind : forall A B (o : outcome A) (k : A -> outcome B), fine o -> (forall x, fine (k x)) -> fine (let* x := o in k x).
Proof. intros A B [x|e|] k H K; cbn [bind fine] in *; auto; try tauto. Qed.
Lemma fine_ok : forall A (x : A), fine (Ok x).
Proof. intros. exact I. Qed.
Lemma fine_fail : forall A, fine (@json_fail A).
Proof. intros. reflexivity. Qed.
Ltac fine := repeat first [ apply fine_ok | apply fine_fail | assumption | apply fine_bind; [|intro]
  | match goal with |- fine (match ?x with _ => _ end) => destruct x end
  | match goal with H : forall _, fine _ |- _ => apply H end ].

Lemma unicode_fine : forall s, fine (unicode_escape s).
Proof. intro s. unfold unicode_escape. fine. Qed.
Lemma string_fine : forall n s, fine (read_string n s).
Proof. induction n as [|n IH]; intro s; cbn [read_string]; [fine|]. pose proof unicode_fine. fine. Qed.
Lemma scale_fine : forall n x e, fine (scale_f64 n x e).
Proof. induction n as [|n IH]; intros x e; cbn [scale_f64]; fine. apply IH. Qed.
Lemma parts_fine : forall p n e, fine (float_from_parts p n e).
Proof. intros p n e. unfold float_from_parts. apply fine_bind; [apply scale_fine|intro; exact I]. Qed.
Lemma exponent_fine : forall p n e s, fine (read_exponent p n e s).
Proof.
  intros p n e s. unfold read_exponent. destruct (match s with [] => _ | _ => _ end) as [plus s1]. destruct (span_digits s1) as [ds rest]. destruct ds; [fine|]. cbv zeta.
  destruct (i32_max <? _)%N; [fine|]. apply fine_bind; [apply parts_fine|intro; exact I].
Qed.
Lemma float_fine : forall p n e s, fine (finish_float p n e s).
Proof. intros p n e s. unfold finish_float. destruct (at_exponent s); [apply exponent_fine|]. apply fine_bind; [apply parts_fine|intro; exact I]. Qed.
Lemma decimals_fine : forall p n e s, fine (read_decimals p n e s).
Proof. intros p n e s. unfold read_decimals. destruct (span_digits s) as [ds rest]. destruct ds; [fine|]. destruct (take_decimals _ _ _). apply float_fine. Qed.
Lemma finish_fine : forall p n e i s, fine (finish_number p n e i s).
Proof.
  intros p n e i s. unfold finish_number. destruct s as [|b s].
  - destruct i; [fine|]. apply fine_bind; [apply parts_fine|intro; exact I].
  - destruct (beqb b "."); [apply fine_bind; [apply decimals_fine|intro; exact I]|]. destruct (beqb b "e" || beqb b "E"); [apply fine_bind; [apply exponent_fine|intro; exact I]|].
    destruct i; [fine|]. apply fine_bind; [apply parts_fine|intro; exact I].
Qed.
Lemma number_fine : forall p s, fine (read_number p s).
Proof. intros p s. unfold read_number. destruct (span_digits s) as [ds rest]. destruct ds as [|b ds]; [fine|]. destruct (beqb b "0" && _); [fine|]. destruct (take_integer _ _). apply finish_fine. Qed.
Lemma word_fine : forall w v s, fine (read_word w v s).
Proof. intros. unfold read_word. fine. Qed.

Section Values.
  Context (value : bytes -> outcome (fvalue * bytes)) (V : forall s, fine (value s)).
  Lemma elements_fine : forall n s, fine (read_elements value n s).
  Proof. induction n as [|n IH]; intro s; cbn [read_elements]; fine. Qed.
  Lemma entry_fine : forall s, fine (read_entry value s).
  Proof. intro s. unfold read_entry. pose proof string_fine. fine. apply string_fine. Qed.
  Lemma entries_fine : forall n s, fine (read_entries value n s).
  Proof. induction n as [|n IH]; intro s; cbn [read_entries]; [fine|]. pose proof entry_fine. fine. Qed.
  Lemma array_fine : forall s, fine (read_array value s).
  Proof. intro s. unfold read_array. destruct (skip_space s) as [|b s']; [fine|]. destruct (beqb b "]"); [fine|apply elements_fine]. Qed.
  Lemma object_fine : forall s, fine (read_object value s).
  Proof. intro s. unfold read_object. destruct (skip_space s) as [|b s']; [fine|]. destruct (beqb b "}"); [fine|apply entries_fine]. Qed.
End Values.

Lemma value_fine : forall d s, fine (read_value d s).
Proof.
  induction d as [|d IH]; intro s; destruct s as [|b s]; cbn [read_value]; try apply fine_fail.
  all: destruct (beqb b "n"); [apply word_fine|]; destruct (beqb b "t"); [apply word_fine|]; destruct (beqb b "f"); [apply word_fine|].
  all: destruct (beqb b "-"); [apply fine_bind; [apply number_fine|intro; exact I]|]; destruct (is_digit b); [apply fine_bind; [apply number_fine|intro; exact I]|].
  all: destruct (beqb b x22); [apply fine_bind; [apply string_fine|intro; exact I]|].
  - apply fine_fail.
  - destruct d as [|d']; [apply fine_fail|]. destruct (beqb b "["); [apply fine_bind; [apply array_fine; exact IH|intro; exact I]|].
    destruct (beqb b "{"); [apply fine_bind; [apply object_fine; exact IH|intro; exact I]|apply fine_fail].
Qed.
Lemma read_fine : forall s, fine (json_read s).
Proof.
  intro s. unfold json_read. generalize 128. intro d. apply fine_bind; [apply value_fine|]. intros [v r]. cbn [fst snd]. destruct v; try apply fine_fail. destruct (skip_space r); [apply fine_ok|apply fine_fail].
Qed.
Lemma json_total : forall s, (exists m, json_read s = Ok m) \/ json_read s = Err ESerialization.
Proof. intro s. pose proof (read_fine s) as F. destruct (json_read s) as [m|e|]; cbn [fine] in F; [left; eauto|right; now rewrite F|destruct F]. Qed.
