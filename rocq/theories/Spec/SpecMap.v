(** Specification vocabulary for documents: structure, values in document order with their enclosing keys, and the documented
    meaning of the partial-encryption rules.  Independent of the traversal functions of the model. *)
From Verif.Model Require Import Bytes Value Tree Partial.
From Verif.Spec Require Export SpecValue.

(** Structure of a document without its values: keys, order, nesting, sequence lengths and nulls. *)
Fixpoint skeleton {L} (t : tree L) : tree unit :=
  match t with
  | Seq l => Seq (map skeleton l)
  | Map m => Map (map (fun kt => (fst kt, skeleton (snd kt))) m)
  | Null => Null
  | Leaf _ => Leaf tt
  end.

(** The values of a document in document order, each with the keys that enclose it, outermost first. *)
Fixpoint values_under {L} (ks : list bytes) (t : tree L) : list (list bytes * L) :=
  match t with
  | Seq l => flat_map (values_under ks) l
  | Map m => flat_map (fun kt => values_under (ks ++ [fst kt]) (snd kt)) m
  | Null => []
  | Leaf v => [(ks, v)]
  end.

Definition map_skeleton {L} (m : rmap L) : tree unit := skeleton (Map m).
Definition map_values {L} (m : rmap L) : list (list bytes * L) := values_under [] (Map m).

(** The associated-data text of a key path: every key followed by a colon. *)
Definition path_text (ks : list bytes) : bytes := flat_map (fun k => k ++ [":"%byte]) ks.

(** The documented rules: which enclosing keys select. *)
Definition has_suffix (s k : bytes) : Prop := exists a, k = a ++ s.

Definition in_scope (re : regex_engine) (rule : option partial) (ks : list bytes) : Prop :=
  match rule with
  | None => True
  | Some (EncryptedSuffix s) => exists k, In k ks /\ has_suffix s k
  | Some (EncryptedRegex p) => exists k, In k ks /\ re_match re p k = true
  | Some (UnencryptedSuffix s) => ~ exists k, In k ks /\ has_suffix s k
  | Some (UnencryptedRegex p) => ~ exists k, In k ks /\ re_match re p k = true
  end.

(** The part of a key after its last colon (the whole key if it has none). *)
Definition last_segment (k s : bytes) : Prop :=
  ~ In ":"%byte s /\ (k = s \/ exists a, k = a ++ ":"%byte :: s).

Definition no_colon (k : bytes) : Prop := ~ In ":"%byte k.

(** Every key of a document satisfies [P]. *)
Definition keys_of {L} (m : rmap L) (P : bytes -> Prop) : Prop :=
  forall ks v, In (ks, v) (map_values m) -> Forall P ks.

(** [value_at m i ks v]: the i-th value of the document is [v], enclosed by the keys [ks]. *)
Definition value_at {L} (m : rmap L) (i : nat) (ks : list bytes) (v : L) : Prop := nth_error (map_values m) i = Some (ks, v).

(** [em] holds at position i the encrypted value [e], and the plaintext document [m] holds [v] there, under the keys [ks]. *)
Definition pair_at (em : emap) (m : dmap) (i : nat) (ks : list bytes) (e : evalue) (v : value) : Prop :=
  value_at em i ks (Encrypted e) /\ value_at m i ks v.

(** The nonces of the encrypted values of a document, in document order. *)
Definition nonces_of (em : emap) : list bytes :=
  flat_map (fun x => match snd x with Encrypted e => [ev_nonce e] | Escaped _ => [] end) (map_values em).

(** Every value of the document is one that the Rust type can hold. *)
Definition rust_map (m : dmap) : Prop := forall ks v, In (ks, v) (map_values m) -> rust_value v.

(** A use of value encryption: nonce, associated data, value. *)
Definition use := (bytes * bytes * value)%type.
Definition uses_of (em : emap) (m : dmap) (u : use) : Prop :=
  exists i ks e v, pair_at em m i ks e v /\ u = (ev_nonce e, path_text ks, v).

(** Values covered by the MAC: all of them, or with mac_only_encrypted those in scope of the rule. *)
Definition covered (re : regex_engine) (only : bool) (rule : option partial) (ks : list bytes) : Prop :=
  only = false \/ in_scope re rule ks.

(** [kept P l vs]: [vs] are the values of [l] whose keys satisfy [P], in order. *)
Inductive kept (P : list bytes -> Prop) : list (list bytes * value) -> list value -> Prop :=
| kept_nil : kept P [] []
| kept_in ks v l vs : P ks -> kept P l vs -> kept P ((ks, v) :: l) (v :: vs)
| kept_out ks v l vs : ~ P ks -> kept P l vs -> kept P ((ks, v) :: l) vs.
