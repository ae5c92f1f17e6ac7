(** Specification vocabulary for what an encrypted file reveals (C69). *)
From Verif.Model Require Import Bytes Value Tree Partial Format.
From Verif.Spec Require Export SpecMap.

(** Encrypted values that differ in ciphertext and tag only. *)
Definition only_ciphertext (e e' : evalue) : Prop :=
  ev_nonce e' = ev_nonce e /\ ev_type e' = ev_type e /\ length (ev_data e') = length (ev_data e) /\ length (ev_tag e') = length (ev_tag e).
(** [secret_edit em m m']: the documents [m] and [m'] have the same keys, nesting and nulls, and the same values, except for values that [em]
    holds encrypted; those have the same type and length. *)
Definition secret_edit (em : emap) (m m' : dmap) : Prop :=
  map_skeleton m' = map_skeleton m
  /\ forall i ks v, value_at m i ks v -> exists v', value_at m' i ks v'
     /\ (v' = v \/ (exists e, value_at em i ks (Encrypted e)) /\ type_of v' = type_of v /\ length (value_bytes v') = length (value_bytes v)).
(** Encrypted documents that differ in ciphertexts and tags only. *)
Definition same_view (em em' : emap) : Prop :=
  map_skeleton em' = map_skeleton em
  /\ forall i ks l, value_at em i ks l -> exists l', value_at em' i ks l'
     /\ (l' = l \/ exists e e', l = Encrypted e /\ l' = Encrypted e' /\ only_ciphertext e e').
(** The same of documents in a format. *)
Inductive blurred : fvalue -> fvalue -> Prop :=
| blur_same v : blurred v v
| blur_secret e e' : only_ciphertext e e' -> blurred (FStr (evalue_text e)) (FStr (evalue_text e'))
| blur_seq l l' : Forall2 blurred l l' -> blurred (FSeq l) (FSeq l')
| blur_map m m' : Forall2 (fun x y => fst y = fst x /\ blurred (snd x) (snd y)) m m' -> blurred (FMap m) (FMap m').
(** [scope_edit re rule m m']: the same, for values in the scope of the rule whose keys have no colons. *)
Definition scope_edit (re : regex_engine) (rule : option partial) (m m' : dmap) : Prop :=
  map_skeleton m' = map_skeleton m
  /\ forall i ks v, value_at m i ks v -> exists v', value_at m' i ks v'
     /\ (v' = v \/ Forall no_colon ks /\ in_scope re rule ks /\ type_of v' = type_of v /\ length (value_bytes v') = length (value_bytes v)).
