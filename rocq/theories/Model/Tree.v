(** The internal tree of a file: crates/lib/src/file/map/core.rs:5-15, map/state.rs:20-48. *)
From Verif.Model Require Export Bytes Value.

(** [RopsTree]: map/core.rs:9-15.  An [IndexMap] is the list of its entries in insertion order; that its keys are pairwise
    distinct is a predicate ([keys_distinct]), not part of the type. *)
Inductive tree (L : Type) : Type :=
| Seq (l : list (tree L))
| Map (m : list (bytes * tree L))
| Null
| Leaf (v : L).
Arguments Seq {L} l.
Arguments Map {L} m.
Arguments Null {L}.
Arguments Leaf {L} v.

(** [RopsMap]: map/core.rs:5-7. *)
Definition rmap (L : Type) : Type := list (bytes * tree L).

(** map/state.rs:33-37 [RopsMapEncryptedLeaf]. *)
Inductive eleaf : Type :=
| Encrypted (e : evalue)
| Escaped (v : value).

Definition dtree := tree value.        (* RopsTree<DecryptedMap> *)
Definition etree := tree eleaf.        (* RopsTree<EncryptedMap<AES256GCM>> *)
Definition dmap := rmap value.
Definition emap := rmap eleaf.

(** Sequential iteration with early exit, as [collect::<Result<Vec<_>, _>>()] and the [for] loops with [?] do:
    map/encrypt.rs:45-63,77-82, map/decrypt.rs:33-39,51-55, format/adapters.rs:52-55,80-89. *)
Section Iter.
  Context {S A B : Type} (f : A -> S -> outcome (B * S)).

  Fixpoint smapM (l : list A) (s : S) : outcome (list B * S) :=
    match l with
    | [] => Ok ([], s)
    | x :: l' =>
        let* r := f x s in
        let* r' := smapM l' (snd r) in
        Ok (fst r :: fst r', snd r')
    end.
End Iter.

Section IterPure.
  Context {A B : Type} (f : A -> outcome B).

  Fixpoint mapM (l : list A) : outcome (list B) :=
    match l with
    | [] => Ok []
    | x :: l' =>
        let* r := f x in
        let* r' := mapM l' in
        Ok (r :: r')
    end.
End IterPure.

(** First entry with the key, [IndexMap::get]. *)
Fixpoint lookup {A} (k : bytes) (m : list (bytes * A)) : option A :=
  match m with
  | [] => None
  | (k', a) :: m' => if bytes_eqb k k' then Some a else lookup k m'
  end.

(** [IndexMap::insert]: an existing key keeps its position and gets the new value. *)
Fixpoint insert {A} (k : bytes) (a : A) (m : list (bytes * A)) : list (bytes * A) :=
  match m with
  | [] => [(k, a)]
  | (k', a') :: m' => if bytes_eqb k k' then (k', a) :: m' else (k', a') :: insert k a m'
  end.
