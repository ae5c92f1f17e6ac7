(** Specification vocabulary for parsed documents of the three formats. *)
From Verif.Model Require Import Bytes Value Tree MapCrypt Format.
From Verif.Spec Require Export SpecMap.

(** [Forall] as a fixpoint, so that it can be used in nested recursion. *)
Definition each {A} (P : A -> Prop) : list A -> Prop :=
  fix each l := match l with [] => True | x :: l' => P x /\ each l' end.

(** What the value type of each parser can hold.  serde_yaml: any key, tags, u64 or i64 integers, any float, null.
    serde_json: string keys, u64 or i64 integers, finite floats, null.  toml: string keys, i64 integers, any float, dates,
    no null.  Keys of one map differ.  The text of a date is not the text "null". *)
Fixpoint fmt_value (f : fmt) (v : fvalue) : Prop :=
  match v with
  | FMap m =>
      NoDup (map fst m)
      /\ each (fun kv => match fst kv with FStr s => utf8_text s | _ => f = Yaml end /\ fmt_value f (snd kv)) m
  | FSeq l => each (fmt_value f) l
  | FStr s => utf8_text s
  | FBool _ => True
  | FNum (NInt z) => match f with Toml => (- 2 ^ 63 <= z < 2 ^ 63)%Z | _ => (- 2 ^ 63 <= z < 2 ^ 64)%Z end
  | FNum (NFlt x) => f64_canonical x = true /\ (f = Json -> f64_finite x = true)
  | FNull => f <> Toml
  | FTagged _ v' => f = Yaml /\ fmt_value f v'
  | FDate s => f = Toml /\ utf8_text s /\ s <> lit "null"
  end.
Definition fmt_doc (f : fmt) (m : fmap) : Prop := fmt_value f (FMap m).

(** The documented normalisation: YAML tags are dropped, TOML dates become strings. *)
Fixpoint normal (v : fvalue) : fvalue :=
  match v with
  | FMap m => FMap (map (fun kv => (fst kv, normal (snd kv))) m)
  | FSeq l => FSeq (map normal l)
  | FTagged _ v' => normal v'
  | FDate s => FStr s
  | _ => v
  end.
Definition normal_doc (m : fmap) : fmap := map (fun kv => (fst kv, normal (snd kv))) m.

(** All integers and all keys of a document. *)
Fixpoint ints_of (v : fvalue) : list Z :=
  match v with
  | FMap m => flat_map (fun kv => ints_of (snd kv)) m
  | FSeq l => flat_map ints_of l
  | FNum (NInt z) => [z]
  | FTagged _ v' => ints_of v'
  | _ => []
  end.
Fixpoint fkeys_of (v : fvalue) : list fvalue :=
  match v with
  | FMap m => flat_map (fun kv => fst kv :: fkeys_of (snd kv)) m
  | FSeq l => flat_map fkeys_of l
  | FTagged _ v' => fkeys_of v'
  | _ => []
  end.

(** Within every map of the tree the keys differ. *)
Fixpoint distinct_keys {L} (t : tree L) : Prop :=
  match t with
  | Seq l => each distinct_keys l
  | Map m => NoDup (map fst m) /\ each (fun kt => distinct_keys (snd kt)) m
  | _ => True
  end.
(** All keys of the tree satisfy [P]. *)
Fixpoint all_keys {L} (P : bytes -> Prop) (t : tree L) : Prop :=
  match t with
  | Seq l => each (all_keys P) l
  | Map m => each (fun kt => P (fst kt) /\ all_keys P (snd kt)) m
  | _ => True
  end.

(** TOML reads the string "null" as null. *)
Fixpoint nulled (t : dtree) : dtree :=
  match t with
  | Seq l => Seq (map nulled l)
  | Map m => Map (map (fun kt => (fst kt, nulled (snd kt))) m)
  | Leaf (VStr s) => if bytes_eqb s (lit "null") then Null else t
  | _ => t
  end.
Definition read_as (f : fmt) (t : dtree) : dtree := match f with Toml => nulled t | _ => t end.

(** A float that JSON cannot represent. *)
Definition non_finite (v : value) : Prop := v = VFloat (lit "NaN") \/ v = VFloat (lit "inf") \/ v = VFloat (lit "-inf").

(** [at_path v ks x]: the value [x] occurs in the document value [v] below the keys [ks] (outermost first); the elements of a
    sequence and the content of a tag are below the same keys as the sequence or tag. *)
Inductive at_path : fvalue -> list bytes -> fvalue -> Prop :=
| at_here x : at_path x [] x
| at_key m k v ks x : In (FStr k, v) m -> at_path v ks x -> at_path (FMap m) (k :: ks) x
| at_elem l v ks x : In v l -> at_path v ks x -> at_path (FSeq l) ks x
| at_tag t v ks x : at_path v ks x -> at_path (FTagged t v) ks x.

(** A value that is neither a container nor null. *)
Definition scalar_value (f : fmt) (x : fvalue) : Prop :=
  match x with
  | FStr s => f = Toml -> s <> lit "null"
  | FBool _ | FNum _ | FDate _ => True
  | _ => False
  end.

(** The keys [ks] are unaffected by the treatment of colons in the encrypting side's rule test (see C07). *)
Definition colon_safe (rule : option partial) (ks : list bytes) : Prop :=
  Forall no_colon ks \/ match rule with None => True | Some (EncryptedSuffix s) | Some (UnencryptedSuffix s) => no_colon s | _ => False end.
Definition colon_safe_map {L} (rule : option partial) (m : rmap L) : Prop := forall ks v, In (ks, v) (map_values m) -> colon_safe rule ks.

(** Saved nonces have the size the Rust array type gives them. *)
Definition saved_ok (saved : option saved_nonces) : Prop := forall s p v nonce, saved = Some s -> In ((p, v), nonce) s -> length nonce = 32.
