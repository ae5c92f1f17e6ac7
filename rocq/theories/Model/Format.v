(** The three file formats at the level of parsed documents.
    Models crates/lib/src/file/format/{adapters,map,core}.rs and format/{yaml,json,toml}/mod.rs.
    The value enums of serde_yaml, serde_json and toml are represented by one type; which constructors a format has is
    stated by [fmt_value] (Spec/SpecFormat.v).  Text parsing and printing are not modelled here (see Document.v). *)
From Verif.Model Require Export Tree Partial.

Inductive fmt : Type := Yaml | Json | Toml.

(** [serde_yaml::Number], [serde_json::Number]: integer (i64 or u64) or float; toml's [Integer], [Float]. *)
Inductive num : Type := NInt (z : Z) | NFlt (x : f64).

Inductive fvalue : Type :=
| FMap (m : list (fvalue * fvalue))     (* Mapping / Object / Table, insertion order *)
| FSeq (l : list fvalue)                (* Sequence / Array *)
| FStr (s : bytes)
| FBool (b : bool)
| FNum (n : num)
| FNull                                 (* YAML and JSON only *)
| FTagged (t : bytes) (v : fvalue)      (* YAML only *)
| FDate (s : bytes).                    (* TOML only, by its [Display] text *)

(** A whole document ([F::Map]). *)
Definition fmap := list (fvalue * fvalue).

(** yaml/mod.rs:43-57 [validate]; adapters.rs:15-23 for [String] keys. *)
Definition validate_key (k : fvalue) : outcome bytes :=
  match k with FStr s => Ok s | _ => Err ENonStringKey end.

(** [IndexMap::insert] of a list of entries into an empty map: adapters.rs:50-55, 63-67, 79-90, 96-100. *)
Definition collect {A} (l : list (bytes * A)) : list (bytes * A) :=
  fold_left (fun acc kt => insert (fst kt) (snd kt) acc) l [].

(** The same into a format map, whose keys are [Key::from_internal] of strings: yaml/mod.rs:54-56, adapters.rs:20-22. *)
Definition to_fmap (l : list (bytes * fvalue)) : fmap := map (fun kt => (FStr (fst kt), snd kt)) (collect l).

(** yaml/mod.rs:133-142, json/mod.rs:113-122 [helpers::to_internal_number]; toml/mod.rs:56-57 (toml integers are always i64). *)
Definition to_internal_number (n : num) : outcome value :=
  match n with
  | NFlt x => Ok (float_value x)
  | NInt z => if in_i64 z then Ok (VInt z) else Err EIntegerOutOfRange
  end.

(** yaml/mod.rs:144-151, json/mod.rs:124-134 [helpers::from_internal_value], toml/mod.rs:132-139.
    [f64::from(RopsFloat)] has an [expect]; [serde_json::Number::from_f64] gives [None] for NaN and infinities, then [expect]. *)
Definition from_internal_value (f : fmt) (v : value) : outcome fvalue :=
  match v with
  | VStr s => Ok (FStr s)
  | VBool b => Ok (FBool b)
  | VInt z => Ok (FNum (NInt z))
  | VFloat t =>
      let* x := float_of_text t in
      match f with
      | Json => if f64_finite x then Ok (FNum (NFlt x)) else Panic
      | _ => Ok (FNum (NFlt x))
      end
  end.

(** toml/mod.rs:54,91: the string "null" stands for null. *)
Definition is_toml_null (f : fmt) (s : bytes) : bool :=
  match f with Toml => bytes_eqb s (lit "null") | _ => false end.

(** yaml/mod.rs:59-77, json/mod.rs:44-58, toml/mod.rs:49-66 [decrypted_to_internal] of values; the [FMap] case is
    adapters.rs:49-58.  Evaluation order: each entry's key is validated before its value is converted. *)
Fixpoint dec_to_internal (f : fmt) (v : fvalue) : outcome dtree :=
  match v with
  | FTagged _ v' => dec_to_internal f v'
  | FMap m =>
      let* l := mapM (fun kv => let* k := validate_key (fst kv) in let* t := dec_to_internal f (snd kv) in Ok (k, t)) m in
      Ok (Map (collect l))
  | FBool b => Ok (Leaf (VBool b))
  | FStr s => if is_toml_null f s then Ok Null else Ok (Leaf (VStr s))
  | FNum n => let* v := to_internal_number n in Ok (Leaf v)
  | FSeq l => let* l' := mapM (dec_to_internal f) l in Ok (Seq l')
  | FNull => Ok Null
  | FDate s => Ok (Leaf (VStr s))
  end.

(** adapters.rs:49-58 on the whole document, map.rs:57-60. *)
Definition dec_map_to_internal (f : fmt) (m : fmap) : outcome dmap :=
  let* l := mapM (fun kv => let* k := validate_key (fst kv) in let* t := dec_to_internal f (snd kv) in Ok (k, t)) m in
  Ok (collect l).

(** yaml/mod.rs:79-86, json/mod.rs:60-67, toml/mod.rs:68-76 [decrypted_from_internal]; adapters.rs:60-68. *)
Fixpoint dec_from_internal (f : fmt) (t : dtree) : outcome fvalue :=
  match t with
  | Seq l => let* l' := mapM (dec_from_internal f) l in Ok (FSeq l')
  | Map m => let* l := mapM (fun kt => let* v := dec_from_internal f (snd kt) in Ok (fst kt, v)) m in Ok (FMap (to_fmap l))
  | Null => match f with Toml => Ok (FStr (lit "null")) | _ => Ok FNull end
  | Leaf v => from_internal_value f v
  end.

Definition dec_map_from_internal (f : fmt) (m : dmap) : outcome fmap :=
  let* l := mapM (fun kt => let* v := dec_from_internal f (snd kt) in Ok (fst kt, v)) m in Ok (to_fmap l).

Section Encrypted.
  Context (re : regex_engine).

  (** A leaf that is not a string: plaintext is accepted outside encryption scope only. *)
  Definition plain_leaf (r : resolved) (v : outcome value) : outcome etree :=
    if escapes r then let* x := v in Ok (Leaf (Escaped x)) else Err EPlaintextWhenEncrypted.

  (** yaml/mod.rs:88-115, json/mod.rs:69-95, toml/mod.rs:78-113 [encrypted_to_internal]; [FMap] is adapters.rs:70-92, which
      resolves the rule with the whole key. *)
  Fixpoint enc_to_internal (f : fmt) (r : resolved) (v : fvalue) : outcome etree :=
    match v with
    | FTagged _ v' => enc_to_internal f r v'
    | FMap m =>
        let* l := mapM (fun kv =>
                    let* k := validate_key (fst kv) in
                    let* t := enc_to_internal f (step re r k) (snd kv) in
                    Ok (k, t)) m in
        Ok (Map (collect l))
    | FSeq l => let* l' := mapM (enc_to_internal f r) l in Ok (Seq l')
    | FStr s =>
        if is_toml_null f s then Ok Null
        else if escapes r then Ok (Leaf (Escaped (VStr s)))
        else let* e := map_err EEncryptedValue (parse_evalue s) in Ok (Leaf (Encrypted e))
    | FNull => Ok Null
    | FBool b => plain_leaf r (Ok (VBool b))
    | FNum n => plain_leaf r (to_internal_number n)
    | FDate s => plain_leaf r (Ok (VStr s))
    end.

  (** map.rs:44-54. *)
  Definition enc_map_to_internal (f : fmt) (pc : option partial) (m : fmap) : outcome emap :=
    let* l := mapM (fun kv =>
                let* k := validate_key (fst kv) in
                let* t := enc_to_internal f (step re (initial pc) k) (snd kv) in
                Ok (k, t)) m in
    Ok (collect l).
End Encrypted.

(** yaml/mod.rs:117-127, json/mod.rs:97-107, toml/mod.rs:115-126 [encrypted_from_internal]; adapters.rs:94-102. *)
Fixpoint enc_from_internal (f : fmt) (t : etree) : outcome fvalue :=
  match t with
  | Seq l => let* l' := mapM (enc_from_internal f) l in Ok (FSeq l')
  | Map m => let* l := mapM (fun kt => let* v := enc_from_internal f (snd kt) in Ok (fst kt, v)) m in Ok (FMap (to_fmap l))
  | Null => match f with Toml => Ok (FStr (lit "null")) | _ => Ok FNull end
  | Leaf (Encrypted e) => Ok (FStr (evalue_text e))
  | Leaf (Escaped v) => from_internal_value f v
  end.

Definition enc_map_from_internal (f : fmt) (m : emap) : outcome fmap :=
  let* l := mapM (fun kt => let* v := enc_from_internal f (snd kt) in Ok (fst kt, v)) m in Ok (to_fmap l).

(** [PartialEq] of [F::Map], used by [RopsFile::set_map] (file/core.rs:82).  Maps compare without order (IndexMap).
    Floats: serde_yaml identifies NaNs; serde_json has none; toml uses IEEE equality.  In all of them 0.0 == -0.0. *)
Definition num_eqb (f : fmt) (a b : num) : bool :=
  match a, b with
  | NInt x, NInt y => Z.eqb x y
  | NFlt x, NFlt y =>
      match f, x, y with
      | Yaml, FNaN, FNaN => true
      | _, _, _ => f64_rust_eq x y
      end
  | _, _ => false
  end.

Section Eqb.
  Context (eqb : fvalue -> fvalue -> bool).
  Fixpoint list_eqb (l1 l2 : list fvalue) : bool :=
    match l1, l2 with
    | [], [] => true
    | x :: l1', y :: l2' => eqb x y && list_eqb l1' l2'
    | _, _ => false
    end.
End Eqb.

Fixpoint fvalue_eqb (f : fmt) (a b : fvalue) : bool :=
  match a, b with
  | FMap m, FMap m' =>
      Nat.eqb (length m) (length m')
      && forallb (fun kv => existsb (fun kv' => fvalue_eqb f (fst kv) (fst kv') && fvalue_eqb f (snd kv) (snd kv')) m') m
  | FSeq l, FSeq l' => list_eqb (fvalue_eqb f) l l'
  | FStr s, FStr s' => bytes_eqb s s'
  | FBool x, FBool y => Bool.eqb x y
  | FNum x, FNum y => num_eqb f x y
  | FNull, FNull => true
  | FTagged t v, FTagged t' v' => bytes_eqb t t' && fvalue_eqb f v v'
  | FDate s, FDate s' => bytes_eqb s s'
  | _, _ => false
  end.

Definition fmap_eqb (f : fmt) (m m' : fmap) : bool := fvalue_eqb f (FMap m) (FMap m').
