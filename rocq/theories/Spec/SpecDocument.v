(** Specification vocabulary for files as text. *)
From Verif.Model Require Import Document.
From Verif.Spec Require Export SpecFile SpecAws.
Open Scope byte_scope.

(** * What is assumed of the parsers *)

(** Existing dates and times: chrono holds no others. *)
Definition leap_year (y : Z) : bool := ((y mod 4 =? 0) && (negb (y mod 100 =? 0) || (y mod 400 =? 0)))%Z.
Definition month_days (y : Z) (m : N) : N :=
  (if (m =? 2) then if leap_year y then 29 else 28
   else if (m =? 4) || (m =? 6) || (m =? 9) || (m =? 11) then 30 else 31)%N.
Definition real_time (t : timestamp) : Prop := valid_timestamp t = true /\ (t_day t <= month_days (t_year t) (t_month t))%N.

(** chrono reads back what it printed. *)
Definition time_law (cd : codec) : Prop := forall t, real_time t -> cd_time cd (time_text t) = Some t.

(** What rops writes: maps with string keys, no tags, no dates; numbers and strings the format can hold. *)
Fixpoint storable (f : fmt) (v : fvalue) : Prop :=
  match v with
  | FMap m => NoDup (map fst m) /\ each (fun kv => (exists s, fst kv = FStr s /\ utf8_text s) /\ storable f (snd kv)) m
  | FSeq l => each (storable f) l
  | FStr s => utf8_text s
  | FBool _ => True
  | FNum (NInt z) => (- 2 ^ 63 <= z < 2 ^ 63)%Z
  | FNum (NFlt x) => f64_canonical x = true /\ (f = Json -> f64_finite x = true)
  | FNull => f <> Toml
  | FTagged _ _ => False
  | FDate _ => False
  end.

(** Nesting of a value: the parsers give up at 128 levels. *)
Fixpoint depth (v : fvalue) : nat :=
  match v with
  | FMap m => S (fold_right (fun kv n => Nat.max (depth (snd kv)) n) 0 m)
  | FSeq l => S (fold_right (fun x n => Nat.max (depth x) n) 0 l)
  | FTagged _ x => depth x
  | _ => 0
  end.
Definition max_depth : nat := 100.

(** A list of entries that can be printed.  The same key may occur twice. *)
Definition printable (f : fmt) (es : fmap) : Prop :=
  (forall k v, In (k, v) es -> (exists s, k = FStr s /\ utf8_text s) /\ storable f v) /\ depth (FMap es) <= max_depth.

(** TOML: a key given twice keeps its place and takes the later value. *)
Fixpoint put (k v : fvalue) (m : fmap) : fmap :=
  match m with
  | [] => [(k, v)]
  | (k', v') :: m' => if fvalue_eqb Json k' k then (k', v) :: m' else (k', v') :: put k v m'
  end.
Definition once (es : fmap) : fmap := fold_left (fun m kv => put (fst kv) (snd kv) m) es [].
(** A value printed as a [\[table\]] or as [\[\[tables\]\]]. *)
Definition table_like (v : fvalue) : bool :=
  match v with
  | FMap _ => true
  | FSeq (x :: l) => forallb (fun y => match y with FMap _ => true | _ => false end) (x :: l)
  | _ => false
  end.
(** TOML prints the other values of a table before its tables. *)
Fixpoint toml_order (v : fvalue) : fvalue :=
  match v with
  | FMap m =>
      let m' := map (fun kv => (fst kv, toml_order (snd kv))) m in
      FMap (filter (fun kv => negb (table_like (snd kv))) m' ++ filter (fun kv => table_like (snd kv)) m')
  | FSeq l => if table_like v then FSeq (map toml_order l) else v
  | _ => v
  end.
(** serde_json reads a printed float as a float that may differ in the last place (feature [float_roundtrip] is off). *)
Fixpoint map_floats (g : f64 -> f64) (v : fvalue) : fvalue :=
  match v with
  | FMap m => FMap (map (fun kv => (fst kv, map_floats g (snd kv))) m)
  | FSeq l => FSeq (map (map_floats g) l)
  | FNum (NFlt x) => FNum (NFlt (g x))
  | FTagged t x => FTagged t (map_floats g x)
  | _ => v
  end.
Definition doc_of (v : fvalue) : fmap := match v with FMap m => m | _ => [] end.
(** What is read from the text written for the entries [es]. *)
Definition layout (g : f64 -> f64) (f : fmt) (es : fmap) : fmap :=
  match f with
  | Yaml => es
  | Json => doc_of (map_floats g (FMap es))
  | Toml => doc_of (toml_order (FMap (once es)))
  end.
Definition codec_law (cd : codec) (g : f64 -> f64) (f : fmt) : Prop :=
  forall es, printable f es -> exists s, cd_write cd f es = Ok s /\ cd_read cd f s = Ok (layout g f es).
(** What is written is a [String]. *)
Definition text_law (cd : codec) (f : fmt) : Prop := forall es s, cd_write cd f es = Ok s -> utf8_text s.

(** * Documents that text leaves as they are *)

(** In every table the values come before the tables. *)
Fixpoint values_first (v : fvalue) : Prop :=
  match v with
  | FMap m => (forall a x b y, m = a ++ x :: b -> In y b -> table_like (snd x) = true -> table_like (snd y) = true) /\ each (fun kv => values_first (snd kv)) m
  | FSeq l => table_like v = true -> each values_first l
  | _ => True
  end.
(** All floats in a document. *)
Fixpoint floats_of (v : fvalue) : list f64 :=
  match v with
  | FMap m => flat_map (fun kv => floats_of (snd kv)) m
  | FSeq l => flat_map floats_of l
  | FNum (NFlt x) => [x]
  | FTagged _ x => floats_of x
  | _ => []
  end.
Definition kept_by_text (g : f64 -> f64) (f : fmt) (m : fmap) : Prop :=
  match f with
  | Yaml => True
  | Json => forall x, In x (floats_of (FMap m)) -> g x = x
  | Toml => values_first (FMap m)
  end.

(** * Metadata that can be stored *)

(** A recipient whose text reads back as itself. *)
Definition plain_recipient (ag : age_crate) (r : bytes) : Prop := ag_recipient ag r = Some r /\ utf8_text r.
(** A key id that came from a text and whose ARN names both partition and account (see C43). *)
Definition plain_key (k : aws_key) : Prop :=
  (exists s, parse_aws_key s = Ok k) /\ utf8_text (ak_profile k) /\ arn_partition (ak_arn k) <> None /\ arn_account (ak_arn k) <> None.
Definition plain_unit {K} (plain : K -> Prop) (u : wrapped K) : Prop :=
  plain (u_key u) /\ (forall t, u_created u = Some t -> real_time t) /\ utf8_text (u_enc u).
Definition plain_rule (re_valid : bytes -> bool) (rule : option partial) : Prop :=
  match rule with
  | None => True
  | Some (EncryptedSuffix s) | Some (UnencryptedSuffix s) => utf8_text s
  | Some (EncryptedRegex s) | Some (UnencryptedRegex s) => utf8_text s /\ re_valid s = true
  end.
Definition plain_meta (re_valid : bytes -> bool) (ag : age_crate) (md : meta evalue) : Prop :=
  (forall u, In u (rc_age (md_recipients md)) -> plain_unit (plain_recipient ag) u)
  /\ (forall u, In u (rc_kms (md_recipients md)) -> plain_unit plain_key u)
  /\ distinct_recipients (md_recipients md) /\ real_time (md_modified md) /\ rust_evalue (md_mac md) /\ plain_rule re_valid (md_partial md).

(** No top-level key is called sops. *)
Definition no_sops (m : fmap) : Prop := ~ In (FStr (lit "sops")) (map fst m).

(** * Documents that fit into text *)

(** The keys and nesting of a document, without its values. *)
Fixpoint outline {L} (t : tree L) : fvalue :=
  match t with
  | Seq l => FSeq (map outline l)
  | Map m => FMap (map (fun kt => (FStr (fst kt), outline (snd kt))) m)
  | Null | Leaf _ => FNull
  end.
(** Not nested too deeply, no top-level key sops; for TOML, values before tables; for JSON, floats that are read back exactly. *)
Definition text_safe (g : f64 -> f64) (f : fmt) (dm : dmap) : Prop :=
  all_keys utf8_text (Map dm) /\ depth (outline (Map dm)) <= max_depth /\ ~ In (lit "sops") (map fst dm)
  /\ (f = Toml -> values_first (outline (Map dm)))
  /\ (f = Json -> forall ks x, f64_canonical x = true -> In (ks, VFloat (f64_text x)) (map_values dm) -> g x = x).

(** * Worlds whose metadata can be stored *)

Definition plain_recipients (ag : age_crate) (rc : recipients) : Prop :=
  (forall u, In u (rc_age rc) -> plain_unit (plain_recipient ag) u) /\ (forall u, In u (rc_kms rc) -> plain_unit plain_key u) /\ distinct_recipients rc.
(** Clocks show existing times, and what the age crate writes is text. *)
Definition plain_world (ag : age_crate) (W : env -> Prop) : Prop :=
  (forall E n, W E -> real_time (e_clock E n)) /\ (forall n r key, utf8_text r -> utf8_text (ag_wrap ag n r key)).
