(** Specification vocabulary for recipients, environments and whole files. *)
From Verif.Model Require Import File.
From Verif.Spec Require Export SpecMap SpecFormat.

(** * What is assumed of the age crate and of AWS KMS *)

(** Whoever holds the identity of a recipient opens what was wrapped for that recipient. *)
Definition age_law (ag : age_crate) : Prop :=
  forall n i key, length key = 32 -> ag_open ag i (ag_wrap ag n (ag_public ag i) key) = AgePlain key.

(** [W] is the set of environments considered (they differ in variables, files, time and availability of the service).  What the
    service encrypted in one of them it decrypts in another to the same bytes, or the request fails. *)
Definition kms_law (W : env -> Prop) : Prop :=
  forall E E' n req req' key b, W E -> W E' -> e_kms_encrypt E n req key = KmsBlob b ->
  kr_region req' = kr_region req -> kr_key req' = kr_key req ->
  e_kms_decrypt E' req' b = KmsBlob key \/ e_kms_decrypt E' req' b = KmsFailed.

(** * Wrapped keys *)

(** The text [enc] is the data key wrapped for the age recipient [r], or for the KMS key [k]. *)
Definition age_wraps (ag : age_crate) (key r enc : bytes) : Prop := exists n, enc = ag_wrap ag n r key.
Definition kms_wraps (W : env -> Prop) (key : bytes) (k : aws_key) (enc : bytes) : Prop :=
  exists E n req b, W E /\ e_kms_encrypt E n req key = KmsBlob b /\ kr_region req = arn_region (ak_arn k) /\ kr_key req = arn_key (ak_arn k)
  /\ enc = encode_base64 b.

(** Every entry wraps the data key [key]. *)
Definition all_wrap (ag : age_crate) (W : env -> Prop) (key : bytes) (rc : recipients) : Prop :=
  (forall u, In u (rc_age rc) -> age_wraps ag key (u_key u) (u_enc u))
  /\ (forall u, In u (rc_kms rc) -> kms_wraps W key (u_key u) (u_enc u)).

(** At most one entry per recipient. *)
Definition distinct_units {K} (us : list (wrapped K)) : Prop := NoDup (map u_key us).
Definition distinct_recipients (rc : recipients) : Prop := distinct_units (rc_age rc) /\ distinct_units (rc_kms rc).

(** * Available private keys *)

(** The environment offers exactly these private keys for age (for KMS). *)
Definition age_available (ag : age_crate) (E : env) (ids : list bytes) : Prop := age_private_keys ag E = Ok ids.
Definition kms_available (E : env) (ids : list aws_secret) : Prop := kms_private_keys E = Ok ids.

(** White space, blank text, and the text without surrounding white space. *)
Definition white (b : byte) : Prop := b = x20 \/ b = x09 \/ b = x0a \/ b = x0b \/ b = x0c \/ b = x0d.
Definition blank (s : bytes) : Prop := Forall white s.
Definition trimmed (s t : bytes) : Prop :=
  exists a b, s = a ++ t ++ b /\ blank a /\ blank b
  /\ (forall x r, t = x :: r -> ~ white x) /\ (forall r x, t = r ++ [x] -> ~ white x).
(** The entries of a key file: its non-blank lines, trimmed. *)
Inductive key_lines : list bytes -> list bytes -> Prop :=
| kl_nil : key_lines [] []
| kl_blank l ls ts : blank l -> key_lines ls ts -> key_lines (l :: ls) ts
| kl_key l t ls ts : ~ blank l -> trimmed l t -> key_lines ls ts -> key_lines (l :: ls) (t :: ts).

(** The comma separated entries of an environment variable (none if it is not set). *)
Definition env_entries (v : env_var) (es : list bytes) : Prop :=
  (v = VarUnset /\ es = []) \/ (es <> [] /\ (forall e, In e es -> ~ In ","%byte e) /\ v = VarText (join_with ","%byte es)).
(** The entries of a key file (none if it does not exist). *)
Definition file_entries (k : key_file) (ts : list bytes) : Prop :=
  (k = FileAbsent /\ ts = [])
  \/ exists ls, ls <> [] /\ (forall l, In l ls -> ~ In x0a l) /\ k = FileText (join_with x0a ls) /\ key_lines ls ts.

(** The service answers requests to decrypt the entry. *)
Definition kms_answers (E : env) (u : wrapped aws_key) : Prop :=
  forall req blob, kr_region req = arn_region (ak_arn (u_key u)) -> kr_key req = arn_key (ak_arn (u_key u)) -> u_enc u = encode_base64 blob ->
  e_kms_decrypt E req blob <> KmsFailed.

(** The environment can open an entry: it offers the identity of an age recipient; or it offers no such identity, but
    credentials for the profile of a KMS entry, for no KMS entry before it, and the service answers. *)
Inductive can_open (ag : age_crate) (E : env) (rc : recipients) : Prop :=
| open_age ids i : age_available ag E ids -> In i ids -> In (ag_public ag i) (map u_key (rc_age rc)) -> can_open ag E rc
| open_kms ids ks a u b c : age_available ag E ids -> (forall i, In i ids -> ~ In (ag_public ag i) (map u_key (rc_age rc))) ->
    kms_available E ks -> rc_kms rc = a ++ u :: b ->
    (forall v c', In v a -> In c' ks -> as_profile c' <> ak_profile (u_key v)) ->
    In c ks -> as_profile c = ak_profile (u_key u) -> kms_answers E u ->
    can_open ag E rc.

(** * Time *)

(** The same second: a leap second differs from the second before it. *)
Definition same_second (t t' : timestamp) : Prop :=
  t_year t = t_year t' /\ t_month t = t_month t' /\ t_day t = t_day t' /\ t_hour t = t_hour t' /\ t_min t = t_min t' /\ t_sec t = t_sec t'
  /\ ((1000000000 <= t_nano t)%N <-> (1000000000 <= t_nano t')%N).

(** * Whole files *)

(** The document as far as rops is concerned: [dm] is the internal form of the document of the decrypted file. *)
Definition document (f : fmt) (df : dfile) (dm : dmap) : Prop := dec_map_to_internal f (fl_map df) = Ok dm.

(** Restrictions under which the conversions agree (C07, C08, C46, C48): rule tests unaffected by colons, no string "null" in TOML,
    no NaN or infinity in JSON. *)
Definition fits (f : fmt) (rule : option partial) (dm : dmap) : Prop :=
  colon_safe_map rule dm /\ (f = Toml -> forall ks, ~ In (ks, VStr (lit "null")) (map_values dm))
  /\ (f = Json -> forall ks v, In (ks, v) (map_values dm) -> ~ non_finite v).

(** What the MAC of a file says about a document: the upper-case hex text of the SHA-512 digest of the byte forms of the covered
    values in document order (after a fixed prefix if only encrypted values are covered). *)
Definition mac_of (re : regex_engine) (only : option bool) (rule : option partial) (dm : dmap) (mac : bytes) : Prop :=
  exists vs, kept (covered re (match only with Some true => true | _ => false end) rule) (map_values dm) vs
  /\ mac = hex_encode_upper (sha512 ((match only with Some true => mac_init_bytes | _ => [] end) ++ flat_map value_bytes vs)).

(** The document an encrypted file decrypts to, before it is checked against the MAC. *)
Definition content (re : regex_engine) (ag : age_crate) (E : env) (f : fmt) (ef : efile) (dm : dmap) : Prop :=
  exists key em, retrieve_data_key ag E (md_recipients (fl_meta ef)) = Ok key
  /\ enc_map_to_internal re f (md_partial (fl_meta ef)) (fl_map ef) = Ok em /\ decrypt_map key em = Ok dm.

(** The stored MAC is authentic under the data key with the last-modified time as associated data, and its plaintext is [mac]. *)
Definition authentic_mac (ag : age_crate) (E : env) (ef : efile) (mac : bytes) : Prop :=
  exists key, retrieve_data_key ag E (md_recipients (fl_meta ef)) = Ok key
  /\ gcm_decrypt key (ev_nonce (md_mac (fl_meta ef))) (timestamp_text (md_modified (fl_meta ef))) (ev_data (md_mac (fl_meta ef))) (ev_tag (md_mac (fl_meta ef))) = Some mac.

(** The bytes hashed for the MAC, for the covered values [vs]. *)
Definition hashed (only : option bool) (vs : list value) : bytes :=
  (match only with Some true => mac_init_bytes | _ => [] end) ++ flat_map value_bytes vs.

(** The same file with another last-modified time, with another encrypted document. *)
Definition with_modified {M} (fl : file M) (t : timestamp) : file M :=
  {| fl_map := fl_map fl;
     fl_meta := {| md_recipients := md_recipients (fl_meta fl); md_modified := t; md_mac := md_mac (fl_meta fl);
                   md_partial := md_partial (fl_meta fl); md_only := md_only (fl_meta fl) |} |}.
Definition with_map {M} (fl : file M) (m : fmap) : file M := {| fl_map := m; fl_meta := fl_meta fl |}.

(** The encrypted value [e] of the file is [v] encrypted with the data key [key] at the key path [ks]. *)
Definition encrypted_under (key : bytes) (em : emap) (dm : dmap) : Prop :=
  forall i ks e, value_at em i ks (Encrypted e) -> exists v, value_at dm i ks v /\ encrypt_value v (ev_nonce e) key (path_text ks) = Ok e.

(** Nothing was forged: every encrypted value of [em'] has the ciphertext, nonce, tag and associated data of one in [em]. *)
Definition no_forgery (em em' : emap) : Prop :=
  forall i ks e', value_at em' i ks (Encrypted e') -> exists j ks0 e, value_at em j ks0 (Encrypted e)
    /\ ev_nonce e' = ev_nonce e /\ ev_data e' = ev_data e /\ ev_tag e' = ev_tag e /\ path_text ks0 = path_text ks.

(** The equality of parsed documents that decides whether the last-modified time changes: the order of keys does not matter, 0.0 and
    -0.0 are equal, and NaN equals itself in YAML only. *)
Definition same_float (f : fmt) (x y : f64) : Prop :=
  (x = y /\ (x = FNaN -> f = Yaml)) \/ exists s t e, x = FFin s 0 e /\ y = FFin t 0 e.
Inductive alike (f : fmt) : fvalue -> fvalue -> Prop :=
| al_map m m' : length m = length m' -> (forall k v, In (k, v) m -> exists k' v', In (k', v') m' /\ alike f k k' /\ alike f v v') -> alike f (FMap m) (FMap m')
| al_seq l l' : Forall2 (alike f) l l' -> alike f (FSeq l) (FSeq l')
| al_str s : alike f (FStr s) (FStr s)
| al_bool b : alike f (FBool b) (FBool b)
| al_int z : alike f (FNum (NInt z)) (FNum (NInt z))
| al_float x y : same_float f x y -> alike f (FNum (NFlt x)) (FNum (NFlt y))
| al_null : alike f FNull FNull
| al_tag t v v' : alike f v v' -> alike f (FTagged t v) (FTagged t v')
| al_date s : alike f (FDate s) (FDate s).
