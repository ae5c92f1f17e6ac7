(** Files: building, encrypting, decrypting, editing, and changing recipients.
    Sources: crates/lib/src/file/{core,saved_parameters,error}.rs, file/builder/core.rs, file/metadata/core.rs. *)
From Verif.Model Require Export Mac Format Integration.
Open Scope byte_scope.

(** metadata/core.rs:12-25 [RopsFileMetadata]; the MAC is a [Mac] (bytes) or an [EncryptedMac] (encrypted value). *)
Record meta (M : Type) := {
  md_recipients : recipients; md_modified : timestamp; md_mac : M; md_partial : option partial; md_only : option bool }.
Arguments md_recipients {M} m.
Arguments md_modified {M} m.
Arguments md_mac {M} m.
Arguments md_partial {M} m.
Arguments md_only {M} m.

(** file/core.rs:11-19 [RopsFile].  The format is a parameter of the operations. *)
Record file (M : Type) := { fl_map : fmap; fl_meta : meta M }.
Arguments fl_map {M} f.
Arguments fl_meta {M} f.
Definition efile := file evalue.    (* RopsFile<EncryptedFile<AES256GCM, SHA512>, F> *)
Definition dfile := file bytes.     (* RopsFile<DecryptedFile<SHA512>, F> *)

(** The metadata with another MAC, other recipients. *)
Definition with_mac {M N} (md : meta M) (mac : N) : meta N :=
  {| md_recipients := md_recipients md; md_modified := md_modified md; md_mac := mac; md_partial := md_partial md; md_only := md_only md |}.
Definition with_recipients {M} (f : file M) (rc : recipients) : file M :=
  {| fl_map := fl_map f;
     fl_meta := {| md_recipients := rc; md_modified := md_modified (fl_meta f); md_mac := md_mac (fl_meta f);
                   md_partial := md_partial (fl_meta f); md_only := md_only (fl_meta f) |} |}.

(** saved_parameters.rs:5-9 [SavedParameters]. *)
Record saved := { sv_key : bytes; sv_map : saved_nonces; sv_mac : saved_mac_nonce }.

(** error.rs:27 [MacMismatch]: the format string names its first argument twice. *)
Definition mac_mismatch_message (computed stored : bytes) : bytes :=
  lit "invalid MAC, computed " ++ computed ++ lit ", stored " ++ computed.

Section File.
  Context (re : regex_engine) (tp : tape) (ag : age_crate).

  (** metadata/core.rs:139-168 [encrypt], [encrypt_with_saved_mac_nonce]; the associated data is the displayed timestamp
      (last_modified.rs:13-18). *)
  Definition encrypt_meta (sv : option saved_mac_nonce) (md : meta bytes) (key : bytes) (n : nat) : outcome (meta evalue * nat) :=
    let* e := encrypt_mac tp sv (md_mac md) key (timestamp_text (md_modified md)) n in
    Ok (with_mac md (fst e), snd e).

  (** Encrypting map and metadata under a given data key and joining them: core.rs:105-110, 120-126 and
      [from_parts_results] 182-189.  [fo] is the output format. *)
  Definition encrypt_parts (fo : fmt) (sv : option saved) (key : bytes) (dm : dmap) (md : meta bytes) (n : nat) : outcome (efile * nat) :=
    let* em := encrypt_map re tp (option_map sv_map sv) key (md_partial md) dm n in
    let* emd := encrypt_meta (option_map sv_mac sv) md key (snd em) in
    let* m := enc_map_from_internal fo (fst em) in
    Ok ({| fl_map := m; fl_meta := fst emd |}, snd emd).

  (** core.rs:103-111 [encrypt]. *)
  Definition file_encrypt (E : env) (f fo : fmt) (df : dfile) (n : nat) : outcome (efile * nat) :=
    let* key := retrieve_data_key ag E (md_recipients (fl_meta df)) in
    let* dm := dec_map_to_internal f (fl_map df) in
    encrypt_parts fo None key dm (fl_meta df) n.

  (** core.rs:113-127 [encrypt_with_saved_parameters]. *)
  Definition file_encrypt_saved (f fo : fmt) (sv : saved) (df : dfile) (n : nat) : outcome (efile * nat) :=
    let* dm := dec_map_to_internal f (fl_map df) in
    encrypt_parts fo (Some sv) (sv_key sv) dm (fl_meta df) n.

  (** core.rs:163-180 [validate_mac].  The stored MAC is displayed in the error, which aborts if it is not UTF-8. *)
  Definition validate_mac (dm : dmap) (md : meta bytes) : outcome unit :=
    if bytes_eqb (compute_mac re (md_only md) (md_partial md) dm) (md_mac md) then Ok tt
    else let* _ := mac_text (md_mac md) in Err EMacMismatch.

  (** core.rs:131-139 [decrypt]; metadata/core.rs:56-75. *)
  Definition file_decrypt (E : env) (f fo : fmt) (ef : efile) : outcome dfile :=
    let md := fl_meta ef in
    let* key := retrieve_data_key ag E (md_recipients md) in
    let* mac := decrypt_mac (md_mac md) key (timestamp_text (md_modified md)) in
    let* em := enc_map_to_internal re f (md_partial md) (fl_map ef) in
    let* dm := decrypt_map key em in
    let* _ := validate_mac dm (with_mac md (fst mac)) in
    let* m := dec_map_from_internal fo dm in
    Ok {| fl_map := m; fl_meta := with_mac md (fst mac) |}.

  (** core.rs:142-161 [decrypt_and_save_parameters]; metadata/core.rs:78-99. *)
  Definition file_decrypt_save (E : env) (f fo : fmt) (ef : efile) : outcome (dfile * saved) :=
    let md := fl_meta ef in
    let* key := retrieve_data_key ag E (md_recipients md) in
    let* mac := decrypt_mac (md_mac md) key (timestamp_text (md_modified md)) in
    let* em := enc_map_to_internal re f (md_partial md) (fl_map ef) in
    let* dm := decrypt_map_save key em in
    let* _ := validate_mac (fst dm) (with_mac md (fst mac)) in
    let* m := dec_map_from_internal fo (fst dm) in
    Ok ({| fl_map := m; fl_meta := with_mac md (fst mac) |},
        {| sv_key := key; sv_map := snd dm; sv_mac := mac |}).

  (** core.rs:81-96 [set_map]. *)
  Definition file_set_map (E : env) (f : fmt) (df : dfile) (other : fmap) (n : nat) : outcome dfile :=
    let md := fl_meta df in
    let lm := if fmap_eqb f (fl_map df) other then md_modified md else now E n in
    let* dm := dec_map_to_internal f other in
    let* m := dec_map_from_internal f dm in
    Ok {| fl_map := m;
          fl_meta := {| md_recipients := md_recipients md; md_modified := lm;
                        md_mac := compute_mac re (md_only md) (md_partial md) dm;
                        md_partial := md_partial md; md_only := md_only md |} |}.

  (** core.rs:45-51 [add_keys::<AgeIntegration>], [::<AwsKmsIntegration>], on encrypted and decrypted files.  The result is the
      file as left behind, together with the outcome. *)
  Definition file_add_age {M} (E : env) (ids : list bytes) (fl : file M) (n : nat) : file M * outcome nat :=
    match retrieve_data_key ag E (md_recipients (fl_meta fl)) with
    | Ok key => let '(rc, o) := add_age ag ids key (md_recipients (fl_meta fl)) n in (with_recipients fl rc, o)
    | Err e => (fl, Err e)
    | Panic => (fl, Panic)
    end.
  Definition file_add_kms {M} (E : env) (ids : list aws_key) (fl : file M) (n : nat) : file M * outcome nat :=
    match retrieve_data_key ag E (md_recipients (fl_meta fl)) with
    | Ok key => let '(rc, o) := add_kms E ids key (md_recipients (fl_meta fl)) n in (with_recipients fl rc, o)
    | Err e => (fl, Err e)
    | Panic => (fl, Panic)
    end.

  (** core.rs:98-101 [remove_integration_key]. *)
  Definition file_remove_age (E : env) (r : bytes) (df : dfile) (n : nat) : dfile * outcome (option (wrapped bytes) * nat) :=
    let '(rc, o) := remove_age tp ag E r (md_recipients (fl_meta df)) n in (with_recipients df rc, o).
  Definition file_remove_kms (E : env) (k : aws_key) (df : dfile) (n : nat) : dfile * outcome (option (wrapped aws_key) * nat) :=
    let '(rc, o) := remove_kms tp ag E k (md_recipients (fl_meta df)) n in (with_recipients df rc, o).

  (** builder/core.rs:3-8 [RopsFileBuilder]; [bd_only] is [Some true] or [None] (lines 37-40). *)
  Record builder := {
    bd_map : fmap; bd_partial : option partial; bd_only : option bool; bd_age : list bytes; bd_kms : list aws_key }.

  (** builder/core.rs:54-81 [encrypt].  A failed map encryption is only reported after the recipients were built; how far the
      random generator got in that case is not tracked. *)
  Definition builder_encrypt (E : env) (f : fmt) (b : builder) (n : nat) : outcome (efile * nat) :=
    let key := draw_key tp n in
    let* dm := dec_map_to_internal f (bd_map b) in
    let mac := compute_mac re (bd_only b) (bd_partial b) dm in
    let em := encrypt_map re tp None key (bd_partial b) dm (S n) in
    let n1 := match em with Ok (_, n1) => n1 | _ => S n end in
    let* rc := build_recipients ag E (bd_age b) (bd_kms b) key n1 in
    let md := {| md_recipients := fst rc; md_modified := now E (snd rc); md_mac := mac; md_partial := bd_partial b; md_only := bd_only b |} in
    let emd := encrypt_meta None md key (S (snd rc)) in
    let* em := em in
    let* emd := emd in
    let* m := enc_map_from_internal f (fst em) in
    Ok ({| fl_map := m; fl_meta := fst emd |}, snd emd).
End File.
