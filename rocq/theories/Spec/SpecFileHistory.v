(** Histories of library operations on one file (C22), and of its AES-GCM invocations (C19). *)
From Verif.Model Require Import File.
From Verif.Spec Require Import SpecFile.

(** A file in encrypted or decrypted state, with its format; a decrypted one possibly with the saved parameters of its decryption. *)
Inductive state := Enc (f : fmt) (ef : efile) | Dec (f : fmt) (df : dfile) (sv : option saved).

Section Histories.
  Context (re : regex_engine) (tp : tape) (ag : age_crate) (W : env -> Prop).

  (** [hist s dm]: a file was built and taken through operations to state [s]; [dm] is the document set last.  Every operation
      runs in an arbitrary environment of [W], at an arbitrary position of the effect stream, with arbitrary arguments.
      Decryption and encryption may change the format.  Adding recipients may fail part-way.  After a removal, which replaces the
      data key, the saved parameters are not used any more (see C29). *)
  Inductive hist : state -> dmap -> Prop :=
  | h_built E f b n dm ef n' : W E -> fmt_doc f (bd_map b) -> dec_map_to_internal f (bd_map b) = Ok dm -> fits f (bd_partial b) dm ->
      builder_encrypt re tp ag E f b n = Ok (ef, n') -> hist (Enc f ef) dm
  | h_decrypted E f fo ef dm df : W E -> hist (Enc f ef) dm -> fits fo (md_partial (fl_meta ef)) dm ->
      file_decrypt re ag E f fo ef = Ok df -> hist (Dec fo df None) dm
  | h_decrypted_saving E f fo ef dm df sv : W E -> hist (Enc f ef) dm -> fits fo (md_partial (fl_meta ef)) dm ->
      file_decrypt_save re ag E f fo ef = Ok (df, sv) -> hist (Dec fo df (Some sv)) dm
  | h_replaced E f df sv dm other n df' dm' : W E -> hist (Dec f df sv) dm -> fmt_doc f other -> dec_map_to_internal f other = Ok dm' ->
      fits f (md_partial (fl_meta df)) dm' -> file_set_map re E f df other n = Ok df' -> hist (Dec f df' sv) dm'
  | h_added_age E f df sv dm ids n df' r : W E -> hist (Dec f df sv) dm -> file_add_age ag E ids df n = (df', r) -> hist (Dec f df' sv) dm
  | h_added_kms E f df sv dm ids n df' r : W E -> hist (Dec f df sv) dm -> file_add_kms ag E ids df n = (df', r) -> hist (Dec f df' sv) dm
  | h_added_age_enc E f ef dm ids n ef' r : W E -> hist (Enc f ef) dm -> file_add_age ag E ids ef n = (ef', r) -> hist (Enc f ef') dm
  | h_added_kms_enc E f ef dm ids n ef' r : W E -> hist (Enc f ef) dm -> file_add_kms ag E ids ef n = (ef', r) -> hist (Enc f ef') dm
  | h_removed_age E f df sv dm r n df' u n' : W E -> hist (Dec f df sv) dm -> file_remove_age tp ag E r df n = (df', Ok (u, n')) ->
      hist (Dec f df' (match u with None => sv | Some _ => None end)) dm
  | h_removed_kms E f df sv dm k n df' u n' : W E -> hist (Dec f df sv) dm -> file_remove_kms tp ag E k df n = (df', Ok (u, n')) ->
      hist (Dec f df' (match u with None => sv | Some _ => None end)) dm
  | h_encrypted E f fo df sv dm n ef n' : W E -> hist (Dec f df sv) dm -> fits fo (md_partial (fl_meta df)) dm ->
      file_encrypt re tp ag E f fo df n = Ok (ef, n') -> hist (Enc fo ef) dm
  | h_edited f fo df sv dm n ef n' : hist (Dec f df (Some sv)) dm -> fits fo (md_partial (fl_meta df)) dm ->
      file_encrypt_saved re tp f fo sv df n = Ok (ef, n') -> hist (Enc fo ef) dm.
End Histories.

(** An AES-GCM invocation for a value or for the MAC: nonce, associated data, plaintext. *)
Inductive message := ForValue (nonce aad plain : bytes) | ForMac (nonce aad plain : bytes).

Definition nonce_of (m : message) : bytes := match m with ForValue n _ _ | ForMac n _ _ => n end.
Definition aad_of (m : message) : bytes := match m with ForValue _ a _ | ForMac _ a _ => a end.
Definition plain_of (m : message) : bytes := match m with ForValue _ _ p | ForMac _ _ p => p end.
Definition is_mac (m : message) : Prop := match m with ForMac _ _ _ => True | _ => False end.

Section Messages.
  Context (re : regex_engine) (tp : tape) (ag : age_crate).

  (** The invocations behind an encrypted file holding the document [dm]: one for each encrypted value [e] at the key path [ks] with
      plaintext value [v], one for the MAC. *)
  Inductive sent (f : fmt) (ef : efile) (dm : dmap) (mac : bytes) : message -> Prop :=
  | sent_value em i ks e v : enc_map_to_internal re f (md_partial (fl_meta ef)) (fl_map ef) = Ok em -> pair_at em dm i ks e v ->
      sent f ef dm mac (ForValue (ev_nonce e) (path_text ks) (value_bytes v))
  | sent_mac : sent f ef dm mac (ForMac (ev_nonce (md_mac (fl_meta ef))) (timestamp_text (md_modified (fl_meta ef))) mac).

  (** A decrypted file is encrypted and then edited any number of times: decrypted with saved parameters, replaced by an arbitrary
      decrypted file (document, timestamp, MAC and options may all differ), and encrypted with the saved parameters, possibly to
      another format.  [used m] holds when the invocation [m] happened under the data key [key]; the last number is the draw counter. *)
  Inductive edits (key : bytes) : (message -> Prop) -> fmt -> efile -> nat -> Prop :=
  | edits_fresh E f fo df n ef n' dm : fmt_doc f (fl_map df) -> document f df dm -> fits fo (md_partial (fl_meta df)) dm ->
      retrieve_data_key ag E (md_recipients (fl_meta df)) = Ok key ->
      file_encrypt re tp ag E f fo df n = Ok (ef, n') -> edits key (sent fo ef dm (md_mac (fl_meta df))) fo ef n'
  | edits_built E f b n ef n' dm : fmt_doc f (bd_map b) -> dec_map_to_internal f (bd_map b) = Ok dm -> fits f (bd_partial b) dm ->
      key = draw_key tp n ->
      builder_encrypt re tp ag E f b n = Ok (ef, n') -> edits key (sent f ef dm (compute_mac re (bd_only b) (bd_partial b) dm)) f ef n'
  | edits_edit E used f fo ft ef n df sv df2 dm2 k ef2 n2 : edits key used f ef n -> file_decrypt_save re ag E f fo ef = Ok (df, sv) -> sv_key sv = key ->
      fmt_doc fo (fl_map df2) -> document fo df2 dm2 -> fits ft (md_partial (fl_meta df2)) dm2 -> n <= k ->
      file_encrypt_saved re tp fo ft sv df2 k = Ok (ef2, n2) ->
      edits key (fun m => used m \/ sent ft ef2 dm2 (md_mac (fl_meta df2)) m) ft ef2 n2.
End Messages.
