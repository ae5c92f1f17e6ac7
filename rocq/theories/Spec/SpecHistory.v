(** Histories of edits of one map under one data key. *)
From Verif.Model Require Import MapCrypt.
From Verif.Spec Require Import SpecMap.

(** A map is encrypted afresh and then edited any number of times: decrypted with saved nonces, its document replaced by
    an arbitrary one, and re-encrypted, possibly under another rule.  [used u] holds when value encryption was invoked with
    nonce, path and value [u] at some point.  Other draws may happen in between.  The last number is the draw counter. *)
Inductive history (re : regex_engine) (tp : tape) (key : bytes) : (use -> Prop) -> emap -> nat -> Prop :=
| history_fresh m pc n em n' : rust_map m -> encrypt_map re tp None key pc m n = Ok (em, n') -> history re tp key (uses_of em m) em n'
| history_edit used em n k m s m2 pc em2 n2 : history re tp key used em n -> n <= k -> rust_map m2 ->
    decrypt_map_save key em = Ok (m, s) -> encrypt_map re tp (Some s) key pc m2 k = Ok (em2, n2) ->
    history re tp key (fun u => used u \/ uses_of em2 m2 u) em2 n2.
