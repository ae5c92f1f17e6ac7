(** The commands.
    Sources: crates/cli/src/run.rs, crates/cli/src/args/*.rs, crates/cli/src/cli/{common,encrypt,decrypt,edit,keys,refresh}.rs. *)
From Verif.Model Require Export Config Shlex.
Open Scope byte_scope.

(** * Arguments *)

(** args/misc_args.rs:5-20 [PartialEncryptionArgs]. *)
Record partial_args := { pa_esuffix : option bytes; pa_eregex : option bytes; pa_usuffix : option bytes; pa_uregex : option bytes }.
(** misc_args.rs:22-35: the first that is set. *)
Definition partial_of_args (a : partial_args) : outcome partial :=
  match pa_esuffix a, pa_eregex a, pa_usuffix a, pa_uregex a with
  | Some s, _, _, _ => Ok (EncryptedSuffix s)
  | None, Some s, _, _ => Ok (EncryptedRegex s)
  | None, None, Some s, _ => Ok (UnencryptedSuffix s)
  | None, None, None, Some s => Ok (UnencryptedRegex s)
  | None, None, None, None => Panic
  end.
(** misc_args.rs:38-51. *)
Definition args_of_partial (p : partial) : partial_args :=
  match p with
  | EncryptedSuffix s => {| pa_esuffix := Some s; pa_eregex := None; pa_usuffix := None; pa_uregex := None |}
  | EncryptedRegex s => {| pa_esuffix := None; pa_eregex := Some s; pa_usuffix := None; pa_uregex := None |}
  | UnencryptedSuffix s => {| pa_esuffix := None; pa_eregex := None; pa_usuffix := Some s; pa_uregex := None |}
  | UnencryptedRegex s => {| pa_esuffix := None; pa_eregex := None; pa_usuffix := None; pa_uregex := Some s |}
  end.

(** args/input_args.rs:7-18, args/encrypt.rs:7-21, args/decrypt.rs:7-14, args/refresh.rs:7-14, args/keys.rs:15-26. *)
Record input_args := { in_config : option bytes; in_format : option fmt; in_file : option bytes }.
Record encrypt_args := { ea_keys : keys; ea_partial : option partial_args; ea_only : option bool; ea_input : input_args; ea_in_place : option bool }.
Record place_args := { pl_input : input_args; pl_in_place : option bool }.    (* decrypt and refresh *)
Record key_args := { ka_keys : keys; ka_format : option fmt; ka_file : bytes }.
(** args/core.rs:11-27. *)
Inductive command :=
| Encrypt (a : encrypt_args) | Decrypt (a : place_args) | Edit (a : input_args)
| AddKeys (a : key_args) | RemoveKeys (a : key_args) | Refresh (a : place_args).

(** What clap makes of the command line.  A flag with [ArgAction::SetTrue] has the default value false, so a field of type
    [Option<bool>] is never [None] (args/encrypt.rs:14-15, 18-20).  [requires] and [group(multiple = false)] reject; a flattened
    optional group is [Some] when one of its options was given. *)
Record encrypt_line := {
  el_keys : keys; el_partial : partial_args; el_only : bool; el_input : input_args; el_in_place : bool }.
Definition set_true (given : bool) : option bool := Some given.
Definition given {A} (o : option A) : nat := match o with Some _ => 1 | None => 0 end.
Definition options_given (a : partial_args) : nat := given (pa_esuffix a) + given (pa_eregex a) + given (pa_usuffix a) + given (pa_uregex a).
Definition parse_encrypt (l : encrypt_line) : option command :=
  let n := options_given (el_partial l) in
  if (1 <? n)%nat || (el_only l && (n =? 0)%nat) || (el_in_place l && (given (in_file (el_input l)) =? 0)%nat) then None
  else Some (Encrypt {| ea_keys := el_keys l; ea_partial := if (n =? 0)%nat then None else Some (el_partial l);
                        ea_only := set_true (el_only l); ea_input := el_input l; ea_in_place := set_true (el_in_place l) |}).
Definition parse_place (c : place_args -> command) (i : input_args) (in_place : bool) : option command :=
  if in_place && (given (in_file i) =? 0)%nat then None else Some (c {| pl_input := i; pl_in_place := set_true in_place |}).

(** args/core.rs:29-39, args/keys.rs:28-32. *)
Definition config_path (c : command) : option bytes :=
  match c with
  | Encrypt a => in_config (ea_input a)
  | Decrypt a | Refresh a => in_config (pl_input a)
  | Edit a => in_config a
  | AddKeys _ | RemoveKeys _ => None
  end.

(** [Option::unwrap_or_default]. *)
Definition is_set (o : option bool) : bool := match o with Some b => b | None => false end.
(** Standard input counts as the empty path (encrypt.rs:31-33, refresh.rs:34-36). *)
Definition path_to_match (p : option bytes) : bytes := lossy (match p with Some p => p | None => [] end).

(** [Option::or]. *)
Definition or_else {A} (a b : option A) : option A := match a with Some _ => a | None => b end.

Section Cli.
  Context (re : regex_engine) (tp : tape) (ag : age_crate) (cd : codec).

  (** The rule that applies: args/encrypt.rs:34-35, 48, cli/refresh.rs:38-39, 58. *)
  Definition matching_rule (path : bytes) (rules : list rule) : option rule := find (fun r => re_match re (cr_path r) path) rules.

  (** args/encrypt.rs:29-52 [merge_config]; the other commands ignore the configuration. *)
  Definition merge_encrypt (rules : list rule) (a : encrypt_args) : encrypt_args :=
    match matching_rule (path_to_match (in_file (ea_input a))) rules with
    | None => a
    | Some r =>
        {| ea_keys := merge_keys (ea_keys a) (cr_keys r);
           ea_partial := or_else (ea_partial a) (option_map args_of_partial (cr_partial r));
           ea_only := or_else (ea_only a) (cr_only r); ea_input := ea_input a; ea_in_place := ea_in_place a |}
    end.
  Definition merge_config (rules : list rule) (c : command) : command :=
    match c with Encrypt a => Encrypt (merge_encrypt rules a) | _ => c end.

  (** * Texts: what the commands compute, without files *)

  (** misc_args.rs:53-59 [Format] with [ValueEnum::from_str(_, true)]. *)
  Definition format_of_name (s : bytes) : option fmt :=
    if bytes_eqb (to_lower s) (lit "yaml") || bytes_eqb (to_lower s) (lit "yml") then Some Yaml
    else if bytes_eqb (to_lower s) (lit "json") then Some Json
    else if bytes_eqb (to_lower s) (lit "toml") then Some Toml
    else None.
  (** cli/common.rs:42-55 [get_format]. *)
  Definition get_format (path : option bytes) (explicit : option fmt) : outcome fmt :=
    match explicit, path with
    | Some f, _ => Ok f
    | None, None => Err EFoundNeither
    | None, Some p =>
        match extension p with
        | None => Err ENoExtension
        | Some e => if utf8_valid e then ok_or ENoExtension (format_of_name e) else Panic
        end
    end.

  (** cli/encrypt.rs:23-40. *)
  Definition encrypt_text (E : env) (f : fmt) (a : encrypt_args) (s : bytes) (n : nat) : outcome (bytes * nat) :=
    let* m := read_map cd f s in
    let* p := match ea_partial a with None => Ok None | Some pa => omap Some (partial_of_args pa) end in
    let* r := builder_encrypt re tp ag E f
      {| bd_map := m; bd_partial := p; bd_only := if is_set (ea_only a) then Some true else None;
         bd_age := ks_age (ea_keys a); bd_kms := ks_kms (ea_keys a) |} n in
    let* t := file_text cd f (fst r) in
    Ok (t, snd r).

  (** cli/decrypt.rs:31-37. *)
  Definition decrypt_text (E : env) (f : fmt) (s : bytes) : outcome bytes :=
    let* ef := read_efile (re_valid re) ag cd f s in
    let* df := file_decrypt re ag E f f ef in
    map_text cd f (fl_map df).

  (** cli/keys.rs:23-35. *)
  Definition add_text (E : env) (f : fmt) (ks : keys) (s : bytes) (n : nat) : outcome (bytes * nat) :=
    let* ef := read_efile (re_valid re) ag cd f s in
    let '(ef1, o1) := file_add_age ag E (ks_age ks) ef n in
    let* n1 := o1 in
    let '(ef2, o2) := file_add_kms ag E (ks_kms ks) ef1 n1 in
    let* n2 := o2 in
    let* t := file_text cd f ef2 in
    Ok (t, n2).

  (** cli/keys.rs:53-59: one removal after the other, up to the first failure. *)
  Fixpoint remove_all {K U} (remove : K -> dfile -> nat -> dfile * outcome (U * nat)) (ids : list K) (df : dfile) (n : nat) : outcome (dfile * nat) :=
    match ids with
    | [] => Ok (df, n)
    | k :: ids' => let '(df', o) := remove k df n in let* r := o in remove_all remove ids' df' (snd r)
    end.
  (** cli/keys.rs:45-64. *)
  Definition remove_text (E : env) (f : fmt) (ks : keys) (s : bytes) (n : nat) : outcome (bytes * nat) :=
    let* ef := read_efile (re_valid re) ag cd f s in
    let* df := file_decrypt re ag E f f ef in
    let* a := remove_all (file_remove_age tp ag E) (ks_age ks) df n in
    let* k := remove_all (file_remove_kms tp ag E) (ks_kms ks) (fst a) (snd a) in
    let* r := file_encrypt re tp ag E f f (fst k) (snd k) in
    let* t := file_text cd f (fst r) in
    Ok (t, snd r).

  (** cli/refresh.rs:27-62, with the configuration already retrieved. *)
  Definition refresh_text (E : env) (f : fmt) (rules : list rule) (path : option bytes) (s : bytes) (n : nat) : outcome (bytes * nat) :=
    let* ef := read_efile (re_valid re) ag cd f s in
    match matching_rule (path_to_match path) rules with
    | None => Ok (s, n)
    | Some r =>
        if implies_metadata r (fl_meta ef) then Ok (s, n)
        else
          let* df := file_decrypt re ag E f f ef in
          let* b := builder_encrypt re tp ag E f
            {| bd_map := fl_map df; bd_partial := cr_partial r; bd_only := if is_set (cr_only r) then Some true else None;
               bd_age := ks_age (cr_keys r); bd_kms := ks_kms (cr_keys r) |} n in
          let* t := file_text cd f (fst b) in
          Ok (t, snd b)
    end.

  (** cli/edit.rs:48-51: the edited document replaces the old one; the clock is read once. *)
  Definition edited_text (E : env) (f : fmt) (df : dfile) (sv : saved) (m : fmap) (n : nat) : outcome (bytes * nat) :=
    let* df' := file_set_map re E f df m n in
    let* r := file_encrypt_saved re tp f f sv df' (S n) in
    let* t := file_text cd f (fst r) in
    Ok (t, snd r).

  (** * The commands *)

  Context (O : os).

  (** cli/common.rs:12-40 [get_input_string]. *)
  Definition read_from_path (p : bytes) : prog bytes :=
    match os_stdin O with Some _ => lift (Err EMultipleInputs) | None => read_to_string O p end.
  Definition read_stdin (s : bytes) : prog bytes := lift (if utf8_valid s then Ok s else Err EIo).
  Definition get_input_string (path : option bytes) (in_place : option bool) : prog bytes :=
    if is_set in_place then match path with Some p => read_from_path p | None => lift Panic end
    else match path with
         | Some p => read_from_path p
         | None => match os_stdin O with None => lift (Err EMissingInput) | Some s => read_stdin s end
         end.
  (** cli/common.rs:57-70 [write_or_print]. *)
  Definition write_or_print (in_place : option bool) (path : option bytes) (t : bytes) : prog unit :=
    if is_set in_place then match path with Some p => fs_write O p t | None => lift Panic end else println O t.

  (** cli/encrypt.rs:6-15. *)
  Definition run_encrypt (a : encrypt_args) : prog unit :=
    let path := in_file (ea_input a) in
    do* f := lift (get_format path (in_format (ea_input a))) in
    do* s := get_input_string path (ea_in_place a) in
    do* t := drawing (encrypt_text (os_env O) f a s) in
    write_or_print (ea_in_place a) path t.
  (** cli/decrypt.rs:6-22. *)
  Definition run_decrypt (a : place_args) : prog unit :=
    let path := in_file (pl_input a) in
    do* f := lift (get_format path (in_format (pl_input a))) in
    do* s := get_input_string path (pl_in_place a) in
    do* t := lift (decrypt_text (os_env O) f s) in
    write_or_print (pl_in_place a) path t.
  (** cli/keys.rs:16-37, 39-64. *)
  Definition run_keys (text : env -> fmt -> keys -> bytes -> nat -> outcome (bytes * nat)) (a : key_args) : prog unit :=
    do* f := lift (get_format (Some (ka_file a)) (ka_format a)) in
    do* s := get_input_string (Some (ka_file a)) None in
    do* t := drawing (text (os_env O) f (ka_keys a) s) in
    fs_write O (ka_file a) t.
  (** cli/refresh.rs:6-15, 27-30: the configuration is retrieved a second time. *)
  Definition run_refresh (a : place_args) : prog unit :=
    let path := in_file (pl_input a) in
    do* f := lift (get_format path (in_format (pl_input a))) in
    do* s := get_input_string path (pl_in_place a) in
    do* rules := retrieve re ag cd O (in_config (pl_input a)) in
    do* t := drawing (refresh_text (os_env O) f rules path s) in
    write_or_print (pl_in_place a) path t.

  (** cli/edit.rs:76. *)
  Definition fallback_editor : option bytes :=
    match os_which O (lit "vim") with
    | Some p => Some p
    | None => match os_which O (lit "nano") with Some p => Some p | None => os_which O (lit "vi") end
    end.
  (** cli/edit.rs:65-81 [select_editor]: the program and its arguments. *)
  Definition select_editor : outcome (bytes * list bytes) :=
    match os_editor_var O with
    | Some v => if utf8_valid v then match shlex_split v with Some (w :: ws) => Ok (w, ws) | Some [] => Panic | None => Err EIo end else Err EIo
    | None => match fallback_editor with Some p => if utf8_valid p then Ok (p, []) else Panic | None => Err EIo end
    end.
  (** cli/edit.rs:85-88. *)
  Definition editor_command (e : bytes * list bytes) : list bytes := fst e :: snd e ++ [os_temp O].
  (** cli/edit.rs:93-122: the loop of [edit_temp_file]; [None] when cancelled.  When the list of attempts is exhausted the editor can
      not be launched: an endless session is covered by its beginnings. *)
  Fixpoint edit_loop (f : fmt) (attempts : list (node -> edited)) : prog (option fmap) :=
    match attempts with
    | [] => lift (Err EIo)
    | attempt :: rest => fun s =>
        match attempt (sy_file s (os_temp O)) with
        | NoLaunch => (s, Err EIo)
        | ClosedWithError c => (done (Edited (os_temp O) c) s, Err EIo)
        | Closed c k =>
            (do* t := read_to_string O (os_temp O) in
             match read_map cd f t with
             | Ok m => ret (Some m)
             | Panic => lift Panic
             | Err _ => match k with
                        | KeyPressed => edit_loop f rest
                        | KeyInterrupted => ret None
                        | KeyFailed => lift (Err EIo)
                        end
             end) (done (Edited (os_temp O) c) s)
        end
    end.
  (** cli/edit.rs:29-63 [edit_encrypted_file]. *)
  Definition run_edit (a : input_args) : prog unit :=
    do* f := lift (get_format (in_file a) (in_format a)) in
    do* s := get_input_string (in_file a) None in
    do* ef := lift (read_efile (re_valid re) ag cd f s) in
    do* d := lift (file_decrypt_save re ag (os_env O) f f ef) in
    do* _ := perform O (MadeTemp (os_temp O)) in
    do* o := with_cleanup O (os_temp O)
      (do* t := lift (map_text cd f (fl_map (fst d))) in
       do* _ := fs_write O (os_temp O) t in
       do* e := lift select_editor in
       edit_loop f (os_editor O (editor_command e))) in
    match o with
    | None => ret tt
    | Some m =>
        do* t := drawing (edited_text (os_env O) f (fst d) (snd d) m) in
        match os_stdin O with
        | None => match in_file a with Some p => fs_write O p t | None => lift Panic end
        | Some _ => println O t
        end
    end.

  (** run.rs:5-16, after clap. *)
  Definition run_command (c : command) : prog unit :=
    do* rules := retrieve re ag cd O (config_path c) in
    match merge_config rules c with
    | Encrypt a => run_encrypt a
    | Decrypt a => run_decrypt a
    | Edit a => run_edit a
    | AddKeys a => run_keys add_text a
    | RemoveKeys a => run_keys remove_text a
    | Refresh a => run_refresh a
    end.
End Cli.
