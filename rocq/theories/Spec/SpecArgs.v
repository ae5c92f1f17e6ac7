(** Specification vocabulary for the command line (C73, C74): which arguments spell which options, and what the options say. *)
From Verif.Model Require Import Args.
From Verif.Spec Require Export SpecAbort.
Open Scope byte_scope.

(** * Spelling *)

(** An argument that is a value: it does not begin with a dash, or is a single dash. *)
Definition plain_value (t : bytes) : Prop := forall t', t = "-" :: t' -> t' = [].
(** The options with a value, and the flags, of each command. *)
Definition options_of (v : verb) : list arg :=
  match v with
  | VEncrypt => [AAge; AKms; AESuffix; AERegex; AUSuffix; AURegex; AConfig; AFormat]
  | VDecrypt | VEdit | VRefresh => [AConfig; AFormat]
  | VAdd | VRemove => [AAge; AKms; AFormat]
  end.
Definition flags_of (v : verb) : list arg :=
  match v with
  | VEncrypt => [AOnly; AInPlace; AHelp]
  | VDecrypt | VRefresh => [AInPlace; AHelp]
  | VEdit | VAdd | VRemove => [AHelp]
  end.
Definition an_option (v : verb) (a : arg) : Prop := In a (options_of v).
Definition a_flag (v : verb) (a : arg) : Prop := In a (flags_of v).
(** Their names, long and with one letter. *)
Definition long_of (a : arg) : bytes :=
  match a with
  | AAge => lit "age"
  | AKms => lit "aws-kms"
  | AESuffix => lit "encrypted-suffix"
  | AERegex => lit "encrypted-regex"
  | AUSuffix => lit "unencrypted-suffix"
  | AURegex => lit "unencrypted-regex"
  | AOnly => lit "mac-only-encrypted"
  | AConfig => lit "config"
  | AFormat => lit "format"
  | AInPlace => lit "in-place"
  | AHelp => lit "help"
  end.
Inductive letter_of : arg -> byte -> Prop :=
| lo_config : letter_of AConfig "c" | lo_format : letter_of AFormat "f" | lo_in_place : letter_of AInPlace "i" | lo_help : letter_of AHelp "h".
(** Letters after one dash: flags, and at most one option at the end, joined to its value or waiting for it. *)
Inductive letters (v : verb) : bytes -> list item -> option arg -> Prop :=
| le_end : letters v [] [] None
| le_flag c a t is o : a_flag v a -> letter_of a c -> letters v t is o -> letters v (c :: t) (Flag a :: is) o
| le_waiting c a : an_option v a -> letter_of a c -> letters v [c] [] (Some a)
| le_joined c a b x : an_option v a -> letter_of a c -> b <> "=" -> letters v (c :: b :: x) [Option_ a (b :: x)] None
| le_equals c a x : an_option v a -> letter_of a c -> letters v (c :: "=" :: x) [Option_ a x] None.
Inductive spells (v : verb) : list bytes -> list item -> Prop :=
| sp_none : spells v [] []
| sp_rest ts : spells v (lit "--" :: ts) (map File ts)
| sp_file t ts is : plain_value t -> spells v ts is -> spells v (t :: ts) (File t :: is)
| sp_long a x ts is : an_option v a -> plain_value x -> spells v ts is -> spells v ((lit "--" ++ long_of a) :: x :: ts) (Option_ a x :: is)
| sp_equals a x ts is : an_option v a -> spells v ts is -> spells v ((lit "--" ++ long_of a ++ "=" :: x) :: ts) (Option_ a x :: is)
| sp_flag a ts is : a_flag v a -> spells v ts is -> spells v ((lit "--" ++ long_of a) :: ts) (Flag a :: is)
| sp_letters l is' ts is : l <> [] -> letters v l is' None -> spells v ts is -> spells v (("-" :: l) :: ts) (is' ++ is)
| sp_waiting l a is' x ts is : letters v l is' (Some a) -> plain_value x -> spells v ts is -> spells v (("-" :: l) :: x :: ts) (is' ++ Option_ a x :: is).
(** The words that name the command. *)
Inductive names : list bytes -> verb -> Prop :=
| na_encrypt t : In t [lit "encrypt"; lit "e"] -> names [t] VEncrypt
| na_decrypt t : In t [lit "decrypt"; lit "d"] -> names [t] VDecrypt
| na_edit : names [lit "edit"] VEdit
| na_refresh : names [lit "refresh"] VRefresh
| na_add t : In t [lit "keys"; lit "k"] -> names [t; lit "add"] VAdd
| na_remove t : In t [lit "keys"; lit "k"] -> names [t; lit "remove"] VRemove.

(** * Meaning *)

Definition arg_dec : forall a b : arg, {a = b} + {a <> b}.
Proof. decide equality. Defined.
(** The values given for an option, for the file, and how often a flag was given. *)
Definition values (a : arg) (is : list item) : list bytes := flat_map (fun i => match i with Option_ b v => if arg_dec a b then [v] else [] | _ => [] end) is.
Definition files (is : list item) : list bytes := flat_map (fun i => match i with File v => [v] | _ => [] end) is.
Definition times (a : arg) (is : list item) : nat := length (filter (fun i => match i with Flag b => if arg_dec a b then true else false | _ => false end) is).

Section Meaning.
  Context (re : regex_engine) (ag : age_crate).

  Definition text_value (s x : bytes) : Prop := utf8_text s /\ x = s.
  Definition pattern_value (s x : bytes) : Prop := utf8_text s /\ re_valid re s = true /\ x = s.
  Definition file_value (s x : bytes) : Prop := s <> [] /\ x = s.
  Definition age_value (s r : bytes) : Prop := utf8_text s /\ ag_recipient ag s = Some r.
  Definition kms_value (s : bytes) (k : aws_key) : Prop := utf8_text s /\ parse_aws_key s = Ok k.
  Inductive names_format : bytes -> fmt -> Prop :=
  | nf_yaml : names_format (lit "yaml") Yaml | nf_yml : names_format (lit "yml") Yaml
  | nf_json : names_format (lit "json") Json | nf_toml : names_format (lit "toml") Toml.
  (** Given at most once. *)
  Definition once {A} (rd : bytes -> A -> Prop) (vs : list bytes) (o : option A) : Prop :=
    match o with Some x => exists s, vs = [s] /\ rd s x | None => vs = [] end.
  Definition switch (a : arg) (is : list item) (b : bool) : Prop := times a is = if b then 1%nat else 0%nat.

  Definition says_input (is : list item) (i : input_args) : Prop :=
    once file_value (values AConfig is) (in_config i) /\ once names_format (values AFormat is) (in_format i) /\ once file_value (files is) (in_file i).
  Definition says_keys (is : list item) (ks : keys) : Prop :=
    Forall2 age_value (values AAge is) (ks_age ks) /\ Forall2 kms_value (values AKms is) (ks_kms ks).
  Definition says_rule (is : list item) (o : option partial_args) : Prop :=
    match o with
    | None => values AESuffix is = [] /\ values AERegex is = [] /\ values AUSuffix is = [] /\ values AURegex is = []
    | Some p => once text_value (values AESuffix is) (pa_esuffix p) /\ once pattern_value (values AERegex is) (pa_eregex p)
        /\ once text_value (values AUSuffix is) (pa_usuffix p) /\ once pattern_value (values AURegex is) (pa_uregex p) /\ exists r, option_given p r
    end.
  Definition says_flag (a : arg) (is : list item) (needed : Prop) (o : option bool) : Prop := exists b, o = Some b /\ switch a is b /\ (b = true -> needed).
  (** What the options say. *)
  Definition says (v : verb) (is : list item) (c : command) : Prop :=
    times AHelp is = 0%nat
    /\ match v, c with
       | VEncrypt, Encrypt a => says_input is (ea_input a) /\ says_keys is (ea_keys a) /\ says_rule is (ea_partial a)
           /\ says_flag AOnly is (ea_partial a <> None) (ea_only a) /\ says_flag AInPlace is (in_file (ea_input a) <> None) (ea_in_place a)
       | VDecrypt, Decrypt a | VRefresh, Refresh a => says_input is (pl_input a) /\ says_flag AInPlace is (in_file (pl_input a) <> None) (pl_in_place a)
       | VEdit, Edit a => says_input is a
       | VAdd, AddKeys a | VRemove, RemoveKeys a => says_keys is (ka_keys a) /\ once names_format (values AFormat is) (ka_format a) /\ once file_value (files is) (Some (ka_file a))
       | _, _ => False
       end.
  (** The line says to run the command. *)
  Definition line_says (ts : list bytes) (c : command) : Prop := exists ws v ts' is, ts = ws ++ ts' /\ names ws v /\ spells v ts' is /\ says v is c.

  (** A command whose parts can be written. *)
  Definition can_write {A} (rd : bytes -> A -> Prop) (x : A) : Prop := exists s, rd s x.
  Definition maybe {A} (P : A -> Prop) (o : option A) : Prop := match o with Some x => P x | None => True end.
  Definition writable_input (i : input_args) : Prop := maybe (can_write file_value) (in_config i) /\ maybe (can_write file_value) (in_file i).
  Definition writable_keys (ks : keys) : Prop := Forall (can_write age_value) (ks_age ks) /\ Forall (can_write kms_value) (ks_kms ks).
  Definition writable (c : command) : Prop :=
    match c with
    | Encrypt a => writable_input (ea_input a) /\ writable_keys (ea_keys a)
        /\ maybe (fun p => maybe (can_write text_value) (pa_esuffix p) /\ maybe (can_write pattern_value) (pa_eregex p) /\ maybe (can_write text_value) (pa_usuffix p) /\ maybe (can_write pattern_value) (pa_uregex p)) (ea_partial a)
    | Decrypt a | Refresh a => writable_input (pl_input a)
    | Edit a => writable_input a
    | AddKeys a | RemoveKeys a => writable_keys (ka_keys a) /\ can_write file_value (ka_file a)
    end.
End Meaning.
