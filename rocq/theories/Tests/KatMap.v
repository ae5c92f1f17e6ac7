(** Known-answer tests: the mock data of /repo evaluated in the model.
    crates/lib/src/file/map/mock.rs, metadata/mac/decrypted.rs:144-165, metadata/mac/encrypted_mac.rs:72,
    map/value/core.rs:139-180, cryptography/{data_key,nonce}.rs mocks. *)
From Verif.Model Require Import Mac.

(** A regex engine that knows no pattern; the mock rule is a suffix. *)
Definition no_regex : regex_engine := {| re_valid := fun _ => false; re_match := fun _ _ => false |}.
Definition zero_tape : tape := fun _ _ => x00.

(** data_key.rs:62-67. *)
Definition mock_key : bytes :=
  map byte_of_N [254;79;93;103;195;165;169;238;35;187;236;95;222;243;40;26;130;128;59;176;15;195;55;93;129;212;57;80;15;
                 181;72;114]%N.

(** map/mock.rs:5-30. *)
Definition mock_dmap : dmap :=
  [ (lit "hello", Leaf (VStr (lit "world!")));
    (lit "nested_map", Map
       [ (lit "null_key", Null);
         (lit "array", Seq
            [ Leaf (VStr (lit "string"));
              Map [(lit "nested_map_in_array", Map [(lit "integer", Leaf (VInt 1234))])];
              Map [(lit "float", Leaf (VFloat (lit "1234.56789")))] ]) ]);
    (lit "booleans", Seq [Leaf (VBool true); Leaf (VBool false)]);
    (lit "escape_unencrypted", Leaf (VStr (lit "plaintext"))) ].

Definition enc_leaf (s : bytes) : etree :=
  match parse_evalue s with Ok e => Leaf (Encrypted e) | _ => Null end.

(** map/mock.rs:84-111. *)
Definition mock_emap : emap :=
  [ (lit "hello", enc_leaf (lit "ENC[AES256_GCM,data:3S1E9am/,iv:WUQoQTrRXw/tUgwpmSG69xWtd5dVMfe8qUly1VB8ucM=,tag:nQUDkuh0OR1cjR5hGC5jOw==,type:str]"));
    (lit "nested_map", Map
       [ (lit "null_key", Null);
         (lit "array", Seq
            [ enc_leaf (lit "ENC[AES256_GCM,data:ANbeNrGp,iv:PRWGCPdOttPr5dlzT9te7WWCZ90J7+CvfY1vp60aADM=,tag:PvSLx4pLT5zRKOU0df8Xlg==,type:str]");
              Map [(lit "nested_map_in_array", Map
                [(lit "integer", enc_leaf (lit "ENC[AES256_GCM,data:qTW5qw==,iv:ugMxvR8YPwDgn2MbBpDX0lpCqzJY3GerhbA5jEKUbwE=,tag:d8utfA76C4XPzJyDfgE4Pw==,type:int]"))])];
              Map [(lit "float", enc_leaf (lit "ENC[AES256_GCM,data:/MTg0fCennyN8g==,iv:+/8+Ljm+cls7BbDYZnlg6NVFkrkw4GkEfWU2aGW57qE=,tag:26uMp2JmVAckySIaL2BLCg==,type:float]"))] ]) ]);
    (lit "booleans", Seq
       [ enc_leaf (lit "ENC[AES256_GCM,data:bCdz2A==,iv:8kD+h1jClyVHBj9o2WZuAkjk+uD6A2lgNpcGljpQEhk=,tag:u3/fktl5HfFrVLERVvLRGw==,type:bool]");
         enc_leaf (lit "ENC[AES256_GCM,data:SgBh7wY=,iv:0s9Q9pQWbsZm2yHsmFalCzX0IqNb6ZqeY6QQYCWc+qU=,tag:OZb76BWCKbDLbcil4c8fYA==,type:bool]") ]);
    (lit "escape_unencrypted", Leaf (Escaped (VStr (lit "plaintext")))) ].

(** partial_encryption.rs:86-96. *)
Definition mock_partial : partial := UnencryptedSuffix (lit "_unencrypted").

(** map/decrypt.rs tests [decrypts_map]. *)
Example kat_decrypts_map : decrypt_map mock_key mock_emap = Ok mock_dmap.
Proof. vm_compute. reflexivity. Qed.

(** map/encrypt.rs tests [encrypts_map_with_saved_nonces]. *)
Example kat_encrypts_map_with_saved_nonces :
  match decrypt_map_save mock_key mock_emap with
  | Ok (m, s) => encrypt_map no_regex zero_tape (Some s) mock_key (Some mock_partial) m 0 = Ok (mock_emap, 0)
  | _ => False
  end.
Proof. vm_compute. reflexivity. Qed.

(** mac/decrypted.rs:152-156, mac/tests.rs [computes_mac]. *)
Definition mock_mac : bytes :=
  lit "813B9769827F62978BFB2703A78B14371B1B97CA4EC64056026B2F130C9CDCA7701AE23025E61BA973DA79E01F31F04A63F1C427AEB595D9671DE608CBC89FF9".

Example kat_computes_mac : compute_mac no_regex None (Some mock_partial) mock_dmap = mock_mac.
Proof. vm_compute. reflexivity. Qed.

(** mac/tests.rs [decrypts_mac], [encrypts_with_saved_nonce]; encrypted_mac.rs:70-73; last_modified.rs mock. *)
Definition mock_encrypted_mac : bytes :=
  lit "ENC[AES256_GCM,data:tPxLRxcw3/FFDqza8H5Cie3MTFVI8qBXte8qB0lAO/OQMRjVPPj5UJLC1jMUAlHW1KInxqSRhGkSLL8sJjg4wKeY8/yxaDbYqLKkw7bxk7yoFUktNn+D9Tv44AoroB/2715GhtDSwM80mDb4pnD4aj1k3/mC7E/XH7aArCVsl2s=,iv:1FrAknhJizYRQ588m6Mgn5lRlMxgWBOY3Ka6RvS2vCI=,tag:GiQkczeDmBKIjswzwfeKvA==,type:str]".
Definition mock_last_modified : bytes := lit "2023-12-27T20:37:05Z".

Example kat_decrypts_mac :
  match parse_evalue mock_encrypted_mac with
  | Ok e => match decrypt_mac e mock_key mock_last_modified with
            | Ok (m, nonce) => m = mock_mac
                /\ encrypt_mac zero_tape (Some (m, nonce)) mock_mac mock_key mock_last_modified 0 = Ok (e, 0)
            | _ => False
            end
  | _ => False
  end.
Proof. vm_compute. split; reflexivity. Qed.

(** value/core.rs:139-180: each printed value is what [encrypt] yields for the stated path and plaintext. *)
Definition value_kat (text path : bytes) (v : value) : bool :=
  match parse_evalue text with
  | Ok e => match encrypt_value v (ev_nonce e) mock_key path, decrypt_value e mock_key path with
            | Ok e', Ok v' => bytes_eqb (evalue_text e') text && value_eqb v' v
            | _, _ => false
            end
  | _ => false
  end.

Example kat_values :
  value_kat (lit "ENC[AES256_GCM,data:0wTZfQ==,iv:BpeJcPsLzvRLyGOAyA/mM3nGhg3zIFEcpyfB5jJbul8=,tag:+OGu7RruuYSwMWZa1yWrqA==,type:bool]")
    (lit "example_booleans:") (VBool true) = true
  /\ value_kat (lit "ENC[AES256_GCM,data:4EgnUYs=,iv:g0r5WzzWt/Ln25wlEescMgrTg88JTJhlOdI0g/xVahk=,tag:zhv8xxJULpXIWdzm5+C0FA==,type:bool]")
    (lit "example_booleans:") (VBool false) = true
  /\ value_kat (lit "ENC[AES256_GCM,data:lDJCrw==,iv:P8EXxNCPeYp5VBL0mCAxjQjGtvywbBFoQKWye2IK1Gc=,tag:56HP04AzkYfj+pmYIbijSA==,type:int]")
    (lit "example_integer:") (VInt 1234) = true
  /\ value_kat (lit "ENC[AES256_GCM,data:fglPlT+e9ACWrA==,iv:pefOFnMThS6qICGrLuai+rSBtrmliGWdqJrXzcl2qAo=,tag:tHVQiwreFZurqiroPCIXHw==,type:float]")
    (lit "example_float:") (VFloat (lit "1234.56789")) = true.
Proof. vm_compute. repeat split. Qed.
