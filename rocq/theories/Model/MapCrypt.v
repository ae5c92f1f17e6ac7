(** Encryption and decryption of whole maps and saved nonces.
    Models crates/lib/src/file/map/{encrypt,decrypt,saved_nonces}.rs and cryptography/{rng_key,nonce,data_key}.rs. *)
From Verif.Model Require Export Tree Partial.

(** rng_key.rs:14-23 [RngKey::new]: the random generator is an arbitrary tape, draw number n yields the bytes
    [tape n 0, tape n 1, ...].  Functions that draw take the number of draws made so far and return the new number. *)
Definition tape := nat -> nat -> byte.
Definition draw (tp : tape) (size n : nat) : bytes := map (tp n) (seq 0 size).

(** nonce.rs:10-15 [Nonce::new], data_key.rs:28-31 [DataKey::new]. *)
Definition draw_nonce (tp : tape) (n : nat) : bytes := draw tp nonce_size n.
Definition draw_key (tp : tape) (n : nat) : bytes := draw tp key_size n.

(** saved_nonces.rs:10: a [HashMap] from (key path, value) to nonce, as an association list; [insert] (13-15) replaces. *)
Definition saved_nonces := list ((bytes * value) * bytes).

Definition saved_insert (p : bytes) (v : value) (n : bytes) (s : saved_nonces) : saved_nonces := ((p, v), n) :: s.

(** saved_nonces.rs:17-19 [get]: the newest insertion for the key is the map's content. *)
Fixpoint saved_get (p : bytes) (v : value) (s : saved_nonces) : option bytes :=
  match s with
  | [] => None
  | ((p', v'), n) :: s' => if bytes_eqb p p' && value_eqb v v' then Some n else saved_get p v s'
  end.

Section MapCrypt.
  Context (re : regex_engine) (tp : tape).

  (** map/encrypt.rs:92-100: an encrypted leaf; a fresh nonce is drawn only when none is saved. *)
  Definition encrypt_leaf (saved : option saved_nonces) (key : bytes) (r : resolved) (path : bytes) (v : value) (n : nat)
    : outcome (eleaf * nat) :=
    if escapes r then Ok (Escaped v, n)
    else
      let found := match saved with Some s => saved_get path v s | None => None end in
      match found with
      | Some nonce => let* e := encrypt_value v nonce key path in Ok (Encrypted e, n)
      | None => let* e := encrypt_value v (draw_nonce tp n) key path in Ok (Encrypted e, S n)
      end.

  (** map/encrypt.rs:68-102 [encrypt_tree_recursive] and :37-66 [encrypt_map_recursive] (the [Map] case).
      The partial-encryption rule is resolved with [key_path.last()] (encrypt.rs:50), not with the key itself. *)
  Fixpoint encrypt_tree (saved : option saved_nonces) (key : bytes) (r : resolved) (path : bytes) (t : dtree) (n : nat)
    : outcome (etree * nat) :=
    match t with
    | Seq l => let* x := smapM (encrypt_tree saved key r path) l n in Ok (Seq (fst x), snd x)
    | Map m =>
        let* x := smapM (fun kt n =>
                    let path' := path_join path (fst kt) in
                    let* y := encrypt_tree saved key (step re r (path_last path')) path' (snd kt) n in
                    Ok ((fst kt, fst y), snd y)) m n in
        Ok (Map (fst x), snd x)
    | Null => Ok (Null, n)
    | Leaf v => let* x := encrypt_leaf saved key r path v n in Ok (Leaf (fst x), snd x)
    end.

  (** map/encrypt.rs:37-66 at the root, called from :23-35. *)
  Definition encrypt_entry (saved : option saved_nonces) (key : bytes) (r : resolved) (path : bytes)
      (kt : bytes * dtree) (n : nat) : outcome ((bytes * etree) * nat) :=
    let path' := path_join path (fst kt) in
    let* y := encrypt_tree saved key (step re r (path_last path')) path' (snd kt) n in
    Ok ((fst kt, fst y), snd y).

  Definition encrypt_map (saved : option saved_nonces) (key : bytes) (pc : option partial) (m : dmap) (n : nat)
    : outcome (emap * nat) :=
    smapM (encrypt_entry saved key (initial pc) []) m n.

  (** map/decrypt.rs:61-72: a leaf; the nonce of an encrypted leaf is recorded under (path, plaintext). *)
  Definition decrypt_leaf (key path : bytes) (l : eleaf) (s : saved_nonces) : outcome (value * saved_nonces) :=
    match l with
    | Encrypted e => let* v := decrypt_value e key path in Ok (v, saved_insert path v (ev_nonce e) s)
    | Escaped v => Ok (v, s)
    end.

  (** map/decrypt.rs:44-74 and :25-42.  The store of nonces is always threaded; [decrypt] (6-8) passes [None] and the code
      then skips the insertion, which has no other effect, so the model drops the store instead. *)
  Fixpoint decrypt_tree (key path : bytes) (t : etree) (s : saved_nonces) : outcome (dtree * saved_nonces) :=
    match t with
    | Seq l => let* x := smapM (decrypt_tree key path) l s in Ok (Seq (fst x), snd x)
    | Map m =>
        let* x := smapM (fun kt s =>
                    let* y := decrypt_tree key (path_join path (fst kt)) (snd kt) s in
                    Ok ((fst kt, fst y), snd y)) m s in
        Ok (Map (fst x), snd x)
    | Null => Ok (Null, s)
    | Leaf l => let* x := decrypt_leaf key path l s in Ok (Leaf (fst x), snd x)
    end.

  Definition decrypt_entry (key path : bytes) (kt : bytes * etree) (s : saved_nonces)
    : outcome ((bytes * dtree) * saved_nonces) :=
    let* y := decrypt_tree key (path_join path (fst kt)) (snd kt) s in
    Ok ((fst kt, fst y), snd y).

  (** map/decrypt.rs:10-16 [decrypt_and_save_nonces]. *)
  Definition decrypt_map_save (key : bytes) (m : emap) : outcome (dmap * saved_nonces) :=
    smapM (decrypt_entry key []) m [].

  (** map/decrypt.rs:6-8 [decrypt]. *)
  Definition decrypt_map (key : bytes) (m : emap) : outcome dmap :=
    omap fst (decrypt_map_save key m).
End MapCrypt.
