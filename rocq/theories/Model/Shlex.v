(** [shlex::split] (shlex 1.3.0, outside /repo), which takes the variable EDITOR apart (crates/cli/src/cli/edit.rs:70-72).
    The iterator there pulls bytes from the text in nested loops; here the loop it is in is a state, and the text is read byte by byte. *)
From Verif.Model Require Export Bytes.
Open Scope byte_scope.

(** Before a word; in a comment; in a word; within quotes; after a backslash, in a word or within double quotes. *)
Inductive reading := Before | Remark | InWord | InSingle | InDouble | Escaping | EscapingDouble.
Definition blank (b : byte) : bool := beqb b " " || beqb b x09 || beqb b x0a.
(** One turn of the loop of [Shlex::parse_word]: the next state, the word so far, and a finished word. *)
Definition word_step (w : bytes) (b : byte) : reading * bytes * option bytes :=
  if beqb b x22 then (InDouble, w, None) else
  if beqb b "'" then (InSingle, w, None) else
  if beqb b "\" then (Escaping, w, None) else
  if blank b then (Before, [], Some w) else (InWord, w ++ [b], None).
(** [Shlex::next] before the word, [parse_word], [parse_single] and [parse_double]. *)
Definition shlex_step (r : reading) (w : bytes) (b : byte) : reading * bytes * option bytes :=
  match r with
  | Before => if blank b then (Before, [], None) else if beqb b "#" then (Remark, [], None) else word_step [] b
  | Remark => if beqb b x0a then (Before, [], None) else (Remark, [], None)
  | InWord => word_step w b
  | InSingle => if beqb b "'" then (InWord, w, None) else (InSingle, w ++ [b], None)
  | InDouble => if beqb b "\" then (EscapingDouble, w, None) else if beqb b x22 then (InWord, w, None) else (InDouble, w ++ [b], None)
  | Escaping => if beqb b x0a then (InWord, w, None) else (InWord, w ++ [b], None)
  | EscapingDouble =>
      if beqb b "$" || beqb b "`" || beqb b x22 || beqb b "\" then (InDouble, w ++ [b], None)
      else if beqb b x0a then (InDouble, w, None) else (InDouble, w ++ ["\"; b], None)
  end.
(** The end of the text within quotes or after a backslash is an error, and an error anywhere leaves nothing. *)
Fixpoint shlex_from (r : reading) (w : bytes) (t : bytes) : option (list bytes) :=
  match t with
  | [] => match r with Before | Remark => Some [] | InWord => Some [w] | _ => None end
  | b :: t' =>
      let '(r', w', done) := shlex_step r w b in
      match done with
      | Some d => option_map (cons d) (shlex_from r' w' t')
      | None => shlex_from r' w' t'
      end
  end.
Definition shlex_split (t : bytes) : option (list bytes) := shlex_from Before [] t.
