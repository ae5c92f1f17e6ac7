(** Specification vocabulary for the words of a command in a shell (C75): a grammar of text and its meaning, after POSIX, section 2.2
    (quoting) and 2.3 (comments).  Expansions and operators have no place in it. *)
From Verif.Model Require Import Bytes.
From Verif.Spec Require Export SpecValue.
Open Scope byte_scope.

Definition newline : byte := x0a.
Definition blanks : list byte := [" "; x09; newline].
(** What a backslash takes the meaning from within double quotes. *)
Definition touchy : list byte := ["$"; "`"; x22; "\"].

(** [inside t m]: within double quotes, the text [t] stands for [m]. *)
Inductive inside : bytes -> bytes -> Prop :=
| in_none : inside [] []
| in_plain b t m : b <> x22 -> b <> "\" -> inside t m -> inside (b :: t) (b :: m)
| in_taken b t m : In b touchy -> inside t m -> inside ("\" :: b :: t) (b :: m)
| in_joined t m : inside t m -> inside ("\" :: newline :: t) m
| in_kept b t m : ~ In b touchy -> b <> newline -> inside t m -> inside ("\" :: b :: t) ("\" :: b :: m).
(** A piece of a word. *)
Inductive piece : bytes -> bytes -> Prop :=
| pc_plain b : ~ In b blanks -> b <> x22 -> b <> "'" -> b <> "\" -> piece [b] [b]
| pc_escaped b : b <> newline -> piece ["\"; b] [b]
| pc_joined : piece ["\"; newline] []
| pc_single t : ~ In "'" t -> piece ("'" :: t ++ ["'"]) t
| pc_double t m : inside t m -> piece (x22 :: t ++ [x22]) m.
Inductive pieces : bytes -> bytes -> Prop :=
| ps_none : pieces [] []
| ps_more t m t' m' : piece t m -> pieces t' m' -> pieces (t ++ t') (m ++ m').
(** A word does not start with the sign of a comment. *)
Definition word (t m : bytes) : Prop := pieces t m /\ exists b t', t = b :: t' /\ b <> "#".
(** What may stand between words: blanks, and comments with the end of their line. *)
Inductive gap : bytes -> Prop :=
| gap_none : gap []
| gap_blank b t : In b blanks -> gap t -> gap (b :: t)
| gap_comment c t : ~ In newline c -> gap t -> gap ("#" :: c ++ newline :: t).
(** [shell_words t ws]: the text [t] consists of the words [ws]. *)
Inductive shell_words : bytes -> list bytes -> Prop :=
| sw_none g : gap g -> shell_words g []
| sw_comment g c : gap g -> ~ In newline c -> shell_words (g ++ "#" :: c) []
| sw_last g t w : gap g -> word t w -> shell_words (g ++ t) [w]
| sw_more g t w b t' ws : gap g -> word t w -> In b blanks -> shell_words t' ws -> shell_words (g ++ t ++ b :: t') (w :: ws).
