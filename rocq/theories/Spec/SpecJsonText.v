(** Specification vocabulary for JSON text (RFC 8259): which texts there are and what they say.  Nothing here uses the reader. *)
From Coq Require Import QArith Qpower.
From Verif.Model Require Import Document.
From Verif.Spec Require Export SpecJson.
Open Scope byte_scope.

Definition blank (w : bytes) : Prop := Forall (fun b => In b [" "; x09; x0a; x0d]) w.

(** * Strings, between the quotes *)
Definition short_escapes : list (byte * byte) :=
  [(x22, x22); ("\", "\"); ("/", "/"); ("b", x08); ("f", x0c); ("n", x0a); ("r", x0d); ("t", x09)].
Definition hex_digits : list (byte * N) :=
  [("0", 0); ("1", 1); ("2", 2); ("3", 3); ("4", 4); ("5", 5); ("6", 6); ("7", 7); ("8", 8); ("9", 9);
   ("a", 10); ("b", 11); ("c", 12); ("d", 13); ("e", 14); ("f", 15); ("A", 10); ("B", 11); ("C", 12); ("D", 13); ("E", 14); ("F", 15)]%N.
Inductive code_unit : bytes -> N -> Prop :=
  code_unit_is a b c d x y z w : In (a, x) hex_digits -> In (b, y) hex_digits -> In (c, z) hex_digits -> In (d, w) hex_digits ->
    code_unit [a; b; c; d] (x * 4096 + y * 256 + z * 16 + w)%N.
Inductive chars : bytes -> bytes -> Prop :=
| ch_end : chars [] []
| ch_plain b t s : (32 <= Byte.to_N b)%N -> b <> x22 -> b <> "\" -> chars t s -> chars (b :: t) (b :: s)
| ch_short c x t s : In (c, x) short_escapes -> chars t s -> chars ("\" :: c :: t) (x :: s)
| ch_code h n t s : code_unit h n -> scalar n -> chars t s -> chars ("\" :: "u" :: h ++ t) (utf8_encode n ++ s)
| ch_pair h1 h2 i j t s : code_unit h1 (0xD800 + i) -> (i < 0x400)%N -> code_unit h2 (0xDC00 + j) -> (j < 0x400)%N -> chars t s ->
    chars ("\" :: "u" :: h1 ++ "\" :: "u" :: h2 ++ t) (utf8_encode (0x10000 + i * 0x400 + j) ++ s).

(** * Numbers *)
Definition digits (t : bytes) : Prop := Forall (fun b => In b (lit "0123456789")) t.
Definition digits_value (t : bytes) : N := fold_left (fun n b => n * 10 + (Byte.to_N b - 48))%N t 0%N.
Definition whole_part (t : bytes) : Prop := digits t /\ t <> [] /\ (forall t', t = "0" :: t' -> t' = []).
Inductive fraction : bytes -> bytes -> Prop :=
| fr_none : fraction [] []
| fr_some t : digits t -> t <> [] -> fraction ("." :: t) t.
Inductive exponent : bytes -> Z -> Prop :=
| ex_none : exponent [] 0
| ex_some c sg t (neg : bool) : In c ["e"; "E"] -> In (sg, neg) [([], false); (["+"], false); (["-"], true)] -> digits t -> t <> [] ->
    exponent (c :: sg ++ t) (if neg then - Z.of_N (digits_value t) else Z.of_N (digits_value t)).
(** The number is [d * 10^k], without the sign. *)
Inductive number_text : bytes -> bool -> N -> Z -> bool -> Prop :=
  number_text_is (neg : bool) ip ft fp et x : whole_part ip -> fraction ft fp -> exponent et x ->
    number_text ((if neg then ["-"] else []) ++ ip ++ ft ++ et) neg (digits_value (ip ++ fp)) (x - Z.of_nat (length fp))
      (match ft, et with [], [] => true | _, _ => false end).
(** Integers of 64 bits are exact.  Everything else is a float of the same sign, at most eight units in its last place away; it is the closest
    one if there are few digits and a small power of ten. *)
Definition is_integer (neg : bool) (d : N) (z : Z) : Prop :=
  if neg then (1 <= d <= 2 ^ 63)%N /\ z = (- Z.of_N d)%Z else (d < 2 ^ 64)%N /\ z = Z.of_N d.
Definition approximates (neg : bool) (d : N) (k : Z) (x : f64) : Prop :=
  exists m e, x = FFin neg m e /\ f64_canonical x = true
    /\ (magnitude m e - (8 # 1) * Qpower (2 # 1) e <= decimal d k <= magnitude m e + (8 # 1) * Qpower (2 # 1) e)%Q
    /\ ((d < 2 ^ 53)%N -> (-22 <= k <= 22)%Z -> (magnitude m e - (1 # 2) * Qpower (2 # 1) e <= decimal d k <= magnitude m e + (1 # 2) * Qpower (2 # 1) e)%Q).
Inductive number_says : bytes -> num -> Prop :=
| ns_integer t neg d k z : number_text t neg d k true -> is_integer neg d z -> number_says t (NInt z)
| ns_float t neg d k (plain : bool) x : number_text t neg d k plain -> (plain = true -> forall z, ~ is_integer neg d z) -> approximates neg d k x -> number_says t (NFlt x).

(** * Values *)
Inductive value_says : bytes -> fvalue -> Prop :=
| vs_null : value_says (lit "null") FNull
| vs_true : value_says (lit "true") (FBool true)
| vs_false : value_says (lit "false") (FBool false)
| vs_number t n : number_says t n -> value_says t (FNum n)
| vs_string t s : chars t s -> value_says (x22 :: t ++ [x22]) (FStr s)
| vs_no_items w : blank w -> value_says ("[" :: w ++ ["]"]) (FSeq [])
| vs_items t l : items_say t l -> value_says ("[" :: t ++ ["]"]) (FSeq l)
| vs_no_members w : blank w -> value_says ("{" :: w ++ ["}"]) (FMap [])
| vs_members t m : members_say t m -> value_says ("{" :: t ++ ["}"]) (FMap m)
with items_say : bytes -> list fvalue -> Prop :=
| is_one w t v w' : blank w -> value_says t v -> blank w' -> items_say (w ++ t ++ w') [v]
| is_more w t v w' r l : blank w -> value_says t v -> blank w' -> items_say r l -> items_say (w ++ t ++ w' ++ "," :: r) (v :: l)
with members_say : bytes -> fmap -> Prop :=
| ms_one w k s w1 w2 t v w' : blank w -> chars k s -> blank w1 -> blank w2 -> value_says t v -> blank w' ->
    members_say (w ++ x22 :: k ++ x22 :: w1 ++ ":" :: w2 ++ t ++ w') [(FStr s, v)]
| ms_more w k s w1 w2 t v w' r m : blank w -> chars k s -> blank w1 -> blank w2 -> value_says t v -> blank w' -> members_say r m ->
    members_say (w ++ x22 :: k ++ x22 :: w1 ++ ":" :: w2 ++ t ++ w' ++ "," :: r) ((FStr s, v) :: m).
Scheme value_says_ind' := Minimality for value_says Sort Prop
  with items_say_ind' := Minimality for items_say Sort Prop
  with members_say_ind' := Minimality for members_say Sort Prop.
Combined Scheme says_ind from value_says_ind', items_say_ind', members_say_ind'.

(** A text of an object: nothing but white space around it. *)
Definition json_says (s : bytes) (m : fmap) : Prop := exists w t w', blank w /\ value_says t (FMap m) /\ blank w' /\ s = w ++ t ++ w'.

(** How deep a value is nested, and whether its floats stay away from the end of the range of floats (1.7976...e308). *)
Fixpoint nesting (v : fvalue) : nat :=
  match v with
  | FMap m => S (list_max (map (fun kv => nesting (snd kv)) m))
  | FSeq l => S (list_max (map nesting l))
  | FTagged _ v => nesting v
  | _ => 0
  end.
Definition in_reach (x : f64) : Prop := match x with FFin _ m e => (magnitude m e <= (1796 # 1) * Qpower (10 # 1) 305)%Q | _ => False end.
Fixpoint floats_in_reach (v : fvalue) : Prop :=
  match v with
  | FNum (NFlt x) => in_reach x
  | FMap m => fold_right and True (map (fun kv => floats_in_reach (snd kv)) m)
  | FSeq l => fold_right and True (map floats_in_reach l)
  | FTagged _ v => floats_in_reach v
  | _ => True
  end.
(** The same value, except that floats may be different approximations of the same decimal. *)
Inductive alike : fvalue -> fvalue -> Prop :=
| al_same v : alike v v
| al_float neg d k x y : approximates neg d k x -> approximates neg d k y -> alike (FNum (NFlt x)) (FNum (NFlt y))
| al_seq l l' : Forall2 alike l l' -> alike (FSeq l) (FSeq l')
| al_map m m' : Forall2 (fun a b => fst a = fst b /\ alike (snd a) (snd b)) m m' -> alike (FMap m) (FMap m').
Fixpoint without_floats (v : fvalue) : Prop :=
  match v with
  | FNum (NFlt _) => False
  | FMap m => fold_right and True (map (fun kv => without_floats (snd kv)) m)
  | FSeq l => fold_right and True (map without_floats l)
  | FTagged _ v => without_floats v
  | _ => True
  end.

(** * Repeated names *)
(** [firsts l l']: every element of [l] once, in the order in which they first occur. *)
Inductive firsts {A} : list A -> list A -> Prop :=
| fi_nil : firsts [] []
| fi_old l l' x : firsts l l' -> In x l -> firsts (l ++ [x]) l'
| fi_new l l' x : firsts l l' -> ~ In x l -> firsts (l ++ [x]) (l' ++ [x]).
Definition last_value (es : fmap) (k v : fvalue) : Prop := exists a b, es = a ++ (k, v) :: b /\ ~ In k (map fst b).
Inductive last_wins : fvalue -> fvalue -> Prop :=
| lw_map es m : firsts (map fst es) (map fst m) -> (forall k v', In (k, v') m -> exists v, last_value es k v /\ last_wins v v') -> last_wins (FMap es) (FMap m)
| lw_seq l l' : Forall2 last_wins l l' -> last_wins (FSeq l) (FSeq l')
| lw_scalar v : match v with FMap _ | FSeq _ | FTagged _ _ => False | _ => True end -> last_wins v v.
(** No map, at any depth, with two keys that are equal in this format. *)
Inductive keys_differ (f : fmt) : fvalue -> Prop :=
| kd_map m : (forall a k v b k' v' c, m = a ++ (k, v) :: b ++ (k', v') :: c -> fvalue_eqb f k k' = false) ->
    (forall k v, In (k, v) m -> keys_differ f k /\ keys_differ f v) -> keys_differ f (FMap m)
| kd_seq l : (forall v, In v l -> keys_differ f v) -> keys_differ f (FSeq l)
| kd_tagged t v : keys_differ f v -> keys_differ f (FTagged t v)
| kd_scalar v : match v with FMap _ | FSeq _ | FTagged _ _ => False | _ => True end -> keys_differ f v.
