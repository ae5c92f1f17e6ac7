(** Specification vocabulary for AWS key texts. *)
From Verif.Model Require Import Bytes Aws.
Open Scope byte_scope.

(** A plain ARN component: non-empty printable ASCII without space, slash and colon. *)
Definition arn_component (s : bytes) : Prop :=
  s <> [] /\ forall b, In b s -> (33 <= Byte.to_N b <= 126)%N /\ b <> "/" /\ b <> ":".

(** The resource part of an ARN that rops can split: a key id, or a non-empty path and a key id. *)
Definition splittable (res : bytes) : Prop :=
  arn_component res \/ exists parent key, res = parent ++ "/" :: key /\ parent <> [] /\ arn_component key.
