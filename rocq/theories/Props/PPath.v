(** C38: which text of the path the rules are matched with. *)
From Verif.Model Require Import Cli.
From Verif.Spec Require Import SpecPath.
From Verif.Proofs Require Import LossyFacts.
From Verif.Props Require Import ExWorld.
Open Scope byte_scope.

(** It is the path with every part that is not UTF-8 replaced, and no other text. *)
Theorem C38_path : forall p t, path_to_match (Some p) = t <-> shown_as p t.
Proof.
  intros p t. unfold path_to_match. split.
  - intros <-. apply lossy_shown.
  - intro H. exact (shown_one p t H (lossy p) (lossy_shown p)).
Qed.
Print Assumptions C38_path.
(** A path that is UTF-8 is matched as it is; without a file the empty text is. *)
Theorem C38_path_text : (forall p, utf8_text p -> path_to_match (Some p) = p) /\ path_to_match None = [].
Proof. split; [|reflexivity]. intros p U. apply C38_path. now apply shown_text. Qed.
Print Assumptions C38_path_text.

(** A single byte that begins nothing, two bytes that begin a character of three, and the end of one of four. *)
Definition odd_path : bytes := [xff; "a"; xe2; x82; "b"; xf0; x9f; x98].
Example C38_path_witness : path_to_match (Some odd_path) = [xef; xbf; xbd; "a"; xef; xbf; xbd; "b"; xef; xbf; xbd] /\ ~ utf8_text odd_path /\ path_to_match (Some (lit "s.yaml")) = lit "s.yaml".
Proof. split; [by_vm|]. split; [|by_vm]. intro U. apply (proj1 C38_path_text) in U. vm_compute in U. discriminate U. Qed.
