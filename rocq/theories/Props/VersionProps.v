(** C176, C177: the version string. *)
From Coq Require Import String Ascii List.
From Verif.Model Require Import Version.
From Verif.Spec Require Import VersionSpec.
From Verif.Proofs Require Import VersionProofs.
Import ListNotations.
Local Open Scope string_scope.

(** C176, what holds for every checkout: the version is read correctly from what git says, whatever hyphens, digits or "-dirty" the tag contains... *)
Theorem C176_reads_partial (c : checkout) : valid c -> version c = name_of c.
Proof. exact (version_name c). Qed.
Print Assumptions C176_reads_partial.
(** ... and, for tags without a plus sign, equal versions mean the same code. *)
Theorem C176_distinct_partial (c c' : checkout) : valid c -> valid c' -> plain c -> plain c' -> version c = version c' -> same_code c c'.
Proof. exact (distinct c c'). Qed.
Print Assumptions C176_distinct_partial.
(** C176 is false when a tag may contain a plus sign. *)
Theorem C176_plus_refuted : exists c c', valid c /\ valid c' /\ version c = version c' /\ ~ same_code c c'.
Proof.
  exists (Tagged "1.0+2.gab" 0 "cd" false), (Tagged "1.0" 2 "ab" false).
  assert (V : valid (Tagged "1.0+2.gab" 0 "cd" false)) by (apply valid_iff; repeat split; [repeat constructor|discriminate]).
  assert (V' : valid (Tagged "1.0" 2 "ab" false)) by (apply valid_iff; repeat split; [repeat constructor|discriminate]).
  split; [exact V|]. split; [exact V'|]. split; [rewrite !version_name by assumption; reflexivity|].
  intros [E _]. discriminate.
Qed.
Print Assumptions C176_plus_refuted.
Example C176_instance : valid (Tagged "0.14-rc-1" 3 "12ab" true) /\ plain (Tagged "0.14-rc-1" 3 "12ab" true) /\
  version (Tagged "0.14-rc-1" 3 "12ab" true) = "0.14-rc-1+3.g12ab.dirty" /\ version (Tagged "0.14" 0 "12ab" false) = "0.14" /\
  version (Untagged 42 "12abcdef0123" false) = "0+untagged.42.g12abcde".
Proof.
  split; [apply valid_iff; repeat split; [repeat constructor|discriminate]|]. split; [apply plain_iff; reflexivity|].
  split; [reflexivity|]. split; reflexivity.
Qed.

(** C177, what holds: an archive of a commit with version tags is named by one of them, the first in alphabetical order... *)
Theorem C177_a_tag_partial (head : string) (tags branches : list string) :
  not_a_tag head -> Forall not_a_tag branches -> (exists t v, In t tags /\ looks_like t v) ->
  exists v, In ("v" ++ v) tags /\ digit_first v /\ archive_version (names head tags branches) = v /\
    forall t v', In t tags -> looks_like t v' -> before ("v" ++ v) t.
Proof. exact (archive_least head tags branches). Qed.
Print Assumptions C177_a_tag_partial.
(** ... so never a pre-release of a version that is tagged as well... *)
Theorem C177_final_partial (head : string) (tags branches : list string) (v s : string) :
  not_a_tag head -> Forall not_a_tag branches -> digit_first v -> s <> "" -> In ("v" ++ v) tags ->
  archive_version (names head tags branches) <> v ++ s.
Proof. exact (archive_final head tags branches v s). Qed.
Print Assumptions C177_final_partial.
(** ... and it depends on the tags only, not on their order, the branches or what HEAD is. *)
Theorem C177_tags_only_partial (head head' : string) (tags tags' branches branches' : list string) :
  not_a_tag head -> Forall not_a_tag branches -> not_a_tag head' -> Forall not_a_tag branches' ->
  (exists t, In t tags) -> (forall t, In t tags <-> In t tags') ->
  archive_version (names head tags branches) = archive_version (names head' tags' branches').
Proof. exact (archive_order head tags branches head' tags' branches'). Qed.
Print Assumptions C177_tags_only_partial.
(** Without tags, or branches that look like versions, it is unknown. *)
Theorem C177_unknown_partial (head : string) (branches : list string) :
  not_a_tag head -> Forall not_a_tag branches -> (forall r v, In r (head :: branches) -> ~ looks_like r v) ->
  archive_version (names head [] branches) = "0+unknown".
Proof. exact (archive_unknown head branches). Qed.
Print Assumptions C177_unknown_partial.
(** C177 is false: of two tags the older may be reported... *)
Theorem C177_oldest_refuted : archive_version (names "HEAD -> master" ["v2.0"; "v1.0"] []) = "1.0" /\ archive_version (names "HEAD -> master" ["v9"; "v10"] []) = "10".
Proof. split; reflexivity. Qed.
Print Assumptions C177_oldest_refuted.
(** ... and, in an archive of a commit without tags, every branch called v and a digit is taken for a release. *)
Theorem C177_branch_refuted (b : string) : digit_first b -> archive_version (names "HEAD" [] ["v" ++ b]) = b.
Proof. exact (archive_branch b). Qed.
Print Assumptions C177_branch_refuted.
Example C177_instance : not_a_tag "HEAD -> master" /\ Forall not_a_tag ["origin/master"] /\ looks_like "v0.14" "0.14" /\
  archive_version (names "HEAD -> master" ["v0.14rc1"; "v0.14"; "paper"] ["origin/master"]) = "0.14" /\
  archive_version (names "HEAD -> master" [] ["origin/master"]) = "0+unknown".
Proof.
  split; [now apply tag_iff|]. split; [apply tags_iff; repeat constructor|]. split; [now apply looks_iff|]. split; reflexivity.
Qed.
