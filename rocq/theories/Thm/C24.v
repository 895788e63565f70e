(** C24: storage and cache keys. *)
From Coq Require Import Strings.String Strings.Ascii.
From Verif.Lib Require Import Prelude Bytes.
From Verif.Model Require Import Keys.
From Verif.Spec Require Import KeySpec.
From Verif.Proof Require Import KeysP.
Open Scope N_scope.

(** Segments, segment collections and the master list files never share a storage key if
    collections have generated names. *)
Theorem C24_storage : forall r r', generated_record r -> generated_record r' ->
  record_key r = record_key r' -> r = r'.
Proof. exact c24_records. Qed.
Print Assumptions C24_storage.

(** Two segments never share a storage key or a cache key, whatever the collections are named. *)
Theorem C24_segments : forall p p' i i', segment_key p i = segment_key p' i' -> p = p' /\ i = i'.
Proof. exact c24_segment. Qed.
Print Assumptions C24_segments.
Theorem C24_cache : forall p p' i i', cache_key p i = cache_key p' i' -> p = p' /\ i = i'.
Proof. exact c24_cache. Qed.
Print Assumptions C24_cache.

(** With arbitrary collection names a collection can be stored over a segment of another. *)
Theorem C24_any_name_refuted : exists r r', r <> r' /\ record_key r = record_key r'.
Proof. exists (RSegments (lit "a-000001")), (RSegment (lit "a") 1). split; [discriminate|]. vm_compute. reflexivity. Qed.
Print Assumptions C24_any_name_refuted.

Definition name1 : bytes := rand_string [1; 2; 3; 4; 5; 6; 7; 8] 1600000000000000000.
Definition name2 : bytes := rand_string [1; 2; 3; 4; 5; 6; 7; 9] 1600000000000000000.
Example C24_ex1 : generated_record (RSegment name1 1234567) /\ generated_record (RSegments name2) /\ name1 <> name2.
Proof.
  split; [exists [1; 2; 3; 4; 5; 6; 7; 8], 1600000000000000000%Z; auto|].
  split; [exists [1; 2; 3; 4; 5; 6; 7; 9], 1600000000000000000%Z; auto|]. vm_compute. discriminate.
Qed.
Example C24_ex2 : record_key (RSegment name1 1234567) = lit "123456782JRPigX4-1234567" /\
  record_key (RSegment name1 42) = lit "123456782JRPigX4-000042" /\ cache_key name1 42 = lit "42[123456782JRPigX4]".
Proof. vm_compute. auto. Qed.
