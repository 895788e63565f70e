(** What generated names are, independent of how they are computed. *)
From Coq Require Import Strings.Ascii.
From Verif.Lib Require Import Prelude Bytes.
From Verif.Model Require Import Keys.
Open Scope N_scope.

(** 0-9, A-Z, a-z *)
Definition letter_or_digit (c : ascii) : Prop :=
  let n := N_of_ascii c in 48 <= n <= 57 \/ 65 <= n <= 90 \/ 97 <= n <= 122.

(** names the server gives to segment collections: RandString(8) *)
Definition generated (name : bytes) : Prop :=
  exists rnd nanos, length rnd = 8%nat /\ name = rand_string rnd nanos.

(** records whose collection has a generated name *)
Definition generated_record (r : record) : Prop :=
  match r with RSegment p _ => generated p | RSegments p => generated p | _ => True end.
