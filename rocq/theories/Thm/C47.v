(** C47: generated names. *)
From Coq Require Import Strings.String Strings.Ascii.
From Verif.Lib Require Import Prelude Bytes.
From Verif.Model Require Import Keys.
From Verif.Spec Require Import KeySpec.
From Verif.Proof Require Import KeysP.
Open Scope N_scope.

(** RandString(n) has n+8 characters, all of them letters or digits, whatever the random
    source and the clock deliver. *)
Theorem C47_shape : forall rnd nanos,
  length (rand_string rnd nanos) = (length rnd + 8)%nat /\ Forall letter_or_digit (rand_string rnd nanos).
Proof. exact c47_shape. Qed.
Print Assumptions C47_shape.

(** Two names are equal exactly if the random bytes agree modulo 62 and the clocks show the
    same 100 microsecond tick modulo 62^8 (about 692 years). *)
Theorem C47_same : forall rnd rnd' nanos nanos', (0 <= nanos)%Z -> (0 <= nanos')%Z ->
  rand_string rnd nanos = rand_string rnd' nanos' <->
  map (fun b => b mod 62) rnd = map (fun b => b mod 62) rnd' /\
  ((nanos / 100000) mod 62 ^ 8 = (nanos' / 100000) mod 62 ^ 8)%Z.
Proof. exact c47_same. Qed.
Print Assumptions C47_same.

(** The clock alone does not make names unique: within one tick the random part decides, and
    random bytes that differ by 62 give the same name. *)
Theorem C47_unique_refuted : exists rnd rnd' nanos nanos',
  rnd <> rnd' /\ nanos <> nanos' /\ rand_string rnd nanos = rand_string rnd' nanos'.
Proof.
  exists [1; 2; 3; 4; 5; 6; 7; 8], [63; 2; 3; 4; 5; 6; 7; 8], 1600000000000000000%Z, 1600000000000099999%Z.
  split; [discriminate|]. split; [discriminate|]. vm_compute. reflexivity.
Qed.
Print Assumptions C47_unique_refuted.

Example C47_ex1 : rand_string [0; 9; 10; 35; 36; 61; 62; 255] 1600000000000000000 = lit "09AZaz072JRPigX4".
Proof. vm_compute. reflexivity. Qed.
Example C47_ex2 : rand_string [0; 9; 10; 35; 36; 61; 62; 255] 1600000000000100000 <> rand_string [0; 9; 10; 35; 36; 61; 62; 255] 1600000000000000000.
Proof. vm_compute. discriminate. Qed.
