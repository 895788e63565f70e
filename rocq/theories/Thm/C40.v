(** C40: float keys. *)
From Coq Require Import ZArith Floats.SpecFloat.
From Verif.Lib Require Import Prelude.
From Verif.Model Require Import SortFloat.
From Verif.Proof Require Import SortFloatP.
Open Scope N_scope.

(** Key order is float order (SFcompare answers None only when a NaN is involved). *)
Theorem C40_order : forall a b c, a < 2 ^ 64 -> b < 2 ^ 64 -> SFcompare (f64 a) (f64 b) = Some c -> (sortable a ?= sortable b) = c.
Proof. exact c40_order. Qed.
Print Assumptions C40_order.

(** For finite values key order is the order of the numbers ([scaled]: the value times
    2^1074, an integer). *)
Theorem C40_value : forall a b x y, a < 2 ^ 64 -> b < 2 ^ 64 -> scaled (f64 a) = Some x -> scaled (f64 b) = Some y ->
  (sortable a ?= sortable b) = (x ?= y)%Z.
Proof. exact c40_value. Qed.
Print Assumptions C40_value.

(** Keys are 64-bit and exactly the NaNs have key 0. *)
Theorem C40_nan : forall b, b < 2 ^ 64 -> sortable b < 2 ^ 64 /\ (f64 b = S754_nan <-> sortable b = 0).
Proof. intros b H. exact (conj (c40_range b H) (c40_nan b H)). Qed.
Print Assumptions C40_nan.

(** Converting back: the same bits, except that both zeros become +0 and every NaN
    becomes math.NaN(). *)
Theorem C40_back : forall b, b < 2 ^ 64 -> f64 b <> S754_nan -> (forall s, f64 b <> S754_zero s) -> reverse (sortable b) = b.
Proof.
  intros b H Hn Hz. pose proof (c40_back b H Hn) as E. destruct (N.eqb_spec (mag b) 0) as [Z|Z]; [|exact E].
  destruct (proj1 (c40_zero b H) Z) as (s & C). destruct (Hz s C).
Qed.
Print Assumptions C40_back.
Theorem C40_back_zero : forall b s, b < 2 ^ 64 -> f64 b = S754_zero s -> reverse (sortable b) = 0 /\ f64 0 = S754_zero false.
Proof.
  intros b s H E. assert (Hn : f64 b <> S754_nan) by congruence. pose proof (c40_back b H Hn) as R.
  rewrite (proj2 (c40_zero b H) (ex_intro _ s E)) in R. split; [exact R|reflexivity].
Qed.
Print Assumptions C40_back_zero.
Theorem C40_back_nan : forall b, b < 2 ^ 64 -> f64 b = S754_nan -> reverse (sortable b) = 0x7FF8000000000001 /\ f64 0x7FF8000000000001 = S754_nan.
Proof. exact c40_back_nan. Qed.
Print Assumptions C40_back_nan.

(** "Converted back to the exact float64 value" is false of -0. *)
Theorem C40_exact_refuted : exists b, b < 2 ^ 64 /\ f64 b <> S754_nan /\ f64 (reverse (sortable b)) <> f64 b.
Proof. exists (2 ^ 63). split; [reflexivity|]. split; vm_compute; discriminate. Qed.
Print Assumptions C40_exact_refuted.

(** -Inf < -1 < the negative subnormal of least magnitude < 0 < 1 < 1.5 < +Inf *)
Example C40_ex1 : map sortable [0xFFF0000000000000; 0xBFF0000000000000; 0x8000000000000001; 0; 0x3FF0000000000000; 0x3FF8000000000000; 0x7FF0000000000000]
  = [0x000FFFFFFFFFFFFF; 0x400FFFFFFFFFFFFF; 0x7FFFFFFFFFFFFFFE; 0x8000000000000000; 0xBFF0000000000000; 0xBFF8000000000000; 0xFFF0000000000000].
Proof. vm_compute. reflexivity. Qed.
Example C40_ex2 : SFcompare (f64 0xBFF0000000000000) (f64 0x8000000000000001) = Some Lt /\ f64 0x7FF0000000000001 = S754_nan /\
  scaled (f64 0x3FF8000000000000) = Some (3 * 2 ^ 1073)%Z.
Proof. vm_compute. auto. Qed.
