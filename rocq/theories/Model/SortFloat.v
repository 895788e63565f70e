(** Model of /repo/sortfloat/float.go on 64-bit patterns. *)
From Coq Require Import ZArith Floats.SpecFloat.
From Verif.Lib Require Import Prelude.
Open Scope N_scope.

(** The float64 with bit pattern [b] (math.Float64frombits), as the standard library's
    specification floats: sign bit 63, exponent bits 52-62, fraction bits 0-51. *)
Definition f64 (b : N) : spec_float :=
  let s := N.testbit b 63 in
  let e := (b / 2 ^ 52) mod 2048 in
  let m := b mod 2 ^ 52 in
  if e =? 2047 then (if m =? 0 then S754_infinity s else S754_nan)
  else if e =? 0 then match m with 0 => S754_zero s | Npos p => S754_finite s p (-1074) end
  else match m + 2 ^ 52 with 0 => S754_nan | Npos p => S754_finite s p (Z.of_N e - 1075) end.

(** float.go:12-30 [SortableFloat64]; Go's == and < on floats are SFeqb and SFltb *)
Definition sortable (b : N) : N :=
  if negb (SFeqb (f64 b) (f64 b)) then 0
  else if SFeqb (f64 b) (S754_zero false) then 0x8000000000000000
  else if SFltb (f64 b) (S754_zero false) then N.lxor b (2 ^ 64 - 1)
  else N.lxor b (2 ^ 63).

(** float.go:33-43 [ReverseFloat64]; 0x7FF8000000000001 is the pattern of math.NaN *)
Definition reverse (a : N) : N :=
  if a =? 0 then 0x7FF8000000000001
  else let a := if N.shiftr a 63 =? 0 then N.lxor a (2 ^ 63 - 1) else a in
       N.lxor a (2 ^ 63).
