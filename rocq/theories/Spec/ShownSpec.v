(** Ranks shown to a client. *)
From Coq Require Import Strings.String ZArith.
From Verif.Lib Require Import Prelude ListAux.
From Verif.Model Require Import Element Elements Segment List Api.

(** [s] is the element at position [i] of the ranking, shown with the numbers of
    elements above and below it *)
Definition shown_at (r : list element) (i : nat) (s : shown) : Prop :=
  nth_error r i = Some (sh_elem s) /\ sh_top s = Z.of_nat i /\ sh_bottom s = (Z.of_nat (length r) - 1 - Z.of_nat i)%Z.
Definition truly_shown (r : list element) (s : shown) : Prop := exists i, shown_at r i s.
