(** What calls get from recycled decoders. *)
From Verif.Lib Require Import Prelude ListAux.
From Verif.Model Require Import Decoder.
Open Scope nat_scope.

(** Close is called at most once for every decoder that was taken *)
Definition once (x : dchoice) : Prop := match x with D_again _ => False | _ => True end.
Definition runs (l : list dchoice) (s : dcfg) : Prop := dplay dstart l = Some s.
Definition first_part (a b : list N) : Prop := exists r, b = a ++ r.
(** steps of call [i] after it got its decoder *)
Definition reads_of (i : nat) (x : dchoice) : Prop := match x with D_fill j _ | D_read j _ => j = i | _ => False end.
(** all that a call asks its decoder for *)
Definition asked (i : nat) (x : dchoice) : nat := match x with D_read j k => if Nat.eq_dec j i then k else 0 | _ => 0 end.
