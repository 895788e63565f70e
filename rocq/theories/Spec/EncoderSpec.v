(** What calls that save something may expect of recycled encoders. *)
From Verif.Lib Require Import Prelude ListAux.
From Verif.Model Require Import Encoder.
Open Scope nat_scope.

(** the store keeps no slice after Set has returned, and Close is called once *)
Definition proper (x : echoice) : Prop := match x with X_late _ | X_again _ _ => False | _ => True end.
Definition once (x : echoice) : Prop := match x with X_again _ _ => False | _ => True end.
Definition no_late (x : echoice) : Prop := match x with X_late _ => False | _ => True end.
(** all that a call writes *)
Definition content (j : job) : list N := concat (pieces j).
Definition is_blob (j : job) : bool := match j with JBlob _ => true | JFile _ => false end.
(** the encoder that a call has *)
Definition uses (x : call) : option nat := match c_pc x with SEnc a _ | SSet a | SClose a _ => Some a | SNew | SEnd _ => None end.
Definition prefix (a b : list N) : Prop := exists r, b = a ++ r.
Definition has_ended (x : call) (ok : bool) : Prop := c_pc x = SEnd ok.
Fixpoint eplay (c : scfg) (l : list echoice) : option scfg :=
  match l with [] => Some c | x :: l => match estep c x with Some c => eplay c l | None => None end end.
(** steps of one call, in which nothing fails *)
Definition of_save (i : nat) (x : echoice) : Prop := match x with X_take k _ _ | X_write k | X_flush k _ | X_ret k true | X_close k => k = i | _ => False end.
