(** For calls during which writes fail. *)
From Verif.Lib Require Import Prelude.
From Verif.Model Require Import Element Elements Segment List Storage.

(** the calls that return an error whenever a write they made has failed (deletes excepted) *)
Definition sure (o : op) : Prop := match o with OUpdate _ _ _ _ _ | ODelete _ _ _ _ | OReload => False | _ => True end.
