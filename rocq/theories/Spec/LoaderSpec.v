(** What calls must get as the elements of a segment. *)
From Verif.Lib Require Import Prelude ListAux.
From Verif.Model Require Import Loader.
Open Scope nat_scope.

Definition any_x (x : xchoice) : Prop := True.
Definition no_panic (x : xchoice) : Prop := match x with X_panic _ => False | _ => True end.
Definition no_failure (x : xchoice) : Prop := match x with X_panic _ | X_fail _ => False | _ => True end.
(** a call that runs to its end does only this *)
Definition goes (x : xchoice) : Prop := match x with X_go _ => True | _ => False end.
Definition all_done (c : xcfg) : Prop := forall i k p, nth_error (x_thr c) i = Some (k, p) -> exists r, p = TDone r.
Fixpoint xplay (cached : bool) (c : xcfg) (l : list xchoice) : option xcfg :=
  match l with [] => Some c | x :: l => match xstep cached c x with Some c => xplay cached c l | None => None end end.
(** the load that a call carries out *)
Definition loads_now (p : xpc) (n : nat) : Prop := p = TGet n \/ exists r, p = TShut n r.
