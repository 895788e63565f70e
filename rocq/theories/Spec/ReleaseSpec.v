(** What releasing the segments of a list must and must not do. *)
From Verif.Lib Require Import Prelude ListAux.
From Verif.Model Require Import Release.
Open Scope nat_scope.

Definition any_v (x : vchoice) : Prop := True.
(** no list is set up anew beside loadSegments *)
Definition no_reset (x : vchoice) : Prop := match x with V_call VReset => False | _ => True end.
(** the copy of the segments that a call works on *)
Definition works_on (p : vpc) : option nat := match p with UUse g | UUseW g => Some g | _ => None end.
Definition not_yet (p : vpc) : bool := match p with UStart | ULoad | URead | UUp | UUpP | UWin _ | UWr | UWrP => true | _ => false end.
Definition over (c : vcfg) : Prop :=
  (forall i k p, nth_error (v_users c) i = Some (k, p) -> p = UEnd) /\ (forall j r, nth_error (v_rels c) j = Some r -> r_g r = GEnd /\ r_m r = MRet).
Definition all_free (c : vcfg) : Prop := v_load c = false /\ v_lockupd c = false /\ v_read c = 0 /\ v_w c = WFree.
(** steps of what is there: calls that do not fail, releases, their callers *)
Definition own (x : vchoice) : Prop := match x with V_u _ AGo | V_g _ | V_m _ => True | _ => False end.
(** the same, and minutes that are over *)
Definition own_time (x : vchoice) : Prop := match x with V_time _ => True | _ => own x end.
(** steps of the caller of one release, and the end of its minute *)
Definition of_caller (j : nat) (x : vchoice) : Prop := match x with V_time i | V_m i => i = j | _ => False end.
(** everything but steps of call [h] *)
Definition spares (h : nat) (x : vchoice) : Prop := match x with V_u i _ => i <> h | _ => True end.
(** the history without its releases *)
Definition no_release (x : vchoice) : bool := match x with V_release | V_g _ | V_time _ | V_m _ => false | _ => true end.
Fixpoint vplay (c : vcfg) (l : list vchoice) : option vcfg :=
  match l with [] => Some c | x :: l => match vstep c x with Some c => vplay c l | None => None end end.
