(** What an answer about a backup job must be. *)
From Coq Require Import Strings.Byte Strings.String.
From Verif.Lib Require Import Prelude ListAux.
From Verif.Model Require Import List Msgp Codec Backup Job Asking.
From Verif.Spec Require Import BackupSpec JobSpec.
Open Scope nat_scope.

Definition any_ask (x : wchoice) : Prop := True.
(** nothing fails: the destination opens and takes all, every list is there and can be read *)
Definition no_errors (ids : list string) (x : wchoice) : Prop :=
  match x with
  | W_job (J_go ok _) _ => ok = true
  | W_job (J_result failed) _ => failed = false
  | W_job (J_lists m) _ => forall id, In id ids -> m id <> None
  | _ => True
  end.
(** all but Errors as in [t] *)
Definition same_but_errors (a t : status) : Prop :=
  t_done a = t_done t /\ t_ndone a = t_ndone t /\ t_success a = t_success t /\ t_cancelled a = t_cancelled t.
Definition same_set (a b : list string) : Prop := incl a b /\ incl b a.
(** a given run *)
Fixpoint wplay (ids : list string) (ch : bool) (c : wcfg) (l : list wchoice) : option (list jevent * wcfg) :=
  match l with
  | [] => Some ([], c)
  | x :: l => match wfire ids ch c x with
              | Some (e, c) => match wplay ids ch c l with Some (tr, c) => Some (jev e ++ tr, c) | None => None end
              | None => None
              end
  end.
