(** What the far end of a backup must have. *)
From Coq Require Import Strings.Byte Strings.String.
From Verif.Lib Require Import Prelude ListAux.
From Verif.Model Require Import List Msgp Codec Backup Job Ship.
From Verif.Spec Require Import BackupSpec JobSpec.
Open Scope nat_scope.

Definition any_way (x : schoice) : Prop := True.
(** the server's lists can always be backed up *)
Definition sound_way (x : schoice) : Prop := match x with S_job y => sound_lists y | _ => True end.
(** neither the network nor the far end fails, and nobody cancels the job *)
Definition calm (x : schoice) : Prop :=
  match x with S_fail | S_job J_cancel | S_job J_shutdown => False | _ => sound_way x end.
(** nothing fails, but the job may be cancelled *)
Definition no_fault (x : schoice) : Prop := match x with S_fail | S_ctx => False | _ => sound_way x end.
(** what one step of the transfer or of the job needs: no failure *)
Definition honest (x : schoice) : bool := match x with S_fail | S_ctx => false | S_job (J_cancel | J_shutdown | J_lists _) => false | _ => true end.
Inductive sgoes (k : carrier) (ids : list string) : scfg -> list jevent -> scfg -> Prop :=
| Sg_nil c : sgoes k ids c [] c
| Sg_step c tr c1 x e c2 : sgoes k ids c tr c1 -> honest x = true -> sfire k ids c1 x = Some (e, c2) -> sgoes k ids c (tr ++ jev e) c2.
(** a given run *)
Fixpoint splay (k : carrier) (ids : list string) (c : scfg) (l : list schoice) : option (list jevent * scfg) :=
  match l with
  | [] => Some ([], c)
  | x :: l => match sfire k ids c x with
              | Some (e, c) => match splay k ids c l with Some (tr, c) => Some (jev e ++ tr, c) | None => None end
              | None => None
              end
  end.
(** restoring [b] brings back exactly the lists [ids], as they are in [m] *)
Definition restores (fr : nat -> given) (b : wire) (m : db) (ids : list string) : Prop :=
  forall pre suf rep m0, exists r s m', restore_all fr pre suf rep m0 b = (JDone r s, m') /\ brought_back m ids pre suf rep m0 m' /\ r + s = length ids.
(** restoring [b] reports an error after a first part of the lists [ids] *)
Definition stops (fr : nat -> given) (b : wire) (m : db) (ids : list string) : Prop :=
  forall pre suf rep m0, exists some rest m', ids = some ++ rest /\ restore_all fr pre suf rep m0 b = (JErr, m') /\ brought_back m some pre suf rep m0 m'.
