(** What is in the store belongs to a list.  Nothing here looks at what is stored, only at which
    keys have something. *)
From Coq Require Import Strings.String.
From Verif.Lib Require Import Prelude ListAux Bytes.
From Verif.Model Require Import Element Elements Segment List Keys Storage.
From Verif.Spec Require Import HistorySpec StorageSpec.
Open Scope N_scope.

(** the key of a list: its two segment lists, and the segments it has in memory *)
Definition owned (l : lst) (k : bytes) : Prop :=
  k = lit (l_scores_id l) \/ k = lit (l_index_id l) \/
  (exists s, In s (ss_segs (l_scores l)) /\ k = segment_key (lit (l_scores_id l)) (sg_id s)) \/
  (exists s, In s (ss_segs (l_index l)) /\ k = segment_key (lit (l_index_id l)) (sg_id s)).
(** nothing but what was there at first and what belongs to a list *)
Definition tidy (st0 : store) (w : world) : Prop :=
  forall k, w_st w k <> None -> st0 k <> None \/ exists d, In d (w_ls w) /\ owned (d_l d) k.

(** the executions of [runs] that start with the store [st0] *)
Inductive runs_from (st0 : store) : bool -> world -> list entry -> Prop :=
| F_start cfg c : runs_from st0 cfg (mkW st0 c []) []
| F_act cfg w ms a w' : runs_from st0 cfg w ms -> act_ok w ms a -> act_on cfg w a = Some w' ->
    Forall (fun x => map_fits (snd x)) (act_spec ms a) ->
    runs_from st0 cfg w' (act_spec ms a)
| F_restart cfg w ms cfg' w' : runs_from st0 cfg w ms -> restart cfg' w = Some w' -> runs_from st0 cfg' w' ms.
Definition nothing : store := fun _ => None.
