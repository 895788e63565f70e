(** C55: the lists a cross-list request works on. *)
From Coq Require Import Strings.String Strings.Ascii Strings.Byte ZArith.
From Verif.Lib Require Import Prelude ListAux Bytes.
From Verif.Model Require Import Element Elements Segment List Access Api Server.
From Verif.Model Require Lists.
From Verif.Spec Require Import RankSpec QuerySpec HistorySpec AccessSpec ListsSpec ServerSpec.
From Verif.Proof Require Import ServerP ServerReq.
From Verif.Thm Require Import SampleServer.
Open Scope N_scope.

(** [s] is the server [d], seen as a map *)
Definition is_now (d : db) (s : sdb) : Prop :=
  forall id, match dget d id, s id with
             | None, None => True
             | Some e, Some sl => n_set e = s_set sl /\ n_meta e = s_meta sl
             | _, _ => False
             end.

(** Get and Delete work on the lists that are named, and on those that match the metadata and
    sets; Create and Put ignore the sets when there is no metadata; Verify, Reindex and Backup
    then work on every list unless lists are named.  Each list once. *)
Theorem C55_selection : forall evs d rs sc q, Forall event_ok evs -> N.of_nat (all_carried evs) < max_u32 -> srun [] evs = Done (d, rs) ->
  exists s, is_now d s /\ lists_of (chosen_read s q) (select_read sc d q) /\ lists_of (chosen_write s q) (select_write sc d q) /\
    lists_of (chosen_manage s q) (select_manage sc d q).
Proof. exact c55_selection. Qed.
Print Assumptions C55_selection.

(** "Include all lists in these sets" (design/multilist.go:236) does not hold of Put: *)
Theorem C55_put_sets_refuted : exists evs d rs id set, Forall event_ok evs /\ srun [] evs = Done (d, rs) /\
  (exists e, dget d id = Some e /\ n_set e = set) /\
  forall sc, ~ In id (select_write sc d (Sel [] [] [set])).
Proof.
  exists run0. eexists _, _, (str "dk"), (str "set1"). split; [exact run0_ok|]. split; [vm_compute; reflexivity|].
  split; [eexists; split; [vm_compute; reflexivity|reflexivity]|]. intros sc. exact (fun H => H).
Qed.
Print Assumptions C55_put_sets_refuted.

(** and Reindex works on lists outside the sets: *)
Theorem C55_reindex_sets_refuted : exists evs d rs id set, Forall event_ok evs /\ srun [] evs = Done (d, rs) /\
  (exists e, dget d id = Some e /\ n_set e <> set) /\ exists sc, In id (select_manage sc d (Sel [] [] [set])).
Proof.
  exists run0. eexists _, _, (str "se"), (str "set1"). split; [exact run0_ok|]. split; [vm_compute; reflexivity|].
  split; [eexists; split; [vm_compute; reflexivity|discriminate]|]. exists []. vm_compute. auto.
Qed.
Print Assumptions C55_reindex_sets_refuted.

Example C55_ex : match srun [] run0 with
  | Done (d, _) =>
      select_read [1]%nat d (Sel [str " nope "; str ""] [] [str "set1"]) = [str "dk"; str "nope"] /\
      select_write [] d (Sel [str "se"; str "se "] [(str "country", str "dk")] []) = [str "dk"; str "se"] /\
      select_manage [] d (Sel [] [] []) = map fst d /\
      select_manage [] d (Sel [] [(str "country", str "se")] [str "set1"]) = [str "dk"; str "se"]
  | _ => False
  end.
Proof. vm_compute. repeat split; reflexivity. Qed.
