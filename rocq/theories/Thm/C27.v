(** C27: acknowledged operations survive dropping memory, and restarts. *)
From Coq Require Import Strings.String Strings.Ascii.
From Verif.Lib Require Import Prelude ListAux Bytes.
From Verif.Model Require Import Element Elements Segment List Keys Storage.
From Verif.Spec Require Import RankSpec QuerySpec HistorySpec AnswerSpec StorageSpec.
From Verif.Proof Require Import ListThm HistoryP StoreFinal.
From Verif.Thm Require Import Sample SampleStore.
Open Scope N_scope.

(** After every execution, with evictions, cache fills, reloads and restarts anywhere between the
    calls, the elements that readers get are those of the list's own history: [l] is reachable
    for the map that the acknowledged calls give, and answers every query by its ranking. *)
Theorem C27_current : forall cfg w ms i d, runs cfg w ms -> nth_error (w_ls w) i = Some d ->
  exists g s m l, nth_error ms i = Some (g, s, m) /\ Storage.view (w_st w) (w_c w) d = Some l /\ reachable g s l m /\
    forall r, ranking_of (sin m) r -> answers l r.
Proof. exact c27_current. Qed.
Print Assumptions C27_current.

(** A restart at any point between calls succeeds and gives every list back: same elements, same
    index entries, same sizes and names; and the execution goes on from there. *)
Theorem C27_restart : forall cfg w ms cfg', runs cfg w ms ->
  exists w', restart cfg' w = Some w' /\ runs cfg' w' ms /\ length (w_ls w') = length (w_ls w) /\
  forall i d d', nth_error (w_ls w) i = Some d -> nth_error (w_ls w') i = Some d' ->
  exists l l', Storage.view (w_st w) (w_c w) d = Some l /\ Storage.view (w_st w') (w_c w') d' = Some l' /\
    stored_in l' = stored_in l /\ indexed_in l' = indexed_in l /\
    l_merge l' = l_merge l /\ l_split l' = l_split l /\ names l' = names l.
Proof. exact c27_restart. Qed.
Print Assumptions C27_restart.

(** No allowed call gets stuck on what is stored. *)
Theorem C27_progress : forall cfg w ms i o ord d, runs cfg w ms -> nth_error (w_ls w) i = Some d -> act_ok w ms (AOp i o ord) ->
  exists l, Storage.view (w_st w) (w_c w) d = Some l /\ (step l o = Exhausted \/ exists w', act_on cfg w (AOp i o ord) = Some w').
Proof. exact c27_progress. Qed.
Print Assumptions C27_progress.

(** Calls other than Reindex, Repair and Populate keep the names: a descriptor saved before the
    call still loads the list as it is after the call. *)
Theorem C27_descriptor : forall cfg w ms i o ord w' d cfg', runs cfg w ms -> act_ok w ms (AOp i o ord) -> act_on cfg w (AOp i o ord) = Some w' ->
  Forall (fun x => map_fits (snd x)) (act_spec ms (AOp i o ord)) -> nth_error (w_ls w) i = Some d ->
  match o with OReindex _ _ _ | ORepair _ _ _ _ _ _ _ _ | OPopulate _ _ _ _ _ _ _ => False | _ => True end ->
  exists d1 l1 d2 l2, nth_error (w_ls w') i = Some d1 /\ Storage.view (w_st w') (w_c w') d1 = Some l1 /\
    reopen cfg' (w_st w') d = Some d2 /\ Storage.view (w_st w') (fun _ => None) d2 = Some l2 /\
    stored_in l2 = stored_in l1 /\ indexed_in l2 = indexed_in l1.
Proof. exact c27_descriptor. Qed.
Print Assumptions C27_descriptor.

(** After one of those three calls the names of the old descriptor do not load; after a Repair or
    Populate the list is lost if the process stops before the descriptors are saved again (C62
    tells what becomes of it, and that after a Reindex the index is rebuilt). *)
Theorem C27_descriptor_refuted : exists cfg w ms i o ord w' d g s m, runs cfg w ms /\ act_ok w ms (AOp i o ord) /\
  act_on cfg w (AOp i o ord) = Some w' /\ nth_error (w_ls w) i = Some d /\ nth_error ms i = Some (g, s, m) /\
  (exists x, sin m x) /\ spec_step m o = m /\ forall cfg', reopen cfg' (w_st w') d = None.
Proof.
  destruct (nth_error (w_ls w4e) 0) as [d|] eqn:Ed; [|vm_compute in Ed; discriminate].
  exists true, w4e, ms3, 0%nat, rep5, no_ord, w5, d, 2%nat, 4%nat, m1.
  split; [exact runs4e|]. split; [exact rep_ok|]. split; [apply go_eq; vm_compute; reflexivity|]. split; [exact Ed|].
  split; [reflexivity|]. split; [exists (mkE 80 2 [] 7 100); vm_compute; reflexivity|]. split; [reflexivity|].
  intros cfg'. vm_compute in Ed. injection Ed as <-. vm_compute. reflexivity.
Qed.
Print Assumptions C27_descriptor_refuted.

(** two lists, an update, a cache fill, an eviction, a repair, and a restart without a cache *)
Definition rankings (w : world) : list (option (list N)) :=
  map (fun d => option_map (fun l => map e_id (stored_in l)) (Storage.view (w_st w) (w_c w) d)) (w_ls w).
Example C27_run : rankings w5 = [Some [2; 3; 11; 12; 5; 4; 6; 7; 8; 9; 10; 1]; Some [1; 4; 9]].
Proof. vm_compute. reflexivity. Qed.
Example C27_run_restart : option_map rankings (restart false w5) = Some (rankings w5).
Proof. vm_compute. reflexivity. Qed.
Example C27_run_holds : runs true w5 ms3 /\ act_ok w2 [(2%nat, 4%nat, m0); (2%nat, 4%nat, mB)] upd.
Proof. split; [exact runs5|exact upd_ok]. Qed.
(** the cache is in use: the update and the fill put segments into it *)
Example C27_cache_used : w_c w3 (cache_key (lit "S") 1) <> None /\ w_c w3 (cache_key (lit "T") 1) = None /\ w_c w4 (cache_key (lit "T") 1) <> None.
Proof. vm_compute. repeat split; discriminate. Qed.
