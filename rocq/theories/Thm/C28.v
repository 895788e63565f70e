(** C28: lists do not interfere. *)
From Coq Require Import Strings.String Strings.Ascii.
From Verif.Lib Require Import Prelude ListAux Bytes.
From Verif.Model Require Import Element Elements Segment List Keys Storage.
From Verif.Spec Require Import RankSpec QuerySpec HistorySpec AnswerSpec KeySpec StorageSpec.
From Verif.Proof Require Import KeysP StoreFinal.
From Verif.Thm Require Import Sample SampleStore C27.
Open Scope N_scope.

(** Creating, cloning, calling, removing, evicting, filling the cache: every list that is not the
    one called reads exactly as before, from memory and from storage. *)
Theorem C28_others : forall cfg w ms a w' j j' d, runs cfg w ms -> act_ok w ms a -> act_on cfg w a = Some w' ->
  Forall (fun x => map_fits (snd x)) (act_spec ms a) -> stays a j = Some j' -> nth_error (w_ls w) j = Some d ->
  nth_error (w_ls w') j' = Some d /\
  (exists l, Storage.view (w_st w) (w_c w) d = Some l /\ Storage.view (w_st w') (w_c w') d = Some l) /\
  forall cfg', exists d', reopen cfg' (w_st w) d = Some d' /\ reopen cfg' (w_st w') d = Some d'.
Proof. exact c28_others. Qed.
Print Assumptions C28_others.

(** A call writes and deletes only keys of its own collections, old and new: everything else in the
    store stays, whatever it is. *)
Theorem C28_keys : forall cfg w ms a w' k, runs cfg w ms -> act_ok w ms a -> act_on cfg w a = Some w' ->
  Forall (fun x => map_fits (snd x)) (act_spec ms a) ->
  (forall n, In n (own w a) -> ~ key_in n k) -> w_st w' k = w_st w k.
Proof. exact c28_keys. Qed.
Print Assumptions C28_keys.

(** No two collections ever share a name. *)
Theorem C28_names : forall cfg w ms, runs cfg w ms -> NoDup (taken w) /\ Forall plain (taken w).
Proof. exact c28_names. Qed.
Print Assumptions C28_names.

(** the second list and the foreign key while the first is updated, repaired and removed *)
Definition w6 := go true w5 (ARemove 0 (fun _ => [])).
Example C28_run : map (fun w => nth 1 (rankings w) None) [w2; w3; w4; w4e; w5] = repeat (Some [1; 4; 9]) 5 /\
  rankings w6 = [Some [1; 4; 9]].
Proof. vm_compute. split; reflexivity. Qed.
Example C28_foreign : w_st w6 foreign = Some [] /\ Forall (fun n => ~ key_in n foreign) (own w5 (ARemove 0 (fun _ => []))).
Proof.
  split; [vm_compute; reflexivity|].
  assert (H : own w5 (ARemove 0 (fun _ => [])) = ["S2"; "I2"]%string) by (vm_compute; reflexivity). rewrite H.
  repeat constructor; intros [E|(id & E)]; discriminate E.
Qed.
Example C28_removed : w_st w6 (lit "S2") = None /\ w_st w5 (lit "S2") <> None /\ w_st w6 (lit "T") = w_st w5 (lit "T").
Proof. vm_compute. repeat split. discriminate. Qed.
